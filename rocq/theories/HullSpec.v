(** Specification of C96: hulls of points of the plane. *)
From Coq Require Import Reals List Permutation.
From Coquelicot Require Import Coquelicot.
From Verif Require Import GeoSpec.
Import ListNotations.
Open Scope R_scope.

Definition along (d p : R * R) : R := fst d * fst p + snd d * snd p.
(** On the border: on one side of a line through it are all the points. *)
Definition on_border (l : list (R * R)) (p : R * R) : Prop := exists d, d <> (0, 0) /\ forall q, In q l -> along d q <= along d p.
Definition aligned (l : list (R * R)) : Prop := exists d c, d <> (0, 0) /\ forall q, In q l -> along d q = c.
(** The hull of points: distinct points of the border, not aligned, among which are the farthest ones in every direction. *)
Definition hull_of (points hull : list (R * R)) : Prop :=
  incl hull points /\ NoDup hull /\ ~ aligned hull /\ (forall p, In p hull -> on_border points p) /\
  (forall p d, In p points -> exists h, In h hull /\ along d p <= along d h).
(** Seen from c, the vertices are met one after the other in one counter-clockwise turn from the X axis. *)
Definition once_around (c : R * R) (l : list (R * R)) : Prop :=
  exists angles radii, length angles = length l /\ length radii = length l /\
    (forall i j, (i < j < length l)%nat -> nth i angles 0 < nth j angles 0) /\
    (forall i, (i < length l)%nat -> 0 <= nth i angles 0 < 2 * PI /\ 0 < nth i radii 0 /\
      nth i l (0, 0) = (fst c + nth i radii 0 * cos (nth i angles 0), snd c + nth i radii 0 * sin (nth i angles 0))).
(** The integral over the directions between the angles a and b from the axis of a function of that angle. *)
Definition is_solid_angle (f : R -> R) (a b s : R) : Prop := is_RInt (fun t => 2 * PI * sin t * f t) a b s.
