(** Specification of rounded profiles: an assignment of the valid pixels to bins. *)
From Coq Require Import ZArith Reals List.
From Verif Require Import Base DataSpec.
Import ListNotations.
Open Scope R_scope.
(** The distance d is in the bin k of the given width, within s. *)
Definition in_bin (s width d : R) (k : Z) : Prop := (0 <= k)%Z /\ IZR k * width - s <= d <= (IZR k + 1) * width + s.
(** The distances and values of the valid pixels which are assigned to the bin k by [b]. *)
Definition assigned (c : R * R) (b : Z -> Z -> Z) (k : Z) (pixels : list (Z * Z * option R)) : list (R * R) :=
  flat_map (fun p => match p with (i, j, Some v) => if Z.eqb (b i j) k then [(pixel_distance c i j, v)] else [] | _ => [] end) pixels.
Definition mean_of (l : list R) : R := rtotal l / INR (length l).
(** The numbers of a map: indices up to 2^prec, valid values which are numbers of the type. *)
Definition numbers_ok (prec : Z) (repr : R -> Prop) (pixels : list (Z * Z * option R)) : Prop :=
  forall i j v, In (i, j, v) pixels -> (Z.abs i <= 2 ^ prec)%Z /\ (Z.abs j <= 2 ^ prec)%Z /\ forall w, v = Some w -> repr w.
