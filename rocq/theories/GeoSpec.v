(** Polygons of the plane. *)
From Coq Require Import Reals List.
From Coquelicot Require Import Coquelicot.
From Verif Require Import PmSpec.
Import ListNotations.
Open Scope R_scope.

Definition clamp (lo hi x : R) : R := Rmax lo (Rmin hi x).
(** The line through two points that are not on the same vertical. *)
Definition line (p q : R * R) (x : R) : R := snd p + (x - fst p) * ((snd q - snd p) / (fst q - fst p)).
Definition rsum (l : list R) : R := fold_right Rplus 0 l.
(** The edges of a polygon: from the previous vertex to the vertex. *)
Definition edges (xy : list (R * R)) : list ((R * R) * (R * R)) := combine (last xy (0, 0) :: xy) xy.
(** What lies between the edge and the bottom of the cell [x0, x0+1] x [y0, y0+1], inside
    of the cell; positive if the edge goes backwards. *)
Definition under (x0 y0 : R) (e : (R * R) * (R * R)) : R :=
  RInt (fun x => clamp 0 1 (line (snd e) (fst e) x - y0)) (clamp x0 (x0 + 1) (fst (snd e))) (clamp x0 (x0 + 1) (fst (fst e))).
(** The signed area. *)
Definition shoelace (xy : list (R * R)) : R :=
  / 2 * rsum (map (fun e => fst (fst e) * snd (snd e) - snd (fst e) * fst (snd e)) (edges xy)).
(** Sum over i < n and j < m. *)
Definition grid_sum (n m : nat) (f : nat -> nat -> R) : R := rsum (map (fun i => rsum (map (f i) (seq 0 m))) (seq 0 n)).

(** Twice the signed area of a triangle; positive if p, q, r turn counter-clockwise. *)
Definition turn (p q r : R * R) : R := (fst q - fst p) * (snd r - snd p) - (snd q - snd p) * (fst r - fst p).
(** Any three vertices, in their order, turn counter-clockwise: a strictly convex polygon. *)
Definition convex (xy : list (R * R)) : Prop :=
  forall i j k, (i < j < k)%nat -> (k < length xy)%nat -> 0 < turn (nth i xy (0, 0)) (nth j xy (0, 0)) (nth k xy (0, 0)).
(** On the left of all edges. *)
Definition inside (xy : list (R * R)) (p : R * R) : Prop := forall e, In e (edges xy) -> 0 <= turn (fst e) (snd e) p.
Definition strictly_inside (xy : list (R * R)) (p : R * R) : Prop := forall e, In e (edges xy) -> 0 < turn (fst e) (snd e) p.
Definition on_segment (p q r : R * R) : Prop := exists t, 0 <= t <= 1 /\ r = ((1 - t) * fst p + t * fst q, (1 - t) * snd p + t * snd q).
Definition on_boundary (xy : list (R * R)) (p : R * R) : Prop := exists e, In e (edges xy) /\ on_segment (fst e) (snd e) p.
Definition dist (p q : R * R) : R := sqrt ((fst q - fst p) * (fst q - fst p) + (snd q - snd p) * (snd q - snd p)).
(** The polygon over the pixel (ix, iy) of a map, which is [ix-1/2, ix+1/2] x [iy-1/2, iy+1/2],
    and the pixels that it covers, in the order of the map: number and area. *)
Definition overlap (xy : list (R * R)) (ix iy : nat) : R := rsum (map (under (INR ix - / 2) (INR iy - / 2)) (edges xy)).
Definition footprint (nx ny : nat) (xy : list (R * R)) : list (Z * R) :=
  map (fun p => (Z.of_nat (fst p + snd p * nx), Rabs (overlap xy (fst p) (snd p))))
      (filter (fun p => if Req_EM_T (overlap xy (fst p) (snd p)) 0 then false else true) (map_pixels nx ny)).
(** Inside of the map. *)
Definition on_map (nx ny : nat) (xy : list (R * R)) : Prop :=
  forall p, In p xy -> - / 2 <= fst p <= INR nx - / 2 /\ - / 2 <= snd p <= INR ny - / 2.
