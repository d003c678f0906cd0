(** Distances to a centre with rounded operations: distance_1d, distance2_1d, distance_2d and distance2_2d (datautils.f90.j2 11-85), and the
    square of the scale in distance2 (datautils.py 177-263).

    Every operation is rounded to nearest, in the order of the source; a square is a product.  The loops are over independent elements.
    Simplifications: no overflow; no fused operations. *)
From Coq Require Import ZArith Reals.
From Verif Require Import Base RndModel.
Open Scope R_scope.

Section Distances.
Variables (emin prec : Z).
Notation rn := (rndp emin prec).
(** 11-24 *)
Definition distance_1d_r (origin scaling : R) (i : Z) : R := Rabs (rn (scaling * rn (rn (IZR i) - origin))).
(** 27-40 *)
Definition distance2_1d_r (origin scaling2 : R) (i : Z) : R :=
  let d := rn (rn (IZR i) - origin) in rn (scaling2 * rn (d * d)).
(** 43-62 *)
Definition distance_2d_r (origin scaling : R * R) (i j : Z) : R :=
  let x2 := distance2_1d_r (fst origin) (rn (fst scaling * fst scaling)) in
  let y2 := distance2_1d_r (snd origin) (rn (snd scaling * snd scaling)) in
  let tmp := y2 j in rn (sqrt (rn (x2 i + tmp))).
(** 65-85, the squares of the scales being computed by the caller *)
Definition distance2_2d_r (origin scaling2 : R * R) (i j : Z) : R :=
  let x2 := distance2_1d_r (fst origin) (fst scaling2) in
  let y2 := distance2_1d_r (snd origin) (snd scaling2) in
  let tmp := y2 j in rn (x2 i + tmp).
Definition squared_r (scaling : R * R) : R * R := (rn (fst scaling * fst scaling), rn (snd scaling * snd scaling)).
End Distances.
