(** Circular apertures with rounded operations: aperture_circular (datautils.py 69-91) for two axes.

    Every operation is rounded to nearest, in the order of the source; the square of the radius is a product.
    Simplifications: the diameter has the precision of the map; no overflow; no fused operations. *)
From Coq Require Import ZArith Reals.
From Verif Require Import Base RndModel RdsModel.
Open Scope R_scope.

Section Aperture.
Variables (emin prec : Z).
Notation rn := (rndp emin prec).
Definition aperture_r (center scale : R * R) (diameter : R) (i j : Z) : R :=
  (* 89 *)
  let array := distance2_2d_r emin prec center (squared_r emin prec scale) i j in
  (* 90 *)
  let radius := rn (diameter / 2) in
  if Rle_dec array (rn (radius * radius)) then 1 else 0.
End Aperture.
