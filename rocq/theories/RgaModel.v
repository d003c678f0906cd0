(** Gaussians of two variables with rounded operations: gaussian_2d (datautils.f90.j2 88-112).

    Every operation is rounded to nearest, in the order of the source; [libexp] is the exponential of the library and [pi] the constant.
    Simplifications: no overflow; no fused operations. *)
From Coq Require Import ZArith Reals.
From Verif Require Import Base RndModel RdsModel.
Open Scope R_scope.

Section Gaussian.
Variables (emin prec : Z) (libexp : R -> R) (pi : R).
Notation rn := (rndp emin prec).
Definition gaussian_2d_r (origin sigma : R * R) (i j : Z) : R :=
  (* 96 *)
  let coef := rn (1 / rn (rn (rn (2 * pi) * fst sigma) * snd sigma)) in
  (* 97-98 *)
  let x2 := distance2_1d_r emin prec (fst origin) (rn (/ 2 / rn (fst sigma * fst sigma))) i in
  let x2 := rn (coef * libexp (- x2)) in
  (* 99-100 *)
  let y2 := distance2_1d_r emin prec (snd origin) (rn (/ 2 / rn (snd sigma * snd sigma))) j in
  let y2 := libexp (- y2) in
  (* 104-106 *)
  rn (x2 * y2).
End Gaussian.
