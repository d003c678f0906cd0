(** Gaussian beams with rounded operations: BeamGaussian (beams.py 40-68).

    Every operation is rounded to nearest, in the order of the source; a square is a product.  [libexp] is the exponential of numexpr, [log2] the
    value of np.log(2) and [pi] the constant.  Simplifications: the width and the angles are numbers of the precision; no overflow; no fused operations. *)
From Coq Require Import ZArith Reals.
From Verif Require Import Base RndModel.
Open Scope R_scope.

Section Beam.
Variables (emin prec : Z) (libexp : R -> R) (log2 pi : R).
Notation rn := (rndp emin prec).
(** 57 *)
Definition sigma_r (fwhm : R) : R := rn (fwhm / rn (sqrt (rn (8 * log2)))).
(** 59 *)
Definition solid_angle_r (fwhm : R) : R := rn (rn (2 * pi) * rn (sigma_r fwhm * sigma_r fwhm)).
(** 61-67 *)
Definition beam_r (fwhm : R) (backward : bool) (theta : R) : R :=
  let theta := if backward then rn (pi - theta) else theta in
  let coef := rn (- / 2 / rn (sigma_r fwhm * sigma_r fwhm)) in
  libexp (rn (coef * rn (theta * theta))).
End Beam.
