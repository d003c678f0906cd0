(** The 1/f spectrum with rounded operations: _gaussian_psd_1f (noises.py 39-80), two-sided, and numpy.fft.fftfreq.

    Every operation is rounded to nearest, in the order of the source; a square is a product.  [libpow] is the power of the library; [m] is the signed
    index of the frequency, as numbered by fftfreq.  Simplifications: one spectrum; no overflow; no fused operations. *)
From Coq Require Import ZArith Reals.
From Verif Require Import Base RndModel.
Open Scope R_scope.

Section Spectrum.
Variables (emin prec : Z) (libpow : R -> R -> R).
Notation rn := (rndp emin prec).
(** numpy.fft.fftfreq: val = 1.0 / (n * d); results * val *)
Definition fftfreq_r (n : Z) (d : R) (m : Z) : R := let val := rn (1 / rn (rn (IZR n) * d)) in rn (rn (IZR m) * val).
Definition psd_1f_r (n : Z) (fs sigma fknee fslope : R) (m : Z) : R :=
  (* 75-76, fknee / inf being 0 *)
  let ratio := if (m =? 0)%Z then 0 else rn (fknee / fftfreq_r n (rn (1 / fs)) m) in
  (* 77 *)
  rn (rn (rn (sigma * sigma) * rn (1 + libpow (Rabs ratio) fslope)) / fs).
End Spectrum.
