(** Angles between positions in the sky with rounded operations: angle_lonlat (module_math_old.f90 503-511; constants 47-48).

    Every operation is rounded to nearest, in the order of the source.  [sn], [cs] and [ac] are the sine, cosine and arccosine of the
    library, [deg] and [rad] the stored constants.  Simplifications: one pair of positions (WcsModel for arrays); no overflow; the
    arccosine of a number greater than one in absolute value, which is NaN, is [None]; no fused operations. *)
From Coq Require Import ZArith Reals.
From Verif Require Import Base RndModel.
Open Scope R_scope.

Section Angle.
Variables (emin prec : Z) (sn cs ac : R -> R) (deg rad : R).
Notation rn := (rndp emin prec).
(** 508, the argument of the arccosine *)
Definition cosine_r (lon1 lat1 lon2 lat2 : R) : R :=
  rn (rn (rn (cs (rn (lat1 * deg)) * cs (rn (lat2 * deg))) * cs (rn (rn (lon2 - lon1) * deg))) + rn (sn (rn (lat1 * deg)) * sn (rn (lat2 * deg)))).
(** 508-509 *)
Definition angle_r (lon1 lat1 lon2 lat2 : R) : option R :=
  let c := cosine_r lon1 lat1 lon2 lat2 in
  if Rle_dec (Rabs c) 1 then Some (rn (ac c * rad)) else None.
End Angle.
(** 47 *)
Definition deg_r (emin prec : Z) : R := rndp emin prec (rndp emin prec PI / 180).
