(** C140: the position in the sky, in degrees, of a detector of coordinates x and y in arc seconds, for a pointing at (ra, dec) and
    a position angle pa. *)
From Coq Require Import Reals.
Open Scope R_scope.
Definition declination (dec pa x y : R) : R := let t := pa * (PI / 180) in dec + (y * cos t - x * sin t) / 3600.
Definition right_ascension (ra dec pa x y : R) : R :=
  let t := pa * (PI / 180) in ra + (x * cos t + y * sin t) / 3600 / cos (declination dec pa x y * (PI / 180)).
