(** Positions in the sky of detectors with rounded operations: object2ad (wcsutils.f90 186-219) and
    RotationBoresightEquatorialOperator.direct (wcsutils.py 575-585).

    Every operation is rounded to nearest, in the order of the source; changes of sign are exact.  [sn] and [cs] are the sine and
    cosine of the library, [deg] the stored constant by which degrees are multiplied.  Simplifications: one detector and one
    pointing (CoordModel for arrays); no overflow; a quotient by zero, which is an infinity or NaN in the code, is
    [None]; no fused operations. *)
From Coq Require Import ZArith Reals.
From Verif Require Import Base RndModel.
Open Scope R_scope.

Section Boresight.
Variables (emin prec : Z) (sn cs : R -> R) (deg : R).
Notation rn := (rndp emin prec).
(** 215-216, 583-585: from the coordinates along the meridian and along the parallel. *)
Definition sky_r (ra dec north east : R) : option (R * R) :=
  let out2 := rn (dec + north) in
  let c := cs (rn (out2 * deg)) in
  if Req_EM_T c 0 then None else Some (rn (ra + rn (east / c)), out2).
(** 209-216 *)
Definition object2ad_r (ra dec pa : R) (input : R * R) : option (R * R) :=
  let cospa := cs (rn (pa * deg)) in
  let sinpa := sn (rn (pa * deg)) in
  let c1 := rn (fst input / 3600) in
  let c2 := rn (snd input / 3600) in
  sky_r ra dec (rn (rn (- c1 * sinpa) + rn (c2 * cospa))) (rn (rn (c1 * cospa) + rn (c2 * sinpa))).
(** 579-585 *)
Definition boresight_r (ra dec pa : R) (x : R * R) : option (R * R) :=
  let pa := rn (pa * deg) in
  let cospa := rn (cs pa / 3600) in
  let sinpa := rn (sn pa / 3600) in
  sky_r ra dec (rn (rn (- fst x * sinpa) + rn (snd x * cospa))) (rn (rn (fst x * cospa) + rn (snd x * sinpa))).
End Boresight.
