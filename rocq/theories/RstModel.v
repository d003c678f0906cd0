(** Sidereal times and the frame of an observer with rounded operations: operators.py,
    _CartesianEquatorialHorizontal (1319-1379).

    Every operation of NumPy is rounded to nearest, in the order of the source; the constants of the source
    are rounded; np.radians multiplies by the stored constant [deg].  [sn] and [cs] are the sine and
    cosine of the library.  np.remainder: the remainder of the quotient towards zero, which is exact,
    and the addition of the divisor, which is rounded, when it is negative.  Simplifications: one date and one observer; no
    overflow, no fused operations; [T ** 2] is the product. *)
From Coq Require Import ZArith Reals String Bool.
From Verif Require Import Base SkyModel RndModel.
Open Scope R_scope.

Section Sidereal.
Variables (emin prec : Z) (sn cs : R -> R) (deg : R).
Notation rn := (rndp emin prec).
(** Towards zero. *)
Definition truncated (x : R) : Z := if Rlt_dec x 0 then (- Int_part (- x))%Z else Int_part x.
Definition fmod24 (x : R) : R := x - 24 * IZR (truncated (x / 24)).
Definition remainder24 (x : R) : R := let m := fmod24 x in if Rlt_dec m 0 then rn (m + 24) else m.
Definition jd2gst_r (jd : R) : R :=
  let jd0 := rn (npfloor (rn (jd - / 2)) + / 2) in
  let T := rn (rn (jd0 - 2451545) / 36525) in
  let T0 := rn (rn (rn (6697374558 / 1000000000) + rn (rn (2400051336 / 1000000) * T)) + rn (rn (25862 / 1000000000) * rn (T * T))) in
  let T0 := remainder24 T0 in
  let ut := rn (rn (jd - jd0) * 24) in
  let T0 := rn (T0 + rn (ut * rn (1002737909 / 1000000000))) in
  remainder24 T0.
Definition gst2lst_r (gst longitude : R) : R := remainder24 (rn (gst + rn (longitude / 15))).
Definition horizontal_r (latitude lst : R) : mat :=
  let lst := rn (rn (lst * 15) * deg) in
  let latitude := rn (latitude * deg) in
  let slat := sn latitude in
  let clat := cs latitude in
  let slst := sn lst in
  let clst := cs lst in
  ((rn (- slat * clst), rn (- slat * slst), clat), (- slst, clst, 0), (rn (clat * clst), rn (clat * slst), slat)).
Definition equatorial_horizontal_r (convention : string) (jd latitude longitude : R) (transpose : bool) : res mat :=
  if negb (String.eqb convention "NE") then Err ValueError
  else
    let lst := gst2lst_r (jd2gst_r jd) longitude in
    let m := horizontal_r latitude lst in
    Ok (if transpose then swapaxes m else m).
End Sidereal.
