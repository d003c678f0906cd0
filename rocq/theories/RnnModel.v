(** The nearest pixels with rounded operations: object2ad (wcsutils.f90 186-219),
    ad2xys_gnomonic (module_wcs.f90 245-272), nint_up (module_math_old.f90 533-545), xy2pmatrix
    (module_pointingmatrix.f90 621-646) and one detector of
    object2pmatrix_nearest_neighbour (wcsutils.f90 301-312).

    Every product, sum, difference and quotient is rounded to nearest, in the order of the source; the
    cube is [(i * i) * i]; the value is rounded once more to the kind of the matrix ([emin'], [prec']).
    Simplifications: those of RgnModel; [nint] of numbers that do not fit in an integer is not modelled. *)
From Coq Require Import ZArith Reals Bool.
From Verif Require Import Base SkyModel WcsModel RndModel RgnModel NnModel.
Open Scope R_scope.

Section Nearest.
Variables (emin prec emin' prec' : Z) (sn cs : R -> R) (deg rad : R).
Notation rn := (rndp emin prec).
Definition object2ad_r (ra dec pa : R) (input : R * R) : R * R :=
  let cospa := cs (rn (pa * deg)) in
  let sinpa := sn (rn (pa * deg)) in
  let c1 := rn (fst input / 3600) in
  let c2 := rn (snd input / 3600) in
  let dec' := rn (dec + rn (rn (- c1 * sinpa) + rn (c2 * cospa))) in
  (rn (ra + rn (rn (rn (c1 * cospa) + rn (c2 * sinpa)) / cs (rn (dec' * deg)))), dec').
(** ad2xys_gnomonic, 260-264 and 267: xsi, eta and scale. *)
Definition xsi_eta_scale_r (g : R * R * R) (a b : R) : option (R * R * R) :=
  let '(lambda0, cosphi1, sinphi1) := g in
  let lambda := rn (a * deg) in
  let phi := rn (b * deg) in
  let delta := rn (lambda - lambda0) in
  let den := rn (rn (sinphi1 * sn phi) + rn (rn (cosphi1 * cs phi) * cs delta)) in
  if Req_EM_T den 0 then None
  else
    let invcosc := rn (1 / den) in
    let r := rn (rad * invcosc) in
    Some (rn (rn (r * cs phi) * sn delta), rn (r * rn (rn (cosphi1 * sn phi) - rn (rn (sinphi1 * cs phi) * cs delta))), rn (rn (invcosc * invcosc) * invcosc)).
Definition ad2xys_r (crval : R * R) (inv : R * R * (R * R)) (crpix : R * R) (a b : R) : option (R * R * R) :=
  match xsi_eta_scale_r (init_gnomonic_r emin prec sn cs deg crval) a b with
  | None => None
  | Some (xsi, eta, s) => Some (rotation_r emin prec inv crpix xsi eta, s)
  end.
Definition nint_up_r (x : R) : Z :=
  let n := nint_real x in
  if Rltb x 0 then (if Req_EM_T (Rabs (rn (x - IZR n))) (/ 2) then (n + 1)%Z else n) else n.
Definition xy2pmatrix_r (nx ny : Z) (x y : R) : bool * Z :=
  let ix := nint_up_r x in
  let iy := nint_up_r y in
  if (ix <? 0)%Z || (nx - 1 <? ix)%Z || (iy <? 0)%Z || (ny - 1 <? iy)%Z then (true, (-1)%Z) else (false, (ix + iy * nx)%Z).
Definition nearest_one_r (crval : R * R) (inv : R * R * (R * R)) (crpix : R * R) (nx ny : Z) (pointing : R * R * R) (coord : R * R) (area : R) : option (bool * element) :=
  let '(ra, dec, pa) := pointing in
  let '(ra', dec') := object2ad_r ra dec pa coord in
  match ad2xys_r crval inv crpix ra' dec' with
  | None => None
  | Some ((x, y), s) => let '(out, index) := xy2pmatrix_r nx ny x y in Some (out, (index, rndp emin' prec' (rn (s * area))))
  end.
End Nearest.
