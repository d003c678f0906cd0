(** The gnomonic projection with rounded operations: src/flib/module_wcs.f90, init_gnomonic
    (206-219), ad2xy_gnomonic (225-241), init_rotation (350-362) and xy2xy_rotation (368-379).

    Every product, sum, difference and quotient is rounded to nearest, in the order of the source.
    [sn] and [cs] are the sine and cosine of the library, [deg] and [rad] the stored constants
    DEG2RAD and RAD2DEG.  Simplifications: no overflow; a quotient by zero, which is an infinity or
    NaN in the code, is [None]; no fused operations. *)
From Coq Require Import ZArith Reals.
From Verif Require Import Base RndModel.
Open Scope R_scope.

Section Gnomonic.
Variables (emin prec : Z) (sn cs : R -> R) (deg rad : R).
Notation rn := (rndp emin prec).
(** init_gnomonic: lambda0, cosphi1, sinphi1. *)
Definition init_gnomonic_r (crval : R * R) : R * R * R :=
  let phi1 := rn (snd crval * deg) in (rn (fst crval * deg), cs phi1, sn phi1).
(** ad2xy_gnomonic, 233-238. *)
Definition xsi_eta_r (g : R * R * R) (a b : R) : option (R * R) :=
  let '(lambda0, cosphi1, sinphi1) := g in
  let lambda := rn (a * deg) in
  let phi := rn (b * deg) in
  let delta := rn (lambda - lambda0) in
  let den := rn (rn (sinphi1 * sn phi) + rn (rn (cosphi1 * cs phi) * cs delta)) in
  if Req_EM_T den 0 then None
  else
    let invcosc := rn (rad / den) in
    Some (rn (rn (invcosc * cs phi) * sn delta), rn (invcosc * rn (rn (cosphi1 * sn phi) - rn (rn (sinphi1 * cs phi) * cs delta)))).
(** init_rotation: cdinv and crpix. *)
Definition cdinv_r (cd : R * R * (R * R)) : option (R * R * (R * R)) :=
  let '((cd11, cd12), (cd21, cd22)) := cd in
  let det := rn (rn (cd11 * cd22) - rn (cd21 * cd12)) in
  if Req_EM_T det 0 then None
  else Some ((rn (cd22 / det), rn (- cd12 / det)), (rn (- cd21 / det), rn (cd11 / det))).
Definition crpix_r (crpix : R * R) : R * R := (rn (fst crpix - 1), rn (snd crpix - 1)).
(** xy2xy_rotation. *)
Definition rotation_r (inv : R * R * (R * R)) (crpix : R * R) (xsi eta : R) : R * R :=
  let '((i11, i12), (i21, i22)) := inv in
  (rn (rn (rn (i11 * xsi) + rn (i12 * eta)) + fst crpix), rn (rn (rn (i21 * xsi) + rn (i22 * eta)) + snd crpix)).
Definition ad2xy_r (crval : R * R) (inv : R * R * (R * R)) (crpix : R * R) (a b : R) : option (R * R) :=
  match xsi_eta_r (init_gnomonic_r crval) a b with None => None | Some (xsi, eta) => Some (rotation_r inv crpix xsi eta) end.
End Gnomonic.
