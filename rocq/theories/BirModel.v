(** Bolometric interferometry, flib/bi.f90.j2, every operation rounded (BiModel is the same
    code with exact operations).  Products and additions are not contracted; z**2 is z*z; sums
    are taken in order.  What is not a finite number is None; overflow is not modelled. *)
From Coq Require Import Reals ZArith.
From Verif Require Import Base SkyModel RndModel.
Open Scope R_scope.

Section Bir.
Variables (emin prec : Z).     (* real64: -1074 and 53 *)
Notation rn := (rndp emin prec).
(** 1 - en(3)**2, and its square root. *)
Definition radicand (z : R) : R := rn (1 - rn (z * z)).
Definition root (w : R) : option R := if Rlt_dec w 0 then None else Some (rn (sqrt w)).
Definition inverse (s : R) : option R := if Req_EM_T s 0 then None else Some (rn (1 / s)).

(** en2ephi, 14-22. *)
Definition en2ephi_r (en : vec) : option (R * R) :=
  let '(x, y, z) := en in
  match root (radicand z) with
  | None => None
  | Some s => match inverse s with None => None | Some tmp => Some (rn (- y * tmp), rn (x * tmp)) end
  end.
(** en2etheta_ephi, 25-41. *)
Definition en2etheta_ephi_r (en : vec) : option (vec * (R * R)) :=
  let '(x, y, z) := en in
  match root (radicand z) with
  | None => None
  | Some tmp =>
    let etheta3 := - tmp in
    match inverse tmp with
    | None => None
    | Some tmp =>
      let ephi := (rn (- y * tmp), rn (x * tmp)) in
      let tmp := rn (z * tmp) in
      Some ((rn (x * tmp), rn (y * tmp), etheta3), ephi)
    end
  end.
(** rot_ephi, 44-52, and rotinv_e, 55-63. *)
Definition rot_ephi_r (rot : mat) (ephi : R * R) : vec :=
  let '((r11, r12, r13), (r21, r22, r23), _) := rot in
  let '(e1, e2) := ephi in
  (rn (rn (r11 * e1) + rn (r21 * e2)), rn (rn (r12 * e1) + rn (r22 * e2)), rn (rn (r13 * e1) + rn (r23 * e2))).
Definition dot_r (r e : vec) : R :=
  let '(r1, r2, r3) := r in let '(e1, e2, e3) := e in rn (rn (rn (r1 * e1) + rn (r2 * e2)) + rn (r3 * e3)).
Definition rotinv_e_r (rot : mat) (e : vec) : vec := let '(r1, r2, r3) := rot in (dot_r r1 e, dot_r r2 e, dot_r r3 e).
(** eni2rotation, 66-79. *)
Definition eni2rotation_r (rot : mat) (ethetaf : vec) (ephif : R * R) (eni : vec) : option (R * R) :=
  match en2ephi_r eni with
  | None => None
  | Some ephii =>
    let '(x, y, z) := rot_ephi_r rot ephii in
    let '(p1, p2) := ephif in
    Some (dot_r ethetaf (x, y, z), rn (rn (p1 * x) + rn (p2 * y)))
  end.
(** The innermost statements, 104-114; the fields are converted to the precision of the matrix. *)
Definition element_r (rot : mat) (enf : vec) (val : R) : option (R * R) :=
  match en2etheta_ephi_r enf with
  | None => None
  | Some (ethetaf, ephif) =>
    match eni2rotation_r rot ethetaf ephif (rotinv_e_r rot enf) with
    | None => None
    | Some (r23, r33) =>
      let r33 := - r33 in
      Some (rn (val * rn (rn (r33 * r33) - rn (r23 * r23))), - rn (rn (rn (val * 2) * r33) * r23))
    end
  end.
End Bir.
Definition stored (emin prec : Z) (e : R * R) : R * R := (rndp emin prec (fst e), rndp emin prec (snd e)).
