(** Bolometric interferometry, flib/bi.f90.j2, with exact real numbers: what is not a finite
    number is None.  The conversion to real32 or real64 of the stored fields is not
    modelled. *)
From Coq Require Import Reals List.
From Verif Require Import Base SkyModel.
Import ListNotations.
Open Scope R_scope.

(** 1 / sqrt(x) and sqrt(x) with x > 0 for the former. *)
Definition fsqrt (x : R) : option R := if Rlt_dec x 0 then None else Some (sqrt x).
Definition finv (x : R) : option R := if Req_EM_T x 0 then None else Some (1 / x).

(** en2ephi, 14-22. *)
Definition en2ephi (en : vec) : option (R * R) :=
  let '(x, y, z) := en in
  match fsqrt (1 - z ^ 2) with
  | None => None
  | Some s =>
    match finv s with
    | None => None
    | Some tmp => Some (- y * tmp, x * tmp)
    end
  end.
(** en2etheta_ephi, 25-41. *)
Definition en2etheta_ephi (en : vec) : option (vec * (R * R)) :=
  let '(x, y, z) := en in
  match fsqrt (1 - z ^ 2) with
  | None => None
  | Some tmp =>
    let etheta3 := - tmp in
    match finv tmp with
    | None => None
    | Some tmp =>
      let ephi := (- y * tmp, x * tmp) in
      let tmp := z * tmp in
      Some ((x * tmp, y * tmp, etheta3), ephi)
    end
  end.
(** rot_ephi, 44-52, and rotinv_e, 55-63: the rows of [rot] are rot(1,:), rot(2,:), rot(3,:). *)
Definition rot_ephi (rot : mat) (ephi : R * R) : vec :=
  let '((r11, r12, r13), (r21, r22, r23), _) := rot in
  let '(e1, e2) := ephi in
  (r11 * e1 + r21 * e2, r12 * e1 + r22 * e2, r13 * e1 + r23 * e2).
Definition rotinv_e (rot : mat) (e : vec) : vec :=
  let '((r11, r12, r13), (r21, r22, r23), (r31, r32, r33)) := rot in
  let '(e1, e2, e3) := e in
  (r11 * e1 + r12 * e2 + r13 * e3, r21 * e1 + r22 * e2 + r23 * e3, r31 * e1 + r32 * e2 + r33 * e3).
(** eni2rotation, 66-79: r23 and r33. *)
Definition eni2rotation (rot : mat) (ethetaf : vec) (ephif : R * R) (eni : vec) : option (R * R) :=
  match en2ephi eni with
  | None => None
  | Some ephii =>
    let '(x, y, z) := rot_ephi rot ephii in
    let '(t1, t2, t3) := ethetaf in
    let '(p1, p2) := ephif in
    Some (t1 * x + t2 * y + t3 * z, p1 * x + p2 * y)
  end.

(** The innermost statements of the three kernels, 107-114, 151-159 and 197-205: the element
    of a pixel and a sample. *)
Section Element.
Variables (rot : mat) (enf : vec).
Definition angles (frame : option (vec * (R * R))) : option (R * R) :=
  match frame with
  | None => None
  | Some (ethetaf, ephif) =>
    let eni := rotinv_e rot enf in
    match eni2rotation rot ethetaf ephif eni with
    | None => None
    | Some (r23, r33) => Some (r23, (-1) * r33)
    end
  end.
Definition element2d (val : R) (frame : option (vec * (R * R))) : option (R * R) :=
  match angles frame with
  | None => None
  | Some (r23, r33) => Some (val * (r33 ^ 2 - r23 ^ 2), - val * 2 * r33 * r23)
  end.
Definition element3d (val : R) (frame : option (vec * (R * R))) : R * option (R * R) :=
  (val, element2d val frame).
End Element.

(** The loops of matrix_rot2d, 83-120: detectors, then samples, then pixels; the directions
    of the pixels in the frame of the instrument and their unit vectors are computed once
    for each detector.  [matrix] holds the indices (kept) and the fields. *)
Definition matrix_rot2d (rots : list mat) (enf : list (list vec)) (vals : list (list R))
    (matrix : list (list (list (Z * option (R * R))))) : list (list (list (Z * option (R * R)))) :=
  map (fun '((es, vs), m) =>
    let frames := map en2etheta_ephi es in
    map (fun '(rot, row) =>
      map (fun '(((e, frame), v), (index, _)) => (index, element2d rot e v frame))
          (combine (combine (combine es frames) vs) row))
      (combine rots m))
    (combine (combine enf vals) matrix).
(** matrix_rot3d, 126-165, and weighted_matrix_rot3d, 171-211. *)
Definition matrix_rot3d (rots : list mat) (enf : list (list vec)) (vals : list (list R))
    (matrix : list (list (list (Z * (R * option (R * R)))))) : list (list (list (Z * (R * option (R * R))))) :=
  map (fun '((es, vs), m) =>
    let frames := map en2etheta_ephi es in
    map (fun '(rot, row) =>
      map (fun '(((e, frame), v), (index, _)) => (index, element3d rot e v frame))
          (combine (combine (combine es frames) vs) row))
      (combine rots m))
    (combine (combine enf vals) matrix).
Definition weighted_matrix_rot3d (rots : list mat) (enf : list (list vec)) (vals : list (list R))
    (weights : list (list (list R)))
    (matrix : list (list (list (Z * (R * option (R * R)))))) : list (list (list (Z * (R * option (R * R))))) :=
  map (fun '(((es, vs), ws), m) =>
    let frames := map en2etheta_ephi es in
    map (fun '((rot, wrow), row) =>
      map (fun '((((e, frame), v), w), (index, _)) => (index, element3d rot e (v * w) frame))
          (combine (combine (combine (combine es frames) vs) wrow) row))
      (combine (combine rots ws) m))
    (combine (combine (combine enf vals) weights) matrix).
