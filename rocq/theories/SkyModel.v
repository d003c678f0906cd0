(** Changes of celestial frame, operators.py 1225-1467, with exact real numbers, for one
    date and one observer (arrays of them are broadcast and transformed one by one by
    DenseBlockDiagonalOperator). *)
From Coq Require Import Reals String.
From Verif Require Import Base.
Open Scope R_scope.

Definition vec := (R * R * R)%type.
Definition mat := (vec * vec * vec)%type.  (* rows *)
Definition dot3 (u v : vec) : R := let '(a, b, c) := u in let '(x, y, z) := v in a * x + b * y + c * z.
Definition apply_mat (m : mat) (v : vec) : vec := let '(r0, r1, r2) := m in (dot3 r0 v, dot3 r1 v, dot3 r2 v).
Definition swapaxes (m : mat) : mat :=
  let '((a, b, c), (d, e, f), (g, h, i)) := m in ((a, d, g), (b, e, h), (c, f, i)).

(** np.floor, the remainder of positive numbers, np.radians. *)
Definition npfloor (x : R) : R := IZR (Int_part x).
Definition modulo (x y : R) : R := x - y * npfloor (x / y).
Definition radians (x : R) : R := x * (PI / 180).

(** _jd2gst, 1356-1371. *)
Definition jd2gst (jd : R) : R :=
  let jd0 := npfloor (jd - / 2) + / 2 in
  let T := (jd0 - 2451545) / 36525 in
  let T0 := 6697374558 / 1000000000 + 2400051336 / 1000000 * T + 25862 / 1000000000 * (T * T) in
  let T0 := modulo T0 24 in
  let ut := (jd - jd0) * 24 in
  let T0 := T0 + ut * (1002737909 / 1000000000) in
  modulo T0 24.
(** _gst2lst, 1373-1379. *)
Definition gst2lst (gst longitude : R) : R := modulo (gst + longitude / 15) 24.
(** _CartesianEquatorialHorizontal.__init__, 1319-1353. *)
Definition horizontal (latitude lst : R) : mat :=
  let lst := radians (lst * 15) in
  let latitude := radians latitude in
  let slat := sin latitude in let clat := cos latitude in
  let slst := sin lst in let clst := cos lst in
  ((- slat * clst, - slat * slst, clat), (- slst, clst, 0), (clat * clst, clat * slst, slat)).
Definition equatorial_horizontal (convention : string) (jd latitude longitude : R) (transpose : bool) : res mat :=
  if negb (String.eqb convention "NE") then Err ValueError
  else
    let lst := gst2lst (jd2gst jd) longitude in
    let m := horizontal latitude lst in
    Ok (if transpose then swapaxes m else m).
(** CartesianEquatorial2HorizontalOperator, 1407-1424, and its converse, 1450-1467. *)
Definition equatorial2horizontal convention jd latitude longitude (v : vec) : res vec :=
  do m <- equatorial_horizontal convention jd latitude longitude false; Ok (apply_mat m v).
Definition horizontal2equatorial convention jd latitude longitude (v : vec) : res vec :=
  do m <- equatorial_horizontal convention jd latitude longitude true; Ok (apply_mat m v).
(** CartesianEquatorial2GalacticOperator and its converse, 1225-1316: [g2e] is the
    orthogonal factor of np.linalg.qr. *)
Definition equatorial2galactic (g2e : mat) (v : vec) : vec := apply_mat (swapaxes g2e) v.
Definition galactic2equatorial (g2e : mat) (v : vec) : vec := apply_mat g2e v.
