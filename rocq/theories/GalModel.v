(** The matrix of the galactic frame (operators.py 1225-1232), and the transforms between angles
    (1476-1744), with exact real numbers.

    np.linalg.qr calls LAPACK: Householder reflections (dlarfg, dgeqr2), then their product
    (dorg2r).  The transforms between angles and vectors belong to pyoperators; [azimuth y x]
    is its arctangent, in the range it chooses. *)
From Coq Require Import Reals String.
From Verif Require Import Base SkyModel WcsModel.
Open Scope R_scope.

Definition vsub (u v : vec) : vec := let '(a, b, c) := u in let '(x, y, z) := v in (a - x, b - y, c - z).
Definition vtimes (k : R) (v : vec) : vec := let '(x, y, z) := v in (k * x, k * y, k * z).
(** w - tau (v.w) v *)
Definition reflect (tau : R) (v w : vec) : vec := vsub w (vtimes (tau * dot3 v w) v).

(** dlarfg: the sum of the squares of the elements below the diagonal, [s]; beta and tau. *)
Definition dlarfg_beta (alpha s : R) : R := if Req_EM_T s 0 then alpha else - fsign (sqrt (alpha * alpha + s)) alpha.
Definition dlarfg_tau (alpha s : R) : R := if Req_EM_T s 0 then 0 else (dlarfg_beta alpha s - alpha) / dlarfg_beta alpha s.
Definition dlarfg_scale (alpha s x : R) : R := if Req_EM_T s 0 then x else x / (alpha - dlarfg_beta alpha s).

Definition first_column (a : vec) : R * vec :=
  let '(x, y, z) := a in let s := y * y + z * z in (dlarfg_tau x s, (1, dlarfg_scale x s y, dlarfg_scale x s z)).
Definition second_column (b : vec) : R * vec :=
  let '(x, y, z) := b in let s := z * z in (dlarfg_tau y s, (0, 1, dlarfg_scale y s z)).
(** dgeqr2 and dorg2r; the third reflection is the identity (tau = 0). *)
Definition qr_factor (m : mat) : mat :=
  let '(a1, a2, a3) := swapaxes m in
  let '(t1, v1) := first_column a1 in
  let b2 := reflect t1 v1 a2 in
  let '(t2, v2) := second_column b2 in
  let column e := reflect t1 v1 (reflect t2 v2 e) in
  swapaxes (column (1, 0, 0), column (0, 1, 0), column (0, 0, 1)).
Definition g2e_digits : mat :=
  ((- 548755604 / 10000000000, 4941094279 / 10000000000, - 8676661490 / 10000000000),
   (- 8734370902 / 10000000000, - 4448296300 / 10000000000, - 1980763734 / 10000000000),
   (- 4838350155 / 10000000000, 7469822445 / 10000000000, 4559837762 / 10000000000)).
Definition g2e : mat := qr_factor g2e_digits.

(** Conventions for the angles. *)
Inductive angles := Zenith_azimuth | Azimuth_zenith | Elevation_azimuth | Azimuth_elevation.
Section Angles.
Variable azimuth : R -> R -> R.
Definition unit_in (degrees : bool) (x : R) : R := if degrees then x * (PI / 180) else x.
Definition unit_out (degrees : bool) (x : R) : R := if degrees then x * (180 / PI) else x.
Definition spherical2cartesian (c : angles) (degrees : bool) (p : R * R) : vec :=
  let a := unit_in degrees (fst p) in let b := unit_in degrees (snd p) in
  let '(az, s, z) := match c with
                     | Zenith_azimuth => (b, sin a, cos a)
                     | Azimuth_zenith => (a, sin b, cos b)
                     | Elevation_azimuth => (b, cos a, sin a)
                     | Azimuth_elevation => (a, cos b, sin b)
                     end in
  (s * cos az, s * sin az, z).
Definition cartesian2spherical (c : angles) (degrees : bool) (v : vec) : R * R :=
  let '(x, y, z) := v in
  let az := azimuth y x in
  let p := match c with
           | Zenith_azimuth => (acos z, az)
           | Azimuth_zenith => (az, acos z)
           | Elevation_azimuth => (asin z, az)
           | Azimuth_elevation => (az, asin z)
           end in
  (unit_out degrees (fst p), unit_out degrees (snd p)).

(** 1529-1535 and 1592-1598. *)
Definition spherical_equatorial2galactic (cin cout : angles) (degrees : bool) (p : R * R) : R * R :=
  cartesian2spherical cout degrees (equatorial2galactic g2e (spherical2cartesian cin degrees p)).
Definition spherical_galactic2equatorial (cin cout : angles) (degrees : bool) (p : R * R) : R * R :=
  cartesian2spherical cout degrees (galactic2equatorial g2e (spherical2cartesian cin degrees p)).
(** 1664-1671 and 1737-1744. *)
Definition spherical_equatorial2horizontal convention jd latitude longitude (cin cout : angles) (degrees : bool) (p : R * R) : res (R * R) :=
  do v <- equatorial2horizontal convention jd latitude longitude (spherical2cartesian cin degrees p); Ok (cartesian2spherical cout degrees v).
Definition spherical_horizontal2equatorial convention jd latitude longitude (cin cout : angles) (degrees : bool) (p : R * R) : res (R * R) :=
  do v <- horizontal2equatorial convention jd latitude longitude (spherical2cartesian cin degrees p); Ok (cartesian2spherical cout degrees v).

(** SamplingEquatorial.galactic, samplings.py 210-216; SamplingHorizontal.equatorial and galactic,
    348-370: for one sample, [time] seconds after the Julian date of the observation. *)
Definition equatorial_galactic (radec : R * R) : R * R := spherical_equatorial2galactic Azimuth_elevation Azimuth_elevation true radec.
Definition horizontal_equatorial date_obs time latitude longitude (azel : R * R) : res (R * R) :=
  spherical_horizontal2equatorial "NE" (date_obs + time / 86400) latitude longitude Azimuth_elevation Azimuth_elevation true azel.
Definition horizontal_galactic date_obs time latitude longitude (azel : R * R) : res (R * R) :=
  do p <- horizontal_equatorial date_obs time latitude longitude azel; Ok (spherical_equatorial2galactic Azimuth_elevation Azimuth_elevation true p).
End Angles.
