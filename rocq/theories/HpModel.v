(** interfaces/healpy/operators.py and scenes.py.

    healpy is a parameter: [pix2ang nside nest] and [ang2pix nside nest] convert pixels from and to
    (colatitude, longitude), [pix2vec] and [vec2pix] from and to vectors, [neighbours] are
    get_all_neighbours (SW, W, NW, N, NE, E, SE, S; -1 if there is none).  Real numbers. *)
From Coq Require Import Reals List ZArith Bool Ascii String.
From Verif Require Import Base TemplateModel SparseModel.
Open Scope R_scope.

(** ** Conventions, operators.py 121-142 *)
Inductive convention := ZenithAzimuth | AzimuthZenith | ElevationAzimuth | AzimuthElevation.
Definition lower_char (c : ascii) : ascii :=
  let n := nat_of_ascii c in if ((65 <=? n) && (n <=? 90))%nat then ascii_of_nat (n + 32) else c.
(** convention.replace(' ', '').lower() *)
Definition normalised (s : text) : text := map lower_char (List.filter (fun c => negb (Ascii.eqb c " "%char)) s).
Definition parse (s : text) : res convention :=
  let t := normalised s in
  if text_eqb t (lit "zenith,azimuth") then Ok ZenithAzimuth
  else if text_eqb t (lit "azimuth,zenith") then Ok AzimuthZenith
  else if text_eqb t (lit "elevation,azimuth") then Ok ElevationAzimuth
  else if text_eqb t (lit "azimuth,elevation") then Ok AzimuthElevation
  else Err ValueError.
Definition azimuth_first (c : convention) : bool := match c with AzimuthZenith | AzimuthElevation => true | _ => false end.
Definition has_elevation (c : convention) : bool := match c with ElevationAzimuth | AzimuthElevation => true | _ => false end.

Record spherical := Spherical { nside : Z; conv : convention; nest : bool }.

Section H.
Context (pix2ang : Z -> bool -> Z -> R * R) (ang2pix : Z -> bool -> R * R -> Z).
(** 213-222 *)
Definition healpix2spherical (o : spherical) (p : Z) : R * R :=
  let '(o1, o2) := pix2ang (nside o) (nest o) p in
  let o1 := if has_elevation (conv o) then / 2 * PI - o1 else o1 in
  if azimuth_first (conv o) then (o2, o1) else (o1, o2).
(** 269-277 *)
Definition spherical2healpix (o : spherical) (x : R * R) : Z :=
  let '(i1, i2) := if azimuth_first (conv o) then (snd x, fst x) else x in
  let i1 := if has_elevation (conv o) then / 2 * PI - i1 else i1 in
  ang2pix (nside o) (nest o) (i1, i2).
End H.
Definition conv_eqb (a b : convention) : bool :=
  match a, b with
  | ZenithAzimuth, ZenithAzimuth | AzimuthZenith, AzimuthZenith | ElevationAzimuth, ElevationAzimuth | AzimuthElevation, AzimuthElevation => true
  | _, _ => false
  end.
(** 158-165: the rule of both compositions. *)
Definition rule_identity (a b : spherical) : bool := ((nside a =? nside b)%Z && conv_eqb (conv a) (conv b) && Bool.eqb (nest a) (nest b)).
Inductive factor_ := ToPixel (o : spherical) | ToSphere (o : spherical).
(** The composition a * b: [None] is the identity, otherwise both factors, b first. *)
Definition compose (a b : factor_) : option (factor_ * factor_) :=
  match a, b with
  | ToPixel o1, ToSphere o2 | ToSphere o1, ToPixel o2 => if rule_identity o1 o2 then None else Some (a, b)
  | _, _ => Some (a, b)
  end.
(** The rule 'I'. *)
Definition inverse (a : factor_) : factor_ := match a with ToPixel o => ToSphere o | ToSphere o => ToPixel o end.

(** ** HealpixConvolutionGaussianOperator, 290-331 *)
Inductive smoothing := Identity | Smooth (fwhm sigma : R).
Definition is0 (x : R) : bool := if Req_EM_T x 0 then true else false.
Definition neg (x : R) : bool := if Rlt_dec x 0 then true else false.
Definition ratio : R := sqrt (8 * ln 2).
Definition convolution (fwhm sigma : option R) : res smoothing :=
  match fwhm, sigma with
  | None, None => Err ValueError
  | Some _, Some _ => Err ValueError
  | Some f, None => if neg f then Err ValueError else if is0 f then Ok Identity else Ok (Smooth f (f / ratio))
  | None, Some s => if neg s then Err ValueError else if is0 s then Ok Identity else Ok (Smooth (s * ratio) s)
  end.
(** np.round: to the nearest, halves to even. *)
Definition round_even (x : R) : Z :=
  let n := Int_part x in let f := x - IZR n in
  if Rlt_dec f (/ 2) then n else if Rlt_dec (/ 2) f then (n + 1)%Z else if Z.even n then n else (n + 1)%Z.
(** 347-355; dimensions are not negative. *)
Definition validatein (shape : list Z) : res unit :=
  match shape with
  | [s] | [s; _] => let n := round_even (sqrt (IZR s / 12)) in if (12 * (n * n) =? s)%Z then Ok tt else Err ValueError
  | _ => Err ValueError
  end.

(** ** HealpixLaplacianOperator, 367-387 *)
Definition weights : list R := [1; 4; 1; 4; 1; 4; 1; 4].
Definition laplacian_row (neighbours : Z -> list Z) (npix : Z) (i : Z) : list (Z * R) :=
  let h2 := 4 * PI / IZR npix in
  (i, - 20 / (6 * h2)) :: combine (neighbours i) (map (fun w => w / (6 * h2)) weights).
(** Product of a row of FSRMatrix (C16): negative indices are skipped. *)
Definition row_product (row : list (Z * R)) (x : Z -> R) : R :=
  fold_right Rplus 0 (map (fun e => if (fst e <? 0)%Z then 0 else snd e * x (fst e)) row).
Definition laplacian (neighbours : Z -> list Z) (ns : Z) (x : Z -> R) (i : Z) : R :=
  row_product (laplacian_row neighbours (12 * (ns * ns)) i) x.

(** ** scenes.py *)
Inductive kind := I_ | QU | IQU.
Definition parse_kind (s : text) : res kind :=
  let t := map (fun c => let n := nat_of_ascii c in if ((97 <=? n) && (n <=? 122))%nat then ascii_of_nat (n - 32) else c) s in
  if text_eqb t (lit "I") then Ok I_ else if text_eqb t (lit "QU") then Ok QU else if text_eqb t (lit "IQU") then Ok IQU else Err ValueError.
(** 38-60: shape, number of pixels, solid angle of a pixel. *)
Definition scene_healpix (ns : Z) (k : kind) : list Z * Z * R :=
  let npix := (12 * (ns * ns))%Z in
  ((npix :: match k with I_ => [] | QU => [2%Z] | IQU => [3%Z] end), npix, 4 * PI / IZR npix).
(** 122-129 *)
Definition conversion (h c k solid_angle temperature : R) (absolute : bool) (nu : R) : R -> R :=
  let a := 2 * solid_angle * h * nu ^ 3 / c ^ 2 in
  if absolute then let hnu_k := h * nu / k in fun T => a / (exp (hnu_k * / T) - 1)
  else
    let T := temperature in
    let hnu_kT := h * nu / (k * T) in
    let val := 1 / 10 ^ 6 * a * hnu_kT * exp hnu_kT / ((exp hnu_kT - 1) ^ 2 * T) in
    fun x => val * x.
