(** wcsutils.py, wcsutils.f90 and module_wcs.f90, with exact real numbers. *)
From Coq Require Import Reals String Ascii.
From Verif Require Import Base ConstModel SkyModel.
Open Scope R_scope.

Definition DEG2RAD : R := PI / 180.
Definition RAD2DEG : R := 180 / PI.
(** atan2 of Fortran and np.arctan2, without signed zeros. *)
Definition atan2 (y x : R) : R :=
  if Rlt_dec 0 x then atan (y / x)
  else if Rlt_dec x 0 then (if Rle_dec 0 y then atan (y / x) + PI else atan (y / x) - PI)
  else if Rlt_dec 0 y then PI / 2 else if Rlt_dec y 0 then - (PI / 2) else 0.
(** sign(a, b) of Fortran. *)
Definition fsign (a b : R) : R := if Rle_dec 0 b then Rabs a else - Rabs a.

(** ** Headers *)
Inductive hval := HB (b : bool) | HI (n : Z) | HF (x : R) | HS (s : string).
Definition header := list (string * hval).
(** Assignment of a keyword and its value (the comments are left out). *)
Fixpoint hset (h : header) (k : string) (v : hval) : header :=
  match h with [] => [(k, v)] | (k', v') :: r => if String.eqb k k' then (k, v) :: r else (k', v') :: hset r k v end.
Fixpoint hget (h : header) (k : string) : option hval :=
  match h with [] => None | (k', v) :: r => if String.eqb k k' then Some v else hget r k end.
(** str of the number of an axis: at most 8. *)
Definition digit (n : nat) : string := String (ascii_of_nat (48 + n)) EmptyString.
Definition key (name : string) (n : nat) : string := (name ++ digit n)%string.
Definition upper_char (c : ascii) : ascii := let n := nat_of_ascii c in if ((97 <=? n) && (n <=? 122))%nat then ascii_of_nat (n - 32) else c.
Fixpoint upper (s : string) : string := match s with EmptyString => EmptyString | String c r => String (upper_char c) (upper r) end.

(** pyfits.DTYPE2BITPIX *)
Definition dtype2bitpix (name : string) : res Z :=
  match find (fun p => String.eqb name (fst p)) [("int8", 8); ("uint8", 8); ("int16", 16); ("uint16", 16); ("int32", 32); ("uint32", 32); ("int64", 64); ("uint64", 64); ("float32", -32); ("float64", -64)]%string%Z with
  | Some (_, b) => Ok b
  | None => Err KeyError
  end.
Inductive arg (A : Type) := One (x : A) | Many (l : list A).
Arguments One {A} x.
Arguments Many {A} l.
Definition matrix := ((R * R) * (R * R))%type.  (* rows *)
Definition dot22 (m n : matrix) : matrix :=
  let '((a, b), (c, d)) := m in let '((e, f), (g, h)) := n in ((a * e + b * g, a * f + b * h), (c * e + d * g, c * f + d * h)).
(** create_fitsheader, wcsutils.py 156-326, for naxes and dtype (fromdata is deprecated).
    The lines 284-286 are outside of the else. *)
Definition rotation (theta : R) : matrix := ((cos theta, sin theta), (- sin theta, cos theta)).
Definition diag (l : list R) : res matrix := match l with [a; b] => Ok ((a, 0), (0, b)) | _ => Err ValueError end.
Definition cd_of (ctype : option (list string)) (cdelt : arg R) (pa : option R) : res matrix :=
  let cdelt := match cdelt with
               | One c => match ctype with
                          | None => [- c; c]
                          | Some l => match l with
                                      | [a; b] => if (String.eqb a "RA---TAN" && String.eqb b "DEC--TAN")%bool then [- c; c] else [c; c]
                                      | _ => [c; c]
                                      end
                          end
               | Many l => l
               end in
  let pa := match pa with Some pa => pa | None => 0 end in
  let theta := radians (- pa) in
  do d <- diag cdelt; Ok (dot22 d (rotation theta)).
Definition axes_cards (naxes : list Z) (h : header) : header :=
  fold_left (fun h p => hset h (key "NAXIS" (S (fst p))) (HI (snd p))) (combine (seq 0 (length naxes)) naxes) h.
Definition base_cards (naxes : list Z) (typename : string) (extname : option string) : res header :=
  if (8 <? zlen naxes)%Z then Err ValueError
  else
    let h := match extname with None => hset [] "SIMPLE" (HB true) | Some _ => hset [] "XTENSION" (HS "IMAGE") end in
    do b <- dtype2bitpix typename;
    let h := hset h "BITPIX" (HI b) in
    let h := hset h "NAXIS" (HI (zlen naxes)) in
    let h := axes_cards naxes h in
    Ok (match extname with
        | None => hset h "EXTEND" (HB true)
        | Some e => hset (hset (hset h "PCOUNT" (HI 0)) "GCOUNT" (HI 1)) "EXTNAME" (HS e)
        end).
Definition prefix3 (s : string) : string := substring 0 3 s.
Definition create_fitsheader (naxes : list Z) (typename : string) (extname : option string) (crval : list R) (crpix : option (list R)) (cunit : arg string)
    (ctype : option (list string)) (cd : option matrix) (cdelt : option (arg R)) (pa : option R) (radesys : string) (equinox : option R) : res header :=
  do h <- base_cards naxes typename extname;
  match cd, cdelt with
  | None, None => Ok h
  | _, _ =>
      do m <- match cd with
              | Some _ => (* theta has no value; np.diag needs one or two dimensions *)
                  match cdelt with Some (Many _) => Err UnboundLocalError | _ => Err ValueError end
              | None => match cdelt with Some cdelt => cd_of ctype cdelt pa | None => Err ValueError (* not reached *) end
              end;
      match crval with
      | [v1; v2] =>
          match match crpix with Some l => l | None => map (fun n => (IZR n + 1) / 2) naxes end with
          | [p1; p2] =>
              match ctype with
              | None => Err TypeError
              | Some [t1; t2] =>
                  do u <- match cunit with One u => Ok (u, u) | Many [u1; u2] => Ok (u1, u2) | Many _ => Err ValueError end;
                  let h := hset h "CRVAL1" (HF v1) in let h := hset h "CRVAL2" (HF v2) in
                  let h := hset h "CRPIX1" (HF p1) in let h := hset h "CRPIX2" (HF p2) in
                  let h := hset h "CD1_1" (HF (fst (fst m))) in let h := hset h "CD2_1" (HF (fst (snd m))) in
                  let h := hset h "CD1_2" (HF (snd (fst m))) in let h := hset h "CD2_2" (HF (snd (snd m))) in
                  let h := hset h "CTYPE1" (HS t1) in let h := hset h "CTYPE2" (HS t2) in
                  let h := hset h "CUNIT1" (HS (fst u)) in let h := hset h "CUNIT2" (HS (snd u)) in
                  let h := if (String.eqb (prefix3 t1) "RA-" && String.eqb (prefix3 t2) "DEC")%bool then hset h "RADESYS" (HS (upper radesys)) else h in
                  Ok (match equinox with Some e => hset h "EQUINOX" (HF e) | None => h end)
              | Some _ => Err ValueError
              end
          | _ => Err ValueError
          end
      | _ => Err ValueError
      end
  end.
(** create_fitsheader_for, 329-409: the shape, the name and the size of the type of the data;
    data of one dimension at least. *)
Definition create_fitsheader_for (data : option (list Z * string * Z)) extname crval crpix ctype cunit cd cdelt pa radesys equinox : res header :=
  let '(naxes, dtype) := match data with
                         | None => ([], "int32"%string)
                         | Some (shape, dtype, itemsize) => (rev (match shape with [] => [1%Z] | _ => shape end), if (itemsize =? 1)%Z then "uint8"%string else dtype)
                         end in
  create_fitsheader naxes dtype extname crval crpix cunit ctype cd cdelt pa radesys equinox.
(** fitsheader2shape, 412-414. *)
Definition hint (h : header) (k : string) : res Z := match hget h k with Some (HI n) => Ok n | Some _ => Err TypeError | None => Err KeyError end.
Definition hnum (h : header) (k : string) : res R := match hget h k with Some (HF x) => Ok x | Some (HI n) => Ok (IZR n) | Some _ => Err ValueError | None => Err KeyError end.
Definition fitsheader2shape (h : header) : res (list Z) :=
  do ndim <- hint h "NAXIS"; map_res (fun i => hint h (key "NAXIS" i)) (rev (seq 1 (Z.to_nat ndim))).
(** has_wcs, 456-469: np.concatenate needs an array. *)
Definition defined (h : header) (k : string) : bool := match hget h k with Some _ => true | None => false end.
Definition has_wcs (h : header) : res bool :=
  do n <- hint h "NAXIS";
  if (n <=? 0)%Z then Err ValueError
  else Ok (forallb (defined h) (flat_map (fun i => [key "CRPIX" i; key "CRVAL" i; key "CTYPE" i]) (seq 1 (Z.to_nat n)))).
(** get_cdelt_pa, 417-453.  A matrix that is singular divides by zero. *)
Definition cdelt_pa (cd : matrix) : res (R * R * R) :=
  let '((cd11, cd12), (cd21, cd22)) := cd in
  let det := cd11 * cd22 - cd12 * cd21 in
  if Req_EM_T det 0 then Err ZeroDivisionError (* nan *)
  else
    let sgn := det / Rabs det in
    let cdelt1 := sgn * sqrt (cd11 * cd11 + cd12 * cd12) in
    let cdelt2 := sqrt (cd22 * cd22 + cd21 * cd21) in
    let pa := - atan2 (- cd21) cd22 in
    Ok (cdelt1, cdelt2, pa * RAD2DEG).
Definition get_cdelt_pa (h : header) : res (R * R * R) :=
  if forallb (defined h) ["CD1_1"; "CD1_2"; "CD2_1"; "CD2_2"]%string then
    do a <- hnum h "CD1_1"; do b <- hnum h "CD1_2"; do c <- hnum h "CD2_1"; do d <- hnum h "CD2_2"; cdelt_pa ((a, b), (c, d))
  else if forallb (defined h) ["CDELT1"; "CDELT2"; "CROTA2"]%string then
    do a <- hnum h "CDELT1"; do b <- hnum h "CDELT2"; do c <- hnum h "CROTA2"; Ok (a, b, - c)
  else Err KeyError.

(** ** Angles *)
(** angle_lonlat, module_math_old.f90 503-511. *)
Definition angle_lonlat1 (lon1 lat1 lon2 lat2 : R) : R :=
  acos (cos (lat1 * DEG2RAD) * cos (lat2 * DEG2RAD) * cos ((lon2 - lon1) * DEG2RAD) + sin (lat1 * DEG2RAD) * sin (lat2 * DEG2RAD)) * RAD2DEG.
(** wcsutils.f90 15-32 and wcsutils.py 35-66: arrays of positions. *)
Definition angle_lonlat (p q : list (R * R)) : res (list R) :=
  match p, q with
  | [(lon1, lat1)], _ => Ok (map (fun b => angle_lonlat1 lon1 lat1 (fst b) (snd b)) q)
  | _, [(lon2, lat2)] => Ok (map (fun a => angle_lonlat1 (fst a) (snd a) lon2 lat2) p)
  | _, _ => if (length p =? length q)%nat then Ok (map (fun ab => angle_lonlat1 (fst (fst ab)) (snd (fst ab)) (fst (snd ab)) (snd (snd ab))) (combine p q))
            else Err RuntimeError (* arrays of different sizes: reads out of bounds *)
  end.
(** barycenter_lonlat, wcsutils.f90 38-72; [None]: NaN; the terms of the sums in any order. *)
Definition bary_step (s : R * R * R) (p : option R * option R) : R * R * R :=
  match p with
  | (Some lon, Some lat) =>
      let '(x, y, z) := s in
      let phi := lon * DEG2RAD in let cotheta := lat * DEG2RAD in
      let cocotheta := cos cotheta in
      (x + cocotheta * cos phi, y + cocotheta * sin phi, z + sin cotheta)
  | _ => s
  end.
Definition barycenter_lonlat (nan : num) (l : list (option R * option R)) : num * num :=
  match l with
  | [] => (nan, nan)
  | _ =>
      let '(x, y, z) := fold_left bary_step l (0, 0, 0) in
      let lon0 := modulo (atan2 y x * RAD2DEG + 360) 360 in
      let n := x * x + y * y + z * z in
      (Fin lon0, if Req_EM_T n 0 then NaN else Fin (fsign (acos (sqrt ((x * x + y * y) / n)) * RAD2DEG) z))
  end.
(** mean_degrees, 78-115: the samples in any order. *)
Record degrees := Degrees { d_mean : R; d_zero_minus : bool; d_zero_plus : bool; d_n180 : Z; d_nvalids : Z }.
Definition Rltb (x y : R) : bool := if Rlt_dec x y then true else false.
Definition Rleb (x y : R) : bool := if Rle_dec x y then true else false.
Definition mean_step (s : degrees) (v : option R) : degrees :=
  match v with
  | None => s
  | Some v =>
      let val := modulo v 360 in
      Degrees (d_mean s + val) (d_zero_minus s || Rltb 270 val) (d_zero_plus s || Rleb val 90)
              (if Rleb 180 val then d_n180 s + 1 else d_n180 s)%Z (d_nvalids s + 1)%Z
  end.
Definition mean_degrees (nan : num) (array : list (option R)) : num :=
  let s := fold_left mean_step array (Degrees 0 false false 0 0) in
  let mean := if (d_zero_minus s && d_zero_plus s)%bool then d_mean s - 360 * IZR (d_n180 s) else d_mean s in
  if (0 <? d_nvalids s)%Z then Fin (modulo (mean / IZR (d_nvalids s)) 360) else nan.
(** minmax_degrees, 121-157. *)
Definition num_min (a : num) (x : R) : num := match a with Fin y => Fin (Rmin y x) | Inf false => Fin x | _ => a end.
Definition num_max (a : num) (x : R) : num := match a with Fin y => Fin (Rmax y x) | Inf true => Fin x | _ => a end.
Definition near (meanv v : R) : R :=
  let val := modulo v 360 in
  if Rltb meanv val then (if Rltb (Rabs (val - 360 - meanv)) (Rabs (val - meanv)) then val - 360 else val)
  else (if Rltb (Rabs (val + 360 - meanv)) (Rabs (val - meanv)) then val + 360 else val).
Definition minmax_step (meanv : R) (s : num * num) (v : option R) : num * num :=
  match v with None => s | Some v => let val := near meanv v in (num_min (fst s) val, num_max (snd s) val) end.
Definition num_modulo (a : num) : num := match a with Fin x => Fin (modulo x 360) | _ => NaN end.
Definition minmax_degrees (nan pinf minf : num) (array : list (option R)) : num * num :=
  match mean_degrees nan array with
  | Fin meanv => let s := fold_left (minmax_step meanv) array (pinf, minf) in (num_modulo (fst s), num_modulo (snd s))
  | NaN => (nan, nan)
  | Inf _ => (nan, nan) (* not reached *)
  end.

(** ** Gnomonic projection, module_wcs.f90.  cd(i,j): row i, column j. *)
Record astrometry := Astrometry { crpix : R * R; crval : R * R; cdm : matrix }.
(** init_astrometry, 130-140: the matrix of CDELT1, CDELT2 and CROTA2. *)
Definition cd_crota2 (cdelt1 cdelt2 crota2 : R) : matrix :=
  let crota2 := crota2 * DEG2RAD in
  ((cos crota2 * cdelt1, sin crota2 * cdelt2), (- sin crota2 * cdelt1, cos crota2 * cdelt2)).
(** cd_info, 187-200. *)
Definition cd_info (cd : matrix) : R * R * R :=
  let '((cd11, cd12), (cd21, cd22)) := cd in
  let det := cd11 * cd22 - cd21 * cd12 in
  (fsign (sqrt (cd11 * cd11 + cd12 * cd12)) det, sqrt (cd22 * cd22 + cd21 * cd21), atan2 (- cd21) cd22 * RAD2DEG).
(** init_rotation, 350-362, and xy2xy_rotation, 368-379. *)
Definition cdinv (cd : matrix) : matrix :=
  let '((cd11, cd12), (cd21, cd22)) := cd in
  let det := cd11 * cd22 - cd21 * cd12 in
  ((cd22 / det, - cd12 / det), (- cd21 / det, cd11 / det)).
Definition xy2xy_rotation (a : astrometry) (xsi eta : R) : R * R :=
  let '((i11, i12), (i21, i22)) := cdinv (cdm a) in
  let crpix1 := fst (crpix a) - 1 in let crpix2 := snd (crpix a) - 1 in
  (i11 * xsi + i12 * eta + crpix1, i21 * xsi + i22 * eta + crpix2).
(** ad2xy_gnomonic, 225-241 and 278-294, with init_gnomonic, 206-219. *)
Definition cosc (a : astrometry) (ra dec : R) : R :=
  let lambda0 := fst (crval a) * DEG2RAD in let phi1 := snd (crval a) * DEG2RAD in
  sin phi1 * sin (dec * DEG2RAD) + cos phi1 * cos (dec * DEG2RAD) * cos (ra * DEG2RAD - lambda0).
Definition xsi_eta (a : astrometry) (ra dec : R) : R * R :=
  let lambda0 := fst (crval a) * DEG2RAD in let phi1 := snd (crval a) * DEG2RAD in
  let lambda := ra * DEG2RAD in let phi := dec * DEG2RAD in
  let invcosc := RAD2DEG / cosc a ra dec in
  (invcosc * cos phi * sin (lambda - lambda0), invcosc * (cos phi1 * sin phi - sin phi1 * cos phi * cos (lambda - lambda0))).
Definition ad2xy_gnomonic (a : astrometry) (ra dec : R) : R * R :=
  let '(xsi, eta) := xsi_eta a ra dec in xy2xy_rotation a xsi eta.
(** ad2xys_gnomonic, 247-272. *)
Definition ad2xys_gnomonic (a : astrometry) (ra dec : R) : R * R * R :=
  let lambda0 := fst (crval a) * DEG2RAD in let phi1 := snd (crval a) * DEG2RAD in
  let lambda := ra * DEG2RAD in let phi := dec * DEG2RAD in
  let invcosc := 1 / cosc a ra dec in
  let xsi := RAD2DEG * invcosc * cos phi * sin (lambda - lambda0) in
  let eta := RAD2DEG * invcosc * (cos phi1 * sin phi - sin phi1 * cos phi * cos (lambda - lambda0)) in
  (xy2xy_rotation a xsi eta, invcosc * invcosc * invcosc).
(** projection_scale_gnomonic, 332-344, with distance_2d of module_math_old.f90 88-106, at the
    pixel (i, j) counted from zero. *)
Definition projection_scale (a : astrometry) (i j : Z) : R :=
  let '(cdelt1, cdelt2, _) := cd_info (cdm a) in
  let r1 := tan (cdelt1 * DEG2RAD) in let r2 := tan (cdelt2 * DEG2RAD) in
  let tmpj := (r2 * (IZR j - (snd (crpix a) - 1))) * (r2 * (IZR j - (snd (crpix a) - 1))) in
  let d := sqrt ((r1 * (IZR i - (fst (crpix a) - 1))) * (r1 * (IZR i - (fst (crpix a) - 1))) + tmpj) in
  let c := cos (atan d) in c * c * c.
(** refpix_area, 386-395, in square seconds of arc. *)
Definition refpix_area (a : astrometry) : R :=
  let '((i11, i12), (i21, i22)) := cdinv (cdm a) in 1 / Rabs (i11 * i22 - i12 * i21) * (3600 * 3600).

(** ** Pointing *)
(** object2ad, wcsutils.f90 186-219. *)
Definition object2ad (ra dec pa : R) (input : R * R) : R * R :=
  let cospa := cos (pa * DEG2RAD) in let sinpa := sin (pa * DEG2RAD) in
  let c1 := fst input / 3600 in let c2 := snd input / 3600 in
  let out2 := dec + (- c1 * sinpa + c2 * cospa) in
  (ra + (c1 * cospa + c2 * sinpa) / cos (out2 * DEG2RAD), out2).
(** RotationBoresightEquatorialOperator.direct, wcsutils.py 575-585. *)
Definition boresight (ra dec pa : R) (x : R * R) : R * R :=
  let pa := radians pa in
  let cospa := cos pa / 3600 in let sinpa := sin pa / 3600 in
  let out1 := dec + (- fst x * sinpa + snd x * cospa) in
  (ra + (fst x * cospa + snd x * sinpa) / cos (radians out1), out1).
(** object2xy_minmax, wcsutils.f90 225-263; the coordinates of each pointing, the pointings in
    any order. *)
Definition xy_step (s : (num * num) * (num * num)) (p : R * R) : (num * num) * (num * num) :=
  let '((xmin, xmax), (ymin, ymax)) := s in
  ((num_min xmin (fst p), num_max xmax (fst p)), (num_min ymin (snd p), num_max ymax (snd p))).
Definition object2xy_minmax (pinf minf : num) (a : astrometry) (coords : list (R * R)) (pointings : list (R * R * R)) : (num * num) * (num * num) :=
  fold_left (fun s pt => let '(ra, dec, pa) := pt in
             fold_left (fun s c => let '(x, y) := object2ad ra dec pa c in xy_step s (ad2xy_gnomonic a x y)) coords s) pointings ((pinf, minf), (pinf, minf)).
(** object2pmatrix_sharp_edges, 325-372: new_npixels_per_sample is shared by the threads (the
    reduction is that of another variable) and roi2pmatrix_cartesian, module_pointingmatrix.f90
    698, reads it then writes the maximum.  A thread has the widths of its samples to do and
    the value that it has read; [choice]: the thread that does the next action. *)
Definition wthread := (option Z * list Z)%type.
Definition max_action (shared : Z) (t : wthread) : Z * wthread :=
  match t with
  | (_, []) => (shared, t)
  | (None, w :: r) => (shared, (Some shared, w :: r))
  | (Some v, w :: r) => (Z.max v w, (None, r))
  end.
Fixpoint sharp_edges_width (choice : list nat) (shared : Z) (threads : list wthread) : Z * list wthread :=
  match choice with
  | [] => (shared, threads)
  | k :: c =>
      match nth_error threads k with
      | Some t => let '(s, t') := max_action shared t in sharp_edges_width c s (set_nth threads k t')
      | None => sharp_edges_width c shared threads
      end
  end.

(** ** combine_fitsheader, wcsutils.py 85-153.  A world coordinate is a vector of the sphere,
    up to a positive factor: wcs_pix2world and wcs_world2pix of astropy (pixels counted from
    one) are the tangent projection of the header. *)
Definition basis (a : astrometry) : vec * vec * vec :=
  let l := fst (crval a) * DEG2RAD in let p := snd (crval a) * DEG2RAD in
  ((cos p * cos l, cos p * sin l, sin p), (- sin l, cos l, 0), (- sin p * cos l, - sin p * sin l, cos p)).
Definition pix2world (a : astrometry) (x y : R) : vec :=
  let '((cd11, cd12), (cd21, cd22)) := cdm a in
  let u := x - fst (crpix a) in let v := y - snd (crpix a) in
  let xsi := (cd11 * u + cd12 * v) * DEG2RAD in let eta := (cd21 * u + cd22 * v) * DEG2RAD in
  let '((c1, c2, c3), (e1, e2, e3), (n1, n2, n3)) := basis a in
  (c1 + xsi * e1 + eta * n1, c2 + xsi * e2 + eta * n2, c3 + xsi * e3 + eta * n3).
Definition world2pix (a : astrometry) (w : vec) : R * R :=
  let '(c, e, n) := basis a in
  let xsi := RAD2DEG * (dot3 w e / dot3 w c) in let eta := RAD2DEG * (dot3 w n / dot3 w c) in
  let '(x, y) := xy2xy_rotation a xsi eta in (x + 1, y + 1).
Definition edges (a : astrometry) (nx ny : Z) : list vec :=
  let x := fst (crpix a) in let y := snd (crpix a) in
  map (fun p => pix2world a (fst p) (snd p))
    (combine [/ 2; x; IZR nx + / 2; / 2; x; IZR nx + / 2; / 2; x; IZR nx + / 2] [/ 2; / 2; / 2; y; y; y; IZR ny + / 2; IZR ny + / 2; IZR ny + / 2]).
Fixpoint minimum (l : list R) : R := match l with [] => 0 | [x] => x | x :: r => Rmin x (minimum r) end.
Fixpoint maximum (l : list R) : R := match l with [] => 0 | [x] => x | x :: r => Rmax x (maximum r) end.
(** [round]: np.round. *)
Definition combine_enlarge (round : R -> Z) (a0 : astrometry) (headers : list (astrometry * Z * Z)) : astrometry * Z * Z :=
  let xy0 := map (fun h => let '(a, nx, ny) := h in map (world2pix a0) (edges a nx ny)) headers in
  let xmin0 := round (minimum (map (fun l => minimum (map fst l)) xy0)) in
  let xmax0 := round (maximum (map (fun l => maximum (map fst l)) xy0)) in
  let ymin0 := round (minimum (map (fun l => minimum (map snd l)) xy0)) in
  let ymax0 := round (maximum (map (fun l => maximum (map snd l)) xy0)) in
  (Astrometry (2 - IZR xmin0, 2 - IZR ymin0) (crval a0) (cdm a0), (xmax0 - xmin0 + 1)%Z, (ymax0 - ymin0 + 1)%Z).
Definition num_value (a : num) : res R := match a with Fin x => Ok x | _ => Err ValueError end.
Definition combine_fitsheader (nan : num) (round : R -> Z) (headers : list (astrometry * Z * Z)) (cdelt : option (arg R)) (pa : option R) : res (astrometry * Z * Z) :=
  match headers, cdelt, pa with
  | [h], None, None => Ok h
  | _, _, _ =>
      let '(lon, lat) := barycenter_lonlat nan (map (fun h => let '(a, _, _) := h in (Some (fst (crval a)), Some (snd (crval a)))) headers) in
      do lon <- num_value lon; do lat <- num_value lat;
      do cdeltpa <- match cdelt, pa with Some _, Some _ => Ok [] | _, _ => map_res (fun h => let '(a, _, _) := h in cdelt_pa (cdm a)) headers end;
      let cdelt := match cdelt with Some c => c | None => One (minimum (map (fun c => let '(c1, c2, _) := c in Rmin (Rabs c1) (Rabs c2)) cdeltpa)) end in
      do pa <- match pa with Some p => Ok p | None => num_value (mean_degrees nan (map (fun c => Some (snd c)) cdeltpa)) end;
      do cd <- cd_of (Some ["RA---TAN"; "DEC--TAN"]%string) cdelt (Some pa);
      match headers with
      | [] => Err ValueError (* min of an empty list *)
      | _ => Ok (combine_enlarge round (Astrometry (1, 1) (lon, lat) cd) headers)
      end
  end.
