(** datautils.f90.j2, datautils.py and beams.py, with exact real numbers. *)
From Coq Require Import Reals.
From Verif Require Import Base ConstModel.
Open Scope R_scope.

(** ** profile_axisymmetric_2d, datautils.f90.j2 117-161 *)
Definition trunc (x : R) : Z := if Rle_dec 0 x then Int_part x else (- Int_part (- x))%Z.
(** Conversion to a 32-bit integer: undefined out of range. *)
Definition int32 (x : R) : res Z :=
  let k := trunc x in if ((- 2 ^ 31 <=? k) && (k <? 2 ^ 31))%Z then Ok k else Err RuntimeError (* undefined *).
(** A division: by zero it has no finite value, whose conversion is undefined. *)
Definition int32_quotient (x y : R) : res Z := if Req_EM_T y 0 then Err RuntimeError (* undefined *) else int32 (x / y).
(** i, j and the value; [None]: NaN. *)
Definition pixel := (Z * Z * option R)%type.
Record accu := Accu { ax : list R; ay : list R; an : list Z }.
Definition accu0 (nbins : nat) : accu := Accu (repeat 0 nbins) (repeat 0 nbins) (repeat 0%Z nbins).
Definition profile_pixel (origin : R * R) (bin : R) (nbins : nat) (a : accu) (p : pixel) : res accu :=
  let '(i, j, val) := p in
  match val with
  | None => Ok a
  | Some val =>
      let tmpj := (IZR j - snd origin) * (IZR j - snd origin) in
      let distance := sqrt ((IZR i - fst origin) * (IZR i - fst origin) + tmpj) in
      do k <- int32_quotient distance bin;
      let ibin := (k + 1)%Z in
      if (2 ^ 31 <=? ibin)%Z then Err RuntimeError (* overflow *)
      else if (Z.of_nat nbins <? ibin)%Z then Ok a
      else
        do x <- get (ax a) (ibin - 1); do y <- get (ay a) (ibin - 1); do n <- get (an a) (ibin - 1);
        Ok (Accu (set_at (ax a) (ibin - 1) (x + distance)) (set_at (ay a) (ibin - 1) (y + val)) (set_at (an a) (ibin - 1) (n + 1)%Z))
  end.
Fixpoint profile_pixels origin bin nbins (a : accu) (l : list pixel) : res accu :=
  match l with [] => Ok a | p :: r => do a <- profile_pixel origin bin nbins a p; profile_pixels origin bin nbins a r end.
(** reduction(+:x,y,n): each thread adds the pixels of its share to zeros, in its order; the
    sums of the threads are then added, in any order. *)
Definition add_accu (a b : accu) : accu :=
  Accu (map (fun p => fst p + snd p) (combine (ax a) (ax b))) (map (fun p => fst p + snd p) (combine (ay a) (ay b)))
       (map (fun p => (fst p + snd p)%Z) (combine (an a) (an b))).
Fixpoint profile_threads origin bin nbins (a : accu) (threads : list (list pixel)) : res accu :=
  match threads with
  | [] => Ok a
  | t :: r => do b <- profile_pixels origin bin nbins (accu0 nbins) t; profile_threads origin bin nbins (add_accu a b) r
  end.
(** 151-159. *)
Definition profile_bin (nan : num) (bin : R) (i : nat) (x y : R) (n : Z) : R * num * Z :=
  if negb (n =? 0)%Z then (x / IZR n, Fin (y / IZR n), n) else (bin * (INR i - / 2), nan, n).
Definition profile_axisymmetric (nan : num) (origin : R * R) (bin : R) (nbins : nat) (threads : list (list pixel)) : res (list (R * num * Z)) :=
  do a <- profile_threads origin bin nbins (accu0 nbins) threads;
  Ok (map (fun k => profile_bin nan bin (S k) (nth k (ax a) 0) (nth k (ay a) 0) (nth k (an a) 0%Z)) (seq 0 nbins)).
(** The pixels of an array of ny lines and nx columns. *)
Definition pixels_of (input : list (list (option R))) : list pixel :=
  flat_map (fun jl => map (fun iv => (Z.of_nat (fst iv), Z.of_nat (fst jl), snd iv)) (combine (seq 0 (length (snd jl))) (snd jl))) (combine (seq 0 (length input)) input).

(** profile, datautils.py 454-504: [share]: how the pixels are shared between the threads. *)
Definition default_center (nx ny : nat) : R * R := ((INR nx - 1) / 2, (INR ny - 1) / 2).
Definition default_nbins (nx ny : nat) (center : R * R) (bin_scaled : R) : Z :=
  trunc (Rmax (Rmax (INR ny - snd center) (snd center)) (Rmax (INR nx - fst center) (fst center)) / bin_scaled).
Definition profile (nan : num) (share : list pixel -> list (list pixel)) (nx : nat) (input : list (list (option R))) (bin : R) (nbins : option Z) (center : option (R * R)) (scale : R)
    : res (list (R * num * Z)) :=
  let center := match center with Some c => c | None => default_center nx (length input) end in
  if Req_EM_T scale 0 then Err ZeroDivisionError
  else
    let bin_scaled := bin / scale in
    do nbins <- match nbins with
                | Some n => Ok n
                | None => if Req_EM_T bin_scaled 0 then Err ZeroDivisionError else Ok (default_nbins nx (length input) center bin_scaled)
                end;
    if (nbins <? 0)%Z then Err ValueError (* negative dimension *)
    else
      do r <- profile_axisymmetric nan center bin_scaled (Z.to_nat nbins) (share (pixels_of input));
      Ok (map (fun b => let '(x, y, n) := b in (x * scale, y, n)) r).
(** integrated_profile, 376-409. *)
Fixpoint cumsum (s : R) (l : list R) : list R := match l with [] => [] | x :: r => (s + x) :: cumsum (s + x) r end.
Definition integrated_profile nan share nx input bin nbins center scale : res (list R * list R) :=
  do r <- profile nan share nx input bin nbins center scale;
  let y := map (fun b => let '(_, y, n) := b in (match y with Fin v => v | _ => 0 end) * (IZR n * (scale * scale))) r in
  Ok (map (fun b => fst (fst b)) r, cumsum 0 y).

(** ** Distances, datautils.f90.j2 11-88 *)
Definition distance_1d (origin scaling : R) (i : Z) : R := Rabs (scaling * (IZR i - origin)).
Definition distance2_1d (origin scaling2 : R) (i : Z) : R := scaling2 * ((IZR i - origin) * (IZR i - origin)).
Definition distance_2d (origin scaling : R * R) (i j : Z) : R :=
  let x2 := distance2_1d (fst origin) (fst scaling * fst scaling) in
  let y2 := distance2_1d (snd origin) (snd scaling * snd scaling) in
  let tmp := y2 j in sqrt (x2 i + tmp).
Definition distance2_2d (origin scaling2 : R * R) (i j : Z) : R :=
  let x2 := distance2_1d (fst origin) (fst scaling2) in
  let y2 := distance2_1d (snd origin) (snd scaling2) in
  let tmp := y2 j in x2 i + tmp.
(** distance and distance2, datautils.py 94-174 and 177-263, at the index [idx] of the array:
    a scale that is a scalar is that of all axes, the center and the scale are given in the
    reverse order of the axes.  The Fortran routines need one element by axis; zip stops at
    the shortest. *)
Inductive scaling := Same (s : R) | Each (l : list R).
Definition scales (ndim : nat) (s : scaling) : list R := match s with Same s => repeat s ndim | Each l => l end.
Fixpoint squares (d : list (Z * (R * R))) : list R :=
  match d with [] => [] | (a, (o, s)) :: r => (s * (IZR a - o)) * (s * (IZR a - o)) :: squares r end.
Definition sum_python (l : list R) : R := fold_left Rplus l 0.
Definition distance (shape : list Z) (center : option (list R)) (scale : scaling) (idx : list Z) : res R :=
  let center := match center with Some c => c | None => map (fun n => (IZR n - 1) / 2) (rev shape) end in
  let scale := scales (length shape) scale in
  match idx with
  | [i] => match center, scale with o :: _, s :: _ => Ok (distance_1d o s i) | _, _ => Err IndexError end
  | [j; i] => match center, scale with [ox; oy], [sx; sy] => Ok (distance_2d (ox, oy) (sx, sy) i j) | _, _ => Err ValueError end
  | _ => Ok (sqrt (sum_python (squares (combine idx (combine (rev center) (rev scale))))))
  end.
(** np.sum(sum(d[:-1]), d[-1], out): the last square is given as the axis. *)
Definition distance2 (shape : list Z) (center : option (list R)) (scale : scaling) (idx : list Z) : res R :=
  let center := match center with Some c => c | None => map (fun n => (IZR n - 1) / 2) (rev shape) end in
  let scale := scales (length shape) scale in
  match idx with
  | [i] => match center, scale with o :: _, s :: _ => Ok (distance2_1d o (s * s) i) | _, _ => Err IndexError end
  | [j; i] => match center, scale with [ox; oy], [sx; sy] => Ok (distance2_2d (ox, oy) (sx * sx, sy * sy) i j) | _, _ => Err ValueError end
  | _ => Err TypeError
  end.
(** aperture_circular, 69-91. *)
Definition aperture_circular shape (diameter : R) center scale idx : res R :=
  do d <- distance2 shape center scale idx; Ok (if Rle_dec d ((diameter / 2) * (diameter / 2)) then 1 else 0).

(** gaussian_2d, datautils.f90.j2 91-114. *)
Definition gaussian_2d (origin sigma : R * R) (i j : Z) : R :=
  let coef := 1 / (2 * (4 * atan 1) * fst sigma * snd sigma) in
  let x2 := distance2_1d (fst origin) (/ 2 / (fst sigma * fst sigma)) in
  let x2 := fun i => coef * exp (- x2 i) in
  let y2 := distance2_1d (snd origin) (/ 2 / (snd sigma * snd sigma)) in
  let y2 := fun j => exp (- y2 j) in
  let tmp := y2 j in x2 i * tmp.
(** gaussian, datautils.py 322-373, for floating point numbers: the other numbers of axes.
    np.ogrid has n points from start to stop. *)
Definition linspace (start stop : R) (n : Z) (k : Z) : R := if (n <=? 1)%Z then start else start + (stop - start) / IZR (n - 1) * IZR k.
Fixpoint axes_values (l : list (Z * (Z * (R * R)))) : list R :=
  match l with
  | [] => []
  | (k, (sh, (o, sigma))) :: r => let sc := 1 / (sqrt 2 * sigma) in linspace (- o * sc) ((IZR sh - 1 - o) * sc) sh k :: axes_values r
  end.
Definition gaussian_nd (shape : list Z) (center sigma : list R) (idx : list Z) : R :=
  let out := 1 / (Rpower (2 * PI) (INR (length shape) / 2) * fold_right Rmult 1 sigma) in
  fold_left (fun out a => out * exp (- (a * a))) (axes_values (combine idx (combine shape (combine (rev center) (rev sigma))))) out.
Definition fwhm2sigma (fwhm : R) : R := fwhm / sqrt (8 * ln 2).
Definition gaussian (shape : list Z) (sigma fwhm : option scaling) (center : option (list R)) (idx : list Z) : res R :=
  let n := length shape in
  do sigma <- match sigma, fwhm with
              | Some s, _ => Ok s
              | None, Some f => Ok (match f with Same f => Same (fwhm2sigma f) | Each l => Each (map fwhm2sigma l) end)
              | None, None => Err ValueError
              end;
  let center := match center with Some c => c | None => map (fun n => (IZR n - 1) / 2) (rev shape) end in
  let sigma := scales n sigma in
  match idx with
  | [j; i] => match center, sigma with [ox; oy], [sx; sy] => Ok (gaussian_2d (ox, oy) (sx, sy) i j) | _, _ => Err ValueError end
  | _ => Ok (gaussian_nd shape center sigma idx)
  end.
(** phasemask_fourquadrant, 412-416, for an array of the shape (ny, nx). *)
Definition phasemask {A} (one phase : A) (ny nx j i : Z) : A :=
  let array := one in
  let array := if ((0 <=? j) && (j <? ny / 2) && (nx / 2 <=? i))%Z then phase else array in
  if ((ny / 2 <=? j) && (i <? nx / 2))%Z then phase else array.

(** ** Beams, beams.py 40-68 *)
Definition beam_sigma (fwhm : R) : R := fwhm / sqrt (8 * ln 2).
Definition beam_solid_angle (fwhm : R) : R := 2 * PI * (beam_sigma fwhm * beam_sigma fwhm).
Definition beam_gaussian (fwhm : R) (backward : bool) (theta phi : R) : R :=
  let theta := if backward then PI - theta else theta in
  let coef := - / 2 / (beam_sigma fwhm * beam_sigma fwhm) in
  exp (coef * (theta * theta)).
