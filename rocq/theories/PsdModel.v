(** noises.py over the real numbers, for one spectrum: _gaussian_psd_1f 39-80 (two sided),
    _gaussian_sample 83-126, _sampling2psd 129-146, _psd2invntt 149-161, _logloginterp_psd
    164-177, _interp 180-198; instruments.py: get_invntt_operator 194-236, get_noise 282-335,
    for one detector.

    Exact real numbers; None is a number that is not finite.  The drawn numbers [gauss] are a
    parameter.  The one-sided spectrum of _gaussian_psd_1f is in Psd3Model;
    the broadcast of a spectrum of one element is not modelled. *)
From Coq Require Import Reals List.
From Verif Require Import Base SparseModel NoiseModel.
Import ListNotations.
Open Scope R_scope.

Definition rops : ops R := Ops R 0 1 Rplus Rmult Ropp.
Fixpoint rsum (n : nat) (f : nat -> R) : R := match n with O => 0 | S k => rsum k f + f k end.
Definition at0 (l : list R) (k : nat) : R := nth k l 0.

(** Fourier transforms (environment: numpy.fft, pyfftw), as pairs. *)
Definition wave (n j k : nat) : R := 2 * PI * (INR j * INR k) / INR n.
Definition fft (l : list R) : list (R * R) :=
  let n := length l in
  map (fun k => (rsum n (fun m => at0 l m * cos (wave n m k)), - rsum n (fun m => at0 l m * sin (wave n m k)))) (seq 0 n).
Definition ifft_real (l : list (R * R)) : list R :=
  let n := length l in
  map (fun k => / INR n * rsum n (fun j => fst (nth j l (0, 0)) * cos (wave n j k) - snd (nth j l (0, 0)) * sin (wave n j k)))
      (seq 0 n).
(** numpy.fft.fftfreq (environment). *)
Definition fftfreq (n : nat) (d : R) : list R :=
  map (fun k => (if (k <? (n - 1) / 2 + 1)%nat then INR k else INR k - INR n) * (1 / (INR n * d))) (seq 0 n).

(** x ** s for 0 <= x. *)
Definition npow (x s : R) : option R :=
  if Rlt_dec 0 x then Some (Rpower x s)
  else if Rlt_dec 0 s then Some 0 else if Req_EM_T s 0 then Some 1 else None.

(** _gaussian_psd_1f with twosided=True: fknee / frq[0] is 0, frq[0] being infinite. *)
Definition psd_1f (n : nat) (fs sigma fknee fslope : R) : list (option R) :=
  map (fun k => let ratio := if (k =? 0)%nat then 0 else fknee / at0 (fftfreq n (1 / fs)) k in
                option_map (fun p => sigma ^ 2 * (1 + p) / fs) (npow (Rabs ratio) fslope)) (seq 0 n).

(** _gaussian_sample. *)
Definition gaussian_sample (n : nat) (fs : R) (psd : list R) (twosided : bool) (gauss : list R) : res (list R) :=
  do psd <- (if twosided then Ok psd else unfold_psd rops (/ 2) psd);
  if (n =? 0)%nat || negb (length psd =? n)%nat then Err ValueError else
  let ftgauss := set_nth (fft gauss) 0 (0, 0) in
  let spec := map (fun xp => (fst (fst xp) * sqrt (snd xp), snd (fst xp) * sqrt (snd xp))) (combine ftgauss psd) in
  Ok (map (fun x => x * sqrt fs) (ifft_real spec)).

(** _sampling2psd: frequencies and spectrum. *)
Definition add_last (l : list R) (x : R) : list R :=
  match rev l with [] => [] | a :: r => rev ((a + x) :: r) end.
Definition sampling2psd (x : list R) (fs : R) : res (list R * list R) :=
  let n := length x in
  if (n =? 0)%nat then Err ValueError else
  let psd := map (fun z => (fst z) ^ 2 + (snd z) ^ 2) (fft x) in
  let freq := add_last (firstn (n / 2 + 1) (fftfreq n (1 / fs))) fs in
  do last <- item_at psd (n / 2);
  Ok (freq, map (fun p => p / (INR n * fs)) (0 :: map (fun p => 2 * p) (part_of psd 1 (n / 2)) ++ [last])).

(** _psd2invntt; ncorr + 1 fails for None. *)
Definition psd2invntt (psd : list R) (bandwidth : R) (ncorr : option nat) : res (list R) :=
  let fftsize := length psd in
  let fsamp := bandwidth * INR fftsize in
  match ncorr with
  | None => Err TypeError
  | Some ncorr =>
      let out := fft (map (fun p => (1 / fsamp) / p) psd) in
      Ok (map (fun z => fst z / INR fftsize) (firstn (ncorr + 1) out))
  end.

(** _interp, as in [NoiseModel], and _logloginterp_psd. *)
Definition ltb (a b : R) : bool := if Rlt_dec a b then true else false.
Fixpoint advance (fuel : nat) (x : list R) (z : R) (ix : nat) : res nat :=
  match fuel with
  | O => Err RuntimeError                                        (* does not end *)
  | S f => do x2 <- item_at x ix;
           if ltb x2 z && (ix <? length x - 1)%nat then advance f x z (S ix) else Ok ix
  end.
Definition value_at (x y : list R) (z : R) (ix : nat) : res R :=
  do x1 <- item_at x (ix - 1); do x2 <- item_at x ix;
  do y1 <- item_at y (ix - 1); do y2 <- item_at y ix;
  Ok (((z - x1) * y2 + (x2 - z) * y1) / (x2 - x1)).
Fixpoint interp_from (x y : list R) (ix : nat) (zs : list R) : res (list R) :=
  match zs with
  | [] => Ok []
  | z :: r => do ix' <- advance (S (length x)) x z ix;
              do v <- value_at x y z ix';
              do vs <- interp_from x y ix' r;
              Ok (v :: vs)
  end.
Definition interp (z x y : list R) : res (list R) :=
  do _ <- item_at x 0; do _ <- item_at x 1; interp_from x y 1 z.
Definition inner_part (l : list R) : list R := part_of l 1 (length l - 1).           (* [1:-1] *)
Definition halve_last (l : list R) : list R := match rev l with [] => [] | a :: r => rev (a / 2 :: r) end.
Definition all_positive (l : list R) : bool := forallb (ltb 0) l.
Definition logloginterp_psd (f : list R) (bandwidth : R) (psd : list R) : res (list R) :=
  let frequency := map (fun k => INR k * bandwidth) (seq 0 (length psd)) in
  do p0 <- item_at psd 0;
  do _ <- item_at f 0;                                           (* out[..., 0] of an empty array *)
  if negb (all_positive (tl f) && all_positive (inner_part frequency) && all_positive (inner_part psd))
  then Err RuntimeError (* not finite *) else
  do v <- interp (map ln (tl f)) (map ln (inner_part frequency)) (map ln (inner_part psd));
  Ok (halve_last (p0 :: map exp v)).

(** ** instruments.py, for one detector *)
Inductive invntt := Diagonal (w : R) | Toeplitz (firstrow : list R).
Fixpoint all_finite (l : list (option R)) : option (list R) :=
  match l with
  | [] => Some []
  | Some x :: r => option_map (cons x) (all_finite r)
  | None :: _ => None
  end.
(** p[..., 0] = p[..., 1] *)
Definition first_as_second {A} (l : list A) : res (list A) :=
  match l with _ :: b :: r => Ok (b :: b :: r) | _ => Err IndexError end.
Definition white_sigma (period : R) (sigma nep : option R) : option R :=
  match nep with Some e => Some (e / sqrt (2 * period)) | None => sigma end.
Definition is_none {A} (x : option A) : bool := match x with None => true | Some _ => false end.
Definition is0 (x : R) : bool := if Req_EM_T x 0 then true else false.

Definition get_invntt (nsamples : nat) (period : R) (psd : option (list R)) (bandwidth : option R) (twosided : bool)
    (sigma nep : option R) (fknee fslope : R) (ncorr : option nat) : res invntt :=
  if (is_none bandwidth && negb (is_none psd)) || (negb (is_none bandwidth) && is_none psd) then Err ValueError else
  let sigma := white_sigma period sigma nep in
  if is_none bandwidth && is_none psd && is_none sigma then Err ValueError else
  if is_none bandwidth && is0 fknee then
    match sigma with Some s => Ok (Diagonal (1 / s ^ 2)) | None => Err TypeError end
  else
    let fs := 1 / period in
    do fftsize <- fft_size (S nsamples) nsamples 2;
    let new_bandwidth := fs / INR fftsize in
    do p <- match bandwidth, psd with
            | Some b, Some psd =>
                do psd <- (if twosided then fold_psd rops psd else Ok psd);
                do q <- logloginterp_psd (map (fun k => INR k * new_bandwidth) (seq 0 (fftsize / 2 + 1))) b psd;
                unfold_psd rops (/ 2) q
            | _, _ =>
                match sigma with
                | None => Err TypeError
                | Some s => do p <- first_as_second (psd_1f fftsize fs s fknee fslope);
                            match all_finite p with Some p => Ok p | None => Err RuntimeError (* not finite *) end
                end
            end;
    do p <- first_as_second p;
    do row <- psd2invntt p new_bandwidth ncorr;
    Ok (Toeplitz row).

Definition get_noise (period : R) (psd : option (list R)) (bandwidth : option R) (twosided : bool)
    (sigma nep : option R) (fknee fslope : R) (gauss : list R) : res (list R) :=
  let n := length gauss in
  if (is_none bandwidth && negb (is_none psd)) || (negb (is_none bandwidth) && is_none psd) then Err ValueError else
  let sigma := white_sigma period sigma nep in
  if is_none bandwidth && is_none psd && is_none sigma then Err ValueError else
  if is_none bandwidth && is0 fknee then
    match sigma with Some s => Ok (map (fun g => g * s) gauss) | None => Err TypeError end
  else
    let fs := 1 / period in
    match bandwidth, psd with
    | Some b, Some psd =>
        do psd <- (if twosided then fold_psd rops psd else Ok psd);
        do p <- logloginterp_psd (map (fun k => INR k * (fs / INR n)) (seq 0 (n / 2 + 1))) b psd;
        gaussian_sample n fs p false gauss
    | _, _ =>
        match sigma with
        | None => Err TypeError
        | Some s => match all_finite (psd_1f n fs s fknee fslope) with
                    | Some p => gaussian_sample n fs p true gauss
                    | None => Err RuntimeError (* not finite *)
                    end
        end
    end.

(** get_noise for several detectors, 298-305 and 320-335, with one deviation per detector:
    [draws d i] are the numbers drawn for the detector [d] and the row [i] of the spectrum.
    The white noise is broadcast; the samples of a spectrum of several rows are assigned to
    the row of each detector. *)
Definition assign_row (rows : list (list R)) : res (list R) := match rows with [x] => Ok x | _ => Err ValueError end.
Definition get_noise_each (ndetectors n : nat) (period : R) (sigmas : list R) (fknee fslope : R)
    (draws : nat -> nat -> list R) : res (list (list R)) :=
  if is0 fknee then
    if (length sigmas =? ndetectors)%nat || (length sigmas =? 1)%nat then
      Ok (map (fun d => map (fun g => g * nth (if (length sigmas =? 1)%nat then 0 else d) sigmas 0) (draws d 0%nat)) (seq 0 ndetectors))
    else Err ValueError
  else
    let fs := 1 / period in
    map_res (fun d =>
      do rows <- map_res (fun i => match all_finite (psd_1f n fs (nth i sigmas 0) fknee fslope) with
                                   | Some p => gaussian_sample n fs p true (draws d i)
                                   | None => Err RuntimeError (* not finite *)
                                   end) (seq 0 (length sigmas));
      assign_row rows) (seq 0 ndetectors).
