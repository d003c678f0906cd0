(** C93: spectra of images and four-quadrant masks, datautils.py: psd2 (507-536), profile_psd2 (539-568),
    phasemask_fourquadrant (412-416).

    Images are lists of rows of complex numbers (pairs of reals); the FFT is the discrete Fourier transform. *)
From Coq Require Import Reals List ZArith.
From Verif Require Import Base ConstModel DataModel SparseModel NoiseModel PsdModel.
Import ListNotations.
Open Scope R_scope.

Definition C := (R * R)%type.
Definition image := list (list C).
Definition value_at (x : image) (i j : nat) : C := nth j (nth i x []) (0, 0).
Definition nrows (x : image) : nat := length x.
Definition ncols (x : image) : nat := length (hd [] x).
(** The transform at the frequencies k and l. *)
Definition angle (n m k l i j : nat) : R := 2 * PI * (INR (k * i) / INR n + INR (l * j) / INR m).
Definition fft (x : image) (k l : nat) : C :=
  let n := nrows x in let m := ncols x in
  (rsum n (fun i => rsum m (fun j => fst (value_at x i j) * cos (angle n m k l i j) + snd (value_at x i j) * sin (angle n m k l i j))),
   rsum n (fun i => rsum m (fun j => snd (value_at x i j) * cos (angle n m k l i j) - fst (value_at x i j) * sin (angle n m k l i j)))).
Definition abs2 (z : C) : R := fst z ^ 2 + snd z ^ 2.
(** scipy.fftpack.fftshift, along both axes. *)
Definition fftshift (n m : nat) (s : nat -> nat -> R) (i j : nat) : R := s ((i + (n - n / 2)) mod n)%nat ((j + (m - m / 2)) mod m)%nat.
(** 527-536; [ndim]: number of dimensions of the array. *)
Definition psd2 (ndim : nat) (x : image) (fs : R) : res (list (list R)) :=
  if negb (Nat.eqb ndim 2) then Err ValueError else
  let n := nrows x in let m := ncols x in
  let size := INR (n * m) in
  let bandwidth := fs ^ 2 / size in
  let s k l := abs2 (fft x k l) / size ^ 2 / bandwidth in
  Ok (map (fun i => map (fun j => fftshift n m s i j) (seq 0 m)) (seq 0 n)).
(** 561-568; [share]: how profile shares the pixels between the threads (C42); both axes of the array have the
    same length, and the centre is the same integer along both. *)
Definition profile_psd2 (nan : num) (share : list pixel -> list (list pixel)) (x : image) (fs : R) : res (list (R * num)) :=
  let n := nrows x in let m := ncols x in
  if negb (Nat.eqb n m) then Err ValueError else
  do psd <- psd2 2 x fs;
  do r <- profile nan share m (map (map Some) psd) 1 None (Some (INR (n / 2 + 1), INR (m / 2 + 1))) 1;
  Ok (map (fun b => let '(f, y, _) := b in (f * (fs / INR m), y)) r).

(** 412-416 *)
Definition assign_block (r0 r1 c0 c1 : nat) (v : C) (x : image) : image :=
  map (fun ir => map (fun jv => if ((r0 <=? fst ir) && (fst ir <? r1) && (c0 <=? fst jv) && (fst jv <? c1))%nat then v else snd jv) (combine (seq 0 (length (snd ir))) (snd ir)))
    (combine (seq 0 (length x)) x).
Definition phasemask_fourquadrant (n m : nat) (phase : C) : image :=
  let a := repeat (repeat (1, 0) m) n in
  let a := assign_block 0 (n / 2) (m / 2) m phase a in
  assign_block (n / 2) n 0 (m / 2) phase a.
