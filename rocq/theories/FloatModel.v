(** Integers computed through double precision numbers: the functions of the other models,
    with the divisions, square roots and comparisons rounded to the nearest as the code has
    them.

    - core.py 758: [int(np.ceil(extent / abs(step)))];
    - mpiutils.py 110, 114, 124, 125: [int(np.ceil(a / b))]; 121: [a / b != a // b];
    - acquisitions.py 120: [int(np.ceil(nbytes / max_nbytes))];
    - interfaces/healpy/operators.py 350: [int(np.round(np.sqrt(n / 12)))].

    Python divides integers with a single rounding; NumPy converts them first, which is exact
    below 2^53. *)
From Coq Require Import ZArith Reals List Bool.
From Flocq Require Import Core.
From Verif Require Import Base PTModel AcqModel MpiModel StrLogModel HpModel.
Import ListNotations.
Open Scope Z_scope.

Definition div64 (a b : Z) : R := rnd64 (IZR a / IZR b).
Definition ceil_div64 (a b : Z) : Z := Zceil (div64 a b).
Definition differs64 (a b : Z) : bool := if Req_EM_T (div64 a b) (IZR (a / b)) then false else true.

(** core.py 726-762, [normalize_slice] of PTModel with the division of line 758. *)
Definition normalize_slice64 (s : pyslice) (n : Z) : res nslice :=
  let step := match sl_step s with None => 1 | Some k => k end in
  if step =? 0 then Err ValueError else
  let finish start :=
    let stop :=
      match sl_stop s with
      | None => if 0 <? step then n else -1
      | Some v => if v <? 0 then n + v else if n <? v then n else v
      end in
    let extent := if 0 <? step then Z.max (stop - start) 0 else Z.max (start - stop) 0 in
    let size := ceil_div64 extent (Z.abs step) in
    if (size =? n) && (step =? 1) then Ok NSEll
    else Ok (NS start (start + size * step) step) in
  match sl_start s with
  | None => finish (if 0 <? step then 0 else n - 1)
  | Some v =>
      if v <? 0 then
        if n + v <? 0 then
          (if step <? 0 then Ok (NS 0 0 step) else finish 0)
        else finish (n + v)
      else if n <=? v then
        (if 0 <? step then Ok (NS (n - 1) (n - 1) step) else finish (n - 1))
      else finish v
  end.

(** acquisitions.py 113-121. *)
Definition make_blocks64 (n nbytes : Z) (max_nbytes : option Z) : list (Z * Z) :=
  match max_nbytes with
  | None => [(0, n)]
  | Some m =>
      if m <? nbytes then
        let k := ceil_div64 nbytes m in
        map (fun r => (split_start n k r, split_start n k (r + 1))) (iota k)
      else [(0, n)]
  end.

(** mpiutils.py 95-149. *)
Definition cdivn64 (a b : nat) : nat := Z.to_nat (ceil_div64 (Z.of_nat a) (Z.of_nat b)).
Fixpoint for_x64 (nx ny size bs : nat) (xs : list nat) (last : option layout) : option layout :=
  match xs with
  | [] => last
  | x :: r =>
      if differs64 (Z.of_nat bs) (Z.of_nat x) then for_x64 nx ny size bs r last    (* 121-122 *)
      else
        let y := (bs / x)%nat in
        let l := Layout x y (cdivn64 nx x) (cdivn64 ny y) in
        if fits size l then Some l else for_x64 nx ny size bs r (Some l)
  end.
Fixpoint find_blocks64 (fuel nx ny size bs : nat) (last : option layout) : res layout :=
  match fuel with
  | O => Err RuntimeError                                         (* does not end *)
  | S n => match for_x64 nx ny size bs (seq 1 bs) last with
           | None => Err UnboundLocalError
           | Some l => if fits size l then Ok l else find_blocks64 n nx ny size (S bs) (Some l)
           end
  end.
Definition distribute64 {O} (mask : list bool) (obs : list O) (size nthreads rank : nat) : res (list bool * list O) :=
  if (size =? 1)%nat then Ok (mask, obs)
  else
    let good := good_positions mask in
    let nx := length obs in
    let ny := cdivn64 (length good) nthreads in
    do l <- find_blocks64 (S (nx * ny)) nx ny size (cdivn64 (nx * ny) size) None;
    let ix := (rank / nyb l)%nat in
    let iy := (rank mod nyb l)%nat in
    let '(dlo, dhi, olo, ohi) :=
      if (nxb l <=? ix)%nat then (0, 0, 0, 0)%nat
      else (iy * yb l * nthreads, (iy + 1) * yb l * nthreads, ix * xb l, (ix + 1) * xb l)%nat in
    Ok (mask_all (skipn dhi good) (mask_all (firstn dlo good) mask), firstn (ohi - olo) (skipn olo obs)).

(** interfaces/healpy/operators.py 347-355. *)
Definition nside64 (npix : Z) : Z := round_even (rnd64 (sqrt (div64 npix 12))).
Definition validatein64 (shape : list Z) : res unit :=
  match shape with
  | [s] | [s; _] => let n := nside64 s in if (12 * (n * n) =? s)%Z then Ok tt else Err ValueError
  | _ => Err ValueError
  end.
