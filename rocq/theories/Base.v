(** Common vocabulary: exceptions as values, Python slices and NumPy indexing.

    The second half of this file describes the *environment* of the modelled code
    (CPython slices, NumPy indexing of a first axis); it is part of the trusted
    base, not code of /repo. *)
From Coq Require Export List ZArith Bool.
Export ListNotations.
Open Scope Z_scope.

(** ** Exceptions as values *)
Inductive exn : Type :=
| ValueError | IndexError | ZeroDivisionError | TypeError | AttributeError
| NotImplementedError | UnboundLocalError | UnitError | KeyError | RuntimeError.

Inductive res (A : Type) : Type := Ok (a : A) | Err (e : exn).
Arguments Ok {A} a.
Arguments Err {A} e.

Definition bind {A B} (x : res A) (f : A -> res B) : res B :=
  match x with Ok a => f a | Err e => Err e end.

Definition rmap {A B} (f : A -> B) (x : res A) : res B :=
  match x with Ok a => Ok (f a) | Err e => Err e end.

Notation "'do' x <- e ; f" := (bind e (fun x => f))
  (at level 200, x name, e at level 100, f at level 200, right associativity).

Fixpoint map_res {A B} (f : A -> res B) (l : list A) : res (list B) :=
  match l with
  | [] => Ok []
  | x :: r => do y <- f x; do ys <- map_res f r; Ok (y :: ys)
  end.

Definition is_ok {A} (x : res A) : bool :=
  match x with Ok _ => true | Err _ => false end.

(** ** Integer helpers *)
Definition zlen {A} (l : list A) : Z := Z.of_nat (length l).

Definition prodZ (l : list Z) : Z := fold_right Z.mul 1 l.
Definition sumZ (l : list Z) : Z := fold_right Z.add 0 l.

(** [start; start+step; ...], n terms. *)
Definition progression (start step : Z) (n : nat) : list Z :=
  map (fun k => start + Z.of_nat k * step) (seq 0 n).

(** 0, 1, ..., n-1. *)
Definition iota (n : Z) : list Z := progression 0 1 (Z.to_nat n).

(** ceil(a / b) for b > 0. *)
Definition cdiv (a b : Z) : Z := - ((- a) / b).

(** ** NumPy: [np.arange(start, stop, step)] on integers. *)
Definition arange (start stop step : Z) : res (list Z) :=
  if step =? 0 then Err ZeroDivisionError
  else if 0 <? step then Ok (progression start step (Z.to_nat (cdiv (stop - start) step)))
  else Ok (progression start step (Z.to_nat (cdiv (start - stop) (- step)))).

(** ** CPython: slices.  [PySlice_Unpack] + [PySlice_AdjustIndices]. *)
Record pyslice := PySlice { sl_start : option Z; sl_stop : option Z; sl_step : option Z }.

Definition py_step (s : pyslice) : Z :=
  match sl_step s with None => 1 | Some k => k end.

Definition py_start (s : pyslice) (n : Z) : Z :=
  let step := py_step s in
  match sl_start s with
  | None => if step <? 0 then n - 1 else 0
  | Some v =>
      let v := if v <? 0 then v + n else v in
      if v <? 0 then (if step <? 0 then -1 else 0)
      else if n <=? v then (if step <? 0 then n - 1 else n)
      else v
  end.

Definition py_stop (s : pyslice) (n : Z) : Z :=
  let step := py_step s in
  match sl_stop s with
  | None => if step <? 0 then -1 else n
  | Some v =>
      let v := if v <? 0 then v + n else v in
      if v <? 0 then (if step <? 0 then -1 else 0)
      else if n <=? v then (if step <? 0 then n - 1 else n)
      else v
  end.

Definition py_slice_length (s : pyslice) (n : Z) : Z :=
  let step := py_step s in
  let start := py_start s n in
  let stop := py_stop s n in
  if step <? 0
  then (if stop <? start then (start - stop - 1) / (- step) + 1 else 0)
  else (if start <? stop then (stop - start - 1) / step + 1 else 0).

(** The positions of a sequence of length n that a slice selects, in order. *)
Definition py_slice_positions (s : pyslice) (n : Z) : res (list Z) :=
  if py_step s =? 0 then Err ValueError
  else Ok (progression (py_start s n) (py_step s) (Z.to_nat (py_slice_length s n))).

(** ** NumPy: integer indexing of a first axis of length n. *)
Definition np_wrap (n i : Z) : res Z :=
  if (0 <=? i) && (i <? n) then Ok i
  else if (- n <=? i) && (i <? 0) then Ok (i + n)
  else Err IndexError.

(** Element at a position already known to be in range. *)
Definition get {A} (l : list A) (i : Z) : res A :=
  if i <? 0 then Err IndexError
  else match nth_error l (Z.to_nat i) with Some x => Ok x | None => Err IndexError end.

(** l[i] with wrap-around of negative positions. *)
Definition np_get {A} (l : list A) (i : Z) : res A :=
  do j <- np_wrap (zlen l) i; get l j.

(** l[ints]. *)
Definition np_take {A} (l : list A) (idx : list Z) : res (list A) :=
  map_res (np_get l) idx.

(** l[slice]. *)
Definition np_slice {A} (l : list A) (s : pyslice) : res (list A) :=
  do idx <- py_slice_positions s (zlen l); map_res (get l) idx.

(** l[mask], the mask having the length of l. *)
Fixpoint np_mask {A} (l : list A) (m : list bool) : list A :=
  match l, m with
  | x :: l', b :: m' => if b then x :: np_mask l' m' else np_mask l' m'
  | _, _ => []
  end.

(** np.where(mask)[0]. *)
Definition np_where (m : list bool) : list Z :=
  map fst (filter snd (combine (iota (zlen m)) m)).

(** Write one element (position in range). *)
Fixpoint set_nth {A} (l : list A) (i : nat) (v : A) : list A :=
  match l, i with
  | [], _ => []
  | _ :: r, O => v :: r
  | x :: r, S k => x :: set_nth r k v
  end.

Definition set_at {A} (l : list A) (i : Z) (v : A) : list A :=
  if i <? 0 then l else set_nth l (Z.to_nat i) v.

(** Writes in order: later writes win. *)
Definition set_all {A} (l : list A) (writes : list (Z * A)) : list A :=
  fold_left (fun acc w => set_at acc (fst w) (snd w)) writes l.

(** Broadcasting of the first axis of a right-hand side to length n. *)
Definition broadcast {A} (x : list A) (n : Z) : res (list A) :=
  if zlen x =? n then Ok x
  else match x with [a] => Ok (repeat a (Z.to_nat n)) | _ => Err ValueError end.

(** l[positions] = x, the positions being in range. *)
Definition np_assign {A} (l : list A) (pos : list Z) (x : list A) : res (list A) :=
  do y <- broadcast x (zlen pos); Ok (set_all l (combine pos y)).

(** ** External helper [pyoperators.utils.split(n, m)]: m contiguous slices whose
    sizes differ by at most one, the longer ones first. *)
Definition split_start (n m rank : Z) : Z := (n / m) * rank + Z.min rank (n mod m).
Definition split_slice (n m rank : Z) : pyslice :=
  PySlice (Some (split_start n m rank)) (Some (split_start n m (rank + 1))) (Some 1).
Definition split_slices (n m : Z) : list pyslice := map (split_slice n m) (iota m).
