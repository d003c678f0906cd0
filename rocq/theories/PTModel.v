(** Model of packedtables/core.py (PackedTable), branch by branch.
    Citations are to /repo/src/pysimulators/packedtables/core.py.

    Simplifications: only the first [ndim] dimensions are represented (a "row" of
    type A stands for everything behind them); dtypes, views and the MPI
    communicator are handled in other files; [int(np.ceil(extent / abs(step)))] is
    taken as the exact ceiling (line 758 goes through a float). *)
From Coq Require Import String.
From Verif Require Import Base.

(** ** Selections *)

(** Items of a tuple selection (slices, integers, Ellipsis). *)
Inductive uitem := USlice (s : pyslice) | UInt (i : Z) | UEll.

(** User-supplied selections.  A list or tuple of integers (and a 1-d integer array)
    is [SelInts]; a boolean array is given by its shape and its row-major content;
    [SelTuple] is a tuple that NumPy converts to an object array (line 685), i.e. that
    has at least one slice or Ellipsis. *)
Inductive selection :=
| SelNone                                     (* None, Ellipsis or () *)
| SelScalar (i : Z)
| SelSlice (s : pyslice)
| SelInts (l : list Z)
| SelBool (shape : list Z) (m : list bool)
| SelTuple (l : list uitem).

Inductive nitem := NISlice (a b c : Z) | NIInt (i : Z) | NIEll.

(** Result of [_normalize_selection]. *)
Inductive nsel :=
| NEll
| NSlice (a b c : Z)
| NInts (l : list Z)
| NBool (m : list bool)
| NTuple (l : list nitem).

(** The [_index] attribute: Ellipsis, a slice or an integer array. *)
Inductive pindex := IAll | ISlice (a b c : Z) | IArr (l : list Z).

Inductive nslice := NSEll | NS (a b c : Z).

(** Lines 726-762, [_normalize_slice]. *)
Definition normalize_slice (s : pyslice) (n : Z) : res nslice :=
  let step := match sl_step s with None => 1 | Some k => k end in       (* 728 *)
  if step =? 0 then Err ValueError else                                 (* 729-730 *)
  let finish start :=                                                   (* 746-762 *)
    let stop :=
      match sl_stop s with
      | None => if 0 <? step then n else -1
      | Some v => if v <? 0 then n + v else if n <? v then n else v
      end in
    let extent := if 0 <? step then Z.max (stop - start) 0 else Z.max (start - stop) 0 in
    let size := cdiv extent (Z.abs step) in
    if (size =? n) && (step =? 1) then Ok NSEll
    else Ok (NS start (start + size * step) step) in
  match sl_start s with                                                 (* 732-744 *)
  | None => finish (if 0 <? step then 0 else n - 1)
  | Some v =>
      if v <? 0 then
        if n + v <? 0 then
          (if step <? 0 then Ok (NS 0 0 step) else finish 0)
        else finish (n + v)
      else if n <=? v then
        (if 0 <? step then Ok (NS (n - 1) (n - 1) step) else finish (n - 1))
      else finish v
  end.

(** Lines 688-691: slices of a tuple are normalised, the rest is kept. *)
Fixpoint normalize_items (l : list uitem) (shape : list Z) : res (list nitem) :=
  match l, shape with
  | u :: l', n :: shape' =>
      do x <- match u with
              | USlice s => do r <- normalize_slice s n;
                            Ok (match r with NSEll => NIEll | NS a b c => NISlice a b c end)
              | UInt i => Ok (NIInt i)
              | UEll => Ok NIEll
              end;
      do r <- normalize_items l' shape'; Ok (x :: r)
  | _, _ => Ok []
  end.

Definition is_ell (x : nitem) : bool := match x with NIEll => true | _ => false end.

(** Line 693: drop the trailing Ellipsis items. *)
Fixpoint strip_ell (l : list nitem) : list nitem :=
  match l with
  | [] => []
  | x :: r => match strip_ell r with
              | [] => if is_ell x then [] else [x]
              | r' => x :: r'
              end
  end.

Fixpoint list_eqb (l1 l2 : list Z) : bool :=
  match l1, l2 with
  | [], [] => true
  | x :: r, y :: s => (x =? y) && list_eqb r s
  | _, _ => false
  end.

(** Lines 667-709, [_normalize_selection]. *)
Definition normalize_selection (s : selection) (shape : list Z) : res nsel :=
  match s with
  | SelNone => Ok NEll                                                  (* 672-678 *)
  | SelScalar i => Ok (NInts [i])                                       (* 679-680 *)
  | SelSlice sl =>                                                      (* 681-682 *)
      do r <- normalize_slice sl (prodZ shape);
      Ok (match r with NSEll => NEll | NS a b c => NSlice a b c end)
  | SelInts l => Ok (NInts l)                                           (* 670, 703-705 *)
  | SelBool sh m =>                                                     (* 706-707 *)
      if list_eqb sh shape then Ok (NBool m) else Err ValueError
  | SelTuple l =>                                                       (* 683-695 *)
      if zlen shape <? zlen l then Err ValueError
      else do r <- normalize_items l shape;
           match strip_ell r with [] => Ok NEll | r' => Ok (NTuple r') end
  end.

(** Lines 711-724, [_normalize_int_selection]. *)
Definition normalize_int_selection (s : list Z) (n : Z) : pindex :=
  match s with
  | [] => IArr s
  | [_] => IArr s
  | start :: second :: _ =>
      let step := second - start in
      if list_eqb s (progression start step (length s)) then
        if (zlen s =? n) && (step =? 1) then IAll
        else ISlice start (start + zlen s * step) step
      else IArr s
  end.

(** ** NumPy basic indexing of an n-d array by a tuple (environment) *)

(** Positions selected along one axis of length n. *)
Definition item_positions (x : nitem) (n : Z) : res (list Z) :=
  match x with
  | NISlice a b c => py_slice_positions (PySlice (Some a) (Some b) (Some c)) n
  | NIInt i => do j <- np_wrap n i; Ok [j]
  | NIEll => Ok (iota n)
  end.

(** An Ellipsis stands for as many full axes as are missing. *)
Fixpoint expand_ell (l : list nitem) (missing : nat) : list nitem :=
  match l with
  | [] => []
  | NIEll :: r => repeat NIEll missing ++ r
  | x :: r => x :: expand_ell r missing
  end.

Definition axes_of (l : list nitem) (ndim : nat) : res (list nitem) :=
  let nell := length (filter is_ell l) in
  let nreal := (length l - nell)%nat in
  if (1 <? nell)%nat then Err IndexError
  else if (ndim <? nreal)%nat then Err IndexError
  else
    let l' := if (nell =? 0)%nat then l else expand_ell l (ndim - nreal) in
    Ok (l' ++ repeat NIEll (ndim - length l')).

(** Row-major positions of a product of per-axis positions. *)
Fixpoint flat_positions (dims : list (list Z)) (shape : list Z) : list Z :=
  match dims, shape with
  | d :: ds, _ :: ss =>
      flat_map (fun i => map (fun r => i * prodZ ss + r) (flat_positions ds ss)) d
  | _, _ => [0]
  end.

Fixpoint axes_positions (l : list nitem) (shape : list Z) : res (list (list Z)) :=
  match l, shape with
  | x :: l', n :: shape' =>
      do p <- item_positions x n; do r <- axes_positions l' shape'; Ok (p :: r)
  | _, _ => Ok []
  end.

Definition tuple_positions (l : list nitem) (shape : list Z) : res (list Z) :=
  do axes <- axes_of l (length shape);
  do dims <- axes_positions axes shape;
  Ok (flat_positions dims shape).

(** First-axis selection of whole rows. *)
Definition rows_positions (p : list Z) (shape : list Z) : list Z :=
  flat_positions (p :: map iota (tl shape)) shape.

(** Boolean array that is True at the given flat positions. *)
Definition bool_at (pos : list Z) (n : Z) : list bool :=
  map (fun i => existsb (Z.eqb i) pos) (iota n).

(** Lines 764-767, [_selection2bool]: [out[selection] = True].  A boolean selection is
    never passed here. *)
Definition selection2bool (s : nsel) (shape : list Z) : res (list bool) :=
  match s with
  | NEll => Ok (bool_at (iota (prodZ shape)) (prodZ shape))
  | NSlice a b c =>
      match shape with
      | [] => Err IndexError
      | n :: _ =>
          do p <- py_slice_positions (PySlice (Some a) (Some b) (Some c)) n;
          Ok (bool_at (rows_positions p shape) (prodZ shape))
      end
  | NInts l =>
      match shape with
      | [] => Err IndexError
      | n :: _ =>
          do p <- map_res (np_wrap n) l;
          Ok (bool_at (rows_positions p shape) (prodZ shape))
      end
  | NBool m => Ok m
  | NTuple l => do p <- tuple_positions l shape; Ok (bool_at p (prodZ shape))
  end.

(** ** Index construction *)

(** Stable argsort ([kind='mergesort'], line 244): positions sorted by key, equal keys
    in increasing position. *)
Fixpoint insert_by (key : Z -> Z) (p : Z) (l : list Z) : list Z :=
  match l with
  | [] => [p]
  | q :: r => if key p <=? key q then p :: q :: r else q :: insert_by key p r
  end.

Definition argsort (keys : list Z) : list Z :=
  fold_right (insert_by (fun p => nth (Z.to_nat p) keys 0)) [] (iota (zlen keys)).

(** l[-k:] for k > 0. *)
Definition last_k {A} (l : list A) (k : nat) : list A := skipn (length l - k) l.

Fixpoint mask_keys (keys : list Z) (m : list bool) : list Z :=
  match keys, m with
  | x :: r, b :: m' => (if b then x else -1) :: mask_keys r m'
  | _, _ => []
  end.

(** Lines 202-246, [_get_index].  [ordering] is a shape and a row-major content. *)
Definition get_index (shape : list Z) (s : selection)
    (ordering : option (list Z * list Z)) : res pindex :=
  do sel <- normalize_selection s shape;
  let size := prodZ shape in
  match ordering with
  | None =>                                                             (* 210-229 *)
      match sel with
      | NEll => Ok IAll
      | NSlice a b c => Ok (ISlice a b c)
      | NInts l => Ok (normalize_int_selection l size)
      | NBool m => Ok (normalize_int_selection (np_where m) size)
      | NTuple l =>
          let by_bool :=
            do m <- selection2bool (NTuple l) shape;
            Ok (normalize_int_selection (np_where m) size) in
          match l with
          | NISlice a b c :: r =>                                       (* 218-223 *)
              if (length shape =? 1)%nat || ((length l =? 1)%nat && (c =? 1))
              then let n := prodZ (tl shape) in Ok (ISlice (a * n) (b * n) c)
              else by_bool
          | _ => by_bool
          end
      end
  | Some (oshape, keys) =>
      if negb (list_eqb oshape shape) then Err ValueError else          (* 205-208 *)
      do keys' <- match sel with                                        (* 231-238 *)
                  | NEll => Ok keys
                  | _ => do m <- selection2bool sel shape; Ok (mask_keys keys m)
                  end;
      let npacked := length (filter (Z.leb 0) keys') in                 (* 240 *)
      if (npacked =? 0)%nat then Ok (IArr [])                           (* 241-242 *)
      else Ok (normalize_int_selection (last_k (argsort keys') npacked) size)
  end.

(** Lines 170-180, the [index] property. *)
Definition index_list (size : Z) (ix : pindex) : res (list Z) :=
  match ix with
  | IAll => Ok (iota size)
  | ISlice a b c => arange a b c
  | IArr l => Ok l
  end.

(** Lines 248-255, [__len__]. *)
Definition index_len (size : Z) (ix : pindex) : res Z :=
  match ix with
  | IAll => Ok size
  | ISlice a b c => if c =? 0 then Err ZeroDivisionError else Ok ((b - a) / c)
  | IArr l => Ok (zlen l)
  end.

(** Lines 182-188, [_indexable]: the slice used for indexing. *)
Definition indexable_slice (a b c : Z) : pyslice :=
  if b <? 0 then PySlice (Some a) None (Some c) else PySlice (Some a) (Some b) (Some c).

(** ** Tables *)
Section Table.
Variable A : Type.     (* rows *)

(** Per-element attributes: array of rows, 0-d array, None, callable. *)
Inductive attr := AtArr (l : list A) | At0 (a : A) | AtNone | AtFun.

Record table := Table {
  t_shape : list Z;                       (* _shape_actual, lines 194-196 *)
  t_index : pindex;
  t_attrs : list (string * attr)          (* values of the special attributes *)
}.

Definition t_size (t : table) : Z := prodZ (t_shape t).                 (* 198-200 *)
Definition t_len (t : table) : res Z := index_len (t_size t) (t_index t).
Definition t_indices (t : table) : res (list Z) := index_list (t_size t) (t_index t).

(** *** pack, lines 377-450, on an array given by its leading shape and its rows *)
Definition pack_view (t : table) (xshape : list Z) (x : list A) : res (list A) :=
  if negb (list_eqb xshape (t_shape t)) then Err ValueError             (* 416-420 *)
  else match t_index t with
       | IAll => Ok x                                                   (* 435-436, 443 *)
       | ISlice a b c => np_slice x (indexable_slice a b c)             (* 437-438, 447 *)
       | IArr l => np_take x l                                          (* 449 *)
       end.

(** copy=True or an output array: the result is written into an array of length
    len(self) (lines 423-450), so a wrong number of rows is broadcast or rejected. *)
Definition pack_copy (t : table) (xshape : list Z) (x : list A) : res (list A) :=
  if negb (list_eqb xshape (t_shape t)) then Err ValueError
  else do n <- t_len t;
       do y <- pack_view t xshape x;
       match t_index t with
       | IArr _ => Ok y
       | _ => broadcast y n
       end.

(** pack(x, out=out): [olen] is the first dimension of the given array (428-432). *)
Definition pack_out (t : table) (xshape : list Z) (x : list A) (olen : Z) : res (list A) :=
  if negb (list_eqb xshape (t_shape t)) then Err ValueError
  else do n <- t_len t;
       if negb (olen =? n) then Err ValueError else pack_copy t xshape x.

(** *** unpack, lines 564-648, serial case (comm.size == 1).
    [garbage] is the content of [np.empty] (line 629) or of the given output. *)
Definition unpack_positions (t : table) : res (list Z) :=
  match t_index t with
  | IAll => Ok (iota (t_size t))
  | ISlice a b c => py_slice_positions (indexable_slice a b c) (t_size t)
  | IArr l => map_res (np_wrap (t_size t)) l
  end.

Definition unpack (t : table) (x : list A) (missing : A) (garbage : list A) : res (list A) :=
  do n <- t_len t;
  if negb ((zlen x =? 1) || (zlen x =? n)) then Err ValueError          (* 603-607 *)
  else
    let whole := match t_index t with IAll => zlen x =? n | _ => false end in
    if whole then Ok x                                                  (* 622-628, 636-638 *)
    else
      let out := if n <? t_size t                                       (* 632-635 *)
                 then repeat missing (Z.to_nat (t_size t)) else garbage in
      do pos <- unpack_positions t;
      np_assign out pos x.                                              (* 641 *)

(** *** __getitem__, lines 309-345 *)

(** v[selection] for a normalised selection (raw use of the slice, line 344). *)
Definition np_getsel {B} (l : list B) (s : nsel) : res (list B) :=
  match s with
  | NEll => Ok l
  | NSlice a b c => np_slice l (PySlice (Some a) (Some b) (Some c))
  | NInts p => np_take l p
  | NBool m => Ok (np_mask l m)
  | NTuple [NISlice a b c] => np_slice l (PySlice (Some a) (Some b) (Some c))
  | NTuple _ => Err IndexError
  end.

Definition getitem_index (size : Z) (ix : pindex) (s : nsel) : res pindex :=
  let by_list :=
    do l <- index_list size ix; do l' <- np_getsel l s;
    Ok (normalize_int_selection l' size) in
  match ix, s with
  | IAll, NSlice a b c => Ok (ISlice a b c)                             (* 315-320 *)
  | IAll, NInts l => Ok (normalize_int_selection l size)
  | ISlice ia ib ic, NSlice a b c =>                                    (* 321-326 *)
      if c =? 0 then Err ZeroDivisionError else
      let n := (b - a) / c in
      let start := ia + a * ic in
      let step := ic * c in
      Ok (ISlice start (start + n * step) step)
  | _, _ => by_list                                                     (* 327-329 *)
  end.

(** Lines 257-279, [__setattr__] of a special attribute; the old value may be absent
    (AttributeError, lines 277-278). *)
Definition setattr_arr (t : table) (v : list A) : res attr :=
  do n <- t_len t; if negb (zlen v =? n) then Err ValueError else Ok (AtArr v).

Definition setattr_scalar (old : option attr) (v : A) : attr :=
  match old with
  | Some (AtArr l) => AtArr (repeat v (length l))      (* old_value[...] = value *)
  | _ => At0 v
  end.

Fixpoint assoc (k : string) (l : list (string * attr)) : option attr :=
  match l with
  | [] => None
  | (k', v) :: r => if String.eqb k k' then Some v else assoc k r
  end.

Fixpoint update (k : string) (v : attr) (l : list (string * attr)) : list (string * attr) :=
  match l with
  | [] => [(k, v)]
  | (k', v') :: r => if String.eqb k k' then (k, v) :: r else (k', v') :: update k v r
  end.

Fixpoint getitem_attrs (t : table) (s : nsel) (l : list (string * attr))
  : res (list (string * attr)) :=
  match l with
  | [] => Ok []
  | (k, v) :: r =>
      do v' <- match v with
               | AtArr rows => do rows' <- np_getsel rows s; setattr_arr t rows'
               | other => Ok other
               end;
      do r' <- getitem_attrs t s r; Ok ((k, v') :: r')
  end.

Definition getitem (t : table) (s : selection) : res table :=
  do n <- t_len t;
  do sel <- normalize_selection s [n];
  match sel with
  | NEll => Ok t                                                        (* 311-312 *)
  | _ =>
      do ix <- getitem_index (t_size t) (t_index t) sel;
      let out := Table (t_shape t) ix (t_attrs t) in
      do attrs <- getitem_attrs out sel (t_attrs t);
      Ok (Table (t_shape t) ix attrs)
  end.

(** *** split, lines 550-562 *)
Definition t_split (t : table) (m : Z) : res (list table) :=
  do n <- t_len t; map_res (fun s => getitem t (SelSlice s)) (split_slices n m).

(** *** Attribute assignment *)
Definition reserved : list string := ["all"; "comm"; "index"; "ndim"; "removed"; "shape"]%string.

Inductive pvalue := PVArr (l : list A) | PV0 (a : A) | PVNone | PVFun.

(** table.k = value, lines 257-279, for a special attribute k. *)
Definition setattr (t : table) (k : string) (v : pvalue) : res table :=
  if existsb (String.eqb k) reserved then Err AttributeError else
  do w <- match v with
          | PVArr l => setattr_arr t l
          | PV0 a => Ok (setattr_scalar (assoc k (t_attrs t)) a)
          | PVNone => Ok AtNone
          | PVFun => Ok AtFun
          end;
  Ok (Table (t_shape t) (t_index t) (update k w (t_attrs t))).

Inductive uvalue := UVArr (shape : list Z) (l : list A) | UV0 (a : A) | UVNone | UVFun.

(** pack(x, copy=True) of any value, lines 411-415 then [pack_copy]. *)
Definition pack_value (t : table) (v : uvalue) : res attr :=
  match v with
  | UVNone => Ok AtNone
  | UV0 a => Ok (At0 a)
  | UVArr sh l => do y <- pack_copy t sh l; Ok (AtArr y)
  | UVFun => Err TypeError
  end.

(** table.all.k = value, lines 810-818. *)
Definition setattr_all (t : table) (k : string) (v : uvalue) : res table :=
  match assoc k (t_attrs t) with
  | None => Err AttributeError                                          (* 812-813 *)
  | Some _ =>
      if existsb (String.eqb k) reserved then Err AttributeError        (* 814-815 *)
      else do w <- pack_value t v;                                      (* 816-818 *)
           Ok (Table (t_shape t) (t_index t) (update k w (t_attrs t)))
  end.

(** *** __init__, lines 119-157 *)
Fixpoint init_attrs (t : table) (kw : list (string * uvalue)) : res table :=
  match kw with
  | [] => Ok t
  | (k, v) :: r =>
      do pv <- match v with
               | UVFun => Ok PVFun                                      (* 155 *)
               | _ => do w <- pack_value t v;
                      Ok (match w with AtArr l => PVArr l | At0 a => PV0 a
                                     | AtNone => PVNone | AtFun => PVFun end)
               end;
      do t' <- setattr t k pv; init_attrs t' r
  end.

Definition mk_table (shape : list Z) (s : selection) (ordering : option (list Z * list Z))
    (kw : list (string * uvalue)) : res table :=
  do ix <- get_index shape s ordering;
  init_attrs (Table shape ix []) kw.

End Table.

Arguments AtArr {A} l. Arguments At0 {A} a. Arguments AtNone {A}. Arguments AtFun {A}.
Arguments Table {A} t_shape t_index t_attrs.
Arguments t_shape {A} t. Arguments t_index {A} t. Arguments t_attrs {A} t.
Arguments t_size {A} t. Arguments t_len {A} t. Arguments t_indices {A} t.
Arguments pack_view {A} t xshape x. Arguments pack_copy {A} t xshape x.
Arguments pack_out {A} t xshape x olen.
Arguments unpack_positions {A} t. Arguments unpack {A} t x missing garbage.
Arguments setattr_arr {A} t v. Arguments setattr_scalar {A} old v.
Arguments assoc {A} k l. Arguments update {A} k v l.
Arguments getitem_attrs {A} t s l. Arguments getitem {A} t s. Arguments t_split {A} t m.
Arguments PVArr {A} l. Arguments PV0 {A} a. Arguments PVNone {A}. Arguments PVFun {A}.
Arguments UVArr {A} shape l. Arguments UV0 {A} a. Arguments UVNone {A}. Arguments UVFun {A}.
Arguments setattr {A} t k v. Arguments setattr_all {A} t k v.
Arguments pack_value {A} t v. Arguments init_attrs {A} t kw.
Arguments mk_table {A} shape s ordering kw.

(** Lines 778-782, [all.removed]: unpack(False, missing_value=True); only the index and
    the shape of the table are used. *)
Definition removed {A} (t : table A) (garbage : list bool) : res (list bool) :=
  unpack (Table (t_shape t) (t_index t) []) [false] true garbage.
