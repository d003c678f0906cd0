(** Specification vocabulary for PackedTable, independent of the helpers of PTModel:
    it only mentions user-level selections, positions and arrays. *)
From Coq Require Import String Sorted Permutation.
From Verif Require Import Base PTModel.

(** ** What a selection of a sequence of n elements means in Python/NumPy *)
Definition sel_meaning (s : selection) (n : Z) : res (list Z) :=
  match s with
  | SelNone => Ok (iota n)
  | SelScalar i => do j <- np_wrap n i; Ok [j]
  | SelSlice sl => py_slice_positions sl n
  | SelInts l => map_res (np_wrap n) l
  | SelBool sh m => if list_eqb sh [n] then Ok (np_where m) else Err ValueError
  | SelTuple [USlice sl] => py_slice_positions sl n
  | SelTuple [UEll] => Ok (iota n)
  | SelTuple _ => Err ValueError
  end.

(** Shape and content of a boolean array agree. *)
Definition sel_wf (s : selection) : Prop :=
  match s with SelBool sh m => prodZ sh = zlen m | _ => True end.

(** All entries equal and at least two of them. *)
Definition repeated_only (l : list Z) : Prop :=
  match l with x :: _ :: _ => Forall (eq x) l | _ => False end.

Definition in_range (n : Z) (l : list Z) : Prop := Forall (fun i => 0 <= i < n) l.

(** Slices that stay in the domain where the library follows Python for
    tables that carry arrays: positive step. *)
Definition forward (sl : pyslice) : Prop := 0 < py_step sl.

(** Selections of n elements used in histories: forward slices, masks, distinct
    non-negative in-range positions. *)
Definition sel_safe (s : selection) (n : Z) : Prop :=
  match s with
  | SelNone => True
  | SelScalar i => 0 <= i < n
  | SelSlice sl => forward sl
  | SelInts l => in_range n l /\ NoDup l
  | SelBool sh m => sh = [n] /\ zlen m = n
  | SelTuple [USlice sl] => forward sl
  | SelTuple [UEll] => True
  | SelTuple _ => False
  end.

(** Selections whose meaning the library follows on any table. *)
Definition sel_dom (s : selection) (n : Z) : Prop :=
  match s with
  | SelNone => True
  | SelScalar i => 0 <= i < n
  | SelSlice sl => forward sl
  | SelInts l => in_range n l
  | SelBool sh m => sh = [n] /\ zlen m = n
  | SelTuple [USlice sl] => forward sl
  | SelTuple [UEll] => True
  | SelTuple _ => False
  end.

(** Slicing an empty table from an explicit start is excluded where packing matters
    (see the finding on empty tables). *)
Definition sel_nonempty (s : selection) (n : Z) : Prop :=
  match s with
  | SelSlice sl | SelTuple [USlice sl] => 0 < n \/ sl_start sl = None
  | _ => True
  end.

(** ** Multi-dimensional positions *)

(** Coordinates of a row-major position. *)
Fixpoint unravel (shape : list Z) (i : Z) : list Z :=
  match shape with
  | [] => []
  | _ :: ss => i / prodZ ss :: unravel ss (i mod prodZ ss)
  end.

(** The coordinate c of an axis of length n is selected by an item. *)
Definition item_selects (u : uitem) (n c : Z) : Prop :=
  match u with
  | USlice s => exists l, py_slice_positions s n = Ok l /\ In c l
  | UInt i => np_wrap n i = Ok c
  | UEll => True
  end.

(** Axis j is constrained by item j; axes without item are unconstrained. *)
Fixpoint tuple_selects (l : list uitem) (shape coords : list Z) : Prop :=
  match l, shape, coords with
  | u :: l', n :: shape', c :: coords' => item_selects u n c /\ tuple_selects l' shape' coords'
  | _, _, _ => True
  end.

(** A slice that covers the whole axis. *)
Definition full_item (u : uitem) (n : Z) : bool :=
  match u with
  | USlice s => (py_step s =? 1) && (py_slice_length s n =? n)
  | UEll => true
  | UInt _ => false
  end.

Fixpoint count_full (l : list uitem) (shape : list Z) : nat :=
  match l, shape with
  | u :: l', n :: shape' => ((if full_item u n then 1 else 0) + count_full l' shape')%nat
  | _, _ => 0%nat
  end.

Definition item_safe (u : uitem) (n : Z) : Prop :=
  match u with
  | USlice s => forward s
  | UInt i => exists c, np_wrap n i = Ok c
  | UEll => False
  end.

Fixpoint items_safe (l : list uitem) (shape : list Z) : Prop :=
  match l, shape with
  | [], _ => True
  | u :: l', n :: shape' => item_safe u n /\ items_safe l' shape'
  | _ :: _, [] => False
  end.

(** Tuple selections whose full slices cannot be confused: none, or one per axis given
    and a single full one. *)
Definition tuple_safe (l : list uitem) (shape : list Z) : Prop :=
  l <> [] /\ items_safe l shape /\
  (count_full l shape = 0%nat \/ (count_full l shape = 1%nat /\ length l = length shape)).

(** Which row-major positions a constructor selection selects. *)
Definition selects (s : selection) (shape : list Z) (i : Z) : Prop :=
  match s with
  | SelNone => True
  | SelScalar j => i = j
  | SelSlice sl => exists l, py_slice_positions sl (prodZ shape) = Ok l /\ In i l
  | SelInts l => In i l
  | SelBool _ m => nth_error m (Z.to_nat i) = Some true
  | SelTuple l => tuple_selects l shape (unravel shape i)
  end.

(** Constructor selections in the documented domain. *)
Definition ctor_safe (s : selection) (shape : list Z) : Prop :=
  match s with
  | SelNone => True
  | SelScalar i => 0 <= i < prodZ shape
  | SelSlice sl => py_step sl <> 0 /\
                   (0 < py_step sl \/ match sl_stop sl with Some v => - prodZ shape - 1 <= v | None => True end)
  | SelInts l => in_range (prodZ shape) l /\ NoDup l
  | SelBool sh m => sh = shape /\ zlen m = prodZ shape
  | SelTuple l => tuple_safe l shape
  end.

(** The order a constructor without ordering gives to the elements: as listed for
    slices and integer lists, increasing for the others. *)
Definition natural_order (s : selection) (shape : list Z) (l : list Z) : Prop :=
  match s with
  | SelScalar i => l = [i]
  | SelSlice sl => py_slice_positions sl (prodZ shape) = Ok l
  | SelInts r => l = r
  | _ => StronglySorted Z.lt l
  end.

(** ** Orderings *)
Definition key_of (keys : list Z) (i : Z) : Z := nth (Z.to_nat i) keys (-1).

(** Lexicographic order by key, then by position. *)
Definition key_lt (keys : list Z) (i j : Z) : Prop :=
  key_of keys i < key_of keys j \/ (key_of keys i = key_of keys j /\ i < j).

(** Selections that can be combined with an ordering with their usual meaning. *)
Definition ordering_sel_safe (s : selection) (shape : list Z) : Prop :=
  match s with
  | SelNone => True
  | SelBool sh m => sh = shape /\ zlen m = prodZ shape
  | SelTuple l => tuple_safe l shape
  | _ => False
  end.

(** ** Abstract tables: the list of selected positions, and for each attribute name a
    dictionary from positions to rows. *)
Section Abstract.
Variable A : Type.

Inductive aattr := DDict (g : Z -> option A) | D0 (a : A) | DNone | DFun.

Record atable := ATable { al : list Z; aenv : string -> option aattr }.

Definition env_set (e : string -> option aattr) (k : string) (v : aattr)
  : string -> option aattr := fun k' => if String.eqb k' k then Some v else e k'.

(** Dictionary associating l[j] with v[j]. *)
Fixpoint dict_of (l : list Z) (v : list A) : Z -> option A :=
  match l, v with
  | i :: l', a :: v' => fun j => if j =? i then Some a else dict_of l' v' j
  | _, _ => fun _ => None
  end.

Inductive op :=
| OpGet (s : selection)                       (* t = t[s] *)
| OpSet (k : string) (v : list A)             (* t.k = array *)
| OpSet0 (k : string) (a : A)                 (* t.k = scalar *)
| OpSetAll (k : string) (sh : list Z) (u : list A).   (* t.all.k = array *)

Definition is_reserved (k : string) : bool :=
  existsb (String.eqb k) ["all"; "comm"; "index"; "ndim"; "removed"; "shape"]%string.

(** One abstract step; [None] means that the operation is rejected. *)
Definition astep (shape : list Z) (a : atable) (o : op) : option atable :=
  match o with
  | OpGet s =>
      match sel_meaning s (zlen (al a)) with
      | Ok p => match map_res (get (al a)) p with
                | Ok l => Some (ATable l (aenv a))
                | Err _ => None
                end
      | Err _ => None
      end
  | OpSet k v =>
      if is_reserved k then None
      else if zlen v =? zlen (al a)
           then Some (ATable (al a) (env_set (aenv a) k (DDict (dict_of (al a) v))))
           else None
  | OpSet0 k x =>
      if is_reserved k then None
      else Some (ATable (al a) (env_set (aenv a) k
             match aenv a k with
             | Some (DDict _) => DDict (fun _ => Some x)
             | _ => D0 x
             end))
  | OpSetAll k sh u =>
      match aenv a k with
      | None => None
      | Some _ =>
          if is_reserved k then None
          else if list_eqb sh shape
               then Some (ATable (al a) (env_set (aenv a) k
                            (DDict (fun i => nth_error u (Z.to_nat i)))))
               else None
      end
  end.

(** Abstract operation of a history: rejected operations leave the table unchanged. *)
Definition astep' (shape : list Z) (a : atable) (o : op) : atable :=
  match astep shape a o with Some a' => a' | None => a end.

(** Operations in the documented domain, relative to the current length. *)
Definition op_safe (shape : list Z) (a : atable) (o : op) : Prop :=
  match o with
  | OpGet s => sel_safe s (zlen (al a)) /\ sel_nonempty s (zlen (al a))
  | OpSetAll _ sh u => zlen u = prodZ sh
  | _ => True
  end.

Fixpoint ops_safe (shape : list Z) (a : atable) (os : list op) : Prop :=
  match os with
  | [] => True
  | o :: r => op_safe shape a o /\ ops_safe shape (astep' shape a o) r
  end.

(** Concrete counterpart. *)
Definition cstep (t : table A) (o : op) : res (table A) :=
  match o with
  | OpGet s => getitem t s
  | OpSet k v => setattr t k (PVArr v)
  | OpSet0 k x => setattr t k (PV0 x)
  | OpSetAll k sh u => setattr_all t k (UVArr sh u)
  end.

Definition cstep' (t : table A) (o : op) : table A :=
  match cstep t o with Ok t' => t' | Err _ => t end.

(** Attributes given to the constructor: the unpacked array is the dictionary. *)
Definition uv_attr (v : uvalue A) : aattr :=
  match v with
  | UVArr _ u => DDict (fun i => nth_error u (Z.to_nat i))
  | UV0 a => D0 a
  | UVNone => DNone
  | UVFun => DFun
  end.

Fixpoint kw_env (kw : list (string * uvalue A)) : string -> option aattr :=
  match kw with
  | [] => fun _ => None
  | (k, v) :: r => fun k' => if String.eqb k' k then Some (uv_attr v) else kw_env r k'
  end.

(** Shapes and contents agree. *)
Definition kw_wf (kw : list (string * uvalue A)) : Prop :=
  Forall (fun kv => match snd kv with UVArr sh u => zlen u = prodZ sh | _ => True end) kw.

(** A concrete table shows the abstract one: same index, same length, and each
    attribute row k is the dictionary's entry for the position index[k]. *)
Definition attr_shows (l : list Z) (c : option (attr A)) (d : option aattr) : Prop :=
  match c, d with
  | None, None => True
  | Some (AtArr rows), Some (DDict g) => map g l = map Some rows
  | Some (At0 a), Some (D0 b) => a = b
  | Some AtNone, Some DNone => True
  | Some AtFun, Some DFun => True
  | _, _ => False
  end.

Definition shows (t : table A) (a : atable) : Prop :=
  t_indices t = Ok (al a) /\ t_len t = Ok (zlen (al a)) /\
  forall k, attr_shows (al a) (assoc k (t_attrs t)) (aenv a k).

(** Tables reachable by construction, sub-selection and assignment. *)
Inductive reachable : table A -> Prop :=
| reach_new shape s ord kw t :
    Forall (fun d => 0 <= d) shape ->
    match ord with
    | None => ctor_safe s shape
    | Some (osh, keys) => ordering_sel_safe s shape /\ zlen keys = prodZ osh
    end ->
    mk_table shape s ord kw = Ok t -> reachable t
| reach_get t s n t' :
    reachable t -> t_len t = Ok n -> sel_safe s n -> sel_nonempty s n ->
    getitem t s = Ok t' -> reachable t'
| reach_set t k v t' :
    reachable t -> setattr t k v = Ok t' -> reachable t'
| reach_set_all t k v t' :
    reachable t -> setattr_all t k v = Ok t' -> reachable t'.

End Abstract.

Arguments DDict {A} g. Arguments D0 {A} a. Arguments DNone {A}. Arguments DFun {A}.
Arguments ATable {A} al aenv. Arguments al {A} a. Arguments aenv {A} a.
Arguments env_set {A} e k v. Arguments dict_of {A} l v.
Arguments OpGet {A} s. Arguments OpSet {A} k v. Arguments OpSet0 {A} k a.
Arguments OpSetAll {A} k sh u.
Arguments astep {A} shape a o. Arguments astep' {A} shape a o.
Arguments op_safe {A} shape a o. Arguments ops_safe {A} shape a os.
Arguments cstep {A} t o. Arguments cstep' {A} t o.
Arguments uv_attr {A} v. Arguments kw_env {A} kw _. Arguments kw_wf {A} kw.
Arguments attr_shows {A} l c d. Arguments shows {A} t a. Arguments reachable {A} t.

(** ** Chains of slices *)

(** Python's l[s1][s2]... *)
Fixpoint chain {B} (l : list B) (ss : list pyslice) : res (list B) :=
  match ss with [] => Ok l | s :: r => do l' <- np_slice l s; chain l' r end.

(** table[s1][s2]... *)
Fixpoint fold_slices {A} (t : table A) (ss : list pyslice) : res (table A) :=
  match ss with [] => Ok t | s :: r => do t' <- getitem t (SelSlice s); fold_slices t' r end.

(** Each slice has a non-zero step and, when going backwards, a stop that is absent or
    not below -(length)-1. *)
Fixpoint slices_ok {B} (ss : list pyslice) (l : list B) : Prop :=
  match ss with
  | [] => True
  | s :: r =>
      py_step s <> 0 /\
      (0 < py_step s \/ match sl_stop s with Some v => - zlen l - 1 <= v | None => True end) /\
      (forall l', np_slice l s = Ok l' -> slices_ok r l')
  end.
