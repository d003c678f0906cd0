(** Items of quantities taken with index arrays, lists and masks: Quantity.__getitem__,
    quantities.py 858-916.  Keys of integers, slices, None and Ellipsis are in UfModel.v.
    Not modelled: sizes, negative indices, None, index arrays of more than one dimension, masks
    of one element, lists of lists. *)
From Coq Require Import List ZArith Arith Bool.
From Verif Require Import Base UfModel.
Import ListNotations.
Local Open Scope nat_scope.

(** An element of a key: [AArr] is an index array of one dimension, [AMask m l] a boolean array of
    m dimensions, given by the indices of its true elements. *)
Inductive aitem := AInt (i : Z) | ASlice (a s : Z) | AArr (l : list Z) | AMask (m : nat) (l : list (list Z)) | AEllipsis.
Inductive akey := KeyOne (a : aitem) | KeyTuple (l : list aitem) | KeyList (l : list Z).
Definition acolon := ASlice 0 1.

(** ** Items of an ndarray (NumPy) *)
(** A mask of m dimensions is m index arrays. *)
Definition columns (a : aitem) : list aitem :=
  match a with AMask m l => map (fun c => AArr (map (fun i => nth c i 0%Z) l)) (seq 0 m) | _ => [a] end.
Definition is_aellipsis (a : aitem) : bool := match a with AEllipsis => true | _ => false end.
Definition is_slice (a : aitem) : bool := match a with ASlice _ _ => true | _ => false end.
Definition is_arr (a : aitem) : bool := match a with AArr _ => true | _ => false end.
Fixpoint split_ellipsis (l : list aitem) : list aitem * option (list aitem) :=
  match l with
  | [] => ([], None)
  | a :: r => if is_aellipsis a then ([], Some r) else let '(x, y) := split_ellipsis r in (a :: x, y)
  end.
(** One element for each axis. *)
Definition full_key (rank : nat) (key : list aitem) : res (list aitem) :=
  let '(a, b) := split_ellipsis (flat_map columns key) in
  let b' := match b with Some b => b | None => [] end in
  if existsb is_aellipsis b' then Err IndexError
  else if rank <? length a + length b' then Err IndexError
  else Ok (a ++ repeat acolon (rank - (length a + length b')) ++ b').
(** The index arrays are broadcast. *)
Definition lengths (key : list aitem) : list nat := flat_map (fun a => match a with AArr l => [length l] | _ => [] end) key.
Definition broadcastable (key : list aitem) : bool :=
  let l := filter (fun n => negb (n =? 1)) (lengths key) in
  match l with [] => true | n :: r => forallb (Nat.eqb n) r end.
(** The place of their axis: that of the first one, or first if a slice separates them; the integers
    are index arrays when there is one. *)
Fixpoint drop_while {A} (f : A -> bool) (l : list A) : list A := match l with [] => [] | a :: r => if f a then drop_while f r else l end.
Fixpoint take_while {A} (f : A -> bool) (l : list A) : list A := match l with [] => [] | a :: r => if f a then a :: take_while f r else [] end.
Definition adjacent (key : list aitem) : bool := forallb is_slice (drop_while (fun a => negb (is_slice a)) (drop_while is_slice key)).
Definition axis_place (key : list aitem) : nat := if adjacent key then length (take_while is_slice key) else 0.
Definition picked (j : Z) (a : aitem) : Z :=
  match a with AInt i => i | AArr l => nth (if length l =? 1 then 0 else Z.to_nat j) l 0%Z | _ => 0%Z end.
Fixpoint fill (key : list aitem) (j : Z) (idx : list Z) : list Z :=
  match key with
  | [] => []
  | ASlice a s :: r => (a + s * hd 0 idx)%Z :: fill r j (tl idx)
  | a :: r => picked j a :: fill r j idx
  end.
Definition remove_nth {A} (n : nat) (l : list A) : list A := firstn n l ++ skipn (S n) l.
Definition slice_count (key : list aitem) : nat := length (filter is_slice key).
Definition np_item {A} (v : barray A) (key : list aitem) : res (barray A) :=
  do k <- full_key (b_rank v) key;
  if negb (broadcastable k) then Err IndexError
  else if existsb is_arr k
       then Ok (BArray (S (slice_count k)) (fun idx => b_at v (let p := axis_place k in fill k (nth p idx 0%Z) (remove_nth p idx))))
       else Ok (BArray (slice_count k) (fun idx => b_at v (fill k 0 idx))).

(** ** The code *)
(** What NumPy is given, and the tuple of lines 874-878. *)
Definition np_key (k : akey) : list aitem := match k with KeyOne a => [a] | KeyTuple l => l | KeyList l => [AArr l] end.
Definition code_tuple (k : akey) : list aitem := match k with KeyOne a => [a] | KeyTuple l => l | KeyList l => map AInt l end.
(** key.index(Ellipsis), 882: ValueError if there is none, and if it comes to an array, unless the
    array has one element: the comparison is an array, whose truth is ambiguous. *)
Fixpoint find_ellipsis (key : list aitem) : option nat :=
  match key with
  | [] => None
  | AEllipsis :: _ => Some 0
  | AArr l :: r => if length l =? 1 then option_map S (find_ellipsis r) else None
  | AMask _ _ :: _ => None
  | _ :: r => option_map S (find_ellipsis r)
  end.
(** 881-887 *)
Definition tuple_of (ndim : nat) (k : akey) : list aitem :=
  let key := code_tuple k in
  let key := match find_ellipsis key with
             | Some pos => firstn pos key ++ repeat acolon (ndim - length key) ++ skipn (S pos) key
             | None => key
             end in
  key ++ repeat acolon (ndim - length key).
(** 899-902: key[-v.ndim:], key[:v.ndim] *)
Definition code_unit {A} (ndim : nat) (k : akey) (dir : direction) (v : barray A) : res (barray A) :=
  let key := tuple_of ndim k in
  np_item v (match dir with
             | Leftward => match b_rank v with O => key | d => skipn (length key - d) key end
             | Rightward => firstn (b_rank v) key
             end).
(** The item x[key] and its derived unit of name d[leftward] or d[rightward]; 866: x[...] is x; 869: a
    number is returned without its unit. *)
Definition item {A B} (x : barray A) (k : akey) (dir : direction) (v : barray B) : res (barray A * option (barray B)) :=
  match k with
  | KeyOne AEllipsis => Ok (x, Some v)
  | _ => do x' <- np_item x (np_key k);
         if b_rank x' =? 0 then Ok (x', None) else do v' <- code_unit (b_rank x) k dir v; Ok (x', Some v')
  end.

(** ** All the derived units of an item, and what is done with them afterwards *)
(** The name of a derived unit, with its brackets if it has some; its value: a quantity, a number of
    NumPy, which has no unit, or a function. *)
Definition du_name := (list Ascii.ascii * option direction)%type.
Inductive du_value {B} := VQty (v : barray B) | VNum (x : B) | VFun (n : nat).
Arguments du_value : clear implicits.
Definition du_dict B := list (du_name * du_value B).
Definition name_dec (a b : du_name) : {a = b} + {a <> b}.
Proof. repeat decide equality. Defined.
Arguments name_dec : simpl never.
Fixpoint dict_put {B} (l : du_dict B) (n : du_name) (v : du_value B) : du_dict B :=
  match l with [] => [(n, v)] | p :: r => if name_dec (fst p) n then (n, v) :: r else p :: dict_put r n v end.
Definition dict_del {B} (l : du_dict B) (n : du_name) : du_dict B := filter (fun p => if name_dec (fst p) n then false else true) l.
(** 891-912: v[...] is the __getitem__ of a quantity, which returns a number without unit when nothing is
    left but a number (869-870), and v.ndim fails for a function. *)
Definition update_one {B} (ndim : nat) (k : akey) (d : du_name) (v : du_value B) (du : du_dict B) : res (du_dict B) :=
  match snd d with
  | None => Ok du
  | Some dir =>
      match v with
      | VFun _ => Err AttributeError
      | VNum _ => Err TypeError                                  (* not accepted by the setter *)
      | VQty v => do v' <- code_unit ndim k dir v;
                  if b_rank v' =? 0 then Ok (dict_put (dict_del du d) (fst d, None) (VNum (b_at v' []))) else Ok (dict_put du d (VQty v'))
      end
  end.
Fixpoint update_all {B} (ndim : nat) (k : akey) (l : du_dict B) (du : du_dict B) : res (du_dict B) :=
  match l with [] => Ok du | (d, v) :: r => do du <- update_one ndim k d v du; update_all ndim k r du end.
Definition item_units {B} (ndim : nat) (k : akey) (du : du_dict B) : res (du_dict B) := update_all ndim k du du.
(** The setter, 979-1000: the names are right here. *)
Definition du_setter {B} (du : du_dict B) : res (du_dict B) :=
  if existsb (fun p => match snd p with VNum _ => true | _ => false end) du then Err UnitError else Ok du.
(** inunit, 1046-1065, up to the conversion itself: Quantity(1, unit, self.derived_units) goes through the
    setter.  [named]: the units have a name. *)
Definition inunit_start {B C} (unit_named new_named : bool) (du : du_dict B) (same : C) (convert : du_dict B -> res C) : res C :=
  if negb unit_named || negb new_named then Ok same else do du <- du_setter du; convert du.
(** _get_du, 1227-1240: line 1239 sets an attribute of the value found under the bare name. *)
Definition get_du {B} (du : du_dict B) (name : list Ascii.ascii) : res (option (du_value B)) :=
  match find (fun p => if list_eq_dec Ascii.ascii_dec (fst (fst p)) name then true else false) du with
  | None => Ok None
  | Some (_, VNum _) => Err AttributeError
  | Some (_, v) => Ok (Some v)
  end.
