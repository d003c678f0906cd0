(** quantities.py: the objects behind quantities.  Construction (__new__ 447-478 and
    __array_finalize__ 480-484), views and copies, the unit attribute (954-969), the
    derived units attribute (971-1000), inunit and tounit (1002-1080), results of ufuncs
    (835-848), pickling (1125-1144).

    The state holds buffers (values), dictionaries of units, tables of derived units and
    objects; objects refer to the others by their number, as Python's references do.  An
    object sees some positions of its buffer: flat arrays, views are given by the positions
    they see.  [np.array(x, copy=False)] is that of NumPy 2 (np.matvec in the list of ufuncs
    needs NumPy 2.2): the same object if nothing has to be converted, ValueError otherwise.

    Simplifications: one dimension; two kinds of numbers (integers and floats); tables of
    derived units are values whose validity is a parameter; the conversion factor between
    two units is a parameter (UnitModel.v and BuModel.v compute it); an operation that
    fails leaves no state. *)
From Coq Require Import List Arith Bool String.
From Verif Require Import Base TemplateModel UnitModel.
Import ListNotations.
Local Open Scope nat_scope.

Inductive kind := KInt | KFloat.
Definition kind_eqb (a b : kind) : bool := match a, b with KInt, KInt | KFloat, KFloat => true | _, _ => false end.

Section Qobj.
Context {K D : Type}.
Variable zero : K.
Variable mul : K -> K -> K.
Variable factor : D -> unit_ -> unit_ -> res K.          (* q1.magnitude / q2.magnitude, or UnitError: 1051-1075 *)
Variable no_du : D.                                      (* {} *)
Variable check_du : D -> bool.                           (* the checks of the setter, 984-999 *)

Record buffer := Buf { b_kind : kind; b_val : list K }.
(** [o_cls]: 0 is numpy's ndarray, 1 is Quantity, others are subclasses of Quantity. *)
Record obj := Obj { o_cls : nat; o_buf : nat; o_pos : list nat; o_unit : nat; o_du : nat }.
Record state := St { bufs : list buffer; dicts : list unit_; dus : list D; objs : list obj }.

Definition dobj := Obj 0 0 [] 0 0.
Definition dbuf := Buf KFloat [].
Definition the_obj (s : state) (i : nat) : obj := nth i (objs s) dobj.
Definition the_buf (s : state) (o : obj) : buffer := nth (o_buf o) (bufs s) dbuf.
Definition values_of (s : state) (o : obj) : list K := map (fun p => nth p (b_val (the_buf s o)) zero) (o_pos o).
(** What a user sees of an object. *)
Definition values (s : state) (i : nat) : list K := values_of s (the_obj s i).
Definition unit_of (s : state) (i : nat) : unit_ := nth (o_unit (the_obj s i)) (dicts s) [].
Definition du_of (s : state) (i : nat) : D := nth (o_du (the_obj s i)) (dus s) no_du.

Fixpoint set_nth {A} (l : list A) (i : nat) (x : A) : list A :=
  match l, i with [], _ => [] | _ :: r, O => x :: r | y :: r, S i => y :: set_nth r i x end.

Definition add_buf (s : state) (b : buffer) : state * nat := (St (bufs s ++ [b]) (dicts s) (dus s) (objs s), length (bufs s)).
Definition add_dict (s : state) (u : unit_) : state * nat := (St (bufs s) (dicts s ++ [u]) (dus s) (objs s), length (dicts s)).
Definition add_table (s : state) (d : D) : state * nat := (St (bufs s) (dicts s) (dus s ++ [d]) (objs s), length (dus s)).
Definition add_obj (s : state) (o : obj) : state * nat := (St (bufs s) (dicts s) (dus s) (objs s ++ [o]), length (objs s)).
Definition set_obj (s : state) (i : nat) (o : obj) : state := St (bufs s) (dicts s) (dus s) (set_nth (objs s) i o).

(** subclasses *)
Definition isinstance (c d : nat) : bool := (c =? d) || ((d =? 1) && (1 <? c)) || (d =? 0).

(** ndarray.view and __array_finalize__: the attributes of an ndarray are missing, a new {}
    is made; otherwise the two objects refer to the same dictionaries. *)
Definition finalize (s : state) (cls : nat) (o : obj) (buf : nat) (pos : list nat) : state * nat :=
  if o_cls o =? 0 then
    let '(s, u) := add_dict s [] in let '(s, d) := add_table s no_du in add_obj s (Obj cls buf pos u d)
  else add_obj s (Obj cls buf pos (o_unit o) (o_du o)).

(** ndarray.copy: a new buffer and a new object. *)
Definition copy_as (s : state) (k : kind) (i : nat) : state * nat :=
  let o := the_obj s i in
  let v := values_of s o in
  let '(s, b) := add_buf s (Buf k v) in
  finalize s (o_cls o) o b (seq 0 (length v)).

(** ** __new__, 447-478 *)
Inductive data := Ref (i : nat) | Lit (k : kind) (v : list K).
(** A unit: a text, or a dictionary of the caller. *)
Inductive uarg := UText (t : text) | UDict (a : nat).

Definition asanyarray (s : state) (d : data) : state * nat :=            (* 459 *)
  match d with
  | Ref i => (s, i)
  | Lit k v => let '(s, b) := add_buf s (Buf k v) in add_obj s (Obj 0 b (seq 0 (length v)) 0 0)
  end.
Definition contiguous (p : list nat) : bool :=
  match p with [] => true | a :: _ => if list_eq_dec Nat.eq_dec p (seq a (length p)) then true else false end.
Definition set_unit (s : state) (i : nat) (u : uarg) : res state :=      (* 967-969 *)
  let o := the_obj s i in
  match u with
  | UText t => do d <- extract_str t; let '(s, a) := add_dict s d in Ok (set_obj s i (Obj (o_cls o) (o_buf o) (o_pos o) a (o_du o)))
  | UDict a => Ok (set_obj s i (Obj (o_cls o) (o_buf o) (o_pos o) a (o_du o)))
  end.
Definition set_du (s : state) (i : nat) (d : D) : res state :=           (* 476 and 979-1000 *)
  if check_du d then
    let o := the_obj s i in let '(s, a) := add_table s d in Ok (set_obj s i (Obj (o_cls o) (o_buf o) (o_pos o) (o_unit o) a))
  else Err UnitError.
Definition new (s : state) (cls : nat) (d : data) (unit : option uarg) (du : option D) (dtype : option kind) (copy subok : bool)
  : res (state * nat) :=
  let '(s, i) := asanyarray s d in
  let k := b_kind (the_buf s (the_obj s i)) in
  let target := match dtype with Some k => k | None => KFloat end in     (* 460-461: integers become floats *)
  do r <- (if copy then match k, target with
                        | KFloat, KInt => Err RuntimeError               (* truncation: not modelled *)
                        | _, _ => Ok (copy_as s target i)                (* 464-466 *)
                        end
           else if kind_eqb k target && contiguous (o_pos (the_obj s i)) then Ok (s, i) else Err ValueError);
  let '(s, i) := r in
  let c := o_cls (the_obj s i) in
  let '(s, i) := if negb subok && negb (c =? cls) || negb (isinstance c cls)                 (* 467-468 *)
                 then finalize s cls (the_obj s i) (o_buf (the_obj s i)) (o_pos (the_obj s i)) else (s, i) in
  do s <- match unit with Some u => set_unit s i u | None => Ok s end;   (* 471-472 *)
  do s <- match du with Some d => set_du s i d | None => Ok s end;       (* 475-476 *)
  Ok (s, i).

(** ** Views: x[...] is x, x[a:b:c] and others see some of its positions (852-906, without the
    derived units with axes). *)
Definition getitem_ellipsis (s : state) (i : nat) : state * nat := (s, i).
Definition getitem (s : state) (i : nat) (sel : list nat) : res (state * nat) :=
  let o := the_obj s i in
  if forallb (fun p => p <? length (o_pos o)) sel
  then Ok (finalize s (o_cls o) o (o_buf o) (map (fun p => nth p (o_pos o) 0) sel)) else Err IndexError.

(** ** In place changes of the values *)
Definition write (s : state) (o : obj) (v : list K) : state :=
  let b := the_buf s o in
  St (set_nth (bufs s) (o_buf o) (Buf (b_kind b) (fold_left (fun l pv => set_nth l (fst pv) (snd pv)) (combine (o_pos o) v) (b_val b))))
     (dicts s) (dus s) (objs s).
Definition assign (s : state) (i : nat) (v : list K) : res state :=      (* x.magnitude = v, 927-940 *)
  if length v =? length (o_pos (the_obj s i)) then Ok (write s (the_obj s i) v) else Err ValueError.

(** ** inunit, 1028-1080: numpy refuses to multiply integers in place by a float. *)
Definition inunit (s : state) (i : nat) (u : uarg) : res state :=
  let o := the_obj s i in
  let old := unit_of s i in
  do r <- match u with UText t => do d <- extract_str t; Ok (add_dict s d) | UDict a => Ok (s, a) end;   (* 1046 *)
  let '(s, a) := r in
  let newu := nth a (dicts s) [] in
  let o' := Obj (o_cls o) (o_buf o) (o_pos o) a (o_du o) in
  match old, newu with
  | [], _ | _, [] => Ok (set_obj s i o')                                  (* 1048-1050 *)
  | _, _ =>
      do f <- factor (du_of s i) old newu;
      match b_kind (the_buf s o) with
      | KInt => Err TypeError
      | KFloat => Ok (set_obj (write s o (map (fun x => mul x f) (values_of s o))) i o')     (* 1075-1080 *)
      end
  end.
(** tounit, 1002-1025 *)
Definition tounit (s : state) (i : nat) (u : uarg) : res (state * nat) :=
  let '(s, j) := copy_as s (b_kind (the_buf s (the_obj s i))) i in
  do s <- inunit s j u; Ok (s, j).

(** ** Results of ufuncs, 835-848: new values, the attributes of the first quantity, then the
    unit, which for sums and absolute values is the very dictionary of an operand
    (720-731, 776). *)
Definition same_unit_result (s : state) (i : nat) (v : list K) : state * nat :=
  let o := the_obj s i in
  let '(s, b) := add_buf s (Buf KFloat v) in finalize s (o_cls o) o b (seq 0 (length v)).

(** ** Pickling, 1125-1144: the state is made of the values, the unit and the derived units;
    everything is made anew when it is read. *)
Record pickled := Pickled { p_cls : nat; p_kind : kind; p_val : list K; p_unit : unit_; p_du : D }.
Definition reduce (s : state) (i : nat) : pickled :=
  Pickled (o_cls (the_obj s i)) (b_kind (the_buf s (the_obj s i))) (values s i) (unit_of s i) (du_of s i).
Definition setstate (s : state) (p : pickled) : state * nat :=
  let '(s, b) := add_buf s (Buf (p_kind p) (p_val p)) in
  let '(s, u) := add_dict s (p_unit p) in
  let '(s, d) := add_table s (p_du p) in
  add_obj s (Obj (p_cls p) b (seq 0 (length (p_val p))) u d).

(** What the caller does with its own dictionaries. *)
Definition set_dict (s : state) (a : nat) (u : unit_) : state := St (bufs s) (set_nth (dicts s) a u) (dus s) (objs s).
End Qobj.
