(** Memory sharing between a packed table and its sub-tables,
    src/pysimulators/packedtables/core.py.  Arrays are views (buffer, positions) into a heap
    of buffers; tables are objects with an identity. *)
From Coq Require Import String.
From Verif Require Import Base PTModel.

Section Heap.
Variable A : Type.

(** Value of a special attribute: a view of a buffer, a 0-d array (cell 0 of a buffer), None. *)
Inductive hval := HView (b : nat) (pos : list Z) | H0 (b : nat) | HNone.

Record hobj := HObj { h_len : Z; h_attrs : list (string * hval) }.
Record state := St { heap : list (list A); objs : list hobj }.

Definition buffer (h : list (list A)) (b : nat) : list A := nth b h [].

(** The elements seen through an attribute. *)
Definition read_val (h : list (list A)) (v : hval) : res (list A) :=
  match v with
  | HView b pos => map_res (get (buffer h b)) pos
  | H0 b => do a <- get (buffer h b) 0; Ok [a]
  | HNone => Ok []
  end.

Fixpoint hassoc (k : string) (l : list (string * hval)) : option hval :=
  match l with
  | [] => None
  | (k', v) :: r => if String.eqb k k' then Some v else hassoc k r
  end.

Fixpoint hupdate (k : string) (v : hval) (l : list (string * hval)) : list (string * hval) :=
  match l with
  | [] => [(k, v)]
  | (k', v') :: r => if String.eqb k k' then (k, v) :: r else (k', v') :: hupdate k v r
  end.

Definition read (st : state) (i : nat) (k : string) : option (res (list A)) :=
  match nth_error (objs st) i with
  | Some o => option_map (read_val (heap st)) (hassoc k (h_attrs o))
  | None => None
  end.

(** old_value[...] = value, line 275. *)
Definition write_val (h : list (list A)) (v : hval) (a : A) : list (list A) :=
  match v with
  | HView b pos => set_nth h b (set_all (buffer h b) (map (fun p => (p, a)) pos))
  | H0 b => set_nth h b (set_all (buffer h b) [(0, a)])
  | HNone => h
  end.

Definition set_obj (st : state) (i : nat) (k : string) (v : hval) : state :=
  match nth_error (objs st) i with
  | Some o => St (heap st) (set_nth (objs st) i (HObj (h_len o) (hupdate k v (h_attrs o))))
  | None => st
  end.

(** Lines 119-157: a new table; the packed arrays are copies (line 156), i.e. fresh. *)
Inductive hinit := INew (rows : list A) | I0 (a : A) | INone.

Fixpoint alloc_attrs (h : list (list A)) (kw : list (string * hinit))
  : list (list A) * list (string * hval) :=
  match kw with
  | [] => (h, [])
  | (k, v) :: r =>
      let '(h1, v') := match v with
                       | INew rows => (h ++ [rows], HView (length h) (iota (zlen rows)))
                       | I0 a => (h ++ [[a]], H0 (length h))
                       | INone => (h, HNone)
                       end in
      let '(h2, r') := alloc_attrs h1 r in (h2, (k, v') :: r')
  end.

Definition h_new (st : state) (n : Z) (kw : list (string * hinit)) : state * nat :=
  let '(h, attrs) := alloc_attrs (heap st) kw in
  (St h (objs st ++ [HObj n attrs]), length (objs st)).

(** Lines 336-344: copy.copy(self), then out.k = v[selection] for the arrays of dimension
    > 0: NumPy returns a view for a slice and a new array for a mask or a list. *)
Fixpoint view_attrs (sel : list Z) (l : list (string * hval)) : res (list (string * hval)) :=
  match l with
  | [] => Ok []
  | (k, v) :: r =>
      do v' <- match v with
               | HView b pos => do p <- map_res (get pos) sel; Ok (HView b p)
               | other => Ok other
               end;
      do r' <- view_attrs sel r; Ok ((k, v') :: r')
  end.

Fixpoint copy_attrs (h : list (list A)) (sel : list Z) (l : list (string * hval))
  : res (list (list A) * list (string * hval)) :=
  match l with
  | [] => Ok (h, [])
  | (k, v) :: r =>
      do hv <- match v with
               | HView b pos =>
                   do p <- map_res (get pos) sel;
                   do rows <- map_res (get (buffer h b)) p;
                   Ok (h ++ [rows], HView (length h) (iota (zlen rows)))
               | other => Ok (h, other)
               end;
      do hr <- copy_attrs (fst hv) sel r; Ok (fst hr, (k, snd hv) :: snd hr)
  end.

(** Lines 309-345, [__getitem__]; returns the identity of the result. *)
Definition h_get (st : state) (i : nat) (s : selection) : res (state * nat) :=
  match nth_error (objs st) i with
  | None => Err KeyError
  | Some o =>
      do ns <- normalize_selection s [h_len o];
      let view a b c :=
        do p <- py_slice_positions (PySlice (Some a) (Some b) (Some c)) (h_len o);
        do attrs <- view_attrs p (h_attrs o);
        Ok (St (heap st) (objs st ++ [HObj (zlen p) attrs]), length (objs st)) in
      let copied p :=
        do ha <- copy_attrs (heap st) p (h_attrs o);
        Ok (St (fst ha) (objs st ++ [HObj (zlen p) (snd ha)]), length (objs st)) in
      match ns with
      | NEll => Ok (st, i)                                               (* return self *)
      | NSlice a b c => view a b c
      | NTuple [NISlice a b c] => view a b c
      | NTuple _ => Err IndexError
      | NInts l => do p <- map_res (np_wrap (h_len o)) l; copied p
      | NBool m => copied (np_where m)
      end
  end.

(** Lines 257-279, [__setattr__] with a new array of rows. *)
Definition h_set (st : state) (i : nat) (k : string) (rows : list A) : res state :=
  match nth_error (objs st) i with
  | None => Err KeyError
  | Some o =>
      if negb (zlen rows =? h_len o) then Err ValueError
      else Ok (set_obj (St (heap st ++ [rows]) (objs st)) i k
                       (HView (length (heap st)) (iota (zlen rows))))
  end.

(** ... and with a scalar. *)
Definition h_set0 (st : state) (i : nat) (k : string) (a : A) : res state :=
  match nth_error (objs st) i with
  | None => Err KeyError
  | Some o =>
      match hassoc k (h_attrs o) with
      | Some (HView b p) => Ok (St (write_val (heap st) (HView b p) a) (objs st))
      | Some (H0 b) => Ok (St (write_val (heap st) (H0 b) a) (objs st))
      | _ => Ok (set_obj (St (heap st ++ [[a]]) (objs st)) i k (H0 (length (heap st))))
      end
  end.

(** *** Histories *)
Inductive hop :=
| ONew (n : Z) (kw : list (string * hinit))
| OGet (i : nat) (s : selection)
| OSet (i : nat) (k : string) (rows : list A)
| OSet0 (i : nat) (k : string) (a : A).

Definition hstep (st : state) (o : hop) : res state :=
  match o with
  | ONew n kw => Ok (fst (h_new st n kw))
  | OGet i s => do r <- h_get st i s; Ok (fst r)
  | OSet i k rows => h_set st i k rows
  | OSet0 i k a => h_set0 st i k a
  end.

Fixpoint hrun (st : state) (os : list hop) : res state :=
  match os with
  | [] => Ok st
  | o :: r => do st' <- hstep st o; hrun st' r
  end.

(** Histories whose sub-selections are masks or position lists, on tables without 0-d
    attribute. *)
Definition copying (s : selection) : Prop :=
  match s with SelInts _ | SelScalar _ | SelBool _ _ => True | _ => False end.

Definition no_0d (st : state) (i : nat) : Prop :=
  match nth_error (objs st) i with
  | Some o => forall k b, ~ In (k, H0 b) (h_attrs o)
  | None => True
  end.

Fixpoint hist_copying (st : state) (os : list hop) : Prop :=
  match os with
  | [] => True
  | o :: r =>
      match o with OGet i s => copying s /\ no_0d st i | _ => True end /\
      match hstep st o with Ok st' => hist_copying st' r | Err _ => True end
  end.

End Heap.
Arguments St {A} heap objs.
Arguments heap {A} s. Arguments objs {A} s.
Arguments buffer {A} h b. Arguments read_val {A} h v. Arguments read {A} st i k.
Arguments write_val {A} h v a. Arguments set_obj {A} st i k v.
Arguments INew {A} rows. Arguments I0 {A} a. Arguments INone {A}.
Arguments alloc_attrs {A} h kw. Arguments h_new {A} st n kw.
Arguments copy_attrs {A} h sel l. Arguments h_get {A} st i s.
Arguments h_set {A} st i k rows. Arguments h_set0 {A} st i k a.
Arguments ONew {A} n kw. Arguments OGet {A} i s. Arguments OSet {A} i k rows. Arguments OSet0 {A} i k a.
Arguments hstep {A} st o. Arguments hrun {A} st os. Arguments no_0d {A} st i.
Arguments hist_copying {A} st os.
