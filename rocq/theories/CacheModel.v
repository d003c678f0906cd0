(** On-the-fly projections sharing one matrix, operators.py 869-920. *)
From Verif Require Import Base.

Section Cache.
(** Identifiers of operators, compared by identity ([is]); Python's None is one of them. *)
Context {I A : Type} (eqI : forall a b : I, {a = b} + {a <> b}) (none : I).

(** The dictionary shared by the operators of a group, after the constructors (903-905). *)
Record holder := Holder { h_id : I; h_matrix : option A }.
Definition fresh : holder := Holder none None.

(** The property [matrix], 913-920.  [r]: what [self.func(self.id)] does this time.  A
    result [Ok None] is the Python value None. *)
Definition access (h : holder) (i : I) (r : res A) : res (option A) * holder :=
  if eqI (h_id h) i then (Ok (h_matrix h), h)
  else match r with
       | Ok m => (Ok (Some m), Holder i (Some m))
       | Err e => (Err e, Holder (h_id h) None)
       end.

(** Successive accesses, and what each of them returned. *)
Fixpoint accesses (h : holder) (l : list (I * res A)) : list (res (option A)) * holder :=
  match l with
  | [] => ([], h)
  | (i, r) :: q =>
      let '(x, h') := access h i r in
      let '(xs, h'') := accesses h' q in (x :: xs, h'')
  end.
End Cache.
