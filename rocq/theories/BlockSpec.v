(** Specification of the dispatch of arguments to blocks. *)
From Coq Require Import String.
From Verif Require Import Base BlockModel.
Open Scope nat_scope.

Section B.
Context {V : Type}.
(** What the block [i] receives for an argument. *)
Definition given (partitioned : Prop) (i : nat) (a b : arg V) : Prop :=
  match a with
  | Sequence l => (partitioned /\ exists v, nth_error l i = Some v /\ b = Scalar v) \/ (~ partitioned /\ b = a)
  | _ => b = a
  end.
(** An argument that can be split in [n]. *)
Definition splits (n : nat) (a : arg V) : Prop :=
  match a with Scalar _ => True | Sequence l => length l = n | Other _ => False end.
(** The partition variables of a call, by position or keyword. *)
Definition variable (class_args parts : list string) (c : call V) (a : arg V) : Prop :=
  (exists j s, nth_error (positional c) j = Some a /\ nth_error class_args j = Some s /\ In s parts) \/
  (exists s, In (s, a) (keyword c) /\ In s parts).
(** Shape [r] of the block of size [p] along the axis of position [k], from the whole [s]. *)
Definition cut (k : nat) (p : option Z) (s r : list (option Z)) : Prop :=
  length r = length s /\ nth_error r k = Some p /\ forall d, d <> k -> nth_error r d = nth_error s d.
End B.
