(** Specification of the truncated exponential response. *)
From Verif Require Import Base SparseModel SparseSpec TrexpModel.
Open Scope nat_scope.

Section Spec.
Context {K : Type} (o : ops K).

Fixpoint kpow (w : K) (n : nat) : K := match n with O => k1 o | S p => kmul o w (kpow w p) end.

(** Weight of the input sample [j] in the output sample [i]: exponentially decreasing
    memory, the first sample standing for all those before it. *)
Definition response (t : tau) (i j : nat) : K :=
  match t with
  | TZero => if Nat.eqb i j then k1 o else k0 o
  | TNeg => k0 o
  | TPos w _ => if Nat.ltb i j then k0 o
                else kmul o (kpow w (i - j)) (if Nat.eqb j 0 then k1 o else kadd o (k1 o) (kopp o w))
  end.

Definition transposed (A : nat -> nat -> K) : nat -> nat -> K := fun i j => A j i.

(** The inverse of 1 - w is right. *)
Definition proper (t : tau) : Prop :=
  match t with TPos w vi => kmul o (kadd o (k1 o) (kopp o w)) vi = k1 o | _ => True end.

(** Samples of a detector. *)
Definition row (size stride d : nat) (m : list K) : list K := firstn size (skipn (d * stride) m).

(** In [m'] the samples of each detector are those of [x] multiplied by the matrix of
    the detector; what is outside of the detectors is as in [m]. *)
Definition rows_multiplied (A : nat -> nat -> nat -> K) (nd size istride ostride : nat) (x m m' : list K) : Prop :=
  length m' = length m /\
  (forall d i, d < nd -> i < size ->
     at_ o (row size ostride d m') i = mat_vec o size (A d) (row size istride d x) i) /\
  (forall c, (forall d, d < nd -> ~ (d * ostride <= c < d * ostride + size)) -> nth_error m' c = nth_error m c).

(** Time constant of a detector: its own, or the common one. *)
Definition tau_for (taus : list tau) (d : nat) : @tau K := match taus with [t] => t | _ => nth d taus TZero end.
End Spec.
