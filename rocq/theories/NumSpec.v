(** Sums rounded once and shifted columns. *)
From Verif Require Import Base SparseModel.
Open Scope Z_scope.

Section Sum.
Context {K : Type} (o : ops K) (add : K -> K -> K).
Definition exact_sum (l : list K) : K := fold_right (kadd o) (k0 o) l.
(** The sum of [l], rounded as if by one single addition. *)
Definition rounded_once (l : list K) (s : K) : Prop :=
  s = exact_sum l /\ (length l <= 1)%nat \/ exists a b, kadd o a b = exact_sum l /\ s = add a b.
End Sum.

(** Position i (from 1) receives what was at position i - d, or [zero] from outside. *)
Definition shifted {T} (zero : T) (m d : Z) (input output : list T) : Prop :=
  length output = Z.to_nat m /\
  forall i, 0 <= i < m -> nth_error output (Z.to_nat i) =
    if (0 <=? i - d) && (i - d <? m) then nth_error input (Z.to_nat (i - d)) else Some zero.
