(** Order statistics. *)
From Verif Require Import Base MedianModel.
Open Scope nat_scope.

(** [x] has rank [k] in [l] (from zero): at most k elements are smaller, and more than k
    are smaller or equal. *)
Definition has_rank (l : list Z) (k : nat) (x : Z) : Prop :=
  In x l /\ length (filter (fun y => (y <? x)%Z) l) <= k < length (filter (fun y => (y <=? x)%Z) l).
(** The lower median. *)
Definition is_median (l : list Z) (x : Z) : Prop := has_rank l ((length l - 1) / 2) x.

(** The finite numbers of a list, without those that are masked. *)
Fixpoint unmasked {A} (l : list A) (m : list bool) : list A :=
  match l, m with a :: l', b :: m' => if b then unmasked l' m' else a :: unmasked l' m' | _, _ => [] end.
Fixpoint finite (l : list num) : list Z :=
  match l with Fin z :: r => z :: finite r | NaN :: r => finite r | [] => [] end.
