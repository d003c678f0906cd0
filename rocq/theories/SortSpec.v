(** What sorting, uniqueness and counting mean. *)
From Coq Require Import Permutation Sorting.Sorted.
From Verif Require Import Base MedianModel.

(** The positions of an array of n elements, from 1. *)
Definition positions (n : Z) : list Z := map Z.of_nat (seq 1 (Z.to_nat n)).
(** [x] is the element of [a] at position [i], from 1. *)
Definition at_ {T} (a : list T) (i : Z) (x : T) : Prop := 1 <= i /\ nth_error a (Z.to_nat (i - 1)) = Some x.
(** Elements of [a] at the positions [l]. *)
Definition read {T} (a : list T) (l : list Z) (v : list T) : Prop := Forall2 (at_ a) l v.

Definition nondecreasing (l : list Z) : Prop := StronglySorted Z.le l.
Definition increasing (l : list Z) : Prop := StronglySorted Z.lt l.

(** Number of occurrences of a bin among the samples that are not masked. *)
Fixpoint occurrences (b : Z) (a : list Z) (mask : list bool) : Z :=
  match a, mask with
  | x :: r, m :: ms => (if Z.eq_dec x b then if m then 0 else 1 else 0) + occurrences b r ms
  | _, _ => 0
  end.

(** Equality within the tolerance rn/rd, relative to the largest; consecutive values that
    are not equal. *)
Definition close (rn rd x y : Z) : Prop := Z.abs (x - y) * rd <= rn * Z.max (Z.abs x) (Z.abs y).
Definition step (rn rd x y : Z) : Prop := x <= y /\ ~ close rn rd x y.

(** Column-major order. *)
Definition before2 (a b : Z * Z) : Prop := snd a < snd b \/ (snd a = snd b /\ fst a < fst b).
Definition before3 (a b : Z * Z * Z) : Prop := snd a < snd b \/ (snd a = snd b /\ before2 (fst a) (fst b)).

(** Any size of a Fortran array. *)
Definition small (n : Z) : Prop := n < 2 ^ 1001.
