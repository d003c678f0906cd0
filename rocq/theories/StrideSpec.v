(** Specification: indices of an array, their place in C order, and arrays whose elements are distinct. *)
From Coq Require Import List ZArith.
From Verif Require Import Base StrideModel.
Import ListNotations.
Local Open Scope nat_scope.

Definition within (shape idx : list nat) : Prop := Forall2 (fun n i => i < n) shape idx.
Fixpoint place (shape idx : list nat) : nat :=
  match shape, idx with
  | _ :: r, i :: is_ => i * fold_right Nat.mul 1 r + place r is_
  | _, _ => 0
  end.
(** Different elements are at different addresses. *)
Definition distinct (v : view) : Prop :=
  forall i j, within (map fst (v_axes v)) i -> within (map fst (v_axes v)) j -> address v i = address v j -> i = j.
(** The addresses are an affine function of the place in C order. *)
Definition even_steps (l : list axis) (c : Z) : Prop :=
  forall idx, within (map fst l) idx -> offset l idx = (c * Z.of_nat (place (map fst l) idx))%Z.
(** [m'] is [m] where the elements of [v] have been given the values. *)
Definition filled {A} (m m' : Z -> A) (v : view) (value : list nat -> A) : Prop :=
  (forall idx, within (map fst (v_axes v)) idx -> m' (address v idx) = value idx) /\
  (forall a, (forall idx, within (map fst (v_axes v)) idx -> a <> address v idx) -> m' a = m a).
(** The axes are in the order of C: the strides do not increase, axes of one element apart. *)
Definition c_ordered (l : list axis) : Prop :=
  forall i j a b, i < j -> nth_error l i = Some a -> nth_error l j = Some b -> 1 < fst a -> 1 < fst b -> (Z.abs (snd b) <= Z.abs (snd a))%Z.
