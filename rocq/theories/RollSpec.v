(** Arrays of any number of dimensions. *)
From Coq Require Import List ZArith.
Import ListNotations.
Open Scope Z_scope.

(** Indices of an array, and the place of an element in the row-major content. *)
Definition in_shape (shape idx : list Z) : Prop := Forall2 (fun n i => 0 <= i < n) shape idx.
Fixpoint place (shape idx : list Z) : Z :=
  match shape, idx with
  | _ :: s, i :: r => i * fold_right Z.mul 1 s + place s r
  | _, _ => 0
  end.
Definition element {A} (shape : list Z) (content : list A) (idx : list Z) : option A := nth_error content (Z.to_nat (place shape idx)).
Definition array_of {A} (shape : list Z) (content : list A) : Prop :=
  Forall (fun n => 0 <= n) shape /\ Z.of_nat (length content) = fold_right Z.mul 1 shape.
(** The sum of the offsets of the axis k; negative axes are counted from the end. *)
Fixpoint offset (ndim : nat) (n axis : list Z) (k : nat) : Z :=
  match n, axis with
  | x :: n, a :: axis => (if (a mod Z.of_nat ndim =? Z.of_nat k) then x else 0) + offset ndim n axis k
  | _, _ => 0
  end.
(** The index i_k - offset_k, modulo the shape. *)
Definition source (shape n axis idx : list Z) : list Z :=
  map (fun k => (nth k idx 0 - offset (length shape) n axis k) mod nth k shape 0) (seq 0 (length shape)).
Definition valid_axis (shape : list Z) (a : Z) : Prop := - Z.of_nat (length shape) <= a < Z.of_nat (length shape).
