(** Specification of the products by pointing matrices with rounded operations. *)
From Coq Require Import ZArith Reals List.
From Verif Require Import Base SparseModel SparseSpec PmSpec RndSpec.
Import ListNotations.
Open Scope R_scope.

(** The elements without their signs. *)
Definition unsigned_elements (m : list (list (Z * R))) : list (list (Z * R)) := map (map (fun e => (fst e, Rabs (snd e)))) m.
Definition all_values (P : R -> Prop) (m : list (list (Z * R))) : Prop := forall row e, In row m -> In e row -> P (snd e).
(** Elements of all samples that are those of a pixel. *)
Definition uses (m : list (list (Z * R))) (j : nat) : nat := length (filter (fun e => (fst e =? Z.of_nat j)%Z) (flat_map entries m)).
(** Pairs of elements of a sample that are those of two pixels. *)
Definition joint_uses (m : list (list (Z * R))) (i j : nat) : nat :=
  list_sum (map (fun row => length (filter (fun e => (fst e =? Z.of_nat i)%Z) (entries row)) * length (filter (fun e => (fst e =? Z.of_nat j)%Z) (entries row)))%nat m).
(** The error of k products of a given total magnitude that are added one after the other. *)
Definition rounding_bound (emin prec : Z) (k : nat) (magnitude : R) : R :=
  let g := (1 + unit_of prec) ^ (k + 1) in (g - 1) * magnitude + INR k * g * tiny_of emin.
Definition projection_bound (emin prec : Z) (m : list (list (Z * R))) (x : list R) (i : nat) : R :=
  rounding_bound emin prec (length (entries (nth i m []))) (projected exact_ops (unsigned_elements m) (map Rabs x) i).
(** out: what is in the map before. *)
Definition back_bound (emin prec : Z) (m : list (list (Z * R))) (t out : list R) (j : nat) : R :=
  rounding_bound emin prec (uses m j) (Rabs (nth j out 0) + back exact_ops (unsigned_elements m) (fun i => Rabs (nth i t 0)) j).
