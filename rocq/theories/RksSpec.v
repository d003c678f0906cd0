(** Specification of compensated sums whose operations are all rounded. *)
From Coq Require Import ZArith Reals List.
From Verif Require Import Base RndSpec.
From Verif Require Export ClipSpec.
Import ListNotations.
Open Scope R_scope.

Definition weight (l : list R) : R := total (map Rabs l).

(** Error of a compensated sum of [n] numbers, relative to the sum of their absolute values. *)
Definition second_order (prec : Z) (n : nat) : R :=
  2 * unit_of prec + 16 * INR n * unit_of prec ^ 2.
Definition compensated_rate (prec : Z) (n : nat) : R := unit_of prec + second_order prec n.

(** Terms computed with a relative error [d] and an absolute error [h]. *)
Definition near (d h t e : R) : Prop := Rabs (t - e) <= d * Rabs e + h.

(** Huber's function. *)
Definition huber_of (delta x : R) : R :=
  if Rlt_dec (Rabs x) delta then x ^ 2 else 2 * delta * Rabs x - delta ^ 2.
