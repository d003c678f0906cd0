(** Specification of the rounded polarisation rotations: inputs close to exact ones. *)
From Coq Require Import Reals.
From Verif Require Import SkyModel.
Open Scope R_scope.
(** Each number of [v] within [d] of that of [v']. *)
Definition close (d : R) (v v' : vec) : Prop :=
  let '(x, y, z) := v in let '(x', y', z') := v' in Rabs (x - x') <= d /\ Rabs (y - y') <= d /\ Rabs (z - z') <= d.
Definition close_mat (d : R) (m m' : mat) : Prop :=
  let '(a, b, c) := m in let '(a', b', c') := m' in close d a a' /\ close d b b' /\ close d c c'.
