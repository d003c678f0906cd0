(** Linear interpolation between tabulated points, and the size of its rounding errors. *)
From Coq Require Import Reals List Sorted ZArith.
Import ListNotations.
Open Scope R_scope.

(** The line through (x1, y1) and (x2, y2). *)
Definition line (x1 y1 x2 y2 z : R) : R := y1 + (z - x1) * ((y2 - y1) / (x2 - x1)).
(** The successive nodes (x1, y1) and (x2, y2) around z, or the first two or the last two outside of the table. *)
Definition nodes (x y : list R) (z x1 y1 x2 y2 : R) : Prop :=
  exists i, nth_error x i = Some x1 /\ nth_error x (S i) = Some x2 /\ nth_error y i = Some y1 /\ nth_error y (S i) = Some y2 /\
    (i = O \/ x1 <= z) /\ (S (S i) = length x \/ z <= x2).
(** Twice the value of the line, at most, between the nodes; it grows outside. *)
Definition size (x1 y1 x2 y2 z : R) : R := (Rabs (z - x1) * Rabs y2 + Rabs (x2 - z) * Rabs y1) / (x2 - x1).
Definition rising (l : list R) : Prop := StronglySorted Rlt l.
Definition not_falling (l : list R) : Prop := StronglySorted Rle l.
(** Zero, or so large that its half has as many bits. *)
Definition halvable (emin prec : Z) (x : R) : Prop := x = 0 \/ powerRZ 2 (emin + prec) <= Rabs x.
