(** Bounds of the errors of rounded moments. *)
From Coq Require Import ZArith Reals List.
From Verif Require Import Base RndSpec RksSpec.
Open Scope R_scope.

Section Bounds.
Variables emin prec : Z.
Let u := unit_of prec.
Let eta := tiny_of emin.
(** A compensated sum of the elements of [l]. *)
Let g (l : list R) : R := 1 + compensated_rate prec (length l).

Definition mean_bound (l : list R) : R := (g l * (1 + u) - 1) * (weight l / size l) + eta.
Definition meandev_bound (l : list R) : R :=
  (g l * (1 + u) ^ 2 - 1) * mean_deviation l + g l * (1 + u) ^ 2 * mean_bound l + eta.
(** The square of the error of the mean is added to each square. *)
Definition variance_bound (l : list R) : R :=
  let extra := size l / (size l - 1) * mean_bound l ^ 2 in
  (g l * (1 + u) ^ 4 - 1) * (variance l + extra) + extra + (g l * (1 + u) * (size l / (size l - 1)) + 1) * eta.
Definition stddev_bound (l : list R) : R :=
  u * sigma l + (1 + u) * sqrt (variance_bound l) + eta.
End Bounds.
