(** Skewness and kurtosis of a list, and bounds of their rounding errors. *)
From Coq Require Import ZArith Reals List.
From Verif Require Import Base RndSpec RksSpec RkmSpec.
Open Scope R_scope.

(** The mean of the [k]-th powers of the deviations, in units of the standard deviation. *)
Definition standardized (k : nat) (l : list R) : R := deviations (fun r => r ^ k) l / size l / sigma l ^ k.
Definition skewness_of (l : list R) : R := standardized 3 l.
Definition kurtosis_of (l : list R) : R := standardized 4 l - 3.

Section Bounds.
Variables emin prec : Z.
Let u := unit_of prec.
Let eta := tiny_of emin.

(** Underflows in the [k]-th power of a number below [b]: [c] products are made. *)
Definition lost (k : nat) (b : R) : R :=
  match k with
  | 3%nat => (1 + u) * b * eta + eta
  | _ => (1 + u) * (2 * (1 + u) * b ^ 2 * eta + eta ^ 2) + eta
  end.
(** [k]-th power ([k - 1] roundings) of a number below [b] known within [d]. *)
Definition power_bound (k : nat) (b d : R) : R :=
  ((1 + u) ^ (k - 1) - 1) * b ^ k + lost k b + INR k * b ^ (k - 1) * d.

(** [x] bounds the deviations of the samples. *)
Definition numerator_bound (k : nat) (l : list R) (x : R) : R :=
  let d := u * (x + mean_bound emin prec l) + mean_bound emin prec l in
  compensated_rate prec (length l) * x ^ k + (1 + compensated_rate prec (length l)) * power_bound k (x + d) d.
Definition denominator_bound (k : nat) (l : list R) : R :=
  (1 + u) * power_bound k (sigma l + stddev_bound emin prec l) (stddev_bound emin prec l) + u * sigma l ^ k + eta.
Definition ratio_bound (k : nat) (l : list R) (x : R) : R :=
  let e := (numerator_bound k l x + Rabs (standardized k l) * denominator_bound k l) / (sigma l ^ k - denominator_bound k l) in
  u * Rabs (standardized k l) + (1 + u) * e + eta.
Definition kurtosis_bound (l : list R) (x : R) : R :=
  u * Rabs (kurtosis_of l) + (1 + u) * ratio_bound 4 l x + eta.
End Bounds.
