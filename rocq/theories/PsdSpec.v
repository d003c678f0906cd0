(** Specification of the noise: expectations, covariances and spectra. *)
From Coq Require Import Reals List.
From Verif Require Import Base.
Import ListNotations.
Open Scope R_scope.

(** Sum of [f j] for a <= j < b. *)
Definition sum_over (a b : nat) (f : nat -> R) : R := fold_right Rplus 0 (map f (seq a (b - a))).
Definition item (l : list R) (k : nat) : R := nth k l 0.

(** The expectation [E] of the functions of [n] drawn numbers, which are uncorrelated and of
    unit variance: only the products of two numbers are asked about. *)
Definition white_law (n : nat) (E : (list R -> R) -> R) : Prop :=
  (forall f h, (forall g, length g = n -> f g = h g) -> E f = E h) /\
  forall c : nat -> nat -> R,
    E (fun g => sum_over 0 n (fun a => sum_over 0 n (fun b => c a b * (item g a * item g b)))) = sum_over 0 n (fun a => c a a).

(** The value [k] of a result. *)
Definition value (f : list R -> res (list R)) (k : nat) (g : list R) : R := match f g with Ok x => item x k | Err _ => 0 end.

(** Covariance between the times k / fs and l / fs of a stationary periodic noise of zero mean
    whose power is [p j] for the frequency j fs / n, both signs of frequency counted. *)
Definition angle (n j k l : nat) : R := 2 * PI * INR j * (INR k - INR l) / INR n.
Definition covariance (n : nat) (fs : R) (p : list R) (k l : nat) : R :=
  fs / INR n * sum_over 1 n (fun j => item p j * cos (angle n j k l)).
(** The same with the zero frequency. *)
Definition full_covariance (n : nat) (fs : R) (p : list R) (k l : nat) : R :=
  fs / INR n * sum_over 0 n (fun j => item p j * cos (angle n j k l)).
(** The same from the powers of the positive frequencies only, [n] being even. *)
Definition one_sided_covariance (n : nat) (fs : R) (p : list R) (k l : nat) : R :=
  fs / INR n * sum_over 1 (n / 2 + 1) (fun j => item p j * cos (angle n j k l)).
Definition delta (k l : nat) : R := if (k =? l)%nat then 1 else 0.
(** Element of the symmetric matrix constant along its diagonals. *)
Definition toeplitz (row : list R) (m l : nat) : R := item row (Nat.max m l - Nat.min m l).
(** Frequency of element [k] of a two-sided spectrum, without its sign. *)
Definition frequency_of (n : nat) (fs : R) (k : nat) : R := INR (Nat.min k (n - k)) * fs / INR n.
(** Mean of the squares minus the square of the mean. *)
Definition variance (x : list R) : R :=
  sum_over 0 (length x) (fun k => item x k ^ 2) / INR (length x) - (sum_over 0 (length x) (item x) / INR (length x)) ^ 2.
