(** Specification of the rounded exponential response: bounds of the errors. *)
From Coq Require Import ZArith Reals.
From Verif Require Import Base SparseModel SparseSpec TrexpModel TrexpSpec RndSpec.
Open Scope R_scope.

(** The weight in use is a number of the format near the weight meant. *)
Definition close (emin prec : Z) (eps : R) (used meant : @tau R) : Prop :=
  match used, meant with
  | TZero, TZero | TNeg, TNeg => True
  | TPos w _, TPos a ai => representable emin prec w /\ 0 <= w <= 1 /\ 0 <= a < 1 /\ (1 - a) * ai = 1 /\ Rabs (w - a) <= eps
  | _, _ => False
  end.

(** Factor of the error carried from one sample to the next. *)
Definition carried (prec : Z) (w : R) : R := w * (1 + unit_of prec) ^ 2.
(** Error made at each sample, for samples not larger than X. *)
Definition drift (emin prec : Z) (eps X : R) : R :=
  ((1 + unit_of prec) ^ 3 - 1) * X + 2 * eps * X + 2 * (1 + unit_of prec) * tiny_of emin.
(** 1 + r + ... + r^(n-1). *)
Fixpoint geometric (r : R) (n : nat) : R := match n with O => 0 | S p => 1 + r * geometric r p end.

(** After [k] samples. *)
Definition accumulated (emin prec : Z) (eps X w : R) (k : nat) : R := drift emin prec eps X * geometric (carried prec w) k.

Definition direct_bound (emin prec : Z) (eps X : R) (t : @tau R) (i : nat) : R :=
  match t with TPos w _ => accumulated emin prec eps X w i | _ => 0 end.

(** Transpose: the first sample is the quotient by 1 - w of the accumulation over the samples. *)
Definition transpose_bound (emin prec : Z) (eps X : R) (used meant : @tau R) (n i : nat) : R :=
  match used, meant with
  | TPos w _, TPos a _ =>
      let e := accumulated emin prec eps X w (n - i) in
      if Nat.eqb i 0 then
        let u := unit_of prec in
        (1 + u) * ((e + X / (1 - a) * (eps + u * (1 - w))) / ((1 - u) * (1 - w))) + u * (X / (1 - a)) + tiny_of emin
      else e
  | _, _ => 0
  end.

(** In [m'] the samples of each detector are those of [x] multiplied by the matrix of the
    detector up to the error [b]; what is outside of the detectors is as in [m]. *)
Definition rows_near (A : nat -> nat -> nat -> R) (b : nat -> nat -> R) (nd size istride ostride : nat) (x m m' : list R) : Prop :=
  length m' = length m /\
  (forall d i, (d < nd)%nat -> (i < size)%nat ->
     Rabs (at_ exact_ops (row size ostride d m') i - mat_vec exact_ops size (A d) (row size istride d x) i) <= b d i) /\
  (forall c, (forall d, (d < nd)%nat -> ~ (d * ostride <= c < d * ostride + size)%nat) -> nth_error m' c = nth_error m c).
