(** The sparse products with rounded operations: the kernels of SparseModel, where every
    addition and product of the compiled code is rounded to the nearest number with [prec]
    bits, ties to even, gradual underflow at [2^emin] (sparse.f90.j2 16-432 and
    module_operators.f90.j2 13-432; binary32: prec = 24, emin = -149; binary64: prec = 53,
    emin = -1074, module_precision.f90 8-10).

    Simplifications: no overflow; each operation is rounded separately, in the order of the
    source (fused multiply-add: FmaModel; no reassociation by the compiler); the stored values and the
    vectors have the same precision, or the stored values are exact in the precision of the
    vectors. *)
From Coq Require Import ZArith Reals.
From Flocq Require Import Core.
From Verif Require Import SparseModel.

Definition rndp (emin prec : Z) (x : R) : R := round radix2 (FLT_exp emin prec) ZnearestE x.

Definition fp_ops (emin prec : Z) : ops R :=
  Ops R 0%R 1%R (fun a b => rndp emin prec (a + b)) (fun a b => rndp emin prec (a * b)) Ropp.

(** The same with overflow: an operation whose rounded result reaches 2^emax gives what
    [overflow] says, whatever it is (an infinity is not a real number). *)
Definition checked (emin prec emax : Z) (overflow : R -> R) (x : R) : R :=
  let r := rndp emin prec x in
  if Rlt_dec (Rabs r) (bpow radix2 emax) then r else overflow r.

Definition fp_ops_checked (emin prec emax : Z) (overflow : R -> R) : ops R :=
  Ops R 0%R 1%R (fun a b => checked emin prec emax overflow (a + b)) (fun a b => checked emin prec emax overflow (a * b)) Ropp.
