(** The sparse products when the compiler contracts products and additions: the product of a
    statement [output = output + value * input] (sparse.f90.j2 16-432) is not rounded before it
    is added.  [fuse] says which products are contracted (none, all, or any choice depending on
    the factors). *)
From Coq Require Import ZArith Reals.
From Verif Require Import SparseModel RndModel.

Definition fused_ops (fuse : R -> R -> bool) (emin prec : Z) : ops R :=
  Ops R 0%R 1%R (fun a b => rndp emin prec (a + b))
      (fun a b => if fuse a b then (a * b)%R else rndp emin prec (a * b)) Ropp.
