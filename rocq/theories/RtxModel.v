(** The truncated exponential response with rounded operations: the routines of TrexpModel
    (module_operators.f90.j2 442-532, operators.f90.j2 356-423) where every operation is rounded
    to the nearest number with [prec] bits.

    The direct routines are those of TrexpModel over rounded operations; the transposed one
    divides, and is written again here with a rounded division.  A division by zero (a result
    which is not finite) gives [None].

    The compiler may contract a product and an addition into one rounded operation: [fuse] says
    which products are not rounded before the addition (none, all, or any choice depending on
    the factors; of two products that are added the hardware contracts one only).

    Simplification: no overflow. *)
From Coq Require Import ZArith Reals.
From Flocq Require Import Core.
From Verif Require Import Base SparseModel RndModel FmaModel TrexpModel.
Open Scope nat_scope.

Section Rounded.
Variable fuse : R -> R -> bool.
Variables emin prec : Z.
Notation rn := (rndp emin prec).
Notation fo := (fp_ops emin prec).
Notation ff := (fused_ops fuse emin prec).

(** w = exp(-1 / tau), lines 454, 478, 502, 526, with the quotient and the exponential rounded. *)
Definition decay (tau : R) : R := rn (exp (rn (-1 / tau)%R)).

(** output(1) = output(1) / v, line 530. *)
Definition divide_r (b : nat) (v : R) (m : list R) : option (list R) :=
  if Req_EM_T v 0%R then None (* not finite *) else update m b (fun x => rn (x / v)%R).

(** trexp_transpose_outplace, 510-532. *)
Definition transpose_body_r (src : list R) (bs b n : nat) (w : R) (m : list R) : option (list R) :=
  match store m (b + (n - 1)) (omap2 (kmul fo) (Some (one_minus fo w)) (nth_error src (bs + (n - 1)))) with
  | Some m =>
      match loop (fun i m => store m (b + i) (omap2 (smooth ff w) (nth_error m (b + S i)) (nth_error src (bs + i))))
                 (rev (seq 0 (n - 1))) m with
      | Some m => divide_r b (one_minus fo w) m
      | None => None
      end
  | None => None
  end.
Definition transpose_out_r (src : list R) (bs b n : nat) (t : tau) (m : list R) : option (list R) :=
  match t with
  | TZero => match copy src bs b n m with Some m => transpose_body_r src bs b n 0%R m | None => None end
  | TNeg => fill b n 0%R m
  | TPos w _ => transpose_body_r src bs b n w m
  end.
End Rounded.
