(** Convolution by a truncated exponential response: module_operators.f90.j2 442-532,
    operators.f90.j2 356-423, operators.py 339-424.

    Simplifications: no rounding; input and output arrays either start at the same
    address or do not overlap; a loop iteration (one detector) is executed without
    interruption, in any order (iterations touch disjoint segments). *)
From Verif Require Import Base SparseModel.
Open Scope nat_scope.

Section Trexp.
Context {K : Type} (o : ops K).
Declare Scope ring_ops.
Local Notation "a + b" := (kadd o a b) : ring_ops.
Local Notation "a * b" := (kmul o a b) : ring_ops.
Delimit Scope ring_ops with K.

(** A time constant divided by the sampling period: zero, negative, or positive; a
    positive one is known by w = exp(-1/tau) and by the inverse of v = 1 - w. *)
Inductive tau := TZero | TNeg | TPos (w vi : K).
Definition one_minus (w : K) : K := kadd o (k1 o) (kopp o w).

(** Memory accesses; [None] is an access outside of the array. *)
Definition wr (m : list K) (c : nat) (x : K) : option (list K) := update m c (fun _ => x).
Definition omap2 (f : K -> K -> K) (a b : option K) : option K :=
  match a, b with Some x, Some y => Some (f x y) | _, _ => None end.
Definition store (m : list K) (c : nat) (x : option K) : option (list K) :=
  match x with Some x => wr m c x | None => None end.

(** A do loop over the listed indices. *)
Fixpoint loop (body : nat -> list K -> option (list K)) (is_ : list nat) (m : list K) : option (list K) :=
  match is_ with [] => Some m | i :: r => match body i m with Some m' => loop body r m' | None => None end end.

(** The array section starting at [b] with [n] elements; indices from zero. *)
Definition fill (b n : nat) (x : K) : list K -> option (list K) := loop (fun i m => wr m (b + i) x) (seq 0 n).
Definition copy (src : list K) (bs b n : nat) : list K -> option (list K) :=
  loop (fun i m => store m (b + i) (nth_error src (bs + i))) (seq 0 n).
Definition smooth (w : K) : K -> K -> K := fun x y => (w * x + one_minus w * y)%K.

(** trexp_direct_inplace, 442-460. *)
Definition direct_in (b n : nat) (t : tau) (m : list K) : option (list K) :=
  match t with
  | TZero => Some m
  | TNeg => fill b n (k0 o) m
  | TPos w _ => loop (fun i m => store m (b + i) (omap2 (smooth w) (nth_error m (b + (i - 1))) (nth_error m (b + i))))
                     (seq 1 (n - 1)) m
  end.

(** trexp_direct_outplace, 463-484. *)
Definition direct_out (src : list K) (bs b n : nat) (t : tau) (m : list K) : option (list K) :=
  match t with
  | TZero => copy src bs b n m
  | TNeg => fill b n (k0 o) m
  | TPos w _ =>
      match store m b (nth_error src bs) with
      | Some m => loop (fun i m => store m (b + i) (omap2 (smooth w) (nth_error m (b + (i - 1))) (nth_error src (bs + i))))
                       (seq 1 (n - 1)) m
      | None => None
      end
  end.

(** [input(1) = input(1) / v]. *)
Definition divide (b : nat) (vi : K) (m : list K) : option (list K) := update m b (fun x => (x * vi)%K).

(** trexp_transpose_inplace, 487-507. *)
Definition transpose_in (b n : nat) (t : tau) (m : list K) : option (list K) :=
  match t with
  | TZero => Some m
  | TNeg => fill b n (k0 o) m
  | TPos w vi =>
      match loop (fun i m => store m (b + i) (omap2 (smooth w) (nth_error m (b + S i)) (nth_error m (b + i))))
                 (rev (seq 0 (n - 1))) m with
      | Some m => divide b vi m
      | None => None
      end
  end.

(** trexp_transpose_outplace, 510-532.  With tau = 0 the routine does not return after
    the copy: it goes on with w = exp(-1/0) = 0 and v = 1. *)
Definition transpose_body (src : list K) (bs b n : nat) (w vi : K) (m : list K) : option (list K) :=
  match store m (b + (n - 1)) (omap2 (kmul o) (Some (one_minus w)) (nth_error src (bs + (n - 1)))) with
  | Some m =>
      match loop (fun i m => store m (b + i) (omap2 (smooth w) (nth_error m (b + S i)) (nth_error src (bs + i))))
                 (rev (seq 0 (n - 1))) m with
      | Some m => divide b vi m
      | None => None
      end
  | None => None
  end.
Definition transpose_out (src : list K) (bs b n : nat) (t : tau) (m : list K) : option (list K) :=
  match t with
  | TZero => match copy src bs b n m with Some m => transpose_body src bs b n (k0 o) (k1 o) m | None => None end
  | TNeg => fill b n (k0 o) m
  | TPos w vi => transpose_body src bs b n w vi m
  end.

(** Drivers, operators.f90.j2 356-423: [tau(min(i, ntaus))]; [order]: the order in
    which the detectors happen to be processed. *)
Definition tau_of (taus : list tau) (d : nat) : tau := nth (Nat.min d (length taus - 1)) taus TZero.
Definition driver_in (routine : nat -> nat -> tau -> list K -> option (list K))
    (taus : list tau) (size stride : nat) (order : list nat) (m : list K) : option (list K) :=
  loop (fun d => routine (d * stride) size (tau_of taus d)) order m.
Definition driver_out (routine : list K -> nat -> nat -> nat -> tau -> list K -> option (list K))
    (taus : list tau) (size istride ostride : nat) (order : list nat) (src m : list K) : option (list K) :=
  loop (fun d => routine src (d * istride) (d * ostride) size (tau_of taus d)) order m.

(** ** Python layer *)
(** Constructor, operators.py 362-367: [true] if the operator is the identity. *)
Definition positive (t : tau) : bool := match t with TPos _ _ => true | _ => false end.
Definition is_identity (taus : list tau) : bool := forallb (fun t => negb (positive t)) taus.

(** validatein, 405-412. *)
Definition validatein (taus : list tau) (shape : list nat) : res unit :=
  if Nat.eqb (length taus) 1 then Ok tt
  else if Nat.eqb (length taus) (fold_right Nat.mul 1 (removelast shape)) then Ok tt else Err ValueError.

(** _ravel_strided, 415-424: number of detectors, of samples, and distance between
    detectors in elements.  [strides] in bytes. *)
Definition ravel_strided (shape : list nat) (strides : list Z) : res (nat * nat * Z) :=
  match shape, strides with
  | [n], _ => Ok (1, n, Z.of_nat n)
  | [nd; nt], [s0; s1] => if (s1 =? 8)%Z then Ok (nd, nt, (s0 / 8)%Z) else Err ValueError
  | _, _ => Err NotImplementedError
  end.
End Trexp.
Arguments TZero {K}. Arguments TNeg {K}. Arguments TPos {K}.
