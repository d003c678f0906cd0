(** Specification of the noise spectra. *)
From Coq Require Import QArith Qcanon Sorted.
From Verif Require Import Base SparseModel.
Open Scope nat_scope.

Section N.
Context {K : Type} (o : ops K).
Definition total (l : list K) : K := fold_right (kadd o) (k0 o) l.
(** The spectrum of a real signal has the same power at opposite frequencies. *)
Definition even_spectrum (u : list K) : Prop := forall k, 0 < k < length u -> nth_error u k = nth_error u (length u - k).
(** One-sided [p] and two-sided [u] spectra of the same signal, of even length: the zero
    and Nyquist frequencies appear once, the others twice. *)
Definition same_signal (p u : list K) : Prop :=
  length u = 2 * (length p - 1) /\ even_spectrum u /\
  nth_error p 0 = nth_error u 0 /\ nth_error p (length p - 1) = nth_error u (length p - 1) /\
  forall k x, 0 < k < length p - 1 -> nth_error u k = Some x -> nth_error p k = Some (kadd o x x).
End N.

Open Scope Qc_scope.
Definition on_line (x1 y1 x2 y2 z v : Qc) : Prop := (v - y1) * (x2 - x1) = (z - x1) * (y2 - y1).
(** Linear interpolation between the two nodes around [z], extrapolation of the first or
    last segment outside of them. *)
Definition interpolated (x y : list Qc) (z v : Qc) : Prop :=
  exists i x1 x2 y1 y2, nth_error x i = Some x1 /\ nth_error x (S i) = Some x2 /\ nth_error y i = Some y1 /\ nth_error y (S i) = Some y2 /\
    (i = O \/ x1 <= z) /\ (S (S i) = length x \/ z <= x2) /\ on_line x1 y1 x2 y2 z v.
Definition increasing (l : list Qc) : Prop := StronglySorted Qclt l.
Definition not_decreasing (l : list Qc) : Prop := StronglySorted Qcle l.
