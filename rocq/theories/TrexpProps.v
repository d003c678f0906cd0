(** Property C26: truncated exponential response. *)
From Coq Require Import Lia Permutation.
From Verif Require Import Base BaseFacts SparseModel SparseSpec RingFacts TrexpModel TrexpSpec TrexpFacts.
Open Scope nat_scope.

(** Hypotheses shared by the statements: one time constant, or one per detector; the
    rows of the arrays do not overlap. *)
Definition fitting {K} (taus : list (@tau K)) (nd : nat) : Prop := taus <> [] /\ (length taus = 1 \/ length taus = nd).

(** Direct, both variants, any order of processing: each detector is multiplied by the
    matrix of its response. *)
Theorem C26_direct_inplace : forall (K : Type) (o : ops K), ring_laws o ->
  forall taus nd size stride order m, fitting taus nd -> Permutation order (seq 0 nd) ->
  size <= stride -> nd * stride <= length m ->
  exists m', driver_in (direct_in o) taus size stride order m = Some m' /\
    rows_multiplied o (fun d => response o (tau_for taus d)) nd size stride stride m m m'.
Proof. intros K o RL taus nd size stride order m [N L] P. exact (driver_direct_in o RL taus nd size order N L P stride m). Qed.
Print Assumptions C26_direct_inplace.

Theorem C26_direct : forall (K : Type) (o : ops K), ring_laws o ->
  forall taus nd size istride ostride order x m, fitting taus nd -> Permutation order (seq 0 nd) ->
  Forall (proper o) taus -> 1 <= size -> size <= ostride -> size <= istride ->
  nd * ostride <= length m -> nd * istride <= length x ->
  exists m', driver_out (direct_out o) taus size istride ostride order x m = Some m' /\
    rows_multiplied o (fun d => response o (tau_for taus d)) nd size istride ostride x m m'.
Proof. intros K o RL taus nd size istride ostride order x m [N L] P. exact (driver_direct_out o RL taus nd size order N L P istride ostride x m). Qed.
Print Assumptions C26_direct.

(** Transpose into another array: the transposed matrix. *)
Theorem C26_transpose : forall (K : Type) (o : ops K), ring_laws o ->
  forall taus nd size istride ostride order x m, fitting taus nd -> Permutation order (seq 0 nd) ->
  Forall (proper o) taus -> 1 <= size -> size <= ostride -> size <= istride ->
  nd * ostride <= length m -> nd * istride <= length x ->
  exists m', driver_out (transpose_out o) taus size istride ostride order x m = Some m' /\
    rows_multiplied o (fun d => transposed (response o (tau_for taus d))) nd size istride ostride x m m'.
Proof. intros K o RL taus nd size istride ostride order x m [N L] P. exact (driver_transpose_out o RL taus nd size order N L P istride ostride x m). Qed.
Print Assumptions C26_transpose.

(** Hence <T x, y> = <x, T^t y>, detector by detector. *)
Theorem C26_adjoint : forall (K : Type) (o : ops K), ring_laws o ->
  forall taus nd size stride order order' x y m mt, fitting taus nd ->
  Permutation order (seq 0 nd) -> Permutation order' (seq 0 nd) ->
  Forall (proper o) taus -> 1 <= size -> size <= stride ->
  length x = nd * stride -> length y = nd * stride -> length m = nd * stride -> length mt = nd * stride ->
  exists tx ty, driver_out (direct_out o) taus size stride stride order x m = Some tx /\
    driver_out (transpose_out o) taus size stride stride order' y mt = Some ty /\
    forall d, d < nd -> inner o (row size stride d tx) (row size stride d y) = inner o (row size stride d x) (row size stride d ty).
Proof.
  intros K o RL taus nd size stride order order' x y m mt [N L] P P' F Hs H Lx Ly Lm Lt.
  destruct (driver_direct_out o RL taus nd size order N L P stride stride x m F Hs H H) as [tx [E [L1 [V _]]]]; [lia|lia|].
  destruct (driver_transpose_out o RL taus nd size order' N L P' stride stride y mt F Hs H H) as [ty [E' [L1' [V' _]]]]; [lia|lia|].
  exists tx, ty. split; [exact E|]. split; [exact E'|]. intros d Hd.
  assert (R : forall z : list K, length z = nd * stride -> length (row size stride d z) = size).
  { intros z Lz. unfold row. rewrite firstn_length, skipn_length. nia. }
  unfold inner. rewrite !R by lia.
  etransitivity; [|etransitivity; [apply (adjoint o RL (response o (tau_for taus d)) size (row size stride d x) (row size stride d y)); apply R; auto|]].
  - apply bigsum_ext. intros i Hi. rewrite V by auto. reflexivity.
  - apply bigsum_ext. intros i Hi. rewrite V' by auto. reflexivity.
Qed.
Print Assumptions C26_adjoint.

(** Accepted: one scale, or as many as the detectors (all the dimensions but the last). *)
Theorem C26_accepted : forall (K : Type) (taus : list (@tau K)) dims nt,
  (validatein taus (dims ++ [nt]) = Ok tt <-> length taus = 1 \/ length taus = fold_right Nat.mul 1 dims) /\
  (validatein taus (dims ++ [nt]) = Ok tt \/ validatein taus (dims ++ [nt]) = Err ValueError).
Proof.
  intros K taus dims nt. unfold validatein. rewrite removelast_last.
  destruct (Nat.eqb_spec (length taus) 1); [split; [tauto|auto]|].
  destruct (Nat.eqb_spec (length taus) (fold_right Nat.mul 1 dims)); split; auto; split; auto; intros; first [discriminate|lia].
Qed.
Print Assumptions C26_accepted.
Example C26_accepted_case : validatein (K := Z) [TZero; TZero] ([2] ++ [5]) = Ok tt /\ validatein (K := Z) [TZero; TZero] ([3] ++ [5]) = Err ValueError /\ validatein (K := Z) [TZero] ([3] ++ [5]) = Ok tt.
Proof. repeat split. Qed.

(** Two detectors of three samples, rows of four elements; over Z with w = 2, v = -1. *)
Example C26_example :
  Forall (proper z_ops) [TPos 2 (-1); TZero]%Z /\
  driver_in (direct_in z_ops) [TPos 2 (-1); TZero]%Z 3 4 [1; 0] [1; 5; 7; 100; 2; 3; 4; 100]%Z
    = Some [1; -3; -13; 100; 2; 3; 4; 100]%Z /\
  driver_out (direct_out z_ops) [TPos 2 (-1); TZero]%Z 3 4 3 [0; 1] [1; 5; 7; 100; 2; 3; 4; 100]%Z [0; 0; 0; 0; 0; 0]%Z
    = Some [1; -3; -13; 2; 3; 4]%Z /\
  driver_out (transpose_out z_ops) [TPos 2 (-1); TZero]%Z 3 3 3 [0; 1] [1; 5; 7; 2; 3; 4]%Z [9; 9; 9; 9; 9; 9]%Z
    = Some [39; -19; -7; 2; 3; 4]%Z.
Proof. split; [repeat constructor|]. repeat split; vm_compute; reflexivity. Qed.

(** FINDING 19.  The in-place transpose does not scale the last sample by v = 1 - w:
    whenever it matters, its result is not the transpose. *)
Theorem C26_transpose_inplace_refuted : forall (K : Type) (o : ops K), ring_laws o ->
  forall w vi x, proper o (TPos w vi) -> 2 <= length x ->
  kmul o w (at_ o x (length x - 1)) <> k0 o ->
  exists m', driver_in (transpose_in o) [TPos w vi] (length x) (length x) [0] x = Some m' /\
    at_ o m' (length x - 1) = at_ o x (length x - 1) /\
    at_ o m' (length x - 1) <> mat_vec o (length x) (transposed (response o (TPos w vi))) x (length x - 1).
Proof.
  intros K o RL w vi x P Hn Hw. set (n := length x) in *.
  destruct (transpose_in_pos o 0 n w vi x) as [m' [E [_ [V _]]]]; [lia|unfold n; lia|].
  exists m'. split; [unfold driver_in; cbn [loop Nat.mul]; change (tau_of [TPos w vi] 0) with (TPos w vi); rewrite E; reflexivity|].
  assert (A : at_ o m' (n - 1) = at_ o x (n - 1)).
  { change (n - 1) with (0 + (n - 1)) at 1. rewrite V by lia. unfold back. replace (n - 1 =? 0) with false by (symmetry; apply Nat.eqb_neq; lia).
    rewrite Nat.sub_diag. reflexivity. }
  split; [exact A|]. rewrite A. intros Q. apply Hw.
  assert (B : mat_vec o n (transposed (response o (TPos w vi))) x (n - 1) = kmul o (kadd o (k1 o) (kopp o w)) (at_ o x (n - 1))).
  { unfold mat_vec. rewrite <- (bigsum_single o RL n (n - 1) (fun j => kmul o (kadd o (k1 o) (kopp o w)) (at_ o x j))) by lia.
    apply bigsum_ext. intros j Hj. unfold transposed, response. destruct (Nat.eqb_spec j (n - 1)) as [e|e].
    - rewrite e, Nat.ltb_irrefl, Nat.sub_diag. replace (n - 1 =? 0) with false by (symmetry; apply Nat.eqb_neq; lia).
      cbn [kpow]. rewrite (Rmul_1_l RL). reflexivity.
    - replace (j <? n - 1) with true by (symmetry; apply Nat.ltb_lt; lia).
      rewrite (Rmul_comm RL). apply (annihilates o RL). }
  rewrite B in Q. apply (minus_self o RL). exact Q.
Qed.
Print Assumptions C26_transpose_inplace_refuted.

(** What it does compute: the transpose applied to the signal whose last sample has been
    divided by 1 - w. *)
Theorem C26_transpose_inplace_partial : forall (K : Type) (o : ops K), ring_laws o ->
  forall taus nd size stride order m, fitting taus nd -> Permutation order (seq 0 nd) ->
  Forall (proper o) taus -> 1 <= size -> size <= stride -> nd * stride <= length m ->
  exists m', driver_in (transpose_in o) taus size stride order m = Some m' /\ length m' = length m /\
    (forall d i, d < nd -> i < size ->
       at_ o (row size stride d m') i =
       mat_vec o size (transposed (response o (tau_for taus d))) (last_divided o size (tau_for taus d) (row size stride d m)) i) /\
    (forall c, (forall d, d < nd -> ~ (d * stride <= c < d * stride + size)) -> nth_error m' c = nth_error m c).
Proof. intros K o RL taus nd size stride order m [N L] P. exact (driver_transpose_in o RL taus nd size order N L P stride m). Qed.
Print Assumptions C26_transpose_inplace_partial.

Example C26_inplace_example :
  driver_in (transpose_in z_ops) [TPos 2 (-1)]%Z 3 3 [0] [1; 5; 7]%Z = Some [-17; 9; 7]%Z.
Proof. vm_compute. reflexivity. Qed.

(** FINDING 19b.  A negative time constant means zero next to a positive one, and the
    identity when there is no positive one. *)
Theorem C26_negative_refuted : forall (K : Type) (o : ops K), ring_laws o -> forall w vi x y, 1 <= length x -> length y = length x ->
  is_identity (K := K) [TNeg; TNeg] = true /\ is_identity [TNeg; TPos w vi] = false /\
  exists m', driver_in (direct_in o) [TNeg; TPos w vi] (length x) (length x) [0; 1] (x ++ y) = Some m' /\
    forall i, i < length x -> at_ o m' i = k0 o.
Proof.
  intros K o RL w vi x y Hx Hy. split; [reflexivity|]. split; [reflexivity|].
  destruct (C26_direct_inplace K o RL [TNeg; TPos w vi] 2 (length x) (length x) [0; 1] (x ++ y)) as [m' [E [_ [V _]]]].
  - split; [discriminate|right; reflexivity].
  - apply Permutation_refl.
  - lia.
  - rewrite app_length. lia.
  - exists m'. split; [exact E|]. intros i Hi. specialize (V 0 i ltac:(lia) Hi). cbn [tau_for nth] in V.
    rewrite (at_row o (length x) (length x) 0 m' i Hi) in V. cbn [Nat.mul Nat.add] in V. rewrite V. unfold mat_vec, response.
    apply (bigsum_0 o RL). intros. rewrite (Rmul_comm RL). apply (annihilates o RL).
Qed.
Print Assumptions C26_negative_refuted.

(** FINDING 18.  Two-dimensional arrays of 4-byte reals and arrays of more than two
    dimensions, which pass validatein, are rejected. *)
Theorem C26_float32_refuted : forall (K : Type) (taus : list (@tau K)) nd nt, length taus = nd ->
  validatein taus [nd; nt] = Ok tt /\
  ravel_strided [nd; nt] [4 * Z.of_nat nt; 4]%Z = Err ValueError /\
  ravel_strided [nd; nt] [8 * Z.of_nat nt; 8]%Z = Ok (nd, nt, Z.of_nat nt).
Proof.
  intros K taus nd nt H. unfold validatein. cbn. rewrite H, Nat.mul_1_r, Nat.eqb_refl.
  split; [destruct (nd =? 1); reflexivity|]. split; [reflexivity|].
  rewrite <- (Z.div_mul (Z.of_nat nt) 8) at 2 by lia. rewrite Z.mul_comm. reflexivity.
Qed.
Print Assumptions C26_float32_refuted.
Theorem C26_cube_refuted : forall (K : Type) (taus : list (@tau K)) a b nt strides, length taus = a * b ->
  validatein taus [a; b; nt] = Ok tt /\ ravel_strided [a; b; nt] strides = Err NotImplementedError.
Proof.
  intros K taus a b nt strides H. unfold validatein. cbn. rewrite Nat.mul_1_r, H, Nat.eqb_refl.
  split; [destruct (a * b =? 1); reflexivity|reflexivity].
Qed.
Print Assumptions C26_cube_refuted.

(** FINDING 19c.  Signals without samples: cell 1 of the arrays is accessed. *)
Theorem C26_empty_refuted : forall (K : Type) (o : ops K) w vi,
  driver_out (direct_out o) [TPos w vi] 0 0 0 [0] [] [] = None /\
  driver_out (transpose_out o) [TPos w vi] 0 0 0 [0] [] [] = None /\
  driver_in (transpose_in o) [TPos w vi] 0 0 [0] [] = None /\
  driver_in (direct_in o) [TPos w vi] 0 0 [0] [] = Some [].
Proof. intros. repeat split; reflexivity. Qed.
Print Assumptions C26_empty_refuted.
