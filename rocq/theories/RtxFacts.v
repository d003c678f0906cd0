(** Lemmas for the rounded exponential response. *)
From Coq Require Import ZArith Lia Lra Reals List Permutation.
From Flocq Require Import Core.
From Verif Require Import Base BaseFacts SparseModel SparseSpec RingFacts TrexpModel TrexpSpec TrexpFacts RndModel RndSpec RndFacts RndProps RkmFacts FmaModel RtxModel RtxSpec.
Import ListNotations.
Open Scope R_scope.

Lemma geometric_S r n : geometric r (S n) = 1 + r * geometric r n. Proof. reflexivity. Qed.
Lemma geometric_pos r n : 0 <= r -> 0 <= geometric r n.
Proof. intros H. induction n as [|n IH]; [cbn; lra|]. rewrite geometric_S. nra. Qed.
Lemma geometric_steady r n : 0 <= r -> r < 1 -> geometric r n <= / (1 - r).
Proof.
  intros H H1. induction n as [|n IH].
  - cbn. left. apply Rinv_0_lt_compat. lra.
  - rewrite geometric_S. assert (E : / (1 - r) = 1 + r * / (1 - r)) by (field; lra). rewrite E. nra.
Qed.
Lemma geometric_linear r n : 0 <= r <= 1 -> geometric r n <= INR n.
Proof.
  intros H. induction n as [|n IH]; [cbn; lra|]. rewrite geometric_S, S_INR. pose proof (geometric_pos r n). nra.
Qed.

Section One.
Variables emin prec : Z.
Hypothesis P0 : (0 < prec)%Z.
Hypothesis E0 : (emin <= 0)%Z.
Notation rn := (rndp emin prec).
Notation F := (generic_format radix2 (FLT_exp emin prec)).
Notation u := (unit_of prec).
Notation eta := (tiny_of emin).

Lemma format_int z : (Z.abs z < 2 ^ prec)%Z -> F (IZR z).
Proof.
  intros H. apply generic_format_FLT. exists (Float radix2 z 0); [unfold F2R; cbn; lra|exact H|exact E0].
Qed.
Lemma format_one : F 1.
Proof. apply format_int. cbn. apply Z.pow_gt_1; lia. Qed.
Lemma format_zero : F 0.
Proof. apply generic_format_0. Qed.
Lemma rn_id x : F x -> rn x = x.
Proof. intros H. apply round_generic; [apply valid_rnd_N|exact H]. Qed.

(** A product, rounded or not before the addition. *)
Definition term (fuse : R -> R -> bool) (a b : R) : R := if fuse a b then a * b else rn (a * b).
Definition separate (a b : R) : bool := false.
Lemma smooth_fp fuse w x y : smooth (fused_ops fuse emin prec) w x y = rn (term fuse w x + term fuse (rn (1 + - w)) y). Proof. reflexivity. Qed.
Lemma smooth_exact w x y : smooth exact_ops w x y = w * x + (1 + - w) * y. Proof. reflexivity. Qed.
Lemma any_error x : Rabs (rn x - x) <= u * Rabs x + eta.
Proof. pose proof (mul_error emin prec P0 x 1) as H. rewrite Rmult_1_r in H. exact H. Qed.
(** The contributions of underflows to a sum of two products. *)
Lemma term_errors fuse w h v y : exists ep eq es, 0 <= ep /\ 0 <= eq /\ 0 <= es /\ (1 + u) * (ep + eq) + es <= 2 * (1 + u) * eta /\
  Rabs (term fuse w h - w * h) <= u * Rabs (w * h) + ep /\ Rabs (term fuse v y - v * y) <= u * Rabs (v * y) + eq /\
  Rabs (rn (term fuse w h + term fuse v y) - (term fuse w h + term fuse v y)) <= u * Rabs (term fuse w h + term fuse v y) + es.
Proof.
  pose proof (u_pos prec) as U. pose proof (eta_pos emin) as T. cbv zeta in U, T.
  assert (Z : forall a b, Rabs (a * b - a * b) <= u * Rabs (a * b) + 0).
  { intros a b. rewrite Rminus_diag_eq, Rabs_R0 by reflexivity. pose proof (Rabs_pos (a * b)). nra. }
  unfold term. destruct (fuse w h), (fuse v y).
  - exists 0, 0, eta. repeat split; try lra; [nra|apply Z|apply Z|apply any_error].
  - exists 0, eta, eta. repeat split; try lra; [nra|apply Z|apply (mul_error emin prec P0)|apply any_error].
  - exists eta, 0, eta. repeat split; try lra; [nra|apply (mul_error emin prec P0)|apply Z|apply any_error].
  - exists eta, eta, 0. repeat split; try lra; [apply (mul_error emin prec P0)|apply (mul_error emin prec P0)|].
    rewrite Rplus_0_r. apply (add_error emin prec P0); apply format_round; exact P0.
Qed.

Lemma complement_error w : F w -> 0 <= w <= 1 -> Rabs (rn (1 + - w) - (1 - w)) <= u * (1 - w).
Proof.
  intros Fw Hw. pose proof (add_error emin prec P0 1 (- w) format_one (format_opp emin prec w Fw)) as H.
  replace (1 + - w - (1 - w)) with 0 in H by ring. replace (1 - w) with (1 + - w) by ring.
  rewrite (Rabs_pos_eq (1 + - w)) in H at 1 by lra. exact H.
Qed.

Lemma prod_bound a b A B : Rabs a <= A -> Rabs b <= B -> Rabs (a * b) <= A * B.
Proof. intros Ha Hb. rewrite Rabs_mult. apply Rmult_le_compat; auto using Rabs_pos. Qed.
Lemma sum_bound2 a b A B : Rabs a <= A -> Rabs b <= B -> Rabs (a + b) <= A + B.
Proof. intros Ha Hb. eapply Rle_trans; [apply Rabs_triang|lra]. Qed.

(** One sample: the error of the previous one is carried, and a new one is added. *)
Lemma smooth_step fuse w a eps X h t y e : F w -> 0 <= w <= 1 -> 0 <= a <= 1 -> Rabs (w - a) <= eps ->
  F y -> Rabs t <= X -> Rabs y <= X -> Rabs (h - t) <= e ->
  Rabs (smooth (fused_ops fuse emin prec) w h y - smooth exact_ops a t y) <= carried prec w * e + drift emin prec eps X.
Proof.
  intros Fw Hw Ha He Fy Ht Hy Hh. rewrite smooth_fp, smooth_exact.
  pose proof (u_pos prec) as U. pose proof (eta_pos emin) as T.
  pose proof (complement_error w Fw Hw) as Dv. set (v := rn (1 + - w)) in *.
  destruct (term_errors fuse w h v y) as [ep [eq [es [p1 [p2 [p3 [TE [DP [DQ DS]]]]]]]]].
  set (P := term fuse w h) in *. set (Q := term fuse v y) in *. set (S := rn (P + Q)) in *.
  assert (X0 : 0 <= X) by (eapply Rle_trans; [apply Rabs_pos|exact Hy]).
  assert (e0 : 0 <= e) by (eapply Rle_trans; [apply Rabs_pos|exact Hh]).
  assert (p0 : 0 <= eps) by (eapply Rle_trans; [apply Rabs_pos|exact He]).
  assert (Bh : Rabs h <= X + e).
  { replace h with (t + (h - t)) by ring. apply sum_bound2; auto. }
  assert (Bwh : Rabs (w * h) <= w * (X + e)).
  { apply prod_bound; [rewrite Rabs_pos_eq; lra|exact Bh]. }
  assert (Bv : Rabs v <= (1 + u) * (1 - w)).
  { replace v with ((1 - w) + (v - (1 - w))) by ring. replace ((1 + u) * (1 - w)) with ((1 - w) + u * (1 - w)) by ring.
    apply sum_bound2; [rewrite Rabs_pos_eq; lra|exact Dv]. }
  assert (Bvy : Rabs (v * y) <= (1 + u) * (1 - w) * X) by (apply prod_bound; auto).
  assert (DP' : Rabs (P - w * h) <= u * (w * (X + e)) + ep) by nra.
  assert (DQ' : Rabs (Q - v * y) <= u * ((1 + u) * (1 - w) * X) + eq) by nra.
  assert (BP : Rabs P <= w * (X + e) + (u * (w * (X + e)) + ep)).
  { replace P with (w * h + (P - w * h)) by ring. apply sum_bound2; auto. }
  assert (BQ : Rabs Q <= (1 + u) * (1 - w) * X + (u * ((1 + u) * (1 - w) * X) + eq)).
  { replace Q with (v * y + (Q - v * y)) by ring. apply sum_bound2; auto. }
  pose proof (sum_bound2 _ _ _ _ BP BQ) as BPQ.
  assert (DS' : Rabs (S - (P + Q)) <= u * (w * (X + e) + (u * (w * (X + e)) + ep) + ((1 + u) * (1 - w) * X + (u * ((1 + u) * (1 - w) * X) + eq))) + es) by nra.
  assert (DT : Rabs (t - y) <= X + X).
  { replace (t - y) with (t + - y) by ring. apply sum_bound2; [exact Ht|rewrite Rabs_Ropp; exact Hy]. }
  replace (S - (a * t + (1 + - a) * y)) with
    ((S - (P + Q)) + ((P - w * h) + ((Q - v * y) + ((v - (1 - w)) * y + (w * (h - t) + (w - a) * (t - y)))))) by ring.
  eapply Rle_trans.
  { apply sum_bound2; [exact DS'|]. apply sum_bound2; [exact DP'|]. apply sum_bound2; [exact DQ'|].
    apply sum_bound2; [apply prod_bound; [exact Dv|exact Hy]|].
    apply sum_bound2; [apply prod_bound; [rewrite Rabs_pos_eq by lra; apply Rle_refl|exact Hh]|apply prod_bound; [exact He|exact DT]]. }
  unfold carried, drift.
  assert (N : 0 <= ((1 + u) ^ 3 - (1 + u) ^ 2) * (w * X)).
  { apply Rmult_le_pos; [|nra]. replace ((1 + u) ^ 3 - (1 + u) ^ 2) with (u * (1 + u) ^ 2) by ring. nra. }
  nra.
Qed.

Lemma smooth_bounded a t y X : 0 <= a <= 1 -> Rabs t <= X -> Rabs y <= X -> Rabs (smooth exact_ops a t y) <= X.
Proof.
  intros Ha Ht Hy. rewrite smooth_exact. apply Rabs_le. apply Rabs_le_inv in Ht. apply Rabs_le_inv in Hy. nra.
Qed.

Lemma drift_pos eps X : 0 <= eps -> 0 <= X -> 0 <= drift emin prec eps X.
Proof.
  intros He HX. pose proof (u_pos prec) as U. pose proof (eta_pos emin) as T. unfold drift.
  assert (0 <= (1 + u) ^ 3 - 1) by (replace ((1 + u) ^ 3 - 1) with (u * (3 + 3 * u + u * u)) by ring; nra).
  assert (0 <= 2 * (1 + u) * eta) by nra. nra.
Qed.

Lemma accumulated_S eps X w k : accumulated emin prec eps X w (S k) = carried prec w * accumulated emin prec eps X w k + drift emin prec eps X.
Proof. unfold accumulated. rewrite geometric_S. ring. Qed.

Variable fuse : R -> R -> bool.
Notation fo := (fused_ops fuse emin prec).

(** ** The recursions *)
Lemma forward_near w a eps X g i : F w -> 0 <= w <= 1 -> 0 <= a <= 1 -> Rabs (w - a) <= eps ->
  (forall j, (j <= i)%nat -> F (g j) /\ Rabs (g j) <= X) ->
  Rabs (forward exact_ops a g i) <= X /\
  Rabs (forward fo w g i - forward exact_ops a g i) <= accumulated emin prec eps X w i.
Proof.
  intros Fw Hw Ha He. induction i as [|i IH]; intros Hg.
  - split; [apply (Hg 0%nat); lia|]. cbn [forward]. rewrite Rminus_diag_eq, Rabs_R0 by reflexivity.
    unfold accumulated. cbn. lra.
  - destruct IH as [B D]; [intros j Hj; apply Hg; lia|]. destruct (Hg (S i)) as [Fy By]; [lia|]. cbn [forward]. split.
    + apply smooth_bounded; auto.
    + rewrite accumulated_S. apply smooth_step; auto.
Qed.

Lemma backward_near w a eps X g last n k : F w -> 0 <= w <= 1 -> 0 <= a <= 1 -> Rabs (w - a) <= eps ->
  (forall j, (j < n)%nat -> F (g j) /\ Rabs (g j) <= X) -> (k < n)%nat ->
  last = g (n - 1)%nat ->
  Rabs (backward exact_ops a g ((1 + - a) * last) n k) <= X /\
  Rabs (backward fo w g (rn (rn (1 + - w) * last)) n k - backward exact_ops a g ((1 + - a) * last) n k) <= accumulated emin prec eps X w (S k).
Proof.
  intros Fw Hw Ha He Hg. induction k as [|k IH]; intros Hk El.
  - destruct (Hg (n - 1)%nat) as [Fy By]; [lia|]. rewrite <- El in *. cbn [backward]. split.
    + rewrite <- (Rmult_1_l X). apply prod_bound; [rewrite Rabs_pos_eq; lra|exact By].
    + (* a step from zero *)
      assert (X0 : 0 <= X) by (eapply Rle_trans; [apply Rabs_pos|exact By]).
      pose proof (smooth_step separate w a eps X 0 0 last 0 Fw Hw Ha He Fy) as H.
      rewrite Rminus_0_r, Rabs_R0 in H. specialize (H X0 By (Rle_refl 0)).
      rewrite smooth_fp, smooth_exact in H. cbn [term separate] in H. unfold term, separate in H. rewrite !Rmult_0_r, Rplus_0_l in H.
      assert (Z : rn 0 = 0) by apply round_0, valid_rnd_N. rewrite Z, Rplus_0_l in H.
      rewrite (rn_id (rn (rn (1 + - w) * last))) in H by (apply format_round; exact P0).
      rewrite accumulated_S. unfold accumulated at 1. cbn [geometric]. rewrite Rmult_0_r, Rmult_0_r. exact H.
  - destruct IH as [B D]; [lia|exact El|]. destruct (Hg (n - 1 - S k)%nat) as [Fy By]; [lia|]. cbn [backward]. split.
    + apply smooth_bounded; auto.
    + rewrite accumulated_S. apply smooth_step; auto.
Qed.

(** The quotient by the rounded complement. *)
Lemma quotient_near w a eps Z h t e : F w -> 0 <= w < 1 -> 0 <= a < 1 -> Rabs (w - a) <= eps -> u < 1 ->
  Rabs t <= Z * (1 - a) -> Rabs (h - t) <= e ->
  0 < rn (1 + - w) /\
  Rabs (rn (h / rn (1 + - w)) - t / (1 - a)) <=
    (1 + u) * ((e + Z * (eps + u * (1 - w))) / ((1 - u) * (1 - w))) + u * Z + eta.
Proof.
  intros Fw Hw Ha He U1 Ht Hh. pose proof (u_pos prec) as U. pose proof (eta_pos emin) as T.
  pose proof (complement_error w Fw ltac:(lra)) as Dv. set (v := rn (1 + - w)) in *.
  pose proof (Rabs_le_inv _ _ Dv) as Dv'.
  assert (Lv : (1 - u) * (1 - w) <= v) by nra.
  assert (L0 : 0 < (1 - u) * (1 - w)) by nra.
  assert (V0 : 0 < v) by lra. split; [exact V0|].
  assert (Z0 : 0 <= Z).
  { assert (0 <= Z * (1 - a)) by (eapply Rle_trans; [apply Rabs_pos|exact Ht]). nra. }
  set (z := t / (1 - a)). assert (Ez : t = z * (1 - a)) by (unfold z; field; lra).
  assert (Bz : Rabs z <= Z).
  { unfold z, Rdiv. rewrite Rabs_mult, Rabs_inv, (Rabs_pos_eq (1 - a)) by lra.
    apply (Rmult_le_reg_r (1 - a)); [lra|]. rewrite Rmult_assoc, Rinv_l by lra. lra. }
  assert (D : Rabs (h / v - z) <= (e + Z * (eps + u * (1 - w))) / ((1 - u) * (1 - w))).
  { replace (h / v - z) with (((h - t) + z * ((w - a) + - (v - (1 - w)))) * / v) by (rewrite Ez; field; lra).
    assert (N : Rabs ((h - t) + z * ((w - a) + - (v - (1 - w)))) <= e + Z * (eps + u * (1 - w))).
    { apply sum_bound2; [exact Hh|]. apply prod_bound; [exact Bz|]. apply sum_bound2; [exact He|]. rewrite Rabs_Ropp. exact Dv. }
    unfold Rdiv. apply prod_bound; [exact N|]. rewrite Rabs_inv, Rabs_pos_eq by lra. apply Rinv_le; lra. }
  pose proof (mul_error emin prec P0 h (/ v)) as R. change (h * / v) with (h / v) in R.
  assert (Bq : Rabs (h / v) <= Z + (e + Z * (eps + u * (1 - w))) / ((1 - u) * (1 - w))).
  { replace (h / v) with (z + (h / v - z)) by ring. apply sum_bound2; auto. }
  replace (rn (h / v) - z) with ((rn (h / v) - h / v) + (h / v - z)) by ring.
  eapply Rle_trans; [apply sum_bound2; [exact R|exact D]|]. nra.
Qed.

Lemma u_lt1 : u < 1.
Proof. unfold unit_of. rewrite pow2. change 1 with (bpow radix2 0). apply bpow_lt. lia. Qed.

(** ** The routines *)
Definition direct_values (t : @tau R) (g : nat -> R) (i : nat) : R :=
  match t with TZero => g i | TNeg => 0 | TPos w _ => forward fo w g i end.

Lemma forward_ext {K} (o : ops K) w g g' i : (forall j, (j <= i)%nat -> g j = g' j) -> forward o w g i = forward o w g' i.
Proof.
  induction i as [|i IH]; intros H; cbn [forward]; [apply H; lia|]. rewrite IH, H by (intros; apply H || idtac; lia). reflexivity.
Qed.

Lemma direct_in_values b n t m : (b + n <= length m)%nat ->
  computes fo b n (direct_values t (fun i => at_ fo m (b + i))) m (direct_in fo b n t m).
Proof.
  intros H. destruct t as [| |w vi].
  - apply same_section. intros; reflexivity.
  - apply fill_ok; auto.
  - apply direct_in_pos; auto.
Qed.
Lemma direct_out_values src bs b n t m : (1 <= n)%nat -> (b + n <= length m)%nat -> (bs + n <= length src)%nat ->
  computes fo b n (direct_values t (fun i => at_ fo src (bs + i))) m (direct_out fo src bs b n t m).
Proof.
  intros Hn H H'. destruct t as [| |w vi].
  - apply copy_ok; auto.
  - apply fill_ok; auto.
  - apply direct_out_pos; auto.
Qed.

Definition transpose_values (w : R) (n : nat) (g : nat -> R) (i : nat) : R :=
  let x := backward fo w g (rn (rn (1 + - w) * g (n - 1)%nat)) n (n - 1 - i) in
  if Nat.eqb i 0 then rn (x / rn (1 + - w)) else x.

Lemma transpose_body_values src bs b n w m : (1 <= n)%nat -> (b + n <= length m)%nat -> (bs + n <= length src)%nat ->
  rn (1 + - w) <> 0 ->
  computes fo b n (transpose_values w n (fun i => at_ fo src (bs + i))) m (transpose_body_r fuse emin prec src bs b n w m).
Proof.
  intros Hn H H' V. unfold transpose_body_r. rewrite (nth_error_at fo src) by lia. cbn [omap2 store]. rewrite (wr_ok fo) by lia.
  destruct (back_pass fo b n w (fun i => at_ fo src (bs + i)) (rn (rn (1 + - w) * at_ fo src (bs + (n - 1)))) m
      (set_nth m (b + (n - 1)) (rn (rn (1 + - w) * at_ fo src (bs + (n - 1)))))
      (fun i m => store m (b + i) (omap2 (smooth fo w) (nth_error m (b + S i)) (nth_error src (bs + i))))) as [m' [E [L [Vs O]]]]; auto.
  - apply set_nth_length.
  - rewrite at_set, Nat.eqb_refl by lia. reflexivity.
  - intros c Hc. apply set_nth_other. auto.
  - intros i m1 Hi _. rewrite (nth_error_at fo src) by lia. reflexivity.
  - change (kmul (fp_ops emin prec) (one_minus (fp_ops emin prec) w) (at_ fo src (bs + (n - 1)))) with (rn (rn (1 + - w) * at_ fo src (bs + (n - 1)))).
    rewrite E. change (one_minus (fp_ops emin prec) w) with (rn (1 + - w)). unfold divide_r.
    destruct (Req_EM_T (rn (1 + - w)) 0) as [Q|_]; [contradiction|].
    unfold update. rewrite (nth_error_at fo) by lia. eexists. split; [reflexivity|].
    split; [rewrite set_nth_length; lia|]. split.
    + intros i Hi. rewrite at_set by lia. unfold transpose_values. destruct (Nat.eqb_spec i 0) as [Q|Q].
      * subst i. rewrite Nat.add_0_r, Nat.eqb_refl. rewrite <- (Vs 0%nat) by lia. rewrite Nat.add_0_r. reflexivity.
      * replace (Nat.eqb (b + i) b) with false by (symmetry; apply Nat.eqb_neq; lia). apply Vs; auto.
    + intros c Hc. rewrite set_nth_other by (intros <-; apply (Hc 0%nat); lia). apply O. exact Hc.
Qed.

(** A time constant equal to zero: w = 0, every operation is exact. *)
Lemma smooth_zero h y : F y -> smooth fo 0 h y = y.
Proof.
  intros Fy. rewrite smooth_fp, Ropp_0, Rplus_0_r, (rn_id 1) by apply format_one.
  assert (T0 : term fuse 0 h = 0) by (unfold term; rewrite Rmult_0_l, (rn_id 0) by apply format_zero; destruct (fuse 0 h); reflexivity).
  assert (T1 : term fuse 1 y = y) by (unfold term; rewrite Rmult_1_l, (rn_id y) by exact Fy; destruct (fuse 1 y); reflexivity).
  rewrite T0, T1, Rplus_0_l. apply rn_id, Fy.
Qed.
Lemma transpose_zero n g i : (forall j, (j < n)%nat -> F (g j)) -> (i < n)%nat -> transpose_values 0 n g i = g i.
Proof.
  intros Fg Hi. unfold transpose_values. rewrite Ropp_0, Rplus_0_r, (rn_id 1) by apply format_one.
  rewrite Rmult_1_l, (rn_id (g (n - 1)%nat)) by (apply Fg; lia).
  assert (B : forall k, (k < n)%nat -> backward fo 0 g (g (n - 1)%nat) n k = g (n - 1 - k)%nat).
  { intros [|k] Hk; [cbn; f_equal; lia|]. cbn [backward]. rewrite smooth_zero by (apply Fg; lia). reflexivity. }
  rewrite B by lia. replace (n - 1 - (n - 1 - i))%nat with i by lia.
  destruct (Nat.eqb i 0); [|reflexivity]. unfold Rdiv. rewrite Rinv_1, Rmult_1_r. apply rn_id, Fg. lia.
Qed.

Definition transpose_all (t : @tau R) (n : nat) (g : nat -> R) (i : nat) : R :=
  match t with TZero => g i | TNeg => 0 | TPos w _ => transpose_values w n g i end.

Lemma at_format src c : Forall F src -> F (at_ fo src c).
Proof.
  intros H. unfold SparseSpec.at_. destruct (nth_in_or_default c src (k0 fo)) as [I|I].
  - rewrite Forall_forall in H. apply H, I.
  - rewrite I. apply format_zero.
Qed.

Lemma transpose_out_values src bs b n t m : (1 <= n)%nat -> (b + n <= length m)%nat -> (bs + n <= length src)%nat -> Forall F src ->
  match t with TPos w _ => rn (1 + - w) <> 0 | _ => True end ->
  computes fo b n (transpose_all t n (fun i => at_ fo src (bs + i))) m (transpose_out_r fuse emin prec src bs b n t m).
Proof.
  intros Hn H H' FS V. destruct t as [| |w vi]; cbn [transpose_out_r transpose_all].
  - destruct (copy_ok fo src bs b n m H H') as [m1 [E1 S1]]. rewrite E1.
    apply (computes_again fo b n (fun i => at_ fo src (bs + i)) _ m m1); [exists m1; split; [reflexivity|exact S1]|].
    assert (L1 : length m1 = length m) by (destruct S1; auto).
    apply (computes_ext fo b n (transpose_values 0 n (fun i => at_ fo src (bs + i)))).
    + intros i Hi. apply transpose_zero; [intros j _; apply at_format, FS|auto].
    + apply transpose_body_values; auto; [lia|]. rewrite Ropp_0, Rplus_0_r, rn_id by apply format_one. lra.
  - apply fill_ok; auto.
  - apply transpose_body_values; auto.
Qed.

(** ** Errors of one detector *)
Lemma direct_near eps X t e g n i : close emin prec eps t e -> (i < n)%nat ->
  (forall j, (j < n)%nat -> F (g j) /\ Rabs (g j) <= X) ->
  Rabs (direct_values t g i - times exact_ops (response exact_ops e) n g i) <= direct_bound emin prec eps X t i.
Proof.
  intros C Hi Hg. destruct t as [| |w vi], e as [| |a ai]; cbn in C; try contradiction; cbn [direct_values direct_bound].
  - rewrite (times_id exact_ops exact_ring) by auto. rewrite Rminus_diag_eq, Rabs_R0 by reflexivity. lra.
  - rewrite (times_zero exact_ops exact_ring). change (k0 exact_ops) with 0. rewrite Rminus_diag_eq, Rabs_R0 by reflexivity. lra.
  - destruct C as [Rw [Hw [Ha [_ He]]]]. unfold times. rewrite <- (forward_response exact_ops exact_ring a ai n g i) by auto.
    apply forward_near; auto; [apply format_representable; auto|lra|]. intros j Hj. apply Hg. lia.
Qed.

Lemma transpose_near eps X t e g n i : close emin prec eps t e -> (i < n)%nat ->
  match t with TPos w _ => w < 1 | _ => True end ->
  (forall j, (j < n)%nat -> F (g j) /\ Rabs (g j) <= X) ->
  Rabs (transpose_all t n g i - times exact_ops (transposed (response exact_ops e)) n g i) <= transpose_bound emin prec eps X t e n i.
Proof.
  intros C Hi W1 Hg. destruct t as [| |w vi], e as [| |a ai]; cbn in C; try contradiction; cbn [transpose_all transpose_bound].
  - rewrite (times_id_t exact_ops exact_ring) by auto. rewrite Rminus_diag_eq, Rabs_R0 by reflexivity. lra.
  - replace (times exact_ops (transposed (response exact_ops TNeg)) n g i) with 0.
    + rewrite Rminus_diag_eq, Rabs_R0 by reflexivity. lra.
    + symmetry. exact (times_zero exact_ops exact_ring n g i).
  - destruct C as [Rw [Hw [Ha [Pa He]]]].
    assert (PR : proper exact_ops (TPos a ai)) by exact Pa.
    assert (Fw : F w) by (apply format_representable; auto).
    unfold times, transposed. rewrite <- (back_response exact_ops exact_ring a ai g n i) by auto.
    unfold transpose_values, back.
    change (kmul exact_ops (one_minus exact_ops a) (g (n - 1)%nat)) with ((1 + - a) * g (n - 1)%nat).
    destruct (backward_near w a eps X g (g (n - 1)%nat) n (n - 1 - i) Fw Hw ltac:(lra) He Hg ltac:(lia) eq_refl) as [B D].
    replace (S (n - 1 - i)) with (n - i)%nat in D by lia.
    destruct (Nat.eqb_spec i 0) as [Q|Q]; [|exact D].
    cbv zeta. set (t := backward exact_ops a g ((1 + - a) * g (n - 1)%nat) n (n - 1 - i)) in *.
    assert (Et : kmul exact_ops t ai = t / (1 - a)).
    { change (t * ai = t / (1 - a)). unfold Rdiv. f_equal. apply (Rmult_eq_reg_l (1 - a)); [|lra]. rewrite Pa. field. lra. }
    rewrite Et. apply quotient_near; auto; [lra|apply u_lt1|]. unfold Rdiv. rewrite Rmult_assoc, Rinv_l, Rmult_1_r by lra. exact B.
Qed.
End One.
