From Coq Require Import Reals ZArith Lra Lia.
From Verif Require Import Base SkyModel RndModel RndSpec RndProps BiModel BirModel.
Open Scope R_scope.
Section Err.
Variables (emin prec : Z) (W e : R).
Hypothesis Pp : (0 < prec)%Z.
Notation rn := (rndp emin prec).
Notation u := (unit_of prec).
Notation eta := (tiny_of emin).
Hypothesis Wp : 0 < W <= 1.
Hypothesis Ue : u = e * W.
Hypothesis E1 : e <= / 4096.
Hypothesis He : eta <= u * u.

Lemma u0 : 0 < u. Proof. apply u_pos. Qed.
Lemma e0 : 0 < e. Proof. pose proof u0. rewrite Ue in H. apply (Rmult_lt_reg_r W); lra. Qed.
Lemma ue : u <= e. Proof. pose proof e0. rewrite Ue. rewrite <- (Rmult_1_r e) at 2. apply Rmult_le_compat_l; lra. Qed.
Lemma u1 : u <= / 4096. Proof. pose proof ue. lra. Qed.
Lemma eta_u : eta <= / 4096 * u. Proof. pose proof u1. pose proof u0. apply Rle_trans with (1 := He). apply Rmult_le_compat_r; lra. Qed.
Lemma eta_e : eta <= / 4096 * e. Proof. pose proof eta_u. pose proof ue. lra. Qed.
Lemma rn_err x : Rabs (rn x - x) <= u * Rabs x + eta.
Proof. pose proof (mul_error emin prec Pp x 1) as H. rewrite Rmult_1_r in H. exact H. Qed.
Lemma tri a b c : Rabs (a - c) <= Rabs (a - b) + Rabs (b - c).
Proof. replace (a - c) with (a - b + (b - c)) by ring. apply Rabs_triang. Qed.
Lemma near_abs a a' A i : Rabs (a - a') <= i -> Rabs a' <= A -> Rabs a <= A + i.
Proof. intros H H'. replace a with (a' + (a - a')) by ring. eapply Rle_trans; [apply Rabs_triang|]. lra. Qed.
Lemma prod_diff a b a' b' i j A B : Rabs (a - a') <= i -> Rabs (b - b') <= j -> Rabs a' <= A -> Rabs b' <= B -> Rabs (a * b - a' * b') <= i * B + j * A + i * j.
Proof.
  intros Ha Hb HA HB. replace (a * b - a' * b') with ((a - a') * b' + a' * (b - b') + (a - a') * (b - b')) by ring.
  eapply Rle_trans; [apply Rabs_triang|]. pose proof (Rabs_triang ((a - a') * b') (a' * (b - b'))) as T. rewrite !Rabs_mult in *.
  assert (Rabs (a - a') * Rabs b' <= i * B) by (apply Rmult_le_compat; try apply Rabs_pos; assumption). assert (Rabs a' * Rabs (b - b') <= A * j) by (apply Rmult_le_compat; try apply Rabs_pos; assumption).
  assert (Rabs (a - a') * Rabs (b - b') <= i * j) by (apply Rmult_le_compat; try apply Rabs_pos; assumption). lra.
Qed.
(** Errors counted in units of e. *)
Lemma prod_e a b a' b' i j A B k : 0 <= i -> 0 <= j -> 0 <= A -> 0 <= B -> Rabs (a - a') <= i * e -> Rabs (b - b') <= j * e -> Rabs a' <= A -> Rabs b' <= B ->
  i * B + j * A + i * j / 4096 + (A + i / 4096) * (B + j / 4096) + / 4096 <= k -> Rabs (rn (a * b) - a' * b') <= k * e.
Proof.
  intros I J A0 B0 Ha Hb HA HB K. pose proof e0 as E0. pose proof ue as UE. pose proof u0 as U0. pose proof eta_e as EE.
  pose proof (tri (rn (a * b)) (a * b) (a' * b')) as T. pose proof (rn_err (a * b)) as R. pose proof (prod_diff _ _ _ _ _ _ _ _ Ha Hb HA HB) as D.
  assert (M : Rabs (a * b) <= (A + i / 4096) * (B + j / 4096)).
  { rewrite Rabs_mult. apply Rmult_le_compat; try apply Rabs_pos.
    - apply Rle_trans with (1 := near_abs _ _ _ _ Ha HA). assert (i * e <= i * / 4096) by (apply Rmult_le_compat_l; lra). lra.
    - apply Rle_trans with (1 := near_abs _ _ _ _ Hb HB). assert (j * e <= j * / 4096) by (apply Rmult_le_compat_l; lra). lra. }
  set (Q := (A + i / 4096) * (B + j / 4096)) in *. assert (Q0 : 0 <= Q) by (pose proof (Rabs_pos (a * b)); lra).
  assert (u * Rabs (a * b) <= e * Q) by (apply Rmult_le_compat; [lra | apply Rabs_pos | exact UE | exact M]).
  assert (i * e * (j * e) <= i * j / 4096 * e).
  { replace (i * e * (j * e)) with (i * j * e * e) by ring. replace (i * j / 4096 * e) with (i * j * e * / 4096) by field. apply Rmult_le_compat_l; [|exact E1]. repeat apply Rmult_le_pos; lra. }
  apply Rle_trans with ((i * B + j * A + i * j / 4096 + Q + / 4096) * e); [|apply Rmult_le_compat_r; lra]. lra.
Qed.
Lemma sum_e a b a' b' i j A k : 0 <= i -> 0 <= j -> Rabs (a - a') <= i * e -> Rabs (b - b') <= j * e -> Rabs (a' + b') <= A ->
  i + j + (A + (i + j) / 4096) + / 4096 <= k -> Rabs (rn (a + b) - (a' + b')) <= k * e.
Proof.
  intros I J Ha Hb HA K. pose proof e0 as E0. pose proof ue as UE. pose proof u0 as U0. pose proof eta_e as EE.
  pose proof (tri (rn (a + b)) (a + b) (a' + b')) as T. pose proof (rn_err (a + b)) as R.
  assert (D : Rabs (a + b - (a' + b')) <= (i + j) * e) by (replace (a + b - (a' + b')) with (a - a' + (b - b')) by ring; eapply Rle_trans; [apply Rabs_triang|]; lra).
  assert (M : Rabs (a + b) <= A + (i + j) / 4096).
  { apply Rle_trans with (1 := near_abs _ _ _ _ D HA). assert ((i + j) * e <= (i + j) * / 4096) by (apply Rmult_le_compat_l; lra). lra. }
  assert (u * Rabs (a + b) <= e * (A + (i + j) / 4096)) by (apply Rmult_le_compat; [lra | apply Rabs_pos | exact UE | exact M]).
  apply Rle_trans with ((i + j + (A + (i + j) / 4096) + / 4096) * e); [|apply Rmult_le_compat_r; lra]. lra.
Qed.
Lemma sub_e a b a' b' i j A k : 0 <= i -> 0 <= j -> Rabs (a - a') <= i * e -> Rabs (b - b') <= j * e -> Rabs (a' - b') <= A ->
  i + j + (A + (i + j) / 4096) + / 4096 <= k -> Rabs (rn (a - b) - (a' - b')) <= k * e.
Proof. intros I J Ha Hb HA K. apply (sum_e a (- b) a' (- b') i j A k); try assumption. replace (- b - - b') with (- (b - b')) by ring. rewrite Rabs_Ropp. exact Hb. Qed.
(** *** The frame of a direction *)
Section Frame.
Variables (z z' : R).
Hypothesis Hz : Rabs (z - z') <= 25 * u.
Hypothesis Z1 : Rabs z' <= 1.
Hypothesis Hw : W <= 1 - z' * z'.
Let w' := 1 - z' * z'.
Let sr := sqrt w'.
Lemma w_pos : 0 < w' <= 1. Proof. unfold w'. split; [lra|]. pose proof (Rle_0_sqr z'). unfold Rsqr in *. lra. Qed.
Lemma sr_sq : sr * sr = w'. Proof. apply sqrt_sqrt. pose proof w_pos. lra. Qed.
Lemma sr_pos : 0 < sr <= 1.
Proof. pose proof w_pos. split; [apply sqrt_lt_R0; lra|]. unfold sr. rewrite <- sqrt_1. apply sqrt_le_1_alt. lra. Qed.
Lemma w_sr : w' <= sr. Proof. pose proof sr_sq. pose proof sr_pos. rewrite <- H. rewrite <- (Rmult_1_r sr) at 3. apply Rmult_le_compat_l; lra. Qed.
Lemma u_sr : u <= e * sr.
Proof. rewrite Ue. pose proof e0. apply Rmult_le_compat_l; [lra|]. pose proof w_sr. unfold w' in *. lra. Qed.
Lemma eta_sr : eta <= / 4096 * (e * sr). Proof. pose proof eta_u. pose proof u_sr. lra. Qed.
Lemma radicand_near : Rabs (radicand emin prec z - w') <= 55 * u.
Proof.
  pose proof u0 as U0. pose proof u1 as U1. pose proof eta_u as EU. pose proof w_pos as WP. unfold radicand.
  assert (D : Rabs (z * z - z' * z') <= 25 * u * 1 + 25 * u * 1 + 25 * u * (25 * u)) by (apply prod_diff; assumption).
  assert (D' : Rabs (z * z - z' * z') <= 51 * u) by (assert (u * u <= / 4096 * u) by (apply Rmult_le_compat_r; lra); lra).
  assert (M : Rabs (z * z) <= 1 + 51 / 4096).
  { assert (Rabs (z' * z') <= 1) by (rewrite Rabs_right; [unfold w' in WP; lra | apply Rle_ge, Rle_0_sqr]). pose proof (near_abs _ _ _ _ D' H). lra. }
  pose proof (rn_err (z * z)) as R1. pose proof (tri (rn (z * z)) (z * z) (z' * z')) as T1.
  assert (u * Rabs (z * z) <= u * (1 + 51 / 4096)) by (apply Rmult_le_compat_l; lra).
  assert (Q : Rabs (rn (z * z) - z' * z') <= 53 * u) by lra. clear T1 R1 D D' M H.
  pose proof (rn_err (1 - rn (z * z))) as R2. pose proof (tri (rn (1 - rn (z * z))) (1 - rn (z * z)) w') as T2.
  assert (D : Rabs (1 - rn (z * z) - w') <= 53 * u) by (unfold w'; replace (1 - rn (z * z) - (1 - z' * z')) with (- (rn (z * z) - z' * z')) by ring; rewrite Rabs_Ropp; exact Q).
  assert (M : Rabs (1 - rn (z * z)) <= 1 + 53 / 4096) by (assert (A : Rabs w' <= 1) by (rewrite Rabs_right; lra); pose proof (near_abs _ _ _ _ D A); lra).
  assert (u * Rabs (1 - rn (z * z)) <= u * (1 + 53 / 4096)) by (apply Rmult_le_compat_l; lra). lra.
Qed.
Lemma root_near : exists s, root emin prec (radicand emin prec z) = Some s /\ Rabs (s - sr) <= 57 * e * sr.
Proof.
  pose proof radicand_near as R. set (w := radicand emin prec z) in *. pose proof e0 as E0. pose proof u0 as U0. pose proof sr_pos as [S0 S1]. pose proof sr_sq as SQ. pose proof w_pos as WP. pose proof u_sr as US. pose proof eta_sr as ES.
  assert (UW : u <= e * w') by (rewrite Ue; apply Rmult_le_compat_l; [lra | exact Hw]).
  assert (WL : w' / 2 <= w).
  { assert (55 * u <= w' / 2). { apply Rle_trans with (55 * (e * w')); [lra|]. assert (e * w' <= / 4096 * w') by (apply Rmult_le_compat_r; lra). lra. }
    unfold Rabs in R. destruct (Rcase_abs (w - w')); lra. }
  unfold root. destruct (Rlt_dec w 0) as [N|_]; [lra|]. exists (rn (sqrt w)). split; [reflexivity|].
  assert (D : Rabs (sqrt w - sr) <= 55 * e * sr).
  { assert (P : Rabs (sqrt w - sr) * (sqrt w + sr) = Rabs (w - w')).
    { pose proof (sqrt_pos w). rewrite <- (Rabs_right (sqrt w + sr)) by lra. rewrite <- Rabs_mult. f_equal. assert (Q : sqrt w * sqrt w = w) by (apply sqrt_sqrt; lra). transitivity (sqrt w * sqrt w - sr * sr); [ring | rewrite Q, SQ; reflexivity]. }
    apply (Rmult_le_reg_r sr); [exact S0|]. apply Rle_trans with (Rabs (sqrt w - sr) * (sqrt w + sr)).
    - apply Rmult_le_compat_l; [apply Rabs_pos|]. pose proof (sqrt_pos w). lra.
    - rewrite P. apply Rle_trans with (1 := R). replace (55 * e * sr * sr) with (55 * (e * (sr * sr))) by ring. rewrite SQ. lra. }
  pose proof (rn_err (sqrt w)) as RE. pose proof (tri (rn (sqrt w)) (sqrt w) sr) as T.
  assert (ES' : e * sr <= / 4096 * sr) by (apply Rmult_le_compat_r; lra).
  assert (M : Rabs (sqrt w) <= 102 / 100 * sr) by (assert (A : Rabs sr <= sr) by (rewrite Rabs_right; lra); pose proof (near_abs _ _ _ _ D A); lra).
  assert (u * Rabs (sqrt w) <= e * (102 / 100 * sr)) by (apply Rmult_le_compat; [lra | apply Rabs_pos | apply ue | exact M]). lra.
Qed.
Lemma inverse_near s : Rabs (s - sr) <= 57 * e * sr -> exists t, inverse emin prec s = Some t /\ Rabs (t * sr - 1) <= 60 * e.
Proof.
  intros H. pose proof e0 as E0. pose proof u0 as U0. pose proof sr_pos as [S0 S1]. pose proof eta_sr as ES. assert (ES' : e * sr <= / 4096 * sr) by (apply Rmult_le_compat_r; lra).
  assert (L : 986 / 1000 * sr <= s) by (unfold Rabs in H; destruct (Rcase_abs (s - sr)); lra). assert (SP : 0 < s) by lra.
  unfold inverse. destruct (Req_EM_T s 0) as [N|_]; [lra|]. exists (rn (1 / s)). split; [reflexivity|].
  assert (D : Rabs (1 / s * sr - 1) <= 58 * e).
  { replace (1 / s * sr - 1) with (- ((s - sr) * / s)) by (field; lra). rewrite Rabs_Ropp, Rabs_mult. rewrite (Rabs_right (/ s)) by (apply Rle_ge, Rlt_le, Rinv_0_lt_compat, SP).
    apply (Rmult_le_reg_r s); [exact SP|]. rewrite Rmult_assoc, Rinv_l, Rmult_1_r by lra. apply Rle_trans with (1 := H). replace (57 * e * sr) with (e * (57 * sr)) by ring. replace (58 * e * s) with (e * (58 * s)) by ring. apply Rmult_le_compat_l; lra. }
  pose proof (rn_err (1 / s)) as RE. pose proof (tri (rn (1 / s) * sr) (1 / s * sr) 1) as T.
  assert (Q : Rabs (rn (1 / s) * sr - 1 / s * sr) <= u * (Rabs (1 / s) * sr) + eta * sr).
  { replace (rn (1 / s) * sr - 1 / s * sr) with ((rn (1 / s) - 1 / s) * sr) by ring. rewrite Rabs_mult, (Rabs_right sr) by lra. apply Rle_trans with ((u * Rabs (1 / s) + eta) * sr); [apply Rmult_le_compat_r; lra | lra]. }
  assert (M : Rabs (1 / s) * sr <= 102 / 100).
  { assert (A : Rabs (1 / s * sr) <= 1 + 58 * e) by (apply (near_abs _ 1); [exact D | rewrite Rabs_right; lra]). rewrite Rabs_mult, (Rabs_right sr) in A by lra. lra. }
  assert (0 <= Rabs (1 / s) * sr) by (apply Rmult_le_pos; [apply Rabs_pos | lra]).
  assert (u * (Rabs (1 / s) * sr) <= e * (102 / 100)) by (apply Rmult_le_compat; [lra | assumption | apply ue | exact M]).
  assert (eta * sr <= eta * 1) by (apply Rmult_le_compat_l; [pose proof (eta_pos emin); lra | lra]). pose proof eta_e. lra.
Qed.
(** A component of the direction, times 1 / sqrt(1 - z^2). *)
Lemma component y y' t : Rabs (y - y') <= 25 * u -> Rabs y' <= sr -> Rabs (t * sr - 1) <= 60 * e -> Rabs (rn (y * t) - y' / sr) <= 88 * e.
Proof.
  intros Hy Y Ht. pose proof e0 as E0. pose proof u0 as U0. pose proof sr_pos as [S0 S1]. pose proof eta_e as EE. pose proof ue as UE. pose proof u_sr as US.
  assert (D : Rabs (y * t - y' / sr) <= 86 * e).
  { (* y t = (y / sr) (t sr) *)
    replace (y * t) with (y / sr * (t * sr)) by (field; lra). replace (y' / sr) with (y' / sr * 1) by ring.
    assert (A : Rabs (y / sr - y' / sr) <= 25 * e).
    { replace (y / sr - y' / sr) with ((y - y') * / sr) by (field; lra). rewrite Rabs_mult, (Rabs_right (/ sr)) by (apply Rle_ge, Rlt_le, Rinv_0_lt_compat, S0).
      apply (Rmult_le_reg_r sr); [exact S0|]. rewrite Rmult_assoc, Rinv_l, Rmult_1_r by lra. lra. }
    assert (B : Rabs (y' / sr) <= 1).
    { unfold Rdiv at 1. rewrite Rabs_mult, (Rabs_right (/ sr)) by (apply Rle_ge, Rlt_le, Rinv_0_lt_compat, S0). apply (Rmult_le_reg_r sr); [exact S0|]. rewrite Rmult_assoc, Rinv_l, Rmult_1_r by lra. lra. }
    pose proof (prod_diff _ _ _ _ _ _ _ 1 A Ht B) as P. rewrite Rabs_R1 in P. specialize (P (Rle_refl 1)). assert (25 * e * (60 * e) <= 25 * e * (60 * / 4096)) by (apply Rmult_le_compat_l; lra). lra. }
  pose proof (rn_err (y * t)) as R. pose proof (tri (rn (y * t)) (y * t) (y' / sr)) as T.
  assert (B : Rabs (y' / sr) <= 1).
  { unfold Rdiv at 1. rewrite Rabs_mult, (Rabs_right (/ sr)) by (apply Rle_ge, Rlt_le, Rinv_0_lt_compat, S0). apply (Rmult_le_reg_r sr); [exact S0|]. rewrite Rmult_assoc, Rinv_l, Rmult_1_r by lra. lra. }
  assert (M : Rabs (y * t) <= 115 / 100) by (pose proof (near_abs _ _ _ _ D B); lra).
  assert (u * Rabs (y * t) <= e * (115 / 100)) by (apply Rmult_le_compat; [lra | apply Rabs_pos | exact UE | exact M]). lra.
Qed.
(** The same times z: the vector towards the south. *)
Lemma over_sr x x' k : Rabs (x - x') <= k * u -> 0 <= k -> Rabs (x / sr - x' / sr) <= k * e.
Proof.
  intros H K. pose proof sr_pos as [S0 S1]. pose proof u_sr as US. replace (x / sr - x' / sr) with ((x - x') * / sr) by (field; lra). rewrite Rabs_mult, (Rabs_right (/ sr)) by (apply Rle_ge, Rlt_le, Rinv_0_lt_compat, S0).
  apply (Rmult_le_reg_r sr); [exact S0|]. rewrite Rmult_assoc, Rinv_l, Rmult_1_r by lra. apply Rle_trans with (1 := H). rewrite Rmult_assoc. apply Rmult_le_compat_l; assumption.
Qed.
Lemma over_1 x : Rabs x <= sr -> Rabs (x / sr) <= 1.
Proof.
  intros H. pose proof sr_pos as [S0 S1]. unfold Rdiv. rewrite Rabs_mult, (Rabs_right (/ sr)) by (apply Rle_ge, Rlt_le, Rinv_0_lt_compat, S0). apply (Rmult_le_reg_r sr); [exact S0|]. rewrite Rmult_assoc, Rinv_l, Rmult_1_r by lra. lra.
Qed.
Lemma component_z x x' t : Rabs (x - x') <= 2 * u -> Rabs x' <= sr -> Rabs (t * sr - 1) <= 60 * e -> Rabs (z - z') <= 2 * u -> Rabs (rn (x * rn (z * t)) - x' * (z' / sr)) <= 70 * e.
Proof.
  intros HX X Ht Ez. pose proof e0 as E0. pose proof u0 as U0. pose proof sr_pos as [S0 S1]. pose proof eta_e as EE. pose proof ue as UE. pose proof u_sr as US. pose proof eta_sr as ES.
  assert (P : Rabs (rn (z * t) * sr - z') <= 65 * e).
  { pose proof (rn_err (z * t)) as R. pose proof (tri (rn (z * t) * sr) (z * t * sr) z') as T.
    assert (A : Rabs (z * t * sr - z') <= 63 * e).
    { replace (z * t * sr - z') with (z * (t * sr) - z' * 1) by ring. assert (Ez' : Rabs (z - z') <= 2 * e) by lra. pose proof (prod_diff _ _ _ _ _ _ _ 1 Ez' Ht Z1) as P. rewrite Rabs_R1 in P. specialize (P (Rle_refl 1)). assert (2 * e * (60 * e) <= 2 * e * (60 * / 4096)) by (apply Rmult_le_compat_l; lra). lra. }
    assert (Q : Rabs (rn (z * t) * sr - z * t * sr) <= u * Rabs (z * t * sr) + eta * 1).
    { replace (rn (z * t) * sr - z * t * sr) with ((rn (z * t) - z * t) * sr) by ring. rewrite Rabs_mult, (Rabs_right sr) by lra. apply Rle_trans with ((u * Rabs (z * t) + eta) * sr); [apply Rmult_le_compat_r; lra|].
      rewrite (Rabs_mult (z * t) sr), (Rabs_right sr) by lra. assert (eta * sr <= eta * 1) by (apply Rmult_le_compat_l; [pose proof (eta_pos emin); lra | lra]). lra. }
    assert (M : Rabs (z * t * sr) <= 102 / 100) by (pose proof (near_abs _ _ _ _ A Z1); lra).
    assert (u * Rabs (z * t * sr) <= e * (102 / 100)) by (apply Rmult_le_compat; [lra | apply Rabs_pos | exact UE | exact M]). lra. }
  set (zt := rn (z * t)) in *.
  assert (D : Rabs (x * zt - x' * (z' / sr)) <= 68 * e).
  { replace (x * zt) with (x / sr * (zt * sr)) by (field; lra). replace (x' * (z' / sr)) with (x' / sr * z') by (field; lra).
    pose proof (prod_diff _ _ _ _ _ _ _ _ (over_sr _ _ 2 HX ltac:(lra)) P (over_1 _ X) Z1) as Q. assert (2 * e * (65 * e) <= 2 * e * (65 * / 4096)) by (apply Rmult_le_compat_l; lra). lra. }
  assert (C : Rabs (x' * (z' / sr)) <= 1) by (replace (x' * (z' / sr)) with (x' / sr * z') by (field; lra); rewrite Rabs_mult; apply Rle_trans with (1 * 1); [apply Rmult_le_compat; try apply Rabs_pos; [apply over_1, X | exact Z1] | lra]).
  pose proof (rn_err (x * zt)) as R. pose proof (tri (rn (x * zt)) (x * zt) (x' * (z' / sr))) as T.
  assert (M : Rabs (x * zt) <= 115 / 100) by (pose proof (near_abs _ _ _ _ D C); lra).
  assert (u * Rabs (x * zt) <= e * (115 / 100)) by (apply Rmult_le_compat; [lra | apply Rabs_pos | exact UE | exact M]). lra.
Qed.
End Frame.
End Err.
