From Coq Require Import Reals QArith Qreals Lra Lia.
From Verif Require Import Base SkyModel SkySpec SkyFacts WcsModel GalModel GalSpec GalFacts.
Open Scope R_scope.
(** *** Reflections *)
Definition householder (p : R * vec) : Prop := fst p * (fst p * scalar (snd p) (snd p) - 2) = 0.
Lemma reflect_twice t v w : householder (t, v) -> reflect t v (reflect t v w) = w.
Proof.
  destruct v as [[a b] c], w as [[x y] z]. unfold householder, scalar. cbn [fst snd]. intros H. cbn [reflect dot3 vtimes vsub].
  set (d := a * x + b * y + c * z). assert (E : t * (a * (x - t * d * a) + b * (y - t * d * b) + c * (z - t * d * c)) = - (t * d)).
  { transitivity (t * d - d * (t * (t * (a * a + b * b + c * c)))); [unfold d; ring|]. replace (t * (t * (a * a + b * b + c * c))) with (2 * t) by lra. ring. }
  rewrite E. repeat apply (f_equal2 pair); ring.
Qed.
Lemma reflect_scalar t v u w : householder (t, v) -> scalar (reflect t v u) (reflect t v w) = scalar u w.
Proof.
  destruct v as [[a b] c], w as [[x y] z], u as [[p q] r]. unfold householder, scalar. cbn [fst snd]. intros H. cbn [reflect dot3 vtimes vsub fst snd].
  set (d := a * x + b * y + c * z). set (e := a * p + b * q + c * r).
  transitivity (p * x + q * y + r * z + d * e * (t * (t * (a * a + b * b + c * c) - 2))); [unfold d, e; ring | rewrite H; ring].
Qed.
Lemma reflect_mixed t v a b c : mixed (reflect t v a) (reflect t v b) (reflect t v c) = (1 - t * scalar v v) * mixed a b c.
Proof. destruct v as [[v0 v1] v2], a as [[a0 a1] a2], b as [[b0 b1] b2], c as [[c0 c1] c2]. unfold scalar. cbn [fst snd reflect dot3 vtimes vsub mixed]. ring. Qed.
Lemma reflect_combination t v x a b c : reflect t v (combination x a b c) = combination x (reflect t v a) (reflect t v b) (reflect t v c).
Proof. destruct v as [[v0 v1] v2], a as [[a0 a1] a2], b as [[b0 b1] b2], c as [[c0 c1] c2], x as [[x0 x1] x2]. unfold combination. cbn [fst snd reflect dot3 vtimes vsub]. repeat apply (f_equal2 pair); ring. Qed.
(** *** dlarfg *)
Lemma beta_square alpha s : 0 <= s -> dlarfg_beta alpha s * dlarfg_beta alpha s = alpha * alpha + s.
Proof.
  intros H. unfold dlarfg_beta. destruct (Req_EM_T s 0) as [->|N]; [ring|]. assert (P : 0 <= alpha * alpha + s) by nra. pose proof (sqrt_sqrt _ P) as Q. pose proof (sqrt_pos (alpha * alpha + s)).
  unfold fsign. rewrite Rabs_right by lra. destruct (Rle_dec 0 alpha); nra.
Qed.
Lemma beta_nonzero alpha s : 0 < s -> dlarfg_beta alpha s <> 0 /\ alpha - dlarfg_beta alpha s <> 0.
Proof.
  intros H. unfold dlarfg_beta. destruct (Req_EM_T s 0) as [->|N]; [lra|]. assert (P : 0 < alpha * alpha + s) by nra. pose proof (sqrt_lt_R0 _ P).
  unfold fsign. rewrite Rabs_right by lra. destruct (Rle_dec 0 alpha); lra.
Qed.
Lemma beta_negative alpha s : 0 < s -> alpha < 0 -> dlarfg_beta alpha s = sqrt (alpha * alpha + s).
Proof. intros H A. unfold dlarfg_beta. destruct (Req_EM_T s 0); [lra|]. pose proof (sqrt_pos (alpha * alpha + s)). unfold fsign. rewrite Rabs_right by lra. destruct (Rle_dec 0 alpha); lra. Qed.
Lemma first_ok a : householder (first_column a) /\ reflect (fst (first_column a)) (snd (first_column a)) a = (dlarfg_beta (fst (fst a)) (snd (fst a) * snd (fst a) + snd a * snd a), 0, 0) /\
  (snd (fst a) * snd (fst a) + snd a * snd a <> 0 -> fst (first_column a) * scalar (snd (first_column a)) (snd (first_column a)) = 2).
Proof.
  destruct a as [[x y] z]. unfold first_column. cbn [fst snd]. set (s := y * y + z * z). unfold householder, scalar. cbn [fst snd].
  assert (S : 0 <= s) by (unfold s; nra). pose proof (beta_square x s S) as B. unfold dlarfg_tau, dlarfg_scale. destruct (Req_EM_T s 0) as [E|N].
  - split; [ring|]. split; [|lra]. assert (y = 0 /\ z = 0) as [-> ->] by (unfold s in E; split; nra). unfold dlarfg_beta. destruct (Req_EM_T s 0); [|lra].
    cbn [reflect dot3 vtimes vsub]. repeat apply (f_equal2 pair); ring.
  - destruct (beta_nonzero x s ltac:(lra)) as [N1 N2]. set (b := dlarfg_beta x s) in *.
    assert (W : (b - x) / b * (1 * 1 + y / (x - b) * (y / (x - b)) + z / (x - b) * (z / (x - b))) = 2).
    { transitivity ((b - x) / b * (1 + s / ((x - b) * (x - b)))); [unfold s; field; split; assumption|]. replace s with (b * b - x * x) by lra. field. split; assumption. }
    split; [rewrite W; ring|]. split; [|intros _; exact W]. cbn [reflect dot3 vtimes vsub].
    assert (V : (b - x) / b * (1 * x + y / (x - b) * y + z / (x - b) * z) = x - b).
    { transitivity ((b - x) / b * (x + s / (x - b))); [unfold s; field; split; assumption|]. replace s with (b * b - x * x) by lra. field. split; assumption. }
    rewrite V. repeat apply (f_equal2 pair); field; assumption.
Qed.
Lemma second_ok a : householder (second_column a) /\ reflect (fst (second_column a)) (snd (second_column a)) a = (fst (fst a), dlarfg_beta (snd (fst a)) (snd a * snd a), 0) /\
  (forall x, reflect (fst (second_column a)) (snd (second_column a)) (x, 0, 0) = (x, 0, 0)) /\
  (snd a * snd a <> 0 -> fst (second_column a) * scalar (snd (second_column a)) (snd (second_column a)) = 2).
Proof.
  destruct a as [[x y] z]. unfold second_column. cbn [fst snd]. set (s := z * z). unfold householder, scalar. cbn [fst snd].
  assert (S : 0 <= s) by (unfold s; nra). pose proof (beta_square y s S) as B. unfold dlarfg_tau, dlarfg_scale. destruct (Req_EM_T s 0) as [E|N].
  - split; [ring|]. assert (z = 0) as -> by (unfold s in E; nra). unfold dlarfg_beta. destruct (Req_EM_T s 0); [|lra].
    cbn [reflect dot3 vtimes vsub]. split; [repeat apply (f_equal2 pair); ring|]. split; [|lra]. intros w. repeat apply (f_equal2 pair); ring.
  - destruct (beta_nonzero y s ltac:(lra)) as [N1 N2]. set (b := dlarfg_beta y s) in *.
    assert (W : (b - y) / b * (0 * 0 + 1 * 1 + z / (y - b) * (z / (y - b))) = 2).
    { transitivity ((b - y) / b * (1 + s / ((y - b) * (y - b)))); [unfold s; field; split; assumption|]. replace s with (b * b - y * y) by lra. field. split; assumption. }
    split; [rewrite W; ring|]. cbn [reflect dot3 vtimes vsub].
    assert (V : (b - y) / b * (0 * x + 1 * y + z / (y - b) * z) = y - b).
    { transitivity ((b - y) / b * (y + s / (y - b))); [unfold s; field; split; assumption|]. replace s with (b * b - y * y) by lra. field. split; assumption. }
    rewrite V. split; [repeat apply (f_equal2 pair); field; assumption|]. split; [|intros _; exact W]. intros w. repeat apply (f_equal2 pair); ring.
Qed.
(** *** The factorisation *)
Definition column (m : mat) (j : nat) : vec := let '(a, b, c) := swapaxes m in match j with O => a | 1%nat => b | _ => c end.
Lemma swap_combination q x a b c : swapaxes q = (a, b, c) -> combination x a b c = apply_mat q x.
Proof. destruct q as [[[[q0 q1] q2] [[r0 r1] r2]] [[s0 s1] s2]], x as [[x y] z]. cbn [swapaxes]. intros [= <- <- <-]. unfold combination. cbn [fst snd apply_mat dot3]. repeat apply (f_equal2 pair); ring. Qed.
Lemma product_columns q m r r1 r2 r3 : swapaxes r = (r1, r2, r3) -> swapaxes m = (apply_mat q r1, apply_mat q r2, apply_mat q r3) -> m = product q r.
Proof.
  intros H H'. rewrite <- (swap_swap m), H'. clear H'. rewrite <- (swap_swap r), H. clear H. destruct q as [[[[q0 q1] q2] [[p0 p1] p2]] [[s0 s1] s2]], r1 as [[x1 y1] z1], r2 as [[x2 y2] z2], r3 as [[x3 y3] z3].
  unfold product, combination. cbn [swapaxes apply_mat dot3 fst snd]. reflexivity.
Qed.
Lemma qr_columns m : exists t1 v1 t2 v2 x12 r3, let b1 := dlarfg_beta (fst (fst (column m 0))) (snd (fst (column m 0)) * snd (fst (column m 0)) + snd (column m 0) * snd (column m 0)) in
  let b2 := reflect t1 v1 (column m 1) in let d2 := dlarfg_beta (snd (fst b2)) (snd b2 * snd b2) in
  (t1, v1) = first_column (column m 0) /\ (t2, v2) = second_column b2 /\ x12 = fst (fst b2) /\
  swapaxes (qr_factor m) = (reflect t1 v1 (reflect t2 v2 (1, 0, 0)), reflect t1 v1 (reflect t2 v2 (0, 1, 0)), reflect t1 v1 (reflect t2 v2 (0, 0, 1))) /\
  swapaxes m = (apply_mat (qr_factor m) (b1, 0, 0), apply_mat (qr_factor m) (x12, d2, 0), apply_mat (qr_factor m) r3).
Proof.
  unfold column, qr_factor. destruct (swapaxes m) as [[a1 a2] a3] eqn:M. destruct (first_column a1) as [t1 v1] eqn:F. destruct (second_column (reflect t1 v1 a2)) as [t2 v2] eqn:G.
  exists t1, v1, t2, v2, (fst (fst (reflect t1 v1 a2))), (reflect t2 v2 (reflect t1 v1 a3)). cbv zeta. split; [reflexivity|]. split; [now rewrite G|]. split; [reflexivity|]. rewrite !swap_swap. split; [reflexivity|].
  pose proof (first_ok a1) as [H1 [R1 _]]. rewrite F in H1, R1. cbn [fst snd] in R1. pose proof (second_ok (reflect t1 v1 a2)) as [H2 [R2 [K2 _]]]. rewrite G in H2, R2, K2. cbn [fst snd] in R2, K2.
  assert (A : forall x, apply_mat (swapaxes (reflect t1 v1 (reflect t2 v2 (1, 0, 0)), reflect t1 v1 (reflect t2 v2 (0, 1, 0)), reflect t1 v1 (reflect t2 v2 (0, 0, 1)))) x = reflect t1 v1 (reflect t2 v2 x)).
  { intros x. erewrite <- swap_combination; [|apply swap_swap]. rewrite <- !reflect_combination. do 2 f_equal. destruct x as [[x y] z]. unfold combination. cbn [fst snd]. repeat apply (f_equal2 pair); ring. }
  rewrite !A, K2, <- R1, <- R2, !reflect_twice by assumption. reflexivity.
Qed.
Lemma qr_orthonormal m : rows_ok (qr_factor m).
Proof.
  rewrite <- swap_swap. apply rows_swap. destruct (qr_columns m) as [t1 [v1 [t2 [v2 [x12 [r3 [F [G [_ [Q _]]]]]]]]]]. rewrite Q.
  pose proof (first_ok (column m 0)) as [H1 _]. rewrite <- F in H1. pose proof (second_ok (reflect t1 v1 (column m 1))) as [H2 _]. rewrite <- G in H2.
  unfold rows_ok, orthonormal. rewrite !reflect_scalar by assumption. unfold scalar. cbn. repeat split; ring.
Qed.
