From Coq Require Import Reals ZArith Lra Lia.
From Verif Require Import Base RndModel RndSpec RndProps BiFacts BirFacts BirFacts2 GalFacts RgnModel.
Open Scope R_scope.
(** The arguments and results of the library and constants. *)
Record libm (prec : Z) (sn cs : R -> R) (deg rad : R) : Prop := Libm {
  lib_sin : forall x, Rabs (sn x - sin x) <= 2 * unit_of prec;
  lib_cos : forall x, Rabs (cs x - cos x) <= 2 * unit_of prec;
  lib_deg : Rabs (deg - PI / 180) <= 3 * unit_of prec * (PI / 180);
  lib_rad : Rabs (rad - 180 / PI) <= 3 * unit_of prec * (180 / PI) }.
Lemma cos_lipschitz x y : Rabs (cos x - cos y) <= Rabs (x - y).
Proof. rewrite !cos_sin. eapply Rle_trans; [apply sin_lipschitz|]. right. f_equal. ring. Qed.
Lemma Rabs_le_inv x y : Rabs x <= y -> - y <= x <= y.
Proof. intros H. unfold Rabs in H. destruct (Rcase_abs x); lra. Qed.
Lemma pi_low : 3 < PI. Proof. pose proof PI2_3_2 as P. unfold PI2 in P. lra. Qed.
Lemma pi_high : PI < 3.15. Proof. pose proof pi_digits. lra. Qed.
Section G.
Variables (emin prec : Z) (sn cs : R -> R) (deg rad : R).
Notation rn := (rndp emin prec).
Notation u := (unit_of prec).
Notation eta := (tiny_of emin).
Hypothesis Pp : (0 < prec)%Z.
Hypothesis L : libm prec sn cs deg rad.
Hypothesis U1 : u <= / 4096.
Hypothesis He : eta <= u * u.
Lemma w1 : 0 < 1 <= 1. Proof. lra. Qed.
Lemma uu : u = u * 1. Proof. ring. Qed.
Notation produ := (prod_e emin prec 1 u Pp w1 uu U1 He).
Notation sumu := (sum_e emin prec 1 u Pp w1 uu U1 He).
Notation subu := (sub_e emin prec 1 u Pp w1 uu U1 He).
Lemma eu : eta <= / 4096 * u. Proof. pose proof (u_pos prec). apply Rle_trans with (1 := He). apply Rmult_le_compat_r; lra. Qed.
Lemma angle a M k : 0 <= M -> Rabs (a * (PI / 180)) <= M -> 4 * M + 3 / 4096 * M + / 4096 <= k -> Rabs (rn (a * deg) - a * (PI / 180)) <= k * u.
Proof.
  intros HM Ha Hk. pose proof (u_pos prec) as U0. assert (D : Rabs (a * deg - a * (PI / 180)) <= 3 * u * M).
  { replace (a * deg - a * (PI / 180)) with (a * (deg - PI / 180)) by ring. rewrite Rabs_mult. pose proof (lib_deg _ _ _ _ _ L) as H. rewrite Rabs_mult in Ha. rewrite (Rabs_right (PI / 180)) in Ha by (pose proof PI_RGT_0; lra). pose proof (Rabs_pos a).
    apply Rle_trans with (Rabs a * (3 * u * (PI / 180))); [now apply Rmult_le_compat_l|]. replace (Rabs a * (3 * u * (PI / 180))) with (3 * u * (Rabs a * (PI / 180))) by ring. apply Rmult_le_compat_l; lra. }
  pose proof (near_abs _ _ _ _ D Ha) as N. pose proof (rn_err emin prec Pp (a * deg)) as E. pose proof (tri (rn (a * deg)) (a * deg) (a * (PI / 180))) as T. pose proof eu.
  assert (u * Rabs (a * deg) <= u * (M + 3 / 4096 * M)). { apply Rmult_le_compat_l; [lra|]. assert (3 * u * M <= 3 * / 4096 * M) by (apply Rmult_le_compat_r; lra). lra. }
  assert (u * (4 * M + 3 / 4096 * M + / 4096) <= u * k) by (apply Rmult_le_compat_l; lra). lra.
Qed.
Lemma sin_near x y k : Rabs (x - y) <= k * u -> Rabs (sn x - sin y) <= (k + 2) * u.
Proof. intros H. pose proof (lib_sin _ _ _ _ _ L x). pose proof (sin_lipschitz x y). pose proof (tri (sn x) (sin x) (sin y)). lra. Qed.
Lemma cos_near x y k : Rabs (x - y) <= k * u -> Rabs (cs x - cos y) <= (k + 2) * u.
Proof. intros H. pose proof (lib_cos _ _ _ _ _ L x). pose proof (cos_lipschitz x y). pose proof (tri (cs x) (cos x) (cos y)). lra. Qed.
Section Dir.
Variables (a b a0 b0 : R).
Hypothesis Ha : Rabs a <= 360.
Hypothesis Ha0 : Rabs a0 <= 360.
Hypothesis Hb : Rabs b <= 90.
Hypothesis Hb0 : Rabs b0 <= 90.
Notation l := (a * (PI / 180)).
Notation l0 := (a0 * (PI / 180)).
Notation p := (b * (PI / 180)).
Notation p1 := (b0 * (PI / 180)).
Lemma scaled x M : Rabs x <= M -> Rabs (x * (PI / 180)) <= M * (3.15 / 180).
Proof. intros H. pose proof pi_high. pose proof pi_low. rewrite Rabs_mult, (Rabs_right (PI / 180)) by lra. apply Rmult_le_compat; try lra. apply Rabs_pos. Qed.
Lemma phi_near x : Rabs x <= 90 -> Rabs (rn (x * deg) - x * (PI / 180)) <= 7 * u.
Proof. intros H. apply (angle x (90 * (3.15 / 180)) 7); [lra | now apply scaled | lra]. Qed.
Lemma lambda_near x : Rabs x <= 360 -> Rabs (rn (x * deg) - x * (PI / 180)) <= 26 * u.
Proof. intros H. apply (angle x (360 * (3.15 / 180)) 26); [lra | now apply scaled | lra]. Qed.
Notation dl := (rn (rn (a * deg) - rn (a0 * deg))).
Lemma delta_near : Rabs (dl - (l - l0)) <= 66 * u.
Proof.
  apply (subu _ _ _ _ 26 26 (2 * (360 * (3.15 / 180))) 66); try lra; try now apply lambda_near. pose proof (scaled a 360 Ha). pose proof (scaled a0 360 Ha0). eapply Rle_trans; [unfold Rminus; apply Rabs_triang|]. rewrite Rabs_Ropp. lra.
Qed.
Notation sp := (sn (rn (b * deg))).
Notation cp := (cs (rn (b * deg))).
Notation sp1 := (sn (rn (b0 * deg))).
Notation cp1 := (cs (rn (b0 * deg))).
Lemma sp_near : Rabs (sp - sin p) <= 9 * u. Proof. replace 9 with (7 + 2) by ring. now apply sin_near, phi_near. Qed.
Lemma cp_near : Rabs (cp - cos p) <= 9 * u. Proof. replace 9 with (7 + 2) by ring. now apply cos_near, phi_near. Qed.
Lemma sp1_near : Rabs (sp1 - sin p1) <= 9 * u. Proof. replace 9 with (7 + 2) by ring. now apply sin_near, phi_near. Qed.
Lemma cp1_near : Rabs (cp1 - cos p1) <= 9 * u. Proof. replace 9 with (7 + 2) by ring. now apply cos_near, phi_near. Qed.
Lemma sd_near : Rabs (sn dl - sin (l - l0)) <= 68 * u. Proof. replace 68 with (66 + 2) by ring. apply sin_near, delta_near. Qed.
Lemma cd_near : Rabs (cs dl - cos (l - l0)) <= 68 * u. Proof. replace 68 with (66 + 2) by ring. apply cos_near, delta_near. Qed.
Lemma one x y : Rabs x <= 1 -> Rabs y <= 1 -> Rabs (x * y) <= 1.
Proof. intros Hx Hy. rewrite Rabs_mult. pose proof (Rabs_pos x). pose proof (Rabs_pos y). replace 1 with (1 * 1) by ring. apply Rmult_le_compat; lra. Qed.
Lemma two x y : Rabs (sin x * sin y + cos x * cos y * cos (l - l0)) <= 1 /\ Rabs (cos x * sin y - sin x * cos y * cos (l - l0)) <= 1.
Proof.
  assert (G : forall s c s1 c1 k, s * s + c * c = 1 -> s1 * s1 + c1 * c1 = 1 -> Rabs k <= 1 -> Rabs (s1 * s + c1 * c * k) <= 1).
  { intros s c s1 c1 k E E1 K. apply abs_1. assert (k * k <= 1) by (apply Rabs_le_inv in K; nra).
    assert ((s1 * s + c1 * c * k) * (s1 * s + c1 * c * k) <= (s1 * s1 + c1 * c1) * (s * s + (c * k) * (c * k))) by (pose proof (Rle_0_sqr (s1 * (c * k) - c1 * s)) as Q; unfold Rsqr in Q; lra).
    assert (0 <= c * c) by (pose proof (Rle_0_sqr c) as Q; exact Q). assert (c * c * (k * k) <= c * c * 1) by (apply Rmult_le_compat_l; lra). rewrite E1 in H0. lra. }
  pose proof (sc x) as X. pose proof (sc y) as Y. pose proof (cos_1 (l - l0)) as C. split.
  - apply G; [|  | exact C]; lra.
  - replace (cos x * sin y - sin x * cos y * cos (l - l0)) with (cos x * sin y + (- sin x) * cos y * cos (l - l0)) by ring. apply G; [| | exact C]; lra.
Qed.
Notation D := (sin p1 * sin p + cos p1 * cos p * cos (l - l0)).
Notation den := (rn (rn (sp1 * sp) + rn (rn (cp1 * cp) * cs dl))).
Lemma den_near : Rabs (den - D) <= 112 * u.
Proof.
  apply (sumu _ _ _ _ 20 90 1 112); try lra; [| | apply two].
  - apply (produ _ _ _ _ 9 9 1 1 20); try lra; [apply sp1_near | apply sp_near | apply sin_1 | apply sin_1].
  - apply (produ _ _ _ _ 20 68 1 1 90); try lra; [|apply cd_near | apply one; apply cos_1 | apply cos_1]. apply (produ _ _ _ _ 9 9 1 1 20); try lra; [apply cp1_near | apply cp_near | apply cos_1 | apply cos_1].
Qed.
Notation num := (rn (rn (cp1 * sp) - rn (rn (sp1 * cp) * cs dl))).
Lemma num_near : Rabs (num - (cos p1 * sin p - sin p1 * cos p * cos (l - l0))) <= 112 * u.
Proof.
  apply (subu _ _ _ _ 20 90 1 112); try lra; [| | apply two].
  - apply (produ _ _ _ _ 9 9 1 1 20); try lra; [apply cp1_near | apply sp_near | apply cos_1 | apply sin_1].
  - apply (produ _ _ _ _ 20 68 1 1 90); try lra; [|apply cd_near | apply one; [apply sin_1 | apply cos_1] | apply cos_1]. apply (produ _ _ _ _ 9 9 1 1 20); try lra; [apply sp1_near | apply cp_near | apply sin_1 | apply cos_1].
Qed.
Hypothesis HD : 4096 * u <= D.
Notation e := (u / D).
Notation S := (180 / PI / D).
Lemma D_pos : 0 < D <= 1. Proof. pose proof (u_pos prec). destruct (two p1 p) as [T _]. apply Rabs_le_inv in T. lra. Qed.
Lemma ue' : u = e * D. Proof. pose proof D_pos. field. lra. Qed.
Lemma E1' : e <= / 4096. Proof. pose proof D_pos. apply (Rmult_le_reg_r D); [lra|]. rewrite <- ue'. lra. Qed.
Lemma e_pos : 0 < e. Proof. pose proof D_pos. pose proof (u_pos prec). now apply Rdiv_lt_0_compat. Qed.
Lemma u_e : u <= e. Proof. exact (ue prec D e D_pos ue'). Qed.
Lemma S_big : 1 <= S.
Proof.
  pose proof D_pos. pose proof pi_low. pose proof pi_high. unfold Rdiv at 1. apply Rle_trans with (1 * 1); [lra|]. apply Rmult_le_compat; try lra.
  - apply (Rmult_le_reg_r PI); [lra|]. unfold Rdiv. rewrite Rmult_assoc, Rinv_l by lra. lra.
  - rewrite <- Rinv_1. apply Rinv_le_contravar; lra.
Qed.
Lemma den_low : 0 < den /\ Rabs (D / den - 1) <= 116 * e.
Proof.
  pose proof den_near as N. pose proof D_pos as Dp. pose proof e_pos as Ep. pose proof E1' as E1. pose proof ue' as Ue. set (d := den) in *. assert (H : Rabs (d - D) <= 112 * e * D) by (replace (112 * e * D) with (112 * u) by (field; lra); exact N).
  assert (112 * e * D <= 112 * / 4096 * D) by (apply Rmult_le_compat_r; lra). apply Rabs_le_inv in H as H'. assert (Hd : 0.97 * D <= d) by lra. assert (0 < d) by lra. split; [assumption|].
  replace (D / d - 1) with ((D - d) * / d) by (field; lra). rewrite Rabs_mult, Rabs_minus_sym, (Rabs_right (/ d)) by (left; now apply Rinv_0_lt_compat). apply (Rmult_le_reg_r d); [lra|]. rewrite Rmult_assoc, Rinv_l, Rmult_1_r by lra.
  apply Rle_trans with (1 := H). apply Rle_trans with (116 * e * (0.97 * D)); [|apply Rmult_le_compat_l; lra]. assert (0 < e * D) by (apply Rmult_lt_0_compat; lra). lra.
Qed.
(** A rounded product in units of [S]. *)
Lemma scaled_prod x y x' y' i j k : 0 <= i -> 0 <= j -> Rabs (x / S - x') <= i * e -> Rabs (y - y') <= j * e -> Rabs x' <= 1 -> Rabs y' <= 1 ->
  i + j + i * j / 4096 + (1 + i / 4096) * (1 + j / 4096) + / 4096 <= k -> Rabs (rn (x * y) / S - x' * y') <= k * e.
Proof.
  intros Hi Hj Hx Hy X Y Hk. pose proof D_pos as Dp. pose proof pi_low as P3. pose proof S_big as Sb. pose proof e_pos as Ep. pose proof E1' as E1. pose proof u_e as Ue.
  assert (P : Rabs (x / S * y - x' * y') <= i * e * 1 + j * e * 1 + i * e * (j * e)) by (apply prod_diff; assumption).
  assert (R : Rabs (rn (x * y) / S - x / S * y) <= u * Rabs (x / S * y) + eta).
  { replace (rn (x * y) / S - x / S * y) with ((rn (x * y) - x * y) * / S) by (field; repeat split; lra). rewrite Rabs_mult, (Rabs_right (/ S)) by (left; apply Rinv_0_lt_compat; lra).
    pose proof (rn_err emin prec Pp (x * y)) as E. apply (Rmult_le_reg_r S); [lra|]. rewrite Rmult_assoc, Rinv_l, Rmult_1_r by lra. apply Rle_trans with (1 := E).
    replace (x * y) with (x / S * y * S) at 1 by (field; repeat split; lra). rewrite Rabs_mult, (Rabs_right S) by lra. assert (eta * 1 <= eta * S) by (apply Rmult_le_compat_l; [left; apply eta_pos | lra]). lra. }
  pose proof (tri (rn (x * y) / S) (x / S * y) (x' * y')) as T. pose proof eu as Eu.
  assert (A : Rabs (x / S * y) <= (1 + i / 4096) * (1 + j / 4096)).
  { rewrite Rabs_mult. assert (i * e <= i * / 4096) by (apply Rmult_le_compat_l; lra). assert (j * e <= j * / 4096) by (apply Rmult_le_compat_l; lra). pose proof (near_abs _ _ _ _ Hx X). pose proof (near_abs _ _ _ _ Hy Y). apply Rmult_le_compat; try apply Rabs_pos; lra. }
  pose proof (Rabs_pos (x / S * y)). set (q := Rabs (x / S * y)) in *. assert (u * q <= e * ((1 + i / 4096) * (1 + j / 4096))) by (pose proof (u_pos prec); apply Rmult_le_compat; lra).
  assert (i * e * (j * e) <= i * j / 4096 * e). { replace (i * e * (j * e)) with (i * j * e * e) by ring. replace (i * j / 4096 * e) with (i * j * e * / 4096) by (unfold Rdiv; ring). apply Rmult_le_compat_l; [|lra]. apply Rmult_le_pos; [apply Rmult_le_pos; lra | lra]. }
  assert (e * (i + j + i * j / 4096 + (1 + i / 4096) * (1 + j / 4096) + / 4096) <= e * k) by (apply Rmult_le_compat_l; lra). lra.
Qed.
Notation inv := (rn (rad / den)).
Lemma inv_near : Rabs (inv / S - 1) <= 122 * e.
Proof.
  destruct den_low as [Dd Hd]. pose proof S_big as Sb. pose proof e_pos as Ep. pose proof E1' as E1. pose proof u_e as Ue. pose proof D_pos as Dp. pose proof pi_low as P3. pose proof eu as Eu. pose proof (u_pos prec) as U0. set (d := den) in *.
  assert (Hr : Rabs (rad / (180 / PI) - 1) <= 3 * e).
  { assert (0 < 180 / PI) by (apply Rdiv_lt_0_compat; lra). replace (rad / (180 / PI) - 1) with ((rad - 180 / PI) * / (180 / PI)) by (field; lra). rewrite Rabs_mult, (Rabs_right (/ (180 / PI))) by (left; now apply Rinv_0_lt_compat).
    apply (Rmult_le_reg_r (180 / PI)); [assumption|]. rewrite Rmult_assoc, Rinv_l, Rmult_1_r by lra. apply Rle_trans with (1 := lib_rad _ _ _ _ _ L). apply Rmult_le_compat_r; lra. }
  assert (Q : Rabs (rad / (180 / PI) * (D / d) - 1 * 1) <= 3 * e * 1 + 116 * e * 1 + 3 * e * (116 * e)) by (apply prod_diff; try assumption; rewrite Rabs_R1; lra). replace (1 * 1) with 1 in Q by ring.
  assert (Eq : rad / d / S = rad / (180 / PI) * (D / d)) by (field; repeat split; lra).
  assert (R : Rabs (inv / S - rad / d / S) <= u * Rabs (rad / d / S) + eta).
  { replace (inv / S - rad / d / S) with ((inv - rad / d) * / S) by (field; repeat split; lra). rewrite Rabs_mult, (Rabs_right (/ S)) by (left; apply Rinv_0_lt_compat; lra).
    pose proof (rn_err emin prec Pp (rad / d)) as E. apply (Rmult_le_reg_r S); [lra|]. rewrite Rmult_assoc, Rinv_l, Rmult_1_r by lra. apply Rle_trans with (1 := E).
    replace (rad / d) with (rad / d / S * S) at 1 by (field; repeat split; lra). rewrite Rabs_mult, (Rabs_right S) by lra. assert (eta * 1 <= eta * S) by (apply Rmult_le_compat_l; [left; apply eta_pos | lra]). lra. }
  rewrite Eq in R. assert (3 * e * (116 * e) <= 0.1 * e) by (replace (3 * e * (116 * e)) with (348 * e * e) by ring; apply Rmult_le_compat_r; lra).
  assert (A : Rabs (rad / (180 / PI) * (D / d)) <= 1.1) by (eapply Rle_trans; [apply (near_abs _ 1 1 _ Q); rewrite Rabs_R1; lra | lra]).
  pose proof (Rabs_pos (rad / (180 / PI) * (D / d))). assert (u * Rabs (rad / (180 / PI) * (D / d)) <= e * 1.1) by (apply Rmult_le_compat; lra).
  pose proof (tri (inv / S) (rad / (180 / PI) * (D / d)) 1). subst d. lra.
Qed.
Notation xs := (rn (rn (inv * cp) * sn dl)).
Notation ys := (rn (inv * num)).
Lemma xs_near : Rabs (xs / S - cos p * sin (l - l0)) <= 205 * e.
Proof.
  pose proof u_e as Ue. pose proof e_pos as Ep. assert (C1 : Rabs 1 <= 1) by (rewrite Rabs_R1; lra).
  replace (cos p * sin (l - l0)) with (1 * cos p * sin (l - l0)) by ring. apply (scaled_prod _ _ _ _ 133 68 205); try lra.
  - apply (scaled_prod _ _ _ _ 122 9 133); try lra; [apply inv_near | pose proof cp_near; lra | apply cos_1].
  - pose proof sd_near. lra.
  - rewrite Rmult_1_l. apply cos_1.
  - apply sin_1.
Qed.
Lemma ys_near : Rabs (ys / S - (cos p1 * sin p - sin p1 * cos p * cos (l - l0))) <= 239 * e.
Proof.
  pose proof u_e as Ue. pose proof e_pos as Ep. assert (C1 : Rabs 1 <= 1) by (rewrite Rabs_R1; lra).
  rewrite <- (Rmult_1_l (cos p1 * sin p - sin p1 * cos p * cos (l - l0))). apply (scaled_prod _ _ _ _ 122 112 239); try lra; [apply inv_near | pose proof num_near; lra | apply two].
Qed.
Lemma unscale x y k : Rabs (x / S - y) <= k * e -> Rabs (x - S * y) <= k * e * S.
Proof.
  intros H. pose proof S_big. pose proof D_pos. pose proof pi_low. replace (x - S * y) with ((x / S - y) * S) by (field; repeat split; lra). rewrite Rabs_mult, (Rabs_right S) by lra. apply Rmult_le_compat_r; lra.
Qed.
Lemma plane : exists x y, xsi_eta_r emin prec sn cs deg rad (init_gnomonic_r emin prec sn cs deg (a0, b0)) a b = Some (x, y) /\
  Rabs (x - S * (cos p * sin (l - l0))) <= 239 * e * S /\ Rabs (y - S * (cos p1 * sin p - sin p1 * cos p * cos (l - l0))) <= 239 * e * S.
Proof.
  exists xs, ys. split.
  - unfold xsi_eta_r, init_gnomonic_r. cbn [fst snd]. destruct (Req_EM_T den 0) as [Z|_]; [|reflexivity]. destruct den_low as [P _]. rewrite Z in P. lra.
  - split; apply unscale; [|apply ys_near]. eapply Rle_trans; [apply xs_near|]. pose proof e_pos. apply Rmult_le_compat_r; lra.
Qed.
End Dir.
Section Rot.
Variables (e S : R).
Hypothesis E1 : e <= / 4096.
Hypothesis Ue : u <= e.
Hypothesis Sb : 1 <= S.
Lemma row i1 i2 c x y x' y' : Rabs (x - x') <= 239 * e * S -> Rabs (y - y') <= 239 * e * S -> Rabs x' <= S -> Rabs y' <= S ->
  Rabs (rn (rn (rn (i1 * x) + rn (i2 * y)) + c) - (i1 * x' + i2 * y' + c)) <= 243 * (Rabs i1 + Rabs i2) * e * S + u * Rabs c + 5 * eta.
Proof.
  intros Hx Hy Bx By. pose proof (u_pos prec) as U0. pose proof eu as Eu. pose proof (eta_pos emin) as E0. set (N := Rabs i1 + Rabs i2). pose proof (Rabs_pos i1) as P1. pose proof (Rabs_pos i2) as P2.
  assert (ES : 0 <= e * S) by (apply Rmult_le_pos; lra). assert (US : u * S <= e * S) by (apply Rmult_le_compat_r; lra). assert (ES2 : e * S <= / 4096 * S) by (apply Rmult_le_compat_r; lra).
  assert (G : forall i v v', Rabs (v - v') <= 239 * e * S -> Rabs v' <= S -> Rabs (rn (i * v) - i * v') <= 240.06 * (Rabs i * (e * S)) + eta).
  { intros i v v' Hv Bv. pose proof (rn_err emin prec Pp (i * v)) as E. pose proof (tri (rn (i * v)) (i * v) (i * v')) as T. assert (Av : Rabs v <= 1.06 * S) by (eapply Rle_trans; [apply (near_abs _ _ _ _ Hv Bv) | lra]).
    replace (i * v - i * v') with (i * (v - v')) in T by ring. rewrite Rabs_mult in E. rewrite (Rabs_mult i (v - v')) in T. pose proof (Rabs_pos i). assert (Rabs i * Rabs (v - v') <= Rabs i * (239 * e * S)) by now apply Rmult_le_compat_l.
    assert (Rabs i * Rabs v <= Rabs i * (1.06 * S)) by now apply Rmult_le_compat_l. assert (u * (Rabs i * Rabs v) <= u * (Rabs i * (1.06 * S))) by (apply Rmult_le_compat_l; lra). assert (Rabs i * (u * S) <= Rabs i * (e * S)) by (apply Rmult_le_compat_l; lra). lra. }
  pose proof (G i1 x x' Hx Bx) as G1. pose proof (G i2 y y' Hy By) as G2. set (r1 := rn (i1 * x)) in *. set (r2 := rn (i2 * y)) in *.
  assert (Nes : N * (e * S) = Rabs i1 * (e * S) + Rabs i2 * (e * S)) by (unfold N; ring). assert (N0 : 0 <= N) by (unfold N; lra).
  assert (H2 : Rabs (r1 + r2 - (i1 * x' + i2 * y')) <= 240.06 * (N * (e * S)) + 2 * eta). { replace (r1 + r2 - (i1 * x' + i2 * y')) with ((r1 - i1 * x') + (r2 - i2 * y')) by ring. eapply Rle_trans; [apply Rabs_triang|]. lra. }
  assert (B2 : Rabs (i1 * x' + i2 * y') <= N * S). { eapply Rle_trans; [apply Rabs_triang|]. rewrite !Rabs_mult. assert (Rabs i1 * Rabs x' <= Rabs i1 * S) by now apply Rmult_le_compat_l. assert (Rabs i2 * Rabs y' <= Rabs i2 * S) by now apply Rmult_le_compat_l. unfold N. lra. }
  pose proof (near_abs _ _ _ _ H2 B2) as A2. assert (Nes2 : N * (e * S) <= N * (/ 4096 * S)) by (apply Rmult_le_compat_l; lra). assert (NS0 : 0 <= N * S) by (apply Rmult_le_pos; lra).
  assert (A3 : Rabs (r1 + r2) <= 1.06 * (N * S) + 2 * eta) by lra. pose proof (rn_err emin prec Pp (r1 + r2)) as E3. assert (NuS : N * (u * S) <= N * (e * S)) by (apply Rmult_le_compat_l; lra).
  assert (UE : u * eta <= / 4096 * eta) by (apply Rmult_le_compat_r; lra).
  assert (M3 : u * Rabs (r1 + r2) <= 1.06 * (N * (e * S)) + 2 * (/ 4096 * eta)). { apply Rle_trans with (u * (1.06 * (N * S) + 2 * eta)); [apply Rmult_le_compat_l; lra|]. lra. }
  set (r3 := rn (r1 + r2)) in *. pose proof (tri r3 (r1 + r2) (i1 * x' + i2 * y')) as T3.
  assert (H3 : Rabs (r3 - (i1 * x' + i2 * y')) <= 241.12 * (N * (e * S)) + 3.1 * eta) by lra. pose proof (near_abs _ _ _ _ H3 B2) as B3. assert (A4 : Rabs r3 <= 1.06 * (N * S) + 3.1 * eta) by lra.
  pose proof (rn_err emin prec Pp (r3 + c)) as E4. pose proof (Rabs_triang r3 c) as T4.
  assert (M4 : u * Rabs (r3 + c) <= 1.06 * (N * (e * S)) + 3.1 * (/ 4096 * eta) + u * Rabs c). { apply Rle_trans with (u * (1.06 * (N * S) + 3.1 * eta + Rabs c)); [apply Rmult_le_compat_l; lra|]. lra. }
  pose proof (tri (rn (r3 + c)) (r3 + c) (i1 * x' + i2 * y' + c)) as T5. replace (r3 + c - (i1 * x' + i2 * y' + c)) with (r3 - (i1 * x' + i2 * y')) in T5 by ring.
  replace (243 * N * e * S) with (243 * (N * (e * S))) by ring. assert (0 <= N * (e * S)) by (apply Rmult_le_pos; lra). lra.
Qed.
Lemma offset c : Rabs (rn (c - 1) - (c - 1)) + u * Rabs (rn (c - 1)) + 5 * eta <= 3 * u * Rabs (c - 1) + 7 * eta.
Proof.
  pose proof (u_pos prec) as U0. pose proof (eta_pos emin) as E0. pose proof (rn_err emin prec Pp (c - 1)) as E. set (q := c - 1) in *. pose proof (Rabs_pos q). pose proof (near_abs _ _ _ _ E (Rle_refl _)) as N.
  assert (u * Rabs (rn q) <= u * (Rabs q + (u * Rabs q + eta))) by (apply Rmult_le_compat_l; lra). assert (u * Rabs q <= / 4096 * Rabs q) by (apply Rmult_le_compat_r; lra). assert (u * (u * Rabs q) <= u * (/ 4096 * Rabs q)) by (apply Rmult_le_compat_l; lra).
  assert (u * eta <= / 4096 * eta) by (apply Rmult_le_compat_r; lra). assert (0 <= u * Rabs q) by (apply Rmult_le_pos; lra). lra.
Qed.
End Rot.
(** The inverse of a matrix of determinant [dt] whose products are at most [k] times it. *)
Lemma det_near p q k : 1 <= k -> k * u <= / 4096 -> p - q <> 0 -> Rabs p + Rabs q <= k * Rabs (p - q) -> eta <= u * u * Rabs (p - q) ->
  Rabs (rn (rn p - rn q) - (p - q)) <= (k + 1.01) * u * Rabs (p - q).
Proof.
  intros Hk Ku N K Et. pose proof (u_pos prec) as U0. pose proof (eta_pos emin) as E0. set (dt := p - q) in *. pose proof (Rabs_pos_lt dt N) as D0. pose proof (rn_err emin prec Pp p) as Ep. pose proof (rn_err emin prec Pp q) as Eq. pose proof (rn_err emin prec Pp (rn p - rn q)) as E.
  set (d := Rabs dt) in *. assert (H1 : Rabs (rn p - rn q - dt) <= k * u * d + 2 * eta). { replace (rn p - rn q - dt) with ((rn p - p) - (rn q - q)) by (unfold dt; ring). eapply Rle_trans; [unfold Rminus at 1; apply Rabs_triang|]. rewrite Rabs_Ropp. assert (u * (Rabs p + Rabs q) <= u * (k * d)) by (apply Rmult_le_compat_l; lra). lra. }
  pose proof (near_abs _ _ _ _ H1 (Rle_refl _)) as A1. fold d in A1. assert (U2 : u * u <= u * / 4096) by (apply Rmult_le_compat_l; lra). assert (Ud : u * u * d <= u * / 4096 * d) by (apply Rmult_le_compat_r; lra). assert (Kd : k * u * d <= / 4096 * d) by (apply Rmult_le_compat_r; lra).
  assert (UD : u * d <= / 4096 * d) by (apply Rmult_le_compat_r; lra). assert (A2 : Rabs (rn p - rn q) <= 1.001 * d) by lra. assert (u * Rabs (rn p - rn q) <= u * (1.001 * d)) by (apply Rmult_le_compat_l; lra).
  pose proof (tri (rn (rn p - rn q)) (rn p - rn q) dt) as T. assert (0 <= u * d) by (apply Rmult_le_pos; lra). replace ((k + 1.01) * u * d) with (k * u * d + 1.01 * (u * d)) by ring. lra.
Qed.
Lemma quotient_near c dt d k : 1 <= k -> k * u <= / 4096 -> dt <> 0 -> Rabs (d - dt) <= (k + 1.01) * u * Rabs dt -> d <> 0 /\ Rabs (rn (c / d) - c / dt) <= 2 * (k + 1) * u * Rabs (c / dt) + eta.
Proof.
  intros Hk Ku N H. pose proof (u_pos prec) as U0. pose proof (Rabs_pos_lt dt N) as D0. set (r := (k + 1.01) * u) in *. assert (Hr : 0 <= r <= 2.01 / 4096) by (unfold r; split; [apply Rmult_le_pos; lra | lra]).
  assert (B : (1 - 2.01 / 4096) * Rabs dt <= Rabs d). { pose proof (Rabs_triang_inv dt (dt - d)) as T. replace (dt - (dt - d)) with d in T by ring. rewrite (Rabs_minus_sym dt d) in T. assert (r * Rabs dt <= 2.01 / 4096 * Rabs dt) by (apply Rmult_le_compat_r; lra). lra. }
  assert (Nd : d <> 0). { intros ->. rewrite Rabs_R0 in B. lra. } split; [exact Nd|]. pose proof (Rabs_pos_lt d Nd) as Dp. set (q := Rabs (c / dt)). pose proof (Rabs_pos (c / dt)) as Q0. fold q in Q0.
  assert (E : Rabs (c / d - c / dt) <= 1.001 * r * q). { replace (c / d - c / dt) with (c / dt * ((dt - d) * / d)) by (field; split; assumption). rewrite !Rabs_mult. fold q. rewrite (Rmult_comm (1.001 * r)). apply Rmult_le_compat_l; [exact Q0|]. rewrite Rabs_Rinv by exact Nd. rewrite Rabs_minus_sym. apply (Rmult_le_reg_r (Rabs d)); [exact Dp|]. rewrite Rmult_assoc, Rinv_l, Rmult_1_r by lra.
    apply Rle_trans with (1 := H). apply Rle_trans with (1.001 * r * ((1 - 2.01 / 4096) * Rabs dt)); [|apply Rmult_le_compat_l; lra]. assert (0 <= r * Rabs dt) by (apply Rmult_le_pos; lra). lra. }
  pose proof (near_abs _ _ _ _ E (Rle_refl _)) as A. fold q in A. pose proof (rn_err emin prec Pp (c / d)) as F. pose proof (tri (rn (c / d)) (c / d) (c / dt)) as T.
  assert (R1 : r * q <= 2.01 / 4096 * q) by (apply Rmult_le_compat_r; lra). assert (A2 : Rabs (c / d) <= 1.001 * q) by lra. assert (u * Rabs (c / d) <= u * (1.001 * q)) by (apply Rmult_le_compat_l; lra).
  assert (Rq : r * q = k * (u * q) + 1.01 * (u * q)) by (unfold r; ring). assert (UQ : 0 <= u * q) by (apply Rmult_le_pos; lra). assert (UK : 1 * (u * q) <= k * (u * q)) by (apply Rmult_le_compat_r; lra). replace (2 * (k + 1) * u * q) with (2 * (k * (u * q)) + 2 * (u * q)) by ring. lra.
Qed.
End G.
