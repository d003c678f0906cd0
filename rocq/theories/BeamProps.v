(** C64, continued: the solid angle of gaussian beams on the sphere. *)
From Coq Require Import Reals Lra Lia.
From Coquelicot Require Import Coquelicot.
From Verif Require Import DataModel DataFacts2 DataProps HullSpec.
Open Scope R_scope.

Lemma sigma_pos f : 0 < f -> 0 < beam_sigma f.
Proof. intros Hf. unfold beam_sigma. apply Rmult_lt_0_compat; [exact Hf|]. apply Rinv_0_lt_compat, sqrt_lt_R0. assert (0 < ln 2) by (rewrite <- ln_1; apply ln_increasing; lra). lra. Qed.
Lemma sine_bounds t : 0 <= t <= PI -> t - t * t * t / 6 <= sin t <= t.
Proof.
  intros H. pose proof (SIN_bound t). destruct (sin_bound t 0 ltac:(lra) ltac:(lra)) as [A B]. unfold sin_approx, sin_term in A, B. cbn -[INR] in A, B. cbn in A, B. split; [|destruct (Req_dec t 0) as [-> |N]; [rewrite sin_0; lra | left; apply sin_lt_x; lra]].
  lra.
Qed.
Lemma cube_integral s T : 0 < s -> is_RInt (fun t => 2 * PI * (t * t * t) * exp (- / 2 / (s * s) * (t * t))) 0 T (2 * PI * (2 * (s * s * (s * s)) - (s * s * (T * T) + 2 * (s * s * (s * s))) * exp (- / 2 / (s * s) * (T * T)))).
Proof.
  intros Hs. set (F := fun t => - (2 * PI) * (s * s * (t * t) + 2 * (s * s * (s * s))) * exp (- / 2 / (s * s) * (t * t))).
  assert (D : is_RInt (fun t => 2 * PI * (t * t * t) * exp (- / 2 / (s * s) * (t * t))) 0 T (minus (F T) (F 0))).
  { apply (is_RInt_derive F).
    - intros x _. unfold F. auto_derive; [lra|]. field. lra.
    - intros x _. apply (ex_derive_continuous (V := R_NormedModule)). auto_derive. lra. }
  match goal with |- is_RInt _ _ _ ?v => replace v with (minus (F T) (F 0)); [exact D|] end.
  unfold minus, plus, opp, F. cbn. replace (- / 2 / (s * s) * (0 * 0)) with 0 by (field; lra). rewrite exp_0. ring.
Qed.
Lemma sphere_forward : forall fwhm phi, 0 < fwhm -> let s := fwhm / sqrt (8 * ln 2) in exists omega, is_solid_angle (fun t => beam_gaussian fwhm false t phi) 0 PI omega /\
  omega < beam_solid_angle fwhm /\ beam_solid_angle fwhm * (1 - s * s / 3 - exp (- (PI * PI) / (2 * (s * s)))) < omega.
Proof.
  intros f phi Hf s. pose proof (sigma_pos f Hf) as Hs. change (beam_sigma f) with s in Hs. pose proof PI_RGT_0 as Hp.
  assert (C : ex_RInt (fun t => 2 * PI * sin t * beam_gaussian f false t phi) 0 PI).
  { apply (ex_RInt_continuous (V := R_CompleteNormedModule)). intros x _. apply (ex_derive_continuous (V := R_NormedModule)). unfold beam_gaussian. fold s. change (beam_sigma f) with s. auto_derive. auto. }
  destruct C as [omega W]. exists omega. split; [exact W|].
  pose proof (beam_integral s PI Hs) as B. pose proof (cube_integral s PI Hs) as Q.
  assert (SA : beam_solid_angle f = 2 * PI * (s * s)) by reflexivity. rewrite SA. set (E := exp (- (PI * PI) / (2 * (s * s)))) in *. replace (exp (- / 2 / (s * s) * (PI * PI))) with E in Q by (unfold E; f_equal; field; lra).
  assert (E0 : 0 < E) by apply exp_pos. assert (G : forall t, beam_gaussian f false t phi = exp (- / 2 / (s * s) * (t * t))) by reflexivity.
  assert (S2 : 0 < s * s) by (apply Rmult_lt_0_compat; exact Hs). assert (PS : 0 < 2 * PI * (s * s)) by (apply Rmult_lt_0_compat; lra).
  assert (U : omega <= 2 * PI * (s * s) * (1 - E)).
  { apply (is_RInt_le _ _ 0 PI _ _ ltac:(lra) W B). intros x Hx. rewrite G. destruct (sine_bounds x ltac:(lra)) as [_ H]. apply Rmult_le_compat_r; [left; apply exp_pos|]. apply Rmult_le_compat_l; lra. }
  assert (L : minus (2 * PI * (s * s) * (1 - E)) (scal (/ 6) (2 * PI * (2 * (s * s * (s * s)) - (s * s * (PI * PI) + 2 * (s * s * (s * s))) * E))) <= omega).
  { apply (is_RInt_le _ _ 0 PI _ _ ltac:(lra) (is_RInt_minus _ _ _ _ _ _ B (is_RInt_scal _ _ _ (/ 6) _ Q)) W). intros x Hx. rewrite G. destruct (sine_bounds x ltac:(lra)) as [H _]. unfold minus, plus, opp, scal; cbn. unfold mult; cbn.
    set (e := exp _). assert (e0 : 0 < e) by apply exp_pos. assert (0 <= 2 * PI * (sin x - (x - x * x * x / 6)) * e) by (apply Rmult_le_pos; [apply Rmult_le_pos; lra | lra]). lra. }
  split.
  - assert (0 < 2 * PI * (s * s) * E) by (apply Rmult_lt_0_compat; assumption). lra.
  - unfold minus, plus, opp, scal in L; cbn in L. unfold mult in L; cbn in L. apply Rlt_le_trans with (2 := L).
    assert (0 < 2 * PI * (s * s) * (PI * PI) * E) by (apply Rmult_lt_0_compat; [apply Rmult_lt_0_compat; [exact PS | apply Rmult_lt_0_compat; exact Hp] | exact E0]). assert (0 < 2 * PI * (s * s) * (s * s) * E) by (apply Rmult_lt_0_compat; [apply Rmult_lt_0_compat; assumption | exact E0]). lra.
Qed.
(** The integral of the beam over the sphere is less than its solid angle, by less than the
    fraction sigma^2/3 + exp(-pi^2/(2 sigma^2)). *)
Theorem C64_sphere : forall fwhm backward phi, 0 < fwhm -> let s := fwhm / sqrt (8 * ln 2) in exists omega, is_solid_angle (fun t => beam_gaussian fwhm backward t phi) 0 PI omega /\
  omega < beam_solid_angle fwhm /\ beam_solid_angle fwhm * (1 - s * s / 3 - exp (- (PI * PI) / (2 * (s * s)))) < omega.
Proof.
  intros f b phi Hf s. destruct (sphere_forward f phi Hf) as (omega & W & U). destruct b; [|exists omega; split; [exact W | exact U]]. exists omega. split; [|exact U].
  unfold is_solid_angle in *. apply is_RInt_swap in W. pose proof (is_RInt_comp_lin (V := R_NormedModule) (fun t => 2 * PI * sin t * beam_gaussian f false t phi) (-1) PI 0 PI (opp omega)) as C. replace (-1 * 0 + PI) with PI in C by ring. replace (-1 * PI + PI) with 0 in C by ring. specialize (C W). clear W. rename C into W. apply is_RInt_opp in W. rewrite opp_opp in W. refine (is_RInt_ext _ _ _ _ _ _ W).
  intros x _. unfold scal, opp; cbn. unfold mult; cbn. replace (-1 * x + PI) with (PI - x) by ring. rewrite <- (sin_PI_x x). change (beam_gaussian f true x phi) with (beam_gaussian f false (PI - x) phi). replace (PI - (PI - x)) with x by ring. ring.
Qed.
Print Assumptions C64_sphere.
(** A beam whose sigma is a tenth of radian: within one per cent of 2 pi / 100. *)
Example C64_sphere_example : exists omega, is_solid_angle (fun t => beam_gaussian (/ 10 * sqrt (8 * ln 2)) true t 0) 0 PI omega /\ 2 * PI / 100 * (99 / 100) < omega < 2 * PI / 100.
Proof.
  assert (L2 : 0 < ln 2) by (rewrite <- ln_1; apply ln_increasing; lra). assert (Q : 0 < sqrt (8 * ln 2)) by (apply sqrt_lt_R0; lra).
  destruct (C64_sphere (/ 10 * sqrt (8 * ln 2)) true 0 ltac:(lra)) as (omega & W & U & L). exists omega. split; [exact W|].
  assert (S : / 10 * sqrt (8 * ln 2) / sqrt (8 * ln 2) = / 10) by (field; lra). unfold beam_solid_angle, beam_sigma in U, L. rewrite S in U, L. pose proof PI_RGT_0 as Hp. pose proof PI2_1 as H1.
  assert (E : exp (- (PI * PI) / (2 * (/ 10 * / 10))) < / 200).
  { replace (- (PI * PI) / (2 * (/ 10 * / 10))) with (- (50 * (PI * PI))) by field. rewrite exp_Ropp. apply Rinv_lt_contravar; [apply Rmult_lt_0_compat; [lra | apply exp_pos]|]. assert (2 * 2 < PI * PI) by (apply Rmult_gt_0_lt_compat; lra). pose proof (exp_ineq1 (50 * (PI * PI)) ltac:(lra)). lra. }
  split; [|lra]. apply Rlt_trans with (2 := L). replace (2 * PI / 100 * (99 / 100)) with (2 * PI * (/ 10 * / 10) * (99 / 100)) by field. apply Rmult_lt_compat_l; lra.
Qed.
(** Refuted: the attribute is not the solid angle of the beam, and that of a wide beam exceeds
    that of the sphere. *)
Theorem C64_solid_angle_refuted : (forall fwhm backward phi, 0 < fwhm -> ~ is_solid_angle (fun t => beam_gaussian fwhm backward t phi) 0 PI (beam_solid_angle fwhm)) /\ 4 * PI < beam_solid_angle 4.
Proof.
  split.
  - intros f b phi Hf H. destruct (C64_sphere f b phi Hf) as (omega & W & L & _). assert (omega = beam_solid_angle f); [|lra]. rewrite <- (is_RInt_unique (V := R_CompleteNormedModule) _ _ _ _ W). exact (is_RInt_unique (V := R_CompleteNormedModule) _ _ _ _ H).
  - unfold beam_solid_angle, beam_sigma. pose proof PI_RGT_0 as Hp. assert (L2 : 0 < ln 2) by (rewrite <- ln_1; apply ln_increasing; lra).
    assert (L1 : ln 2 < 1). { rewrite <- (ln_exp 1). apply ln_increasing; [lra|]. pose proof (exp_ineq1 1 ltac:(lra)). lra. }
    assert (Q : 4 / sqrt (8 * ln 2) * (4 / sqrt (8 * ln 2)) = 2 / ln 2). { assert (sqrt (8 * ln 2) <> 0) by (apply Rgt_not_eq, sqrt_lt_R0; lra). replace (4 / sqrt (8 * ln 2) * (4 / sqrt (8 * ln 2))) with (16 / (sqrt (8 * ln 2) * sqrt (8 * ln 2))) by (field; assumption). rewrite sqrt_sqrt by lra. field. lra. }
    rewrite Q. assert (2 < 2 / ln 2). { apply Rmult_lt_reg_r with (ln 2); [exact L2|]. unfold Rdiv. rewrite Rmult_assoc, Rinv_l by lra. lra. }
    assert (2 * PI * 2 < 2 * PI * (2 / ln 2)) by (apply Rmult_lt_compat_l; lra). lra.
Qed.
Print Assumptions C64_solid_angle_refuted.
