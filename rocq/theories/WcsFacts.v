From Coq Require Import Reals Lra Lia String Permutation.
From Verif Require Import Base BaseFacts ConstModel SkyModel SkySpec SkyFacts WcsModel WcsSpec.
Open Scope R_scope.
Lemma pi_pos : 0 < PI. Proof. apply PI_RGT_0. Qed.
Lemma deg x : x * DEG2RAD = x * PI / 180.
Proof. unfold DEG2RAD. field. Qed.
Lemma rad x : x * RAD2DEG * PI / 180 = x.
Proof. unfold RAD2DEG. pose proof pi_pos. field. lra. Qed.
Lemma rad_deg : RAD2DEG * DEG2RAD = 1.
Proof. unfold RAD2DEG, DEG2RAD. pose proof pi_pos. field. lra. Qed.
(** ** atan2 *)
Lemma sqrt_scale x y : 0 < x -> sqrt (x * x + y * y) = x * sqrt (1 + (y / x)²).
Proof.
  intros H. replace (x * x + y * y) with (x * x * (1 + (y / x)²)) by (unfold Rsqr; field; lra).
  rewrite sqrt_mult_alt by nra. rewrite sqrt_square by lra. reflexivity.
Qed.
Lemma sqrt1_pos t : 0 < sqrt (1 + t²).
Proof. apply sqrt_lt_R0. pose proof (Rle_0_sqr t). lra. Qed.
Lemma atan2_polar y x : let r := sqrt (x * x + y * y) in r * cos (atan2 y x) = x /\ r * sin (atan2 y x) = y.
Proof.
  cbv zeta. unfold atan2. pose proof (sqrt1_pos (y / x)) as S1. destruct (Rlt_dec 0 x) as [X|X].
  - rewrite (sqrt_scale x y X), cos_atan, sin_atan. split; field; lra.
  - destruct (Rlt_dec x 0) as [X'|X'].
    + assert (E : sqrt (x * x + y * y) = - x * sqrt (1 + (y / x)²)).
      { replace (x * x + y * y) with (- x * - x + - y * - y) by ring. rewrite sqrt_scale by lra. replace (- y / - x) with (y / x) by (field; lra). reflexivity. }
      destruct (Rle_dec 0 y).
      * rewrite neg_cos, neg_sin, cos_atan, sin_atan, E. split; field; lra.
      * replace (atan (y / x) - PI) with (atan (y / x) + PI - 2 * PI) by ring. rewrite cos_minus, sin_minus, cos_2PI, sin_2PI, !neg_cos, !neg_sin, cos_atan, sin_atan, E. split; field; lra.
    + assert (x = 0) by lra. subst x. replace (0 * 0 + y * y) with (y * y) by ring. destruct (Rlt_dec 0 y).
      * rewrite cos_PI2, sin_PI2, sqrt_square by lra. split; ring.
      * destruct (Rlt_dec y 0).
        -- rewrite cos_neg, sin_neg, cos_PI2, sin_PI2. replace (y * y) with (- y * - y) by ring. rewrite sqrt_square by lra. split; ring.
        -- assert (y = 0) by lra. subst y. replace (0 * 0) with 0 by ring. rewrite sqrt_0. split; ring.
Qed.
Lemma atan2_range y x : - PI < atan2 y x <= PI.
Proof.
  pose proof pi_pos. unfold atan2. pose proof (atan_bound (y / x)). destruct (Rlt_dec 0 x); [lra|]. destruct (Rlt_dec x 0) as [X|X].
  - destruct (Rle_dec 0 y) as [Y|Y].
    + split; [lra|]. assert (atan (y / x) <= 0); [|lra]. rewrite <- atan_0. destruct (Req_EM_T y 0) as [->|N]; [replace (0 / x) with 0 by (field; lra); lra|].
      left. apply atan_increasing. assert (0 < y * / - x) by (apply Rmult_lt_0_compat; [lra | apply Rinv_0_lt_compat; lra]). replace (y * / - x) with (- (y / x)) in * by (field; lra). lra.
    + split; [|lra]. assert (0 < atan (y / x)); [|lra]. rewrite <- atan_0. apply atan_increasing.
      assert (0 < - y * / - x) by (apply Rmult_lt_0_compat; [lra | apply Rinv_0_lt_compat; lra]). replace (- y * / - x) with (y / x) in * by (field; lra). lra.
  - destruct (Rlt_dec 0 y); [lra|]. destruct (Rlt_dec y 0); lra.
Qed.
Lemma turns a b : cos a = cos b -> sin a = sin b -> exists k : Z, a = b + 2 * PI * IZR k.
Proof.
  intros C S. assert (E : cos (2 * ((a - b) / 2)) = 1). { replace (2 * ((a - b) / 2)) with (a - b) by field. rewrite cos_minus, C, S. pose proof (trig b). lra. }
  rewrite cos_2a_sin in E. assert (Z : sin ((a - b) / 2) = 0) by nra. apply sin_eq_0_0 in Z. destruct Z as [k Z]. exists k. lra.
Qed.
Lemma cos_turns a k : cos (a + 2 * PI * IZR k) = cos a /\ sin (a + 2 * PI * IZR k) = sin a.
Proof.
  assert (P : forall n, cos (a + 2 * INR n * PI) = cos a /\ sin (a + 2 * INR n * PI) = sin a) by (intros n; split; [apply cos_period | apply sin_period]).
  assert (Q : forall b n, cos (b - 2 * INR n * PI) = cos b /\ sin (b - 2 * INR n * PI) = sin b).
  { intros b n. rewrite <- (cos_period (b - 2 * INR n * PI) n), <- (sin_period (b - 2 * INR n * PI) n). replace (b - 2 * INR n * PI + 2 * INR n * PI) with b by ring. auto. }
  destruct (Z.leb_spec 0 k).
  - rewrite <- (Z2Nat.id k) by lia. rewrite <- INR_IZR_INZ. replace (a + 2 * PI * INR (Z.to_nat k)) with (a + 2 * INR (Z.to_nat k) * PI) by ring. apply P.
  - replace k with (- Z.of_nat (Z.to_nat (- k)))%Z by lia. rewrite opp_IZR, <- INR_IZR_INZ. replace (a + 2 * PI * - INR (Z.to_nat (- k))) with (a - 2 * INR (Z.to_nat (- k)) * PI) by ring. apply Q.
Qed.
Lemma atan2_of r a : 0 < r -> exists k : Z, atan2 (r * sin a) (r * cos a) = a + 2 * PI * IZR k.
Proof.
  intros H. pose proof (atan2_polar (r * sin a) (r * cos a)) as [C S]. replace (r * cos a * (r * cos a) + r * sin a * (r * sin a)) with (r * r) in * by (pose proof (trig a) as T; replace (r * r) with (r * r * (sin a * sin a + cos a * cos a)) by (rewrite T; ring); ring).
  rewrite sqrt_square in * by lra. apply turns; apply (Rmult_eq_reg_l r); lra.
Qed.
(** ** Directions *)
Lemma direction_turn a k b : direction (a + 360 * IZR k) b = direction a b.
Proof. unfold direction. replace ((a + 360 * IZR k) * PI / 180) with (a * PI / 180 + 2 * PI * IZR k) by field. destruct (cos_turns (a * PI / 180) k) as [-> ->]. reflexivity. Qed.
Lemma direction_unit a b : scalar (direction a b) (direction a b) = 1.
Proof.
  unfold direction, scalar. cbn [fst snd]. pose proof (trig (a * PI / 180)) as A. pose proof (trig (b * PI / 180)) as B. set (s := sin (a * PI / 180)) in *. set (c := cos (a * PI / 180)) in *. set (s' := sin (b * PI / 180)) in *. set (c' := cos (b * PI / 180)) in *.
  transitivity (c' * c' * (s * s + c * c) + s' * s'); [ring | rewrite A; lra].
Qed.
Lemma basis_ok a : basis a = (centre (fst (crval a)) (snd (crval a)), east (fst (crval a)) (snd (crval a)), north (fst (crval a)) (snd (crval a))).
Proof.
  unfold basis, centre, east, north, direction. rewrite !deg. set (l := fst (crval a) * PI / 180). set (p := snd (crval a) * PI / 180).
  replace ((fst (crval a) + 90) * PI / 180) with (PI / 2 + l) by (unfold l; field). replace ((snd (crval a) + 90) * PI / 180) with (PI / 2 + p) by (unfold p; field).
  replace (0 * PI / 180) with 0 by field. rewrite cos_0, sin_0. rewrite (cos_plus (PI / 2)), (sin_plus (PI / 2)), (cos_plus (PI / 2) p), (sin_plus (PI / 2) p), cos_PI2, sin_PI2. repeat (apply (f_equal2 pair)); ring.
Qed.
Lemma basis_orthonormal ra dec : orthonormal (centre ra dec) (east ra dec) (north ra dec).
Proof.
  pose proof (basis_ok (Astrometry (0, 0) (ra, dec) ((0, 0), (0, 0)))) as B. cbn [crval fst snd] in B. injection B as H. intros.
  unfold centre, east, north, direction in *. unfold orthonormal, scalar. cbn [fst snd] in *.
  set (l := ra * PI / 180) in *. set (p := dec * PI / 180) in *. replace ((ra + 90) * PI / 180) with (PI / 2 + l) by (unfold l; field). replace ((dec + 90) * PI / 180) with (PI / 2 + p) by (unfold p; field).
  replace (0 * PI / 180) with 0 by field. rewrite cos_0, sin_0, (cos_plus (PI / 2) l), (sin_plus (PI / 2) l), (cos_plus (PI / 2) p), (sin_plus (PI / 2) p), cos_PI2, sin_PI2.
  pose proof (trig l) as A. pose proof (trig p) as B. set (s := sin l) in *. set (c := cos l) in *. set (s' := sin p) in *. set (c' := cos p) in *.
  repeat split; try ring.
  - transitivity (c' * c' * (s * s + c * c) + s' * s'); [ring | rewrite A; lra].
  - transitivity (s * s + c * c); [ring | exact A].
  - transitivity (s' * s' * (s * s + c * c) + c' * c'); [ring | rewrite A; lra].
  - transitivity (s' * c' * (1 - (s * s + c * c))); [ring | rewrite A; ring].
Qed.
