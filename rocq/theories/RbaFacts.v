(** Facts on barycentres with rounded operations. *)
From Coq Require Import ZArith Reals Lra Lia List Bool.
From Flocq Require Import Core.
From Verif Require Import Base SkySpec WcsModel WcsSpec WcsFacts RndModel RndSpec RndProps BirFacts BirFacts2 GalFacts RgnModel RgnFacts RgnProps RanProps RmdModel RmdSpec RmdProps RbaModel RbaSpec.
Import ListNotations.
Open Scope R_scope.

Lemma cos_period_Z x (k : Z) : cos (x + 2 * PI * IZR k) = cos x.
Proof.
  destruct (Z.le_ge_cases 0 k) as [P|P].
  - rewrite <- (Z2Nat.id k P), <- INR_IZR_INZ. replace (x + 2 * PI * INR (Z.to_nat k)) with (x + 2 * INR (Z.to_nat k) * PI) by ring. apply cos_period.
  - rewrite <- (cos_period (x + 2 * PI * IZR k) (Z.to_nat (- k))). f_equal. rewrite INR_IZR_INZ, Z2Nat.id, opp_IZR by lia. ring.
Qed.
Lemma sin_period_Z x (k : Z) : sin (x + 2 * PI * IZR k) = sin x.
Proof. rewrite !sin_cos. f_equal. rewrite <- Rplus_assoc. apply cos_period_Z. Qed.

Section T.
Variables (emin prec : Z) (sn cs ac : R -> R) (at2 : R -> R -> R) (deg rad : R).
Notation rn := (rndp emin prec).
Notation u := (unit_of prec).
Notation eta := (tiny_of emin).
Hypothesis Pp : (24 <= prec)%Z.
Hypothesis Pe : (emin <= 1 - 2 * prec)%Z.
Hypothesis L : libm prec sn cs deg rad.
Hypothesis Ac : forall c, Rabs c <= 1 -> Rabs (ac c - acos c) <= 4 * u.
Hypothesis At : forall y x, Rabs (at2 y x - atan2 y x) <= 4 * u.
Let P0 : (0 < prec)%Z := RmdProps.Q0 prec Pp.
Let U0 : 0 < u := V0 prec.
Let U2 : u <= / 16777216 := RmdProps.V2 prec Pp.
Let He : eta <= u * u := Ht emin prec Pe.
Lemma UU : u * u <= / 16777216 * u. Proof. apply Rmult_le_compat_r; lra. Qed.
Lemma rn_rel x M : Rabs x <= M -> Rabs (rn x - x) <= u * M + / 16777216 * u.
Proof. intros H. pose proof (rn_err emin prec P0 x). pose proof UU. assert (u * Rabs x <= u * M) by (apply Rmult_le_compat_l; lra). lra. Qed.
(** Radians to degrees. *)
Lemma degrees_near a t : Rabs t <= 3.15 -> Rabs (a - t) <= 4 * u -> Rabs (rn (a * rad) * (PI / 180) - t) <= 17 * u.
Proof.
  intros Bt D. pose proof UU. pose proof pi_low. pose proof pi_high.
  assert (Ba : Rabs a <= 3.151) by (pose proof (near_abs _ _ _ _ D Bt); lra).
  pose proof (lib_rad _ _ _ _ _ L) as Lr. set (s := 180 / PI) in *. assert (s0 : 0 < s) by (apply Rdiv_lt_0_compat; lra). assert (sp : s * (PI / 180) = 1) by (unfold s; field; lra).
  assert (us0 : 0 <= u * s) by (apply Rmult_le_pos; lra). assert (us : u * s <= / 16777216 * s) by (apply Rmult_le_compat_r; lra).
  assert (M : Rabs (a * rad - a * s) <= 9.46 * u * s).
  { replace (a * rad - a * s) with (a * (rad - s)) by ring. rewrite Rabs_mult. apply Rle_trans with (3.151 * (3 * u * s)); [apply Rmult_le_compat; try apply Rabs_pos; lra|]. lra. }
  assert (Bar : Rabs (a * rad) <= 3.152 * s).
  { pose proof (near_abs (a * rad) (a * s) (3.151 * s) _ M) as N. rewrite Rabs_mult, (Rabs_pos_eq s) in N by lra. assert (Q : Rabs a * s <= 3.151 * s) by (apply Rmult_le_compat_r; lra). specialize (N Q). lra. }
  pose proof (rn_rel _ _ Bar) as R.
  assert (s1 : 1 <= s) by (unfold s; apply (Rmult_le_reg_r PI); [lra|]; unfold Rdiv; rewrite Rmult_assoc, Rinv_l by lra; lra). assert (u * 1 <= u * s) by (apply Rmult_le_compat_l; lra).
  assert (T : Rabs (rn (a * rad) - a * s) <= 12.7 * u * s) by (pose proof (tri (rn (a * rad)) (a * rad) (a * s)); lra).
  assert (T2 : Rabs (rn (a * rad) * (PI / 180) - a) <= 12.7 * u).
  { replace (rn (a * rad) * (PI / 180) - a) with ((rn (a * rad) - a * s) * (PI / 180)) by (rewrite Rmult_minus_distr_r, Rmult_assoc, sp; ring). rewrite Rabs_mult, (Rabs_pos_eq (PI / 180)) by lra.
    apply Rle_trans with (12.7 * u * s * (PI / 180)); [apply Rmult_le_compat_r; lra|]. rewrite Rmult_assoc, sp. lra. }
  pose proof (tri (rn (a * rad) * (PI / 180)) a t). lra.
Qed.
(** The longitude. *)
Lemma lon_near x y : 0 <= lon_r emin prec at2 rad x y <= 360 /\ exists k : Z, Rabs (lon_r emin prec at2 rad x y * (PI / 180) - atan2 y x - 2 * PI * IZR k) <= 34 * u.
Proof.
  pose proof UU. pose proof pi_low. pose proof pi_high. pose proof (atan2_range y x) as Ra. assert (B : Rabs (atan2 y x) <= 3.15) by (apply Rabs_le; lra).
  pose proof (degrees_near (at2 y x) (atan2 y x) B (At y x)) as D. unfold lon_r. set (d := rn (at2 y x * rad)) in *.
  assert (Bd : Rabs d <= 190).
  { pose proof (near_abs _ _ _ _ D B) as N. rewrite Rabs_mult, (Rabs_pos_eq (PI / 180)) in N by lra. apply Rnot_lt_le. intros G. assert (190 * (PI / 180) < Rabs d * (PI / 180)) by (apply Rmult_lt_compat_r; lra). lra. }
  assert (Bd2 : Rabs (d + 360) <= 550) by (apply Rabs_le_inv in Bd; apply Rabs_le; lra). pose proof (rn_rel _ _ Bd2) as R. set (w := rn (d + 360)) in *.
  destruct (modulo_r_ok emin prec Pp Pe w) as [I [_ [k [_ K]]]]. split; [exact I|]. exists (1 - k)%Z. rewrite minus_IZR. set (m := modulo_r emin prec w) in *.
  match goal with |- Rabs ?z <= _ => replace z with ((m - (w - 360 * IZR k)) * (PI / 180) + ((w - (d + 360)) * (PI / 180) + (d * (PI / 180) - atan2 y x))) by field end.
  eapply Rle_trans; [apply Rabs_triang|]. eapply Rle_trans; [apply Rplus_le_compat_l, Rabs_triang|]. rewrite !Rabs_mult, (Rabs_pos_eq (PI / 180)) by lra.
  assert (Rabs (m - (w - 360 * IZR k)) * (PI / 180) <= 361 * u * (3.15 / 180)) by (apply Rmult_le_compat; try apply Rabs_pos; lra).
  assert (Rabs (w - (d + 360)) * (PI / 180) <= 551 * u * (3.15 / 180)) by (apply Rmult_le_compat; try apply Rabs_pos; lra). lra.
Qed.
(** The latitude. *)
Lemma cos2_apart a b : 0 <= a <= PI / 2 -> 0 <= b <= PI / 2 -> (a - b) * (a - b) <= 4 * Rabs (cos a * cos a - cos b * cos b).
Proof.
  intros A B. pose proof (cos_apart (2 * a) (2 * b) ltac:(lra) ltac:(lra)) as C. rewrite !cos_2a_cos in C.
  replace (2 * cos a * cos a - 1 - (2 * cos b * cos b - 1)) with (2 * (cos a * cos a - cos b * cos b)) in C by ring. rewrite Rabs_mult, (Rabs_pos_eq 2) in C by lra. lra.
Qed.
Lemma rn_pos x : 0 <= x -> 0 <= rn x.
Proof. intros H. rewrite <- (RmdProps.rn_0 emin prec Pp Pe). apply (rn_le emin prec Pp). exact H. Qed.
Lemma rn_one : rn 1 = 1.
Proof. apply (int_exact emin prec Pp Pe 1). rewrite Rabs_pos_eq; lra. Qed.
Lemma rn_one_le x : x <= 1 -> rn x <= 1.
Proof. intros H. rewrite <- rn_one. apply (rn_le emin prec Pp). exact H. Qed.
Lemma rn_le_fmt a b : generic_format radix2 (FLT_exp emin prec) a -> a <= b -> a <= rn b.
Proof. intros F H. rewrite <- (round_generic radix2 (FLT_exp emin prec) ZnearestE a F). apply (rn_le emin prec Pp). exact H. Qed.
Section Lat.
Variables (x y z : R).
Notation HZ := (x * x + y * y).
Notation N := (x * x + y * y + z * z).
Hypothesis big : / 1024 <= N.
Lemma sq_pos t : 0 <= t * t. Proof. apply (Rle_0_sqr t). Qed.
Notation h := (rn (rn (x * x) + rn (y * y))).
Notation n := (rn (rn (rn (x * x) + rn (y * y)) + rn (z * z))).
Lemma err2 : eta <= / 16384 * u * N.
Proof. pose proof UU. assert (u * / 1024 <= u * N) by (apply Rmult_le_compat_l; lra). lra. Qed.
Lemma sq_near t : Rabs (rn (t * t) - t * t) <= u * (t * t) + eta.
Proof. pose proof (rn_err emin prec P0 (t * t)) as E. rewrite (Rabs_pos_eq (t * t)) in E by apply sq_pos. exact E. Qed.
Lemma hn_near : Rabs (h - HZ) <= 2.01 * u * N /\ Rabs (n - N) <= 4.1 * u * N /\ 0 <= h <= n.
Proof.
  pose proof (sq_near x) as X. pose proof (sq_near y) as Y. pose proof (sq_near z) as Z. pose proof (sq_pos x). pose proof (sq_pos y). pose proof (sq_pos z). pose proof err2 as E2.
  set (a := rn (x * x)) in *. set (b := rn (y * y)) in *. set (c := rn (z * z)) in *.
  assert (a0 : 0 <= a) by (apply rn_pos; assumption). assert (b0 : 0 <= b) by (apply rn_pos; assumption). assert (c0 : 0 <= c) by (apply rn_pos; assumption).
  assert (uN : 0 <= u * N) by (apply Rmult_le_pos; lra). assert (uuN : u * (u * N) <= / 16777216 * (u * N)) by (apply Rmult_le_compat_r; lra).
  assert (uH : u * (x * x) + u * (y * y) <= u * N) by (rewrite <- Rmult_plus_distr_l; apply Rmult_le_compat_l; lra).
  apply Rabs_le_inv in X. apply Rabs_le_inv in Y. apply Rabs_le_inv in Z.
  assert (S : Rabs (a + b - HZ) <= u * N + 2 * eta) by (apply Rabs_le; lra). assert (Sb : a + b <= 1.001 * N) by (apply Rabs_le_inv in S; assert (u * N <= / 16777216 * N) by (apply Rmult_le_compat_r; lra); lra).
  pose proof (rn_err emin prec P0 (a + b)) as R. rewrite (Rabs_pos_eq (a + b)) in R by lra.
  assert (u * (a + b) <= u * (1.001 * N)) by (apply Rmult_le_compat_l; lra).
  assert (h0 : 0 <= rn (a + b)) by (apply rn_pos; lra). set (hh := rn (a + b)) in *.
  assert (R2 : Rabs (hh - HZ) <= 2.01 * u * N) by (pose proof (tri hh (a + b) HZ); lra).
  split; [exact R2|].
  assert (uz : u * (z * z) <= u * N) by (apply Rmult_le_compat_l; lra).
  assert (S2 : Rabs (hh + c - N) <= 3.02 * u * N) by (apply Rabs_le_inv in R2; apply Rabs_le; lra).
  assert (Sb2 : hh + c <= 1.001 * N) by (apply Rabs_le_inv in S2; assert (u * N <= / 16777216 * N) by (apply Rmult_le_compat_r; lra); lra).
  pose proof (rn_err emin prec P0 (hh + c)) as R3. rewrite (Rabs_pos_eq (hh + c)) in R3 by lra. assert (u * (hh + c) <= u * (1.001 * N)) by (apply Rmult_le_compat_l; lra).
  split; [pose proof (tri (rn (hh + c)) (hh + c) N); lra|]. split; [exact h0|]. apply rn_le_fmt; [apply (format_round emin prec P0)|lra].
Qed.
Lemma lat_near : exists t, lat_r emin prec ac rad x y z = Some t /\ Rabs (Rabs t * (PI / 180) - acos (sqrt (HZ / N))) <= 6.1 * sqrt u /\ (0 <= z -> 0 <= t) /\ (z < 0 -> t <= 0).
Proof.
  destruct hn_near as [E1 [E2 [h0 hn]]]. unfold lat_r. cbv zeta. set (hh := rn (rn (x * x) + rn (y * y))) in *. set (nn := rn (hh + rn (z * z))) in *.
  pose proof (sq_pos x). pose proof (sq_pos y). pose proof (sq_pos z). pose proof UU.
  assert (uN0 : 0 <= u * N) by (apply Rmult_le_pos; lra). assert (uN : u * N <= / 16777216 * N) by (apply Rmult_le_compat_r; lra).
  assert (n0 : 0.999 * N <= nn) by (apply Rabs_le_inv in E2; lra). destruct (Req_EM_T nn 0) as [X|_]; [lra|].
  assert (i0 : 0 < / nn) by (apply Rinv_0_lt_compat; lra). assert (i1 : nn * / nn = 1) by (apply Rinv_r; lra). assert (j0 : 0 < / N) by (apply Rinv_0_lt_compat; lra). assert (j1 : N * / N = 1) by (apply Rinv_r; lra).
  assert (q0 : 0 <= hh / nn) by (apply Rmult_le_pos; lra). assert (q1 : hh / nn <= 1) by (unfold Rdiv; rewrite <- i1; apply Rmult_le_compat_r; lra).
  assert (Q : Rabs (hh / nn - HZ / N) <= 6.2 * u).
  { replace (hh / nn - HZ / N) with (((hh - HZ) - HZ / N * (nn - N)) * / nn) by (field; split; lra). rewrite Rabs_mult, (Rabs_pos_eq (/ nn)) by lra.
    assert (HN : 0 <= HZ / N <= 1) by (split; [apply Rmult_le_pos; lra|unfold Rdiv; rewrite <- j1; apply Rmult_le_compat_r; lra]).
    assert (A : Rabs (hh - HZ - HZ / N * (nn - N)) <= 6.11 * u * N).
    { eapply Rle_trans; [apply Rabs_triang|]. rewrite Rabs_Ropp, Rabs_mult, (Rabs_pos_eq (HZ / N)) by lra. assert (HZ / N * Rabs (nn - N) <= 1 * Rabs (nn - N)) by (apply Rmult_le_compat_r; [apply Rabs_pos|lra]). lra. }
    apply Rle_trans with (6.11 * u * N * / nn); [apply Rmult_le_compat_r; lra|]. assert (W : N * / nn <= 1.002). { apply (Rmult_le_reg_r nn); [lra|]. rewrite Rmult_assoc, Rinv_l by lra. lra. }
    rewrite Rmult_assoc. apply Rle_trans with (6.11 * u * 1.002); [apply Rmult_le_compat_l; lra|]. lra. }
  pose proof (rn_rel (hh / nn) 1 ltac:(rewrite Rabs_pos_eq; lra)) as R. set (q := rn (hh / nn)) in *.
  assert (p0 : 0 <= q) by (apply rn_pos; lra). assert (p1 : q <= 1) by (apply rn_one_le; lra).
  assert (s0 := sqrt_pos q). assert (ss : sqrt q * sqrt q = q) by (apply sqrt_sqrt; lra). assert (s1 : sqrt q <= 1) by (rewrite <- sqrt_1; apply sqrt_le_1; lra).
  pose proof (rn_rel (sqrt q) 1 ltac:(rewrite Rabs_pos_eq; lra)) as R'. set (c := rn (sqrt q)) in *. assert (c0 : 0 <= c) by (apply rn_pos; lra). assert (c1 : c <= 1) by (apply rn_one_le; lra).
  rewrite (Rabs_pos_eq c) by lra. destruct (Rle_dec c 1) as [_|]; [|lra]. exists (fsign (rn (ac c * rad)) z). split; [reflexivity|].
  assert (C2 : Rabs (c * c - q) <= 2.01 * u).
  { rewrite <- ss. replace (c * c - sqrt q * sqrt q) with ((c - sqrt q) * (c + sqrt q)) by ring. rewrite Rabs_mult. apply Rle_trans with (1.001 * u * 2); [apply Rmult_le_compat; try apply Rabs_pos; [lra|rewrite Rabs_pos_eq; lra]|lra]. }
  assert (C3 : Rabs (c * c - HZ / N) <= 9.25 * u). { pose proof (tri (c * c) q (HZ / N)). pose proof (tri q (hh / nn) (HZ / N)). lra. }
  assert (HN : 0 <= HZ / N <= 1) by (split; [apply Rmult_le_pos; lra|unfold Rdiv; rewrite <- j1; apply Rmult_le_compat_r; lra]).
  assert (S0 := sqrt_pos (HZ / N)). assert (S1 : sqrt (HZ / N) <= 1) by (rewrite <- sqrt_1; apply sqrt_le_1; lra).
  assert (half : forall v, 0 <= v <= 1 -> 0 <= acos v <= PI / 2).
  { intros v V. pose proof (acos_bound v) as B. split; [lra|]. apply Rnot_lt_le. intros G. assert (cos (acos v) < 0) by (apply cos_lt_0; lra). rewrite cos_acos in * by lra. lra. }
  pose proof (half c ltac:(lra)) as Hc. pose proof (half (sqrt (HZ / N)) ltac:(lra)) as Hs. pose proof (cos2_apart _ _ Hc Hs) as K. rewrite !cos_acos, sqrt_sqrt in K by lra.
  pose proof (sqrt_sqrt u ltac:(lra)) as Rr. pose proof (sqrt_pos u) as r0. set (r := sqrt u) in *.
  assert (r1 : r <= / 4096) by (apply Rnot_lt_le; intros G; assert (/ 4096 * / 4096 < r * r) by (apply Rmult_le_0_lt_compat; lra); lra).
  assert (ru : u <= / 4096 * r) by (rewrite <- Rr; apply Rmult_le_compat_r; lra).
  set (L0 := acos (sqrt (HZ / N))) in *.
  assert (D : Rabs (acos c - L0) <= 6.09 * r).
  { apply Rnot_lt_le. intros G. pose proof (Rmult_le_0_lt_compat (6.09 * r) (Rabs (acos c - L0)) (6.09 * r) (Rabs (acos c - L0)) ltac:(lra) ltac:(lra) G G) as W.
    rewrite <- Rabs_mult, (Rabs_pos_eq ((acos c - L0) * (acos c - L0))) in W by apply sq_pos. lra. }
  pose proof pi_low. pose proof pi_high. pose proof (degrees_near (ac c) (acos c) ltac:(rewrite Rabs_pos_eq; lra) (Ac c ltac:(rewrite Rabs_pos_eq; lra))) as G. set (t := rn (ac c * rad)) in *.
  assert (At' : Rabs (fsign t z) = Rabs t) by (unfold fsign; destruct (Rle_dec 0 z); [apply Rabs_Rabsolu|rewrite Rabs_Ropp; apply Rabs_Rabsolu]). rewrite At'.
  split; [|unfold fsign; pose proof (Rabs_pos t); split; intros; destruct (Rle_dec 0 z); lra].
  assert (V : Rabs (Rabs t * (PI / 180) - acos c) <= 17 * u).
  { eapply Rle_trans; [|exact G]. replace (Rabs t * (PI / 180)) with (Rabs (t * (PI / 180))) by (rewrite Rabs_mult, (Rabs_pos_eq (PI / 180)) by lra; reflexivity). replace (acos c) with (Rabs (acos c)) at 1 by (apply Rabs_pos_eq; lra). apply Rabs_triang_inv2. }
  pose proof (tri (Rabs t * (PI / 180)) (acos c) L0). lra.
Qed.

Lemma part_near t : Rabs t <= sqrt N -> 0 < sqrt N -> Rabs (t / sqrt N) <= 1.
Proof. intros A B. unfold Rdiv. rewrite Rabs_mult, (Rabs_pos_eq (/ sqrt N)) by (left; apply Rinv_0_lt_compat; exact B). apply (Rmult_le_reg_r (sqrt N)); [exact B|]. rewrite Rmult_assoc, Rinv_l by lra. lra. Qed.
Lemma direction_near : exists t, lat_r emin prec ac rad x y z = Some t /\ near3 (6.2 * sqrt u) (direction (lon_r emin prec at2 rad x y) t) (x / sqrt N, y / sqrt N, z / sqrt N).
Proof.
  destruct lat_near as [t [E [T [Z0 Z1]]]]. exists t. split; [exact E|]. destruct (lon_near x y) as [_ [k K]]. set (lon := lon_r emin prec at2 rad x y) in *.
  pose proof (sq_pos x). pose proof (sq_pos y). pose proof (sq_pos z). pose proof UU.
  pose proof (sqrt_sqrt u ltac:(lra)) as Rr. pose proof (sqrt_pos u) as r0. set (r := sqrt u) in *.
  assert (r1 : r <= / 4096) by (apply Rnot_lt_le; intros G; assert (/ 4096 * / 4096 < r * r) by (apply Rmult_le_0_lt_compat; lra); lra).
  assert (ru : u <= / 4096 * r) by (rewrite <- Rr; apply Rmult_le_compat_r; lra).
  assert (S0 : 0 < sqrt N) by (apply sqrt_lt_R0; lra). assert (SN : sqrt N * sqrt N = N) by (apply sqrt_sqrt; lra).
  destruct (atan2_polar y x) as [Px Py]. set (phi := atan2 y x) in *. assert (Sh : sqrt (HZ / N) = sqrt HZ / sqrt N) by (apply sqrt_div; lra). pose proof (sqrt_pos HZ) as sh0.
  assert (j0 : 0 < / N) by (apply Rinv_0_lt_compat; lra). assert (j1 : N * / N = 1) by (apply Rinv_r; lra).
  assert (HN : 0 <= HZ / N <= 1) by (split; [apply Rmult_le_pos; lra|unfold Rdiv; rewrite <- j1; apply Rmult_le_compat_r; lra]).
  assert (c0 := sqrt_pos (HZ / N)). assert (c1 : sqrt (HZ / N) <= 1) by (rewrite <- sqrt_1; apply sqrt_le_1; lra). assert (cc : sqrt (HZ / N) * sqrt (HZ / N) = HZ / N) by (apply sqrt_sqrt; lra).
  set (c := sqrt (HZ / N)) in *. set (L0 := acos c) in *. assert (CL : cos L0 = c) by (apply cos_acos; lra).
  assert (SL : sin L0 = Rabs z / sqrt N).
  { unfold L0. rewrite sin_acos by lra. unfold Rsqr. rewrite cc. replace (1 - HZ / N) with (z * z / N) by (field; lra). rewrite sqrt_div by lra. f_equal. apply sqrt_Rsqr_abs. }
  set (th := Rabs t * (PI / 180)) in *.
  assert (Ct : cos (t * PI / 180) = cos th). { unfold th, Rabs. destruct (Rcase_abs t); [|f_equal; field]. rewrite <- cos_neg. f_equal. field. }
  assert (Dc : Rabs (cos th - c) <= 6.1 * r) by (rewrite <- CL; eapply Rle_trans; [apply cos_lipschitz|exact T]).
  assert (Ds : Rabs (sin th - Rabs z / sqrt N) <= 6.1 * r) by (rewrite <- SL; eapply Rle_trans; [apply sin_lipschitz|exact T]).
  assert (Kc : Rabs (cos (lon * PI / 180) - cos phi) <= 34 * u).
  { rewrite <- (cos_period_Z phi k). eapply Rle_trans; [apply cos_lipschitz|]. replace (lon * PI / 180 - (phi + 2 * PI * IZR k)) with (lon * (PI / 180) - phi - 2 * PI * IZR k) by field. exact K. }
  assert (Ks : Rabs (sin (lon * PI / 180) - sin phi) <= 34 * u).
  { rewrite <- (sin_period_Z phi k). eapply Rle_trans; [apply sin_lipschitz|]. replace (lon * PI / 180 - (phi + 2 * PI * IZR k)) with (lon * (PI / 180) - phi - 2 * PI * IZR k) by field. exact K. }
  assert (X : x / sqrt N = c * cos phi) by (rewrite Sh; rewrite <- Px at 1; field; lra). assert (Y : y / sqrt N = c * sin phi) by (rewrite Sh; rewrite <- Py at 1; field; lra).
  assert (M : forall f f', Rabs f <= 1 -> Rabs (f - f') <= 34 * u -> Rabs (cos th * f - c * f') <= 6.2 * r).
  { intros f f' B D. replace (cos th * f - c * f') with ((cos th - c) * f + c * (f - f')) by ring. eapply Rle_trans; [apply Rabs_triang|]. rewrite !Rabs_mult, (Rabs_pos_eq c) by lra.
    assert (Rabs (cos th - c) * Rabs f <= 6.1 * r * 1) by (apply Rmult_le_compat; try apply Rabs_pos; lra). assert (c * Rabs (f - f') <= 1 * (34 * u)) by (apply Rmult_le_compat; try apply Rabs_pos; lra). lra. }
  unfold direction, near3. cbn [fst snd]. rewrite Ct, X, Y. split; [apply M; [apply cos_1|exact Kc]|]. split; [apply M; [apply sin_1|exact Ks]|].
  destruct (Rle_dec 0 z) as [P|P].
  - specialize (Z0 P). replace (t * PI / 180) with th by (unfold th; rewrite Rabs_pos_eq by lra; field). rewrite (Rabs_pos_eq z) in Ds by lra. lra.
  - specialize (Z1 ltac:(lra)). assert (Et : t * PI / 180 = - th) by (unfold th; rewrite Rabs_left1 by lra; field). rewrite Et, sin_neg. rewrite (Rabs_left1 z) in Ds by lra.
    replace (- sin th - z / sqrt N) with (- (sin th - - z / sqrt N)) by (field; lra). rewrite Rabs_Ropp. lra.
Qed.
End Lat.
End T.
