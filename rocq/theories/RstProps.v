(** C135: sidereal times and the frame of an observer within some rounding errors. *)
From Coq Require Import Reals ZArith Lra Lia String Bool.
From Flocq Require Import Core.
From Verif Require Import Base RndModel RndSpec RndProps BiFacts BirFacts BirFacts2 GalFacts RgnModel RgnFacts RgnProps SkyModel SkySpec SkyFacts NnProps RnnFacts RstModel.
Open Scope R_scope.

Section T.
Variables (emin prec : Z) (sn cs : R -> R) (deg rad : R).
Notation rn := (rndp emin prec).
Notation u := (unit_of prec).
Notation eta := (tiny_of emin).
Hypothesis Pp : (24 <= prec)%Z.
Hypothesis Pe : (emin <= 1 - 2 * prec)%Z.
Hypothesis L : libm prec sn cs deg rad.
Notation fmt := (generic_format radix2 (FLT_exp emin prec)).
Lemma P0 : (0 < prec)%Z. Proof. lia. Qed.
Lemma U0 : 0 < u. Proof. apply u_pos. Qed.
Lemma U1 : u <= / 4096. Proof. unfold unit_of. rewrite pow2. apply Rle_trans with (bpow radix2 (-12)); [apply bpow_le; lia|]. unfold bpow. change (Z.pow_pos radix2 12) with 4096%Z. lra. Qed.
Lemma He : eta <= u * u. Proof. exact (eta_uu emin prec Pe). Qed.
Lemma Eu : eta <= / 4096 * u. Proof. pose proof U0. pose proof U1. apply Rle_trans with (1 := He). apply Rmult_le_compat_r; lra. Qed.
Notation produ := (prod_e emin prec 1 u P0 w1 (uu prec) U1 He).
Notation sumu := (sum_e emin prec 1 u P0 w1 (uu prec) U1 He).
Lemma rnd_k x A k : Rabs x <= A -> A + / 4096 <= k -> Rabs (rn x - x) <= k * u.
Proof. intros H K. pose proof (rn_err emin prec P0 x). pose proof U0. pose proof Eu. assert (u * Rabs x <= u * A) by (apply Rmult_le_compat_l; lra). assert (u * (A + / 4096) <= u * k) by (apply Rmult_le_compat_l; lra). lra. Qed.
(** *** Halves of integers *)
Lemma half_format n : (Z.abs n < 2 ^ prec)%Z -> fmt (IZR n / 2).
Proof. intros H. apply generic_format_FLT. exists (Float radix2 n (-1)); cbn [Fnum Fexp]; [unfold F2R; cbn; lra | exact H | lia]. Qed.
Lemma exact x : fmt x -> rn x = x.
Proof. intros H. unfold rndp. apply round_generic; [apply valid_rnd_N | exact H]. Qed.
(** The difference with the half of an integer that is not larger. *)
Lemma sub_half x n : fmt x -> Rabs (x - IZR n / 2) <= Rabs x -> Rabs x <= IZR (2 ^ 22) -> fmt (x - IZR n / 2).
Proof.
  intros F H B. assert (V : Prec_gt_0 prec) by exact P0. apply FLT_format_generic in F; [|exact V]. destruct F as [[m e] E Hm Hx]. cbn [Fnum Fexp] in *. unfold F2R in E. cbn [Fnum Fexp] in E.
  destruct (Z_le_gt_dec e (-1)) as [N|N].
  - assert (Q : x - IZR n / 2 = IZR (m - n * 2 ^ (- 1 - e)) * bpow radix2 e).
    { rewrite E, minus_IZR, mult_IZR. replace (IZR (2 ^ (-1 - e))) with (bpow radix2 (-1 - e)) by (rewrite <- IZR_Zpower by lia; reflexivity). rewrite Rmult_minus_distr_r, Rmult_assoc, <- bpow_plus. replace (-1 - e + e)%Z with (-1)%Z by lia. change (bpow radix2 (-1)) with (/ 2). lra. }
    rewrite Q. apply generic_format_FLT. exists (Float radix2 (m - n * 2 ^ (- 1 - e)) e); [reflexivity | | exact Hx]. cbn [Fnum]. apply Z.le_lt_trans with (2 := Hm). apply le_IZR. rewrite !abs_IZR. rewrite Q, E, !Rabs_mult in H. apply Rmult_le_reg_r with (2 := H). apply Rabs_pos_lt, Rgt_not_eq, bpow_gt_0.
  - assert (I : x = IZR (m * 2 ^ e)). { rewrite E, mult_IZR. change 2%Z with (radix_val radix2). now rewrite (IZR_Zpower radix2) by lia. }
    replace (x - IZR n / 2) with (IZR (2 * (m * 2 ^ e) - n) / 2) in * by (rewrite I, minus_IZR, mult_IZR; lra). apply half_format. set (q := (2 * (m * 2 ^ e) - n)%Z) in *. apply Z.lt_le_trans with (2 ^ 24)%Z; [|apply Z.pow_le_mono_r; lia]. apply lt_IZR. rewrite abs_IZR. unfold Rdiv in H. rewrite Rabs_mult, (Rabs_right (/ 2)) in H by lra. change (2 ^ 22)%Z with 4194304%Z in B. change (2 ^ 24)%Z with 16777216%Z. lra.
Qed.
(** *** The remainder *)
Lemma truncated_ok x : (x < 0 -> IZR (truncated x) - 1 < x <= IZR (truncated x) /\ (truncated x <= 0)%Z) /\ (0 <= x -> IZR (truncated x) <= x < IZR (truncated x) + 1).
Proof.
  unfold truncated. split; intros H; destruct (Rlt_dec x 0) as [N|N]; try lra.
  - destruct (proj1 (int_part_iff (- x) _) eq_refl) as [A B]. rewrite opp_IZR. split; [lra|]. assert (-1 < IZR (Int_part (- x))) by lra. apply lt_IZR in H0. lia.
  - destruct (proj1 (int_part_iff x _) eq_refl) as [A B]. lra.
Qed.
Lemma remainder_ok x : 0 <= remainder24 emin prec x <= 24 /\ (0 <= x -> remainder24 emin prec x < 24) /\ exists k : Z, Rabs (remainder24 emin prec x - (x - 24 * IZR k)) <= 24.01 * u.
Proof.
  pose proof U0 as U0. destruct (truncated_ok (x / 24)) as [Tn Tp]. unfold remainder24, fmod24. set (t := truncated (x / 24)) in *. destruct (Rlt_dec (x - 24 * IZR t) 0) as [N|N].
  - assert (x / 24 < 0). { destruct (Rlt_dec (x / 24) 0) as [S|S]; [exact S|]. pose proof (Tp (Rnot_lt_le _ _ S)). lra. } destruct (Tn H) as [[A B] _]. set (m := x - 24 * IZR t) in *. assert (M : -24 < m < 0) by (split; [unfold m; lra | exact N]). split; [|split].
    + assert (R0 : rn 0 = 0) by (apply round_0, valid_rnd_N). assert (R24 : rn 24 = 24). { apply integer_exact; [exact P0 | lia | now exists 24%Z | rewrite Rabs_right by lra; apply IZR_le]. transitivity (2 ^ 24)%Z; [lia | apply Z.pow_le_mono_r; lia]. }
      split; [rewrite <- R0 at 1 | rewrite <- R24 at 2]; unfold rndp; apply round_le; try apply valid_rnd_N; try (apply FLT_exp_valid; exact P0); lra.
    + lra.
    + exists (t - 1)%Z. rewrite minus_IZR. replace (x - 24 * (IZR t - 1)) with (m + 24) by (unfold m; ring). apply (rnd_k _ 24); [rewrite Rabs_right; lra | lra].
  - assert (B : x - 24 * IZR t < 24). { destruct (Rlt_dec (x / 24) 0) as [S|S]; [destruct (Tn S); lra|]. pose proof (Tp (Rnot_lt_le _ _ S)). lra. } split; [lra|]. split; [lra|]. exists t. unfold Rminus at 1. rewrite Rplus_opp_r, Rabs_R0. lra.
Qed.
(** *** The date *)
Section Date.
Variables (jd : R).
Hypothesis Fj : fmt jd.
Hypothesis Bj : Rabs (jd - 2451545) <= 730500.
Notation day := (npfloor (jd - / 2) + / 2).
Lemma jd_bounds : 1721045 <= jd <= 3182045. Proof. apply Rabs_le_inv in Bj. lra. Qed.
Lemma day_bounds : day <= jd < day + 1. Proof. unfold npfloor. destruct (base_Int_part (jd - / 2)). lra. Qed.
Lemma pred_exact : rn (jd - / 2) = jd - / 2.
Proof. pose proof jd_bounds. replace (jd - / 2) with (jd - IZR 1 / 2) by lra. apply exact, sub_half; [exact Fj | rewrite !Rabs_right; lra | rewrite Rabs_right by lra; change (2 ^ 22)%Z with 4194304%Z; lra]. Qed.
Lemma day_half : day = IZR (2 * Int_part (jd - / 2) + 1) / 2. Proof. unfold npfloor. rewrite plus_IZR, mult_IZR. lra. Qed.
Lemma small_int n : Rabs (IZR n) <= IZR (2 ^ 23) -> (Z.abs n < 2 ^ prec)%Z.
Proof. intros H. rewrite <- abs_IZR in H. apply le_IZR in H. apply Z.le_lt_trans with (1 := H). apply Z.pow_lt_mono_r; lia. Qed.
Lemma day_exact : rn day = day.
Proof. pose proof jd_bounds. pose proof day_bounds as D. rewrite day_half in *. apply exact, half_format, small_int. change (2 ^ 23)%Z with 8388608%Z. rewrite Rabs_right; lra. Qed.
Lemma epoch_exact : rn (day - 2451545) = day - 2451545.
Proof. pose proof jd_bounds. pose proof day_bounds as D. rewrite day_half in *. replace (IZR (2 * Int_part (jd - / 2) + 1) / 2 - 2451545) with (IZR (2 * Int_part (jd - / 2) + 1 - 4903090) / 2) by (rewrite minus_IZR; lra). apply exact, half_format, small_int. change (2 ^ 23)%Z with 8388608%Z. rewrite minus_IZR. apply Rabs_le. lra. Qed.
Lemma time_exact : rn (jd - day) = jd - day.
Proof. pose proof jd_bounds. pose proof day_bounds as D. rewrite day_half in *. apply exact, sub_half; [exact Fj | rewrite !Rabs_right; lra | rewrite Rabs_right by lra; change (2 ^ 22)%Z with 4194304%Z; lra]. Qed.
Notation c := ((day - 2451545) / 36525).
Notation T := (rn c).
Lemma c_bound : Rabs c <= 20.001.
Proof. pose proof day_bounds. apply Rabs_le_inv in Bj. apply Rabs_le. lra. Qed.
Lemma T_near : Rabs (T - c) <= 20.002 * u. Proof. apply (rnd_k _ 20.001); [apply c_bound | lra]. Qed.
Lemma cc_bound : Rabs (c * c) <= 401. Proof. pose proof c_bound. rewrite Rabs_mult. apply Rle_trans with (20.001 * 20.001); [apply Rmult_le_compat; try apply Rabs_pos; assumption | lra]. Qed.
Notation k0 := (6697374558 / 1000000000).
Notation k1 := (2400051336 / 1000000).
Notation k2 := (25862 / 1000000000).
Notation k3 := (1002737909 / 1000000000).
Notation poly := (rn (rn (rn k0 + rn (rn k1 * T)) + rn (rn k2 * rn (T * T)))).
Notation poly' := (k0 + k1 * c + k2 * (c * c)).
Lemma poly_near : Rabs (poly - poly') <= 240211 * u.
Proof.
  pose proof c_bound as Bc. pose proof T_near as Tn. pose proof cc_bound as Bcc. pose proof U0 as U0.
  assert (K0 : Rabs (rn k0 - k0) <= 6.7 * u) by (apply (rnd_k _ 6.698); [rewrite Rabs_right; lra | lra]). assert (K1 : Rabs (rn k1 - k1) <= 2401 * u) by (apply (rnd_k _ 2400.06); [rewrite Rabs_right; lra | lra]). assert (K2 : Rabs (rn k2 - k2) <= 0.0003 * u) by (apply (rnd_k _ 0.00003); [rewrite Rabs_right; lra | lra]).
  assert (B1 : Rabs (k1 * c) <= 48003.6). { rewrite Rabs_mult, (Rabs_right k1) by lra. apply Rle_trans with (k1 * 20.001); [apply Rmult_le_compat_l; lra | lra]. } assert (B2 : Rabs (k2 * (c * c)) <= 0.011). { rewrite Rabs_mult, (Rabs_right k2) by lra. apply Rle_trans with (k2 * 401); [apply Rmult_le_compat_l; lra | lra]. }
  assert (B3 : Rabs (k0 + k1 * c) <= 48010.3). { eapply Rle_trans; [apply Rabs_triang|]. rewrite (Rabs_right k0) by lra. lra. } assert (B4 : Rabs (k0 + k1 * c + k2 * (c * c)) <= 48010.4). { eapply Rle_trans; [apply Rabs_triang|]. lra. }
  apply (sumu _ _ _ _ 192153 0.2 48010.4 240211); try lra.
  - apply (sumu _ _ _ _ 6.7 144100 48010.3 192153); try lra. apply (produ _ _ _ _ 2401 20.002 2400.06 20.001 144100); try lra. rewrite Rabs_right; lra.
  - apply (produ _ _ _ _ 0.0003 1202 0.00003 401 0.2); try lra; [|rewrite Rabs_right; lra]. apply (produ _ _ _ _ 20.002 20.002 20.001 20.001 1202); try lra.
Qed.
Notation hours := (poly' + (jd - day) * 24 * k3).
Lemma gst_near : 0 <= jd2gst_r emin prec jd < 24 /\ exists k : Z, Rabs (jd2gst_r emin prec jd - (hours - 24 * IZR k)) <= 240400 * u.
Proof.
  pose proof U0 as U0. unfold jd2gst_r. rewrite pred_exact, day_exact, epoch_exact, time_exact. cbv zeta. pose proof poly_near as Pn. set (p := poly) in *. destruct (remainder_ok p) as (R1 & R2 & k & Rk). set (r := remainder24 emin prec p) in *. pose proof day_bounds as Db.
  assert (A1 : Rabs (rn ((jd - day) * 24) - (jd - day) * 24) <= 24.01 * u) by (apply (rnd_k _ 24); [rewrite Rabs_right; lra | lra]).
  assert (A2 : Rabs (rn k3 - k3) <= 1.01 * u) by (apply (rnd_k _ 1.003); [rewrite Rabs_right; lra | lra]).
  assert (A3 : Rabs (rn (rn ((jd - day) * 24) * rn k3) - (jd - day) * 24 * k3) <= 73 * u) by (apply (produ _ _ _ _ 24.01 1.01 24 1.003 73); try lra; rewrite Rabs_right; lra).
  assert (B : 0 <= (jd - day) * 24 * k3 <= 24.07) by (split; [apply Rmult_le_pos; lra|]; apply Rle_trans with (24 * k3); [apply Rmult_le_compat_r; lra | lra]).
  set (w := rn (rn ((jd - day) * 24) * rn k3)) in *. set (w' := (jd - day) * 24 * k3) in *.
  assert (A4 : Rabs (rn (r + w) - (r + w')) <= 121.3 * u). { apply (sumu _ _ _ _ 0 73 48.1 121.3); try lra; [unfold Rminus; rewrite Rplus_opp_r, Rabs_R0; lra | rewrite Rabs_right; lra]. }
  assert (W0 : 0 <= w). { assert (R0 : rn 0 = 0) by (apply round_0, valid_rnd_N). assert (M : forall z, 0 <= z -> 0 <= rn z) by (intros z Hz; rewrite <- R0; unfold rndp; apply round_le; [apply FLT_exp_valid; exact P0 | apply valid_rnd_N | exact Hz]). unfold w. apply M, Rmult_le_pos; apply M; lra. }
  assert (V0 : 0 <= rn (r + w)). { assert (R0 : rn 0 = 0) by (apply round_0, valid_rnd_N). rewrite <- R0. unfold rndp. apply round_le; [apply FLT_exp_valid; exact P0 | apply valid_rnd_N | lra]. }
  destruct (remainder_ok (rn (r + w))) as (S1 & S2 & j & Sj). specialize (S2 V0). set (s := remainder24 emin prec (rn (r + w))) in *. split; [lra|]. exists (k + j)%Z. rewrite plus_IZR.
  replace (s - (poly' + w' - 24 * (IZR k + IZR j))) with ((s - (rn (r + w) - 24 * IZR j)) + (rn (r + w) - (r + w')) + (r - (p - 24 * IZR k)) + (p - poly')) by ring.
  repeat match goal with H : Rabs _ <= _ |- _ => apply Rabs_le_inv in H end. apply Rabs_le. lra.
Qed.
Lemma exact_hours : exists k : Z, jd2gst jd = hours + 24 * IZR k.
Proof.
  unfold jd2gst. cbv zeta. destruct (modulo_equiv poly' 24) as [k E]. destruct (modulo_equiv (modulo poly' 24 + (jd - day) * 24 * k3) 24) as [j E']. exists (k + j)%Z. rewrite E', E, plus_IZR. ring.
Qed.
Lemma gst_circle : exists k : Z, Rabs (jd2gst_r emin prec jd - (jd2gst jd + 24 * IZR k)) <= 240400 * u.
Proof. destruct gst_near as [_ [k H]]. destruct exact_hours as [j E]. exists (- k - j)%Z. rewrite E, minus_IZR, opp_IZR. replace (hours + 24 * IZR j + 24 * (- IZR k - IZR j)) with (hours - 24 * IZR k) by ring. exact H. Qed.
Variables (lat lon : R).
Hypothesis Hlat : Rabs lat <= 90.
Hypothesis Hlon : Rabs lon <= 360.
Notation lst_r := (gst2lst_r emin prec (jd2gst_r emin prec jd) lon).
Notation lst' := (gst2lst (jd2gst jd) lon).
Lemma lst_circle : 0 <= lst_r <= 24 /\ exists k : Z, Rabs (lst_r - (lst' + 24 * IZR k)) <= 240500 * u.
Proof.
  pose proof U0 as U0. destruct gst_near as [[G1 G2] _]. destruct gst_circle as [k Hk]. unfold gst2lst_r, gst2lst. set (g := jd2gst_r emin prec jd) in *. destruct (modulo_equiv (jd2gst jd + lon / 15) 24) as [j E].
  assert (Bl : Rabs (lon / 15) <= 24) by (unfold Rdiv; rewrite Rabs_mult, (Rabs_right (/ 15)) by lra; lra). assert (A1 : Rabs (rn (lon / 15) - lon / 15) <= 24.01 * u) by (apply (rnd_k _ 24); [exact Bl | lra]).
  assert (A2 : Rabs (rn (g + rn (lon / 15)) - (g + lon / 15)) <= 72.1 * u). { apply (sumu _ _ _ _ 0 24.01 48 72.1); try lra; [unfold Rminus; rewrite Rplus_opp_r, Rabs_R0; lra|]. apply Rabs_le_inv in Bl. apply Rabs_le. lra. }
  destruct (remainder_ok (rn (g + rn (lon / 15)))) as (R1 & _ & i & Ri). split; [exact R1|]. exists (k - j - i)%Z. rewrite E, !minus_IZR. set (r := remainder24 emin prec (rn (g + rn (lon / 15)))) in *. set (v := rn (g + rn (lon / 15))) in *.
  repeat match goal with H : Rabs _ <= _ |- _ => apply Rabs_le_inv in H end. apply Rabs_le. lra.
Qed.
Notation ang := (rn (rn (lst_r * 15) * deg)).
Lemma ang_near : exists k : Z, Rabs (ang - (radians (lst' * 15) + 2 * PI * IZR k)) <= 63166 * u.
Proof.
  destruct lst_circle as [B [k Hk]]. pose proof U0 as U0. pose proof pi_low. pose proof pi_high. set (s := lst_r) in *. exists k. assert (A1 : Rabs (rn (s * 15) - s * 15) <= 360.1 * u) by (apply (rnd_k _ 360); [rewrite Rabs_right; lra | lra]). set (q := rn (s * 15)) in *.
  pose proof U1. assert (Bq : Rabs q <= 360.09) by (apply Rabs_le_inv in A1; apply Rabs_le; lra).
  assert (A2 : Rabs (rn (q * deg) - q * (PI / 180)) <= 25.3 * u). { apply (angle emin prec sn cs deg rad P0 L U1 He q (360.09 * (3.15 / 180)) 25.3); [lra | now apply scaled | lra]. }
  assert (A3 : Rabs (q * (PI / 180) - (radians (lst' * 15) + 2 * PI * IZR k)) <= 3607861 * u * (3.15 / 180)).
  { unfold radians. replace (q * (PI / 180) - (lst' * 15 * (PI / 180) + 2 * PI * IZR k)) with ((q - 15 * (lst' + 24 * IZR k)) * (PI / 180)) by field. rewrite Rabs_mult, (Rabs_right (PI / 180)) by lra. apply Rmult_le_compat; [apply Rabs_pos | lra | | lra].
    apply Rabs_le_inv in Hk, A1. apply Rabs_le. lra. }
  pose proof (tri (rn (q * deg)) (q * (PI / 180)) (radians (lst' * 15) + 2 * PI * IZR k)). lra.
Qed.
Lemma cos_turns x (k : Z) : cos (x + 2 * PI * IZR k) = cos x.
Proof.
  destruct (Z_le_gt_dec 0 k) as [H|H].
  - replace (x + 2 * PI * IZR k) with (x + 2 * INR (Z.to_nat k) * PI) by (rewrite INR_IZR_INZ, Z2Nat.id by lia; ring). apply cos_period.
  - rewrite <- (cos_period (x + 2 * PI * IZR k) (Z.to_nat (- k))). f_equal. rewrite INR_IZR_INZ, Z2Nat.id by lia. rewrite opp_IZR. ring.
Qed.
Lemma sin_turns x (k : Z) : sin (x + 2 * PI * IZR k) = sin x.
Proof.
  destruct (Z_le_gt_dec 0 k) as [H|H].
  - replace (x + 2 * PI * IZR k) with (x + 2 * INR (Z.to_nat k) * PI) by (rewrite INR_IZR_INZ, Z2Nat.id by lia; ring). apply sin_period.
  - rewrite <- (sin_period (x + 2 * PI * IZR k) (Z.to_nat (- k))). f_equal. rewrite INR_IZR_INZ, Z2Nat.id by lia. rewrite opp_IZR. ring.
Qed.
Lemma cs_near : Rabs (cs ang - cos (radians (lst' * 15))) <= 63168 * u.
Proof. destruct ang_near as [k H]. rewrite <- (cos_turns _ k). replace 63168 with (63166 + 2) by ring. now apply (cos_near prec sn cs deg rad L). Qed.
Lemma sn_near : Rabs (sn ang - sin (radians (lst' * 15))) <= 63168 * u.
Proof. destruct ang_near as [k H]. rewrite <- (sin_turns _ k). replace 63168 with (63166 + 2) by ring. now apply (sin_near prec sn cs deg rad L). Qed.
Lemma slat_near : Rabs (sn (rn (lat * deg)) - sin (radians lat)) <= 9 * u.
Proof. replace 9 with (7 + 2) by ring. apply (sin_near prec sn cs deg rad L), (phi_near emin prec sn cs deg rad P0 L U1 He), Hlat. Qed.
Lemma clat_near : Rabs (cs (rn (lat * deg)) - cos (radians lat)) <= 9 * u.
Proof. replace 9 with (7 + 2) by ring. apply (cos_near prec sn cs deg rad L), (phi_near emin prec sn cs deg rad P0 L U1 He), Hlat. Qed.
Definition close33 (e : R) (m m' : mat) : Prop :=
  let close v w := let '(a, b, c) := v in let '(x, y, z) := w in Rabs (a - x) <= e /\ Rabs (b - y) <= e /\ Rabs (c - z) <= e in
  let '(r, s, t) := m in let '(r', s', t') := m' in close r r' /\ close s s' /\ close t t'.
Lemma frame_near : close33 (63400 * u) (horizontal_r emin prec sn cs deg lat lst_r) (horizontal lat lst').
Proof.
  pose proof U0 as U0. pose proof cs_near as Cn. pose proof sn_near as Sn. pose proof slat_near as Sl. pose proof clat_near as Cl. unfold horizontal_r, horizontal. cbv zeta. set (a := ang) in *. set (b := rn (lat * deg)) in *. set (x := radians (lst' * 15)) in *. set (y := radians lat) in *.
  assert (G : forall p q p' q', Rabs (p - p') <= 9 * u -> Rabs (q - q') <= 63168 * u -> Rabs p' <= 1 -> Rabs q' <= 1 -> Rabs (rn (p * q) - p' * q') <= 63400 * u) by (intros; apply (produ _ _ _ _ 9 63168 1 1 63400); try lra; assumption).
  assert (Sl' : Rabs (- sn b - - sin y) <= 9 * u) by (replace (- sn b - - sin y) with (- (sn b - sin y)) by ring; rewrite Rabs_Ropp; exact Sl). assert (S1 : Rabs (- sin y) <= 1) by (rewrite Rabs_Ropp; apply sin_1).
  unfold close33. split; [|split]; (split; [|split]).
  - apply G; [exact Sl' | exact Cn | exact S1 | apply cos_1].
  - apply G; [exact Sl' | exact Sn | exact S1 | apply sin_1].
  - lra.
  - replace (- sn a - - sin x) with (- (sn a - sin x)) by ring. rewrite Rabs_Ropp. lra.
  - lra.
  - unfold Rminus. rewrite Rplus_opp_r, Rabs_R0. lra.
  - apply G; [exact Cl | exact Cn | apply cos_1 | apply cos_1].
  - apply G; [exact Cl | exact Sn | apply cos_1 | apply sin_1].
  - lra.
Qed.
End Date.
End T.

(** For the twenty centuries around 2000 (from -47 to 4000): the sidereal times in hours, on the circle, and the frame of the observer of C43. *)
Definition date_ok (emin prec : Z) (jd : R) : Prop := representable emin prec jd /\ Rabs (jd - 2451545) <= 730500.
Theorem C135_time : forall emin prec jd lon, (24 <= prec)%Z -> (emin <= 1 - 2 * prec)%Z -> date_ok emin prec jd -> Rabs lon <= 360 ->
  let gst := jd2gst_r emin prec jd in let lst := gst2lst_r emin prec gst lon in
  0 <= gst < 24 /\ (exists k : Z, Rabs (gst - (jd2gst jd + 24 * IZR k)) <= 240400 * unit_of prec) /\
  0 <= lst <= 24 /\ (exists k : Z, Rabs (lst - (gst2lst (jd2gst jd) lon + 24 * IZR k)) <= 240500 * unit_of prec).
Proof.
  intros emin prec jd lon Pp Pe [F B] Hl gst lst. apply format_representable in F.
  split; [exact (proj1 (gst_near emin prec Pp Pe jd F B))|]. split; [exact (gst_circle emin prec Pp Pe jd F B)|]. assert (Z0 : Rabs 0 <= 90) by (rewrite Rabs_R0; lra). eapply lst_circle; eassumption.
Qed.
Print Assumptions C135_time.
Theorem C135_frame : forall emin prec sn cs deg rad jd lat lon t, (24 <= prec)%Z -> (emin <= 1 - 2 * prec)%Z -> libm prec sn cs deg rad -> date_ok emin prec jd -> Rabs lat <= 90 -> Rabs lon <= 360 ->
  exists m m', equatorial_horizontal_r emin prec sn cs deg "NE" jd lat lon t = Ok m /\ equatorial_horizontal "NE" jd lat lon t = Ok m' /\ close33 (63400 * unit_of prec) m m'.
Proof.
  intros emin prec sn cs deg rad jd lat lon t Pp Pe L [F B] Ha Ho. apply format_representable in F. unfold equatorial_horizontal_r, equatorial_horizontal. cbn [String.eqb Ascii.eqb Bool.eqb negb]. do 2 eexists. split; [reflexivity|]. split; [reflexivity|].
  pose proof (frame_near emin prec sn cs deg rad Pp Pe L jd F B lat lon Ha Ho) as N. destruct t; [|exact N].
  destruct (horizontal_r emin prec sn cs deg lat _) as [[[[a1 a2] a3] [[b1 b2] b3]] [[c1 c2] c3]], (horizontal lat _) as [[[[d1 d2] d3] [[e1 e2] e3]] [[f1 f2] f3]]. unfold close33, swapaxes in *. tauto.
Qed.
Print Assumptions C135_frame.
(** The other conventions are refused. *)
Theorem C135_convention : forall emin prec sn cs deg c jd lat lon t, c <> "NE"%string -> equatorial_horizontal_r emin prec sn cs deg c jd lat lon t = Err ValueError.
Proof. intros emin prec sn cs deg c jd lat lon t H. unfold equatorial_horizontal_r. apply String.eqb_neq in H. now rewrite H. Qed.
Print Assumptions C135_convention.
(** Refuted: local sidereal times are below 24; a small western longitude at Greenwich sidereal time zero gives 24. *)
Theorem C135_range_refuted : exists gst lon, 0 <= gst < 24 /\ representable (-1074) 53 lon /\ -360 <= lon <= 360 /\ gst2lst_r (-1074) 53 gst lon = 24.
Proof.
  set (e := bpow radix2 (-60)). assert (E0 : 0 < e) by apply bpow_gt_0. assert (E1 : e <= / 1152921504606846976) by (unfold e, bpow; change (Z.pow_pos radix2 60) with 1152921504606846976%Z; lra).
  exists 0, (- (15 * e)). split; [lra|]. split; [exists (-15)%Z, (-60)%Z; split; [rewrite pow2; fold e; ring | lia]|]. split; [lra|]. unfold gst2lst_r. replace (- (15 * e) / 15) with (- e) by field.
  assert (Fe : rndp (-1074) 53 (- e) = - e). { unfold rndp. apply round_generic; [apply valid_rnd_N|]. apply generic_format_opp, generic_format_FLT. exists (Float radix2 1 (-60)); [unfold F2R; cbn [Fnum Fexp]; fold e; ring | reflexivity | cbn [Fexp]; lia]. }
  rewrite Fe, Rplus_0_l, Fe. unfold remainder24, fmod24. assert (T : truncated (- e / 24) = 0%Z). { unfold truncated. destruct (Rlt_dec (- e / 24) 0) as [_|N]; [|lra]. assert (Int_part (- (- e / 24)) = 0%Z) as -> by (apply int_part_iff; lra). reflexivity. }
  rewrite T. destruct (Rlt_dec (- e - 24 * 0) 0) as [_|N]; [|lra]. replace (- e - 24 * 0 + 24) with (24 - e) by ring.
  assert (Rg : rndp (-1074) 53 (24 - e) = 24).
  { assert (R24 : rndp (-1074) 53 24 = 24) by (apply integer_exact; [lia | lia | now exists 24%Z | rewrite Rabs_right by lra; apply IZR_le; lia]).
    pose proof (rn_err (-1074) 53 ltac:(lia) (24 - e)) as W. set (q := rndp (-1074) 53 (24 - e)) in *. assert (Q : q <= 24) by (rewrite <- R24; unfold q, rndp; apply round_le; [apply FLT_exp_valid; exact (eq_refl : (0 < 53)%Z) | apply valid_rnd_N | lra]).
    destruct (Rlt_dec q 24) as [Lt|G]; [exfalso|lra].
    (* the numbers below 24 and above 16 are multiples of 2^-48 *)
    pose proof (@round_N_pt radix2 (FLT_exp (-1074) 53) (FLT_exp_valid (-1074) 53 (prec_gt_0_:=eq_refl)) (fun x => negb (Z.even x)) (24 - e)) as [_ Nr]. specialize (Nr 24). 
    assert (F24 : generic_format radix2 (FLT_exp (-1074) 53) 24) by (rewrite <- R24; apply format_round; lia). specialize (Nr F24). fold (rndp (-1074) 53 (24 - e)) in Nr. 
    change (Rabs (q - (24 - e)) <= Rabs (24 - (24 - e))) in Nr. replace (24 - (24 - e)) with e in Nr by ring. rewrite (Rabs_right e) in Nr by lra. apply Rabs_le_inv in Nr.
    assert (Fq : generic_format radix2 (FLT_exp (-1074) 53) q) by (apply format_round; lia). apply FLT_format_generic in Fq; [|exact (eq_refl : (0 < 53)%Z)]. destruct Fq as [[m k] Eq Hm Hk]. cbn [Fnum Fexp] in *. unfold F2R in Eq. cbn [Fnum Fexp] in Eq.
    assert (Km : (k <= -49)%Z \/ (-48 <= k)%Z) by lia. destruct Km as [Km|Km].
    - assert (bpow radix2 k <= bpow radix2 (-49)) by now apply bpow_le. assert (IZR m < IZR (2 ^ 53)) by (apply IZR_lt; change (Z.abs m < 2 ^ 53)%Z in Hm; lia). change (2 ^ 53)%Z with 9007199254740992%Z in H0. assert (B : bpow radix2 (-49) = / 562949953421312) by reflexivity. pose proof (bpow_gt_0 radix2 k).
      assert (IZR m * bpow radix2 k <= 9007199254740992 * / 562949953421312) by (apply Rle_trans with (9007199254740992 * bpow radix2 k); [apply Rmult_le_compat_r; lra | rewrite <- B; apply Rmult_le_compat_l; lra]). lra.
    - assert (I : q = IZR (m * 2 ^ (k + 48)) * / 281474976710656). { rewrite Eq, mult_IZR. replace (IZR (2 ^ (k + 48))) with (bpow radix2 (k + 48)) by (rewrite <- IZR_Zpower by lia; reflexivity). rewrite bpow_plus. change (bpow radix2 48) with 281474976710656. field. }
      set (n := (m * 2 ^ (k + 48))%Z) in *. assert (IZR n < 6755399441055744) by lra. assert (6755399441055743 < IZR n) by lra. apply lt_IZR in H, H0. lia. }
  exact Rg.
Qed.
Print Assumptions C135_range_refuted.
(** Noon of the first of January 2000 at Paris, in double precision. *)
Example C135_example : date_ok (-1074) 53 2451545 /\ Rabs 48 <= 90 /\ Rabs 2 <= 360 /\ (24 <= 53)%Z /\ (-1074 <= 1 - 2 * 53)%Z /\ 63400 * unit_of 53 <= / 1000000000 /\
  libm 53 (fun x => rndp (-1074) 53 (sin x)) (fun x => rndp (-1074) 53 (cos x)) (rndp (-1074) 53 (PI / 180)) (rndp (-1074) 53 (180 / PI)).
Proof.
  split. { split; [exists 2451545%Z, 0%Z; split; [cbn; ring | lia]|]. replace (2451545 - 2451545) with 0 by ring. rewrite Rabs_R0. lra. } split; [rewrite Rabs_right; lra|]. split; [rewrite Rabs_right; lra|]. split; [lia|]. split; [lia|].
  split; [|apply C132_rounded; lia]. unfold unit_of. rewrite pow2. assert (B : bpow radix2 (- (53)) = / 9007199254740992) by reflexivity. rewrite B. lra.
Qed.
