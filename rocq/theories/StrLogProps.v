(** C44, continued: lengths of integers with logarithms in double precision. *)
From Coq Require Import ZArith Reals Lra Lia Ascii String List.
From Flocq Require Import Core.
From Verif Require Import Base TemplateModel UnitModel StrModel StrSpec StrFacts StrProps StrLogModel.
Open Scope R_scope.

Local Instance prec_pos : Prec_gt_0 53. Proof. reflexivity. Qed.
Local Instance valid64 : Valid_exp fexp64. Proof. apply FLT_exp_valid. exact prec_pos. Qed.
Lemma format_scaled (m e : Z) : (Z.abs m < 2 ^ 53)%Z -> (-1074 <= e)%Z -> generic_format radix2 fexp64 (IZR m * bpow radix2 e).
Proof. intros M E. apply generic_format_FLT. apply (FLT_spec _ _ _ _ (Defs.Float radix2 m e)); [reflexivity|exact M|exact E]. Qed.
Lemma format_int (m : Z) : (Z.abs m < 2 ^ 53)%Z -> generic_format radix2 fexp64 (IZR m).
Proof. intros M. replace (IZR m) with (IZR m * bpow radix2 0) by (cbn; ring). apply format_scaled; [exact M|lia]. Qed.
Lemma rnd64_int (m : Z) : (Z.abs m < 2 ^ 53)%Z -> rnd64 (IZR m) = IZR m.
Proof. intros M. apply round_generic; [apply valid_rnd_N|now apply format_int]. Qed.
Lemma rnd64_le x y : x <= y -> rnd64 x <= rnd64 y.
Proof. intros H. apply round_le; [exact valid64|apply valid_rnd_N|exact H]. Qed.

Lemma ln10_pos : 0 < ln 10. Proof. rewrite <- ln_1. apply ln_increasing; lra. Qed.
Lemma exp_ge_pow x n : 0 <= x -> (1 + x) ^ n <= exp (INR n * x).
Proof.
  intros X. induction n as [|n IH]; [cbn; rewrite Rmult_0_l, exp_0; lra|].
  rewrite S_INR, Rmult_plus_distr_r, Rmult_1_l, exp_plus. cbn [pow]. rewrite Rmult_comm.
  apply Rmult_le_compat; [apply pow_le; lra|lra|exact IH|].
  destruct (Req_dec x 0) as [ -> |N]; [rewrite exp_0; lra|left; now apply exp_ineq1].
Qed.
Lemma ln10_upper : ln 10 < 2.8.
Proof.
  rewrite <- (ln_exp 2.8). apply ln_increasing; [lra|]. apply Rlt_le_trans with ((1 + 0.35) ^ 8); [lra|].
  replace 2.8 with (INR 8 * 0.35) by (cbn; lra). apply exp_ge_pow. lra.
Qed.
Lemma ln10_lower : 2 < ln 10.
Proof.
  rewrite <- (ln_exp 2). apply ln_increasing; [apply exp_pos|]. replace 2 with (1 + 1) by lra. rewrite exp_plus.
  assert (exp 1 <= 3) by exact exp_le_3. assert (0 < exp 1) by apply exp_pos. nra.
Qed.
Lemma ln_pow10 k : (0 <= k)%Z -> ln (IZR (10 ^ k)) = IZR k * ln 10.
Proof.
  intros K. pattern k. apply natlike_ind; [cbn; rewrite ln_1; ring| |exact K]. intros x X E.
  rewrite Z.pow_succ_r, mult_IZR, ln_mult, E, succ_IZR; [ring|lra| |exact X]. apply IZR_lt. apply Z.pow_pos_nonneg; lia.
Qed.
(** ln (m - 1) is between ln m - 1 / (m - 1) and ln m - 1 / m. *)
Lemma ln_below m : 1 < m -> ln (m - 1) < ln m - / m.
Proof.
  intros M. assert (H : 1 + - / m < exp (- / m)). { apply exp_ineq1. assert (0 < / m) by (apply Rinv_0_lt_compat; lra). lra. }
  assert (P : 0 < / m) by (apply Rinv_0_lt_compat; lra).
  replace (ln m - / m) with (ln (m * exp (- / m))). { apply ln_increasing; [lra|]. replace (m - 1) with (m * (1 + - / m)) by (field; lra). apply Rmult_lt_compat_l; lra. }
  rewrite ln_mult, ln_exp by (try apply exp_pos; lra). ring.
Qed.
Lemma ln_above m : 1 < m -> ln m - / (m - 1) < ln (m - 1).
Proof.
  intros M. assert (P : 0 < / (m - 1)) by (apply Rinv_0_lt_compat; lra).
  assert (H : 1 + / (m - 1) < exp (/ (m - 1))) by (apply exp_ineq1; lra).
  assert (L : ln m < ln (m - 1) + / (m - 1)); [|lra].
  replace (ln (m - 1) + / (m - 1)) with (ln ((m - 1) * exp (/ (m - 1)))). { apply ln_increasing; [lra|]. replace m with ((m - 1) * (1 + / (m - 1))) at 1 by (field; lra). apply Rmult_lt_compat_l; lra. }
  rewrite ln_mult, ln_exp by (try apply exp_pos; lra). ring.
Qed.

Lemma pow10_le n k : (0 <= k <= n)%Z -> (10 ^ k <= 10 ^ n)%Z. Proof. intros. apply Z.pow_le_mono_r; lia. Qed.
Lemma flog10_small n k : ndigits n k -> (k <= 14)%Z -> flog10 n = (k - 1)%Z.
Proof.
  intros [K [N1 N2]] U. assert (P0 : (0 < 10 ^ (k - 1))%Z) by (apply Z.pow_pos_nonneg; lia).
  assert (P1 := pow10_le 14 k ltac:(lia)). change (10 ^ 14)%Z with 100000000000000%Z in P1.
  unfold flog10. rewrite rnd64_int by lia. apply Zfloor_imp. unfold log10_64. assert (L := ln10_pos). assert (LU := ln10_upper).
  assert (NP : 0 < IZR n) by (apply IZR_lt; lia). split.
  - rewrite <- (rnd64_int (k - 1)) by lia. apply rnd64_le. apply Rmult_le_reg_r with (ln 10); [exact L|].
    unfold Rdiv. rewrite Rmult_assoc, Rinv_l, Rmult_1_r by lra. rewrite <- ln_pow10 by lia.
    destruct (Z.eq_dec (10 ^ (k - 1)) n) as [ -> |D]; [lra|]. left. apply ln_increasing; apply IZR_lt; lia.
  - replace (k - 1 + 1)%Z with k by ring.
    set (b := IZR (k * 2 ^ 48 - 1) * bpow radix2 (-48)).
    assert (B : b = IZR k - / 281474976710656).
    { unfold b. rewrite minus_IZR, mult_IZR. change (2 ^ 48)%Z with 281474976710656%Z. change (bpow radix2 (-48)) with (/ 281474976710656). field. }
    assert (F : rnd64 b = b). { apply round_generic; [apply valid_rnd_N|]. apply format_scaled; [|lia]. change (2 ^ 48)%Z with 281474976710656%Z. change (2 ^ 53)%Z with 9007199254740992%Z. lia. }
    apply Rle_lt_trans with b; [|rewrite B; lra]. rewrite <- F. apply rnd64_le.
    apply Rmult_le_reg_r with (ln 10); [exact L|]. unfold Rdiv. rewrite Rmult_assoc, Rinv_l, Rmult_1_r by lra. rewrite B.
    set (m := IZR (10 ^ k)). assert (M1 : 1 < m). { unfold m. apply IZR_lt. assert (Q := pow10_le k 1 ltac:(lia)). lia. }
    assert (M2 : m <= 100000000000000) by (unfold m; apply IZR_le; lia).
    assert (NM : IZR n <= m - 1). { unfold m. rewrite <- minus_IZR. apply IZR_le. lia. }
    apply Rle_trans with (ln (m - 1)). { destruct (Req_dec (IZR n) (m - 1)) as [ -> |D]; [lra|]. left. apply ln_increasing; lra. }
    assert (LB := ln_below m M1). assert (LM : ln m = IZR k * ln 10) by (apply ln_pow10; lia).
    assert (/ 100000000000000 <= / m) by (apply Rinv_le; lra).
    assert (/ 281474976710656 * ln 10 < / 281474976710656 * 2.8) by (apply Rmult_lt_compat_l; lra). lra.
Qed.
(** Integers of fourteen digits at most are written without blank nor truncation. *)
Theorem C44_integer_log n : (Z.abs n < 10 ^ 14)%Z -> strinteger flog10 n = str_int n.
Proof.
  intros N. apply C44_integer. { assert (10 ^ 14 <= 10 ^ 79)%Z by (apply Z.pow_le_mono_r; lia). lia. }
  destruct (Z.eq_dec n 0) as [Z0|Z0]; [now left|right]. set (a := Z.abs n). assert (A : (0 < a)%Z) by (unfold a; lia).
  assert (exists k, ndigits a k /\ (k <= 14)%Z) as [k [D K]].
  { exists (Z.log2 a * 0 + (if a <? 10 then 1 else if a <? 100 then 2 else if a <? 1000 then 3 else if a <? 10000 then 4 else if a <? 100000 then 5
      else if a <? 1000000 then 6 else if a <? 10000000 then 7 else if a <? 100000000 then 8 else if a <? 1000000000 then 9 else if a <? 10000000000 then 10
      else if a <? 100000000000 then 11 else if a <? 1000000000000 then 12 else if a <? 10000000000000 then 13 else 14))%Z.
    assert (a < 100000000000000)%Z by exact N. rewrite Z.mul_0_r, Z.add_0_l. clearbody a.
    repeat (match goal with |- context [(a <? ?x)%Z] => destruct (Z.ltb_spec a x); [split; [unfold ndigits; split; [lia|]; cbn; lia|lia]|] end).
    split; [unfold ndigits; split; [lia|]; cbn; lia|lia]. }
  rewrite (flog10_small a k D K). now replace (k - 1 + 1)%Z with k by ring.
Qed.
Print Assumptions C44_integer_log.
Example C44_integer_log_case : (Z.abs (-99999999999999) < 10 ^ 14)%Z /\ str_int (-99999999999999) = lit "-99999999999999".
Proof. split; [lia|reflexivity]. Qed.
(** The logarithm of the largest integer of fifteen digits is rounded to 15. *)
Lemma flog10_rounded : flog10 999999999999999 = 15%Z.
Proof.
  unfold flog10. rewrite rnd64_int by lia. unfold log10_64. set (x := ln 999999999999999 / ln 10).
  assert (L := ln10_lower).
  assert (LM : ln 1000000000000000 = 15 * ln 10) by exact (ln_pow10 15 ltac:(lia)).
  assert (A := ln_above 1000000000000000 ltac:(lra)). assert (B := ln_below 1000000000000000 ltac:(lra)).
  replace (1000000000000000 - 1) with 999999999999999 in * by lra.
  assert (XE : x * ln 10 = ln 999999999999999) by (unfold x; field; lra).
  assert (X1 : x < 15). { apply Rmult_lt_reg_r with (ln 10); [lra|]. assert (0 < / 1000000000000000) by (apply Rinv_0_lt_compat; lra). lra. }
  assert (X2 : 15 - / 1125899906842624 < x).
  { apply Rmult_lt_reg_r with (ln 10); [lra|]. assert (/ 1125899906842624 * 2 < / 1125899906842624 * ln 10) by (apply Rmult_lt_compat_l; lra). lra. }
  assert (RX : rnd64 x = 15).
  { unfold rnd64, round. assert (C : cexp radix2 fexp64 x = (-49)%Z).
    { unfold cexp. assert (M : mag radix2 x = 4%Z :> Z). { apply mag_unique. change (bpow radix2 (4 - 1)) with 8. change (bpow radix2 4) with 16. rewrite Rabs_pos_eq; lra. }
      rewrite M. reflexivity. }
    unfold scaled_mantissa. rewrite C. change (bpow radix2 (- (-49))) with 562949953421312.
    rewrite (Znearest_imp _ _ (15 * 562949953421312)). { unfold F2R. cbn [Fnum Fexp]. change (bpow radix2 (-49)) with (/ 562949953421312). rewrite mult_IZR. field. }
    rewrite mult_IZR. apply Rabs_lt. lra. }
  rewrite RX. apply Zfloor_IZR.
Qed.
Theorem C44_integer_log_refuted : exists n, (Z.abs n < 10 ^ 15)%Z /\ strinteger flog10 n = str_int n ++ [" "%char].
Proof.
  exists 999999999999999%Z. split; [lia|]. apply C44_integer_rounded_refuted; [lia|lia|]. cbn [Z.abs]. rewrite flog10_rounded. unfold ndigits. lia.
Qed.
Print Assumptions C44_integer_log_refuted.
