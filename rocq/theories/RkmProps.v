(** C113: mean, mean deviation, variance and standard deviation, every operation rounded. *)
From Coq Require Import ZArith Lia Lra Reals List.
From Flocq Require Import Core.
From Verif Require Import Base BaseFacts SparseModel MedianSpec RndModel RndSpec RndProps NumModel NumFacts ClipModel ClipFacts RksSpec RksFacts RksProps RkmModel RkmSpec RkmFacts.
Import ListNotations.
Open Scope R_scope.

(** The samples that are counted. *)
Definition counted (input : list R) (mask : option (list bool)) : list R :=
  match mask with Some mk => unmasked input mk | None => input end.

Lemma counted_some (input : list R) mk P : Forall P input -> Forall P (unmasked input mk).
Proof.
  intros H. revert mk. induction H as [|x l Hx _ IH]; intros [|b mk]; cbn [unmasked]; try constructor.
  destruct b; [apply IH|constructor; [exact Hx|apply IH]].
Qed.

(** Every result is within its bound of the textbook value; without samples all are NaN, with
    one the variance is NaN. *)
Theorem C113_moments : forall emin prec input mask, (8 <= prec)%Z ->
  (forall mk, mask = Some mk -> length mk = length input) ->
  (Z.of_nat (length (counted input mask)) <= 2 ^ prec)%Z -> Forall (representable emin prec) input ->
  exists mo, rmoment emin prec input mask = Ok mo /\ let l := counted input mask in
    (l = [] -> mo = Moments None None None None None None) /\
    (l <> [] -> exists m d, mo_mean mo = Some m /\ mo_meandev mo = Some d /\
      Rabs (m - avg l) <= mean_bound emin prec l /\ Rabs (d - mean_deviation l) <= meandev_bound emin prec l) /\
    (length l = 1%nat -> mo_variance mo = None /\ mo_stddev mo = None) /\
    ((2 <= length l)%nat -> exists v s, mo_variance mo = Some v /\ mo_stddev mo = Some s /\ 0 <= v /\
      Rabs (v - variance l) <= variance_bound emin prec l /\ Rabs (s - sigma l) <= stddev_bound emin prec l).
Proof.
  intros emin prec input mask Pp Hm Hn Fi. set (l := counted input mask) in *.
  set (o := fp_ops emin prec).
  assert (P0 : (0 < prec)%Z) by lia.
  assert (Fl : Forall (generic_format radix2 (FLT_exp emin prec)) l).
  { apply formats. unfold l, counted. destruct mask as [mk|]; [apply counted_some, Fi|exact Fi]. }
  assert (N : (match mask with Some mk => zlen input - count mk | None => zlen input end)%Z = Z.of_nat (length l)).
  { unfold l, counted. destruct mask as [mk|]; [|reflexivity]. rewrite <- (unmasked_length input mk); [reflexivity|].
    symmetry. apply Hm. reflexivity. }
  assert (SM : forall f : R -> R, fst (match mask with Some mk => sum_kahan_mask o (kadd o) (map f input) mk | None => sum_kahan o (kadd o) (map f input) end)
               = fst (sum_kahan o (kadd o) (map f l))).
  { intros f. unfold l, counted. destruct mask as [mk|]; [|reflexivity].
    rewrite sum_kahan_mask_eq by (rewrite map_length; symmetry; apply Hm; reflexivity). rewrite unmasked_map. reflexivity. }
  assert (SI : fst (match mask with Some mk => sum_kahan_mask o (kadd o) input mk | None => sum_kahan o (kadd o) input end)
               = fst (sum_kahan o (kadd o) l)).
  { pose proof (SM (fun x => x)) as H. rewrite !map_id in H. exact H. }
  unfold rmoment. fold o.
  replace (match mask with Some mk => if negb (zlen mk =? zlen input)%Z then Err RuntimeError else Ok tt | None => Ok tt end) with (@Ok unit tt).
  2:{ destruct mask as [mk|]; [|reflexivity]. replace (zlen mk) with (zlen input) by (unfold zlen; rewrite (Hm mk); reflexivity).
      rewrite Z.eqb_refl. reflexivity. }
  cbn [bind]. rewrite N. destruct (Z.eqb_spec (Z.of_nat (length l)) 0) as [E0|E0].
  - eexists. split; [reflexivity|]. cbv zeta. assert (l = []) by (destruct l; [reflexivity|cbn in E0; lia]).
    split; [reflexivity|]. split; [congruence|]. split; [lia|lia].
  - assert (Hl : l <> []) by (destruct l; [cbn in E0; lia|discriminate]).
    assert (ZI : IZR (Z.of_nat (length l)) = size l) by (unfold size; rewrite INR_IZR_INZ; reflexivity).
    rewrite ZI, SI. set (m := rndp emin prec (fst (sum_kahan o (kadd o) l) / size l)).
    destruct (mean_ok emin prec Pp l Fl Hn Hl) as [Fm Hmean]. fold o m in Fm, Hmean.
    pose proof (meandev_ok emin prec Pp l Fl Hn Hl) as Hdev. fold o m in Hdev. rewrite map_map in Hdev.
    eexists. split; [reflexivity|]. cbn [mo_mean mo_meandev mo_variance mo_stddev]. cbv zeta.
    split; [congruence|]. split; [|split].
    + intros _. eexists; eexists. split; [reflexivity|]. split; [reflexivity|]. split; [exact Hmean|].
      rewrite map_map, SM. exact Hdev.
    + intros L1. replace (Z.of_nat (length l) <=? 1)%Z with true by lia. split; reflexivity.
    + intros L2. replace (Z.of_nat (length l) <=? 1)%Z with false by lia. cbn [lift1].
      pose proof (variance_ok emin prec Pp l Fl Hn Hl L2) as Hvar. fold o m in Hvar. rewrite map_map in Hvar.
      rewrite map_map, SM. replace (IZR (Z.of_nat (length l) - 1)) with (size l - 1) by (rewrite minus_IZR, ZI; reflexivity).
      set (K := fst (sum_kahan o (kadd o) (map (fun x => square emin prec (rndp emin prec (x - m))) l))) in *.
      set (v := rndp emin prec (K / (size l - 1))) in *.
      assert (N2 : 2 <= size l) by (unfold size; apply le_INR in L2; exact L2).
      pose proof (u_pos prec) as U. pose proof (u_small prec Pp) as [_ U1].
      assert (V0 : 0 <= v).
      { assert (K0 : 0 <= K).
        { set (t := map (fun x => square emin prec (rndp emin prec (x - m))) l) in *.
          destruct (kahan_rate emin prec Pp t) as [_ B].
          - unfold t. rewrite map_length. exact Hn.
          - apply Forall_forall. intros y Hy. apply in_map_iff in Hy. destruct Hy as [x [<- _]]. apply format_round, P0.
          - fold o in B. fold K in B.
            assert (Lt : length t = length l) by (unfold t; apply map_length). rewrite Lt in B.
            assert (Wt : weight t = total t).
            { apply weight_map_pos. intros x. unfold square, rndp. apply round_ge_generic; [apply FLT_exp_valid; exact P0|apply valid_rnd_N|apply generic_format_0|apply Rle_0_sqr]. }
            rewrite Wt in B. assert (T0 : 0 <= total t) by (rewrite <- Wt; apply weight_pos).
            assert (R1 : compensated_rate prec (length l) <= 1).
            { pose proof (count_u prec Pp (length l) Hn) as C. unfold compensated_rate, second_order.
              assert (INR (length l) * unit_of prec ^ 2 <= unit_of prec) by (cbn [pow]; nra). lra. }
            assert (compensated_rate prec (length l) * total t <= 1 * total t) by (apply Rmult_le_compat_r; lra).
            pose proof (Rle_abs (- (K - total t))) as A. rewrite Rabs_Ropp in A. lra. }
        unfold v, rndp. apply round_ge_generic; [apply FLT_exp_valid; exact P0|apply valid_rnd_N|apply generic_format_0|].
        apply Rmult_le_pos; [exact K0|apply Rlt_le, Rinv_0_lt_compat; lra]. }
      exists v, (rndp emin prec (sqrt v)). split; [reflexivity|]. split; [reflexivity|]. split; [exact V0|]. split; [exact Hvar|].
      assert (VV : 0 <= variance l).
      { unfold variance. apply Rmult_le_pos; [|apply Rlt_le, Rinv_0_lt_compat; lra].
        apply (total_pos (fun x => (x - avg l) * (x - avg l))). intros x. apply Rle_0_sqr. }
      pose proof (rn_error emin prec Pp (sqrt v)) as E1. rewrite (Rabs_pos_eq (sqrt v)) in E1 by apply sqrt_pos.
      pose proof (sqrt_diff v (variance l) V0 VV) as E2. fold (sigma l) in E2.
      assert (E3 : sqrt (Rabs (v - variance l)) <= sqrt (variance_bound emin prec l)).
      { apply sqrt_le_1; [apply Rabs_pos| |exact Hvar]. eapply Rle_trans; [apply Rabs_pos|exact Hvar]. }
      assert (E4 : sqrt v <= sigma l + sqrt (variance_bound emin prec l)).
      { pose proof (Rle_abs (sqrt v - sigma l)). lra. }
      unfold stddev_bound. replace (rndp emin prec (sqrt v) - sigma l) with ((rndp emin prec (sqrt v) - sqrt v) + (sqrt v - sigma l)) by ring.
      eapply Rle_trans; [apply Rabs_triang|].
      assert (unit_of prec * sqrt v <= unit_of prec * (sigma l + sqrt (variance_bound emin prec l))) by (apply Rmult_le_compat_l; lra).
      lra.
Qed.
Print Assumptions C113_moments.

(** FINDING 182.  Equal samples: the mean of three 2^53 - 2 is rounded to 2^53 - 3, so that the
    variance is 3/2, the test for a zero deviation does not hold, and skewness and kurtosis
    are numbers instead of NaN. *)
Definition third : R := IZR (2 ^ 53 - 2).

Lemma rndp_tie n k m : (54 <= k)%Z -> (2 ^ (k - 1) <= Z.abs n < 2 ^ k)%Z -> n = (m * 2 ^ (k - 53) + 2 ^ (k - 54))%Z -> Z.even m = true ->
  rndp (-1074) 53 (IZR n) = IZR (m * 2 ^ (k - 53)).
Proof.
  intros Hk Hn Hm He. unfold rndp, round, F2R, scaled_mantissa, cexp.
  assert (P : forall i, (0 <= i)%Z -> bpow radix2 i = IZR (2 ^ i)) by (intros i Hi; rewrite <- IZR_Zpower by exact Hi; reflexivity).
  assert (M : mag radix2 (IZR n) = k :> Z).
  { apply mag_unique. rewrite <- abs_IZR, !P by lia. split; [apply IZR_le|apply IZR_lt]; lia. }
  rewrite M. replace (FLT_exp (-1074) 53 k) with (k - 53)%Z by (unfold FLT_exp; lia). cbn [Defs.Fnum Defs.Fexp].
  assert (X : IZR n * bpow radix2 (- (k - 53)) = IZR m + / 2).
  { rewrite Hm, plus_IZR, mult_IZR, <- !P by lia. rewrite Rmult_plus_distr_r, Rmult_assoc, <- !bpow_plus.
    replace (k - 53 + - (k - 53))%Z with 0%Z by lia. replace (k - 54 + - (k - 53))%Z with (-1)%Z by lia. cbn. lra. }
  rewrite X. unfold ZnearestE, Znearest.
  assert (Fl : Zfloor (IZR m + / 2) = m) by (apply Zfloor_imp; rewrite plus_IZR; lra).
  rewrite Fl. replace (IZR m + / 2 - IZR m) with (/ 2) by ring. rewrite Rcompare_Eq by reflexivity. rewrite He. cbn [negb].
  rewrite mult_IZR, <- P by lia. reflexivity.
Qed.

Theorem C113_constant_refuted : let l := [third; third; third] in
  Forall (representable (-1074) 53) l /\ variance l = 0 /\
  exists mo, rmoment (-1074) 53 l None = Ok mo /\
    mo_mean mo = Some (third - 1) /\ mo_variance mo = Some (3 / 2) /\ mo_meandev mo = Some 1 /\
    mo_skewness mo <> None /\ mo_kurtosis mo <> None.
Proof.
  intros l.
  assert (R3 : representable (-1074) 53 third).
  { exists (2 ^ 53 - 2)%Z, 0%Z. split; [unfold third; cbn [powerRZ]; ring|split; lia]. }
  split; [repeat constructor; exact R3|]. split.
  { unfold variance, deviations, avg, size, total. cbn [l map fold_right length INR].
    replace (third + (third + (third + 0))) with (3 * third) by ring. field. }
  unfold rmoment. cbn [bind]. change (zlen l =? 0)%Z with false. change (zlen l <=? 1)%Z with false. cbv iota.
  change (IZR (zlen l)) with 3. change (IZR (zlen l - 1)) with 2.
  assert (I : forall n, (Z.abs n <= 2 ^ 53)%Z -> rndp (-1074) 53 (IZR n) = IZR n) by apply rndp_int.
  set (o := fp_ops (-1074) 53).
  assert (S1 : fst (sum_kahan o (kadd o) l) = IZR (3 * (2 ^ 53 - 2) - 2)).
  { unfold l, third. cbn [sum_kahan kloop fst]. unfold ksub, o. cbn [kadd kopp k0 fp_ops].
    assert (A0 : - (0) = 0) by ring. set (x := IZR (2 ^ 53 - 2)).
    assert (X1 : rndp (-1074) 53 (x + x) = IZR (2 ^ 54 - 4)).
    { unfold x. rewrite <- plus_IZR. apply (rndp_integer (2 ^ 54 - 4) 54 (2 ^ 53 - 2)); lia. }
    assert (X0 : rndp (-1074) 53 x = x) by (apply I; lia).
    assert (X2 : rndp (-1074) 53 (IZR (2 ^ 54 - 4) + - x) = x).
    { unfold x. rewrite <- opp_IZR, <- plus_IZR. apply (I (2 ^ 53 - 2)%Z). lia. }
    assert (X3 : rndp (-1074) 53 0 = 0) by (apply (I 0%Z); lia).
    assert (X4 : rndp (-1074) 53 (IZR (2 ^ 54 - 4) + x) = IZR (3 * (2 ^ 53 - 2) - 2)).
    { unfold x. rewrite <- plus_IZR. apply (rndp_tie (2 ^ 54 - 4 + (2 ^ 53 - 2)) 55 (3 * 2 ^ 51 - 2)); try lia. reflexivity. }
    rewrite A0, !Rplus_0_r, X0, X1, X2. replace (x + - x) with 0 by ring. rewrite X3, A0, !Rplus_0_r, X0. exact X4. }
  assert (M1 : rndp (-1074) 53 (IZR (3 * (2 ^ 53 - 2) - 2) / 3) = third - 1).
  { replace (IZR (3 * (2 ^ 53 - 2) - 2) / 3) with (IZR (2 ^ 53 - 3) + / 3). 2:{ rewrite !minus_IZR, mult_IZR, !minus_IZR. lra. }
    unfold rndp, round, F2R, scaled_mantissa, cexp.
    assert (M : mag radix2 (IZR (2 ^ 53 - 3) + / 3) = 53%Z :> Z).
    { apply mag_unique_pos. change (bpow radix2 (53 - 1)) with (IZR (2 ^ 52)). change (bpow radix2 53) with (IZR (2 ^ 53)).
      assert (IZR (2 ^ 52) <= IZR (2 ^ 53 - 3)) by (apply IZR_le; lia).
      assert (IZR (2 ^ 53 - 3) + 3 = IZR (2 ^ 53)) by (rewrite minus_IZR; lra). lra. }
    rewrite M. change (FLT_exp (-1074) 53 53) with 0%Z. cbn [Defs.Fnum Defs.Fexp bpow Z.opp]. rewrite !Rmult_1_r.
    rewrite (Znearest_imp _ _ (2 ^ 53 - 3)).
    - unfold third. rewrite <- minus_IZR. reflexivity.
    - replace (IZR (2 ^ 53 - 3) + / 3 - IZR (2 ^ 53 - 3)) with (/ 3) by ring. rewrite Rabs_pos_eq; lra. }
  rewrite S1, M1. cbn [l map].
  assert (D1 : rndp (-1074) 53 (third - (third - 1)) = 1) by (replace (third - (third - 1)) with 1 by ring; apply (I 1%Z); lia).
  rewrite D1, Rabs_R1.
  assert (Q1 : square (-1074) 53 1 = 1) by (unfold square; rewrite Rmult_1_r; apply (I 1%Z); lia). rewrite Q1.
  assert (S3 : fst (sum_kahan o (kadd o) [1; 1; 1]) = 3).
  { cbn [sum_kahan kloop fst]. unfold ksub, o. cbn [kadd kopp k0 fp_ops].
    assert (A0 : - (0) = 0) by ring.
    assert (I0 : rndp (-1074) 53 0 = 0) by (apply (I 0%Z); lia).
    assert (I1 : rndp (-1074) 53 1 = 1) by (apply (I 1%Z); lia).
    assert (I2 : rndp (-1074) 53 2 = 2) by (apply (I 2%Z); lia).
    assert (I3 : rndp (-1074) 53 3 = 3) by (apply (I 3%Z); lia).
    rewrite A0, !Rplus_0_r, I1. replace (1 + 1) with 2 by lra. rewrite I2. replace (2 + - (1)) with 1 by lra. rewrite I1.
    replace (1 + - (1)) with 0 by lra. rewrite I0, A0, !Rplus_0_r, I1. replace (2 + 1) with 3 by lra. exact I3. }
  rewrite S3.
  assert (V1 : rndp (-1074) 53 (3 / 2) = 3 / 2).
  { apply round_generic; [apply valid_rnd_N|]. apply generic_format_FLT.
    exists (Float radix2 3 (-1)); cbn; [|lia|lia]. unfold F2R. cbn. lra. }
  rewrite V1. eexists. split; [reflexivity|]. cbn [mo_mean mo_variance mo_meandev mo_skewness mo_kurtosis lift1 is_zero].
  assert (Z1 : 1 <= rndp (-1074) 53 (sqrt (3 / 2))).
  { unfold rndp. apply round_ge_generic; [apply FLT_exp_valid; reflexivity|apply valid_rnd_N| |].
    - apply generic_format_FLT. exists (Float radix2 1 0); cbn; [|lia|lia]. unfold F2R. cbn. lra.
    - rewrite <- sqrt_1 at 1. apply sqrt_le_1; lra. }
  destruct (Req_EM_T (rndp (-1074) 53 (sqrt (3 / 2))) 0) as [H|H]; [lra|].
  split; [reflexivity|]. split; [reflexivity|]. split; [f_equal; replace (3 / 3) with 1 by lra; apply (I 1%Z); lia|].
  split; discriminate.
Qed.
Print Assumptions C113_constant_refuted.

(** Two samples and a masked one, in double precision: mean and variance are 2. *)
Example C113_example : exists mo m v,
  rmoment (-1074) 53 [1; 7; 3] (Some [false; true; false]) = Ok mo /\ mo_mean mo = Some m /\ mo_variance mo = Some v /\
  Rabs (m - 2) <= / 10 ^ 14 /\ Rabs (v - 2) <= / 10 ^ 13.
Proof.
  destruct (C113_moments (-1074) 53 [1; 7; 3] (Some [false; true; false])) as [mo [E [_ [H1 [_ H2]]]]].
  - lia.
  - intros mk [= <-]. reflexivity.
  - cbn. lia.
  - assert (I : forall n, (Z.abs n < 2 ^ 53)%Z -> representable (-1074) 53 (IZR n)).
    { intros n Hn. exists n, 0%Z. split; [cbn [powerRZ]; ring|split; [exact Hn|lia]]. }
    repeat constructor; apply I; lia.
  - cbn [counted unmasked] in *. destruct (H1 ltac:(discriminate)) as [m [d [Em [_ [Hm _]]]]].
    destruct (H2 ltac:(cbn; lia)) as [v [s [Ev [_ [_ [Hv _]]]]]]. exists mo, m, v.
    assert (A2 : avg [1; 3] = 2) by (unfold avg, size, total; cbn; lra).
    assert (V2 : variance [1; 3] = 2) by (unfold variance, deviations; rewrite A2; unfold size, total; cbn; lra).
    rewrite A2 in Hm. rewrite V2 in Hv.
    assert (W : weight [1; 3] = 4) by (unfold weight, total; cbn [map fold_right]; rewrite !Rabs_pos_eq; lra).
    assert (S2 : size [1; 3] = 2) by (unfold size; cbn; lra).
    assert (U : unit_of 53 = / 9007199254740992).
    { unfold unit_of. rewrite pow2. change (- (53))%Z with (-53)%Z. cbn [bpow]. f_equal. }
    assert (T : 0 < tiny_of (-1074) <= / 9007199254740992).
    { split; [apply eta_pos|]. rewrite <- U. unfold tiny_of, unit_of. rewrite !pow2. apply bpow_le. lia. }
    assert (C : 0 <= compensated_rate 53 (length [1; 3]) <= 4 * / 9007199254740992).
    { split; [apply rate_pos; lia|]. unfold compensated_rate, second_order. rewrite U. cbn [length INR]. lra. }
    set (t := tiny_of (-1074)) in *. set (r := compensated_rate 53 (length [1; 3])) in *.
    assert (D : 0 <= mean_bound (-1074) 53 [1; 3] <= 20 * / 9007199254740992).
    { unfold mean_bound. rewrite W, S2, U. fold t r. split; nra. }
    repeat split; auto.
    + eapply Rle_trans; [exact Hm|]. eapply Rle_trans; [apply D|]. lra.
    + eapply Rle_trans; [exact Hv|]. unfold variance_bound. rewrite V2, S2, U. fold t r.
      set (D' := mean_bound (-1074) 53 [1; 3]) in *. cbv zeta.
      assert (D2 : 0 <= 2 / (2 - 1) * D' ^ 2 <= / 9007199254740992) by (split; nra).
      set (x := 2 / (2 - 1) * D' ^ 2) in *.
      assert (G : 0 <= (1 + r) * (1 + / 9007199254740992) ^ 4 - 1 <= 9 * / 9007199254740992) by (split; nra).
      set (g := (1 + r) * (1 + / 9007199254740992) ^ 4 - 1) in *.
      assert ((1 + r) * (1 + / 9007199254740992) * (2 / (2 - 1)) + 1 <= 4) by nra.
      assert (((1 + r) * (1 + / 9007199254740992) * (2 / (2 - 1)) + 1) * t <= 4 * t) by (apply Rmult_le_compat_r; lra).
      assert (g * (2 + x) <= g * 3) by (apply Rmult_le_compat_l; lra). lra.
Qed.
