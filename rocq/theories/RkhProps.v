(** C113: skewness and kurtosis, every operation rounded. *)
From Coq Require Import ZArith Lia Lra Reals List.
From Flocq Require Import Core.
From Verif Require Import Base BaseFacts SparseModel MedianSpec RndModel RndSpec RndProps NumModel NumFacts ClipModel ClipFacts RksSpec RksFacts RksProps RkmModel RkmSpec RkmFacts RkmProps RkhSpec.
Import ListNotations.
Open Scope R_scope.

Lemma pow_diff k a b B : Rabs a <= B -> Rabs b <= B -> Rabs (a ^ k - b ^ k) <= INR k * B ^ (k - 1) * Rabs (a - b).
Proof.
  intros Ha Hb. assert (B0 : 0 <= B) by (pose proof (Rabs_pos a); lra). pose proof (Rabs_pos (a - b)) as D0.
  induction k as [|k IH]; [cbn; rewrite Rminus_diag_eq, Rabs_R0 by reflexivity; lra|].
  replace (a ^ S k - b ^ S k) with (a * (a ^ k - b ^ k) + b ^ k * (a - b)) by (cbn; ring).
  eapply Rle_trans; [apply Rabs_triang|]. rewrite !Rabs_mult.
  assert (X : Rabs (b ^ k) <= B ^ k) by (rewrite <- RPow_abs; apply pow_incr; split; [apply Rabs_pos|exact Hb]).
  assert (P0 : 0 <= B ^ (k - 1)) by (apply pow_le, B0).
  replace (S k - 1)%nat with k by lia. rewrite S_INR.
  assert (Y : Rabs a * Rabs (a ^ k - b ^ k) <= B * (INR k * B ^ (k - 1) * Rabs (a - b))).
  { apply Rmult_le_compat; try apply Rabs_pos; [exact Ha|exact IH]. }
  assert (W : B * (INR k * B ^ (k - 1) * Rabs (a - b)) = INR k * B ^ k * Rabs (a - b)).
  { destruct k; [cbn; ring|]. replace (S k - 1)%nat with k by lia. cbn [pow]. ring. }
  assert (V : Rabs (b ^ k) * Rabs (a - b) <= B ^ k * Rabs (a - b)) by (apply Rmult_le_compat_r; assumption).
  replace ((INR k + 1) * B ^ k * Rabs (a - b)) with (INR k * B ^ k * Rabs (a - b) + B ^ k * Rabs (a - b)) by ring. lra.
Qed.

Lemma ratio_diff p q a b N D : 0 < b - D -> Rabs (p - a) <= N -> Rabs (q - b) <= D ->
  0 < q /\ Rabs (p / q - a / b) <= (N + Rabs (a / b) * D) / (b - D).
Proof.
  intros H Hp Hq. assert (Q : b - D <= q) by (pose proof (Rle_abs (- (q - b))) as X; rewrite Rabs_Ropp in X; lra).
  assert (D0 : 0 <= D) by (pose proof (Rabs_pos (q - b)); lra). split; [lra|].
  replace (p / q - a / b) with (((p - a) + - (a / b) * (q - b)) / q) by (field; lra).
  unfold Rdiv at 1. rewrite Rabs_mult, (Rabs_pos_eq (/ q)) by (apply Rlt_le, Rinv_0_lt_compat; lra).
  unfold Rdiv at 2. apply Rmult_le_compat; [apply Rabs_pos|apply Rlt_le, Rinv_0_lt_compat; lra| |apply Rinv_le_contravar; lra].
  eapply Rle_trans; [apply Rabs_triang|]. rewrite Rabs_mult, Rabs_Ropp.
  assert (Rabs (a / b) * Rabs (q - b) <= Rabs (a / b) * D) by (apply Rmult_le_compat_l; [apply Rabs_pos|exact Hq]). lra.
Qed.

Section Rounded.
Variables emin prec : Z.
Hypothesis Pp : (8 <= prec)%Z.
Let P0 : (0 < prec)%Z. Proof. lia. Qed.
Notation F := (generic_format radix2 (FLT_exp emin prec)).
Notation rn := (rndp emin prec).
Notation o := (fp_ops emin prec).
Notation u := (unit_of prec).
Notation eta := (tiny_of emin).

Lemma rn0 : rn 0 = 0.
Proof. unfold rndp. apply round_0. apply valid_rnd_N. Qed.

Lemma square_err r B : Rabs r <= B -> Rabs (square emin prec r - r ^ 2) <= u * B ^ 2 + eta /\ Rabs (square emin prec r) <= (1 + u) * B ^ 2 + eta.
Proof.
  intros H. pose proof (u_pos prec) as U. pose proof (mul_error emin prec P0 r r) as M. fold (square emin prec r) in M.
  assert (S : Rabs (r * r) <= B ^ 2).
  { rewrite Rabs_mult. replace (B ^ 2) with (B * B) by ring. apply Rmult_le_compat; try apply Rabs_pos; exact H. }
  replace (r ^ 2) with (r * r) by ring. assert (u * Rabs (r * r) <= u * B ^ 2) by (apply Rmult_le_compat_l; lra). split; [lra|].
  replace (square emin prec r) with ((square emin prec r - r * r) + r * r) by ring. eapply Rle_trans; [apply Rabs_triang|]. lra.
Qed.

Lemma cube_err r B : Rabs r <= B -> Rabs (cube emin prec r - r ^ 3) <= ((1 + u) ^ 2 - 1) * B ^ 3 + ((1 + u) * B * eta + eta).
Proof.
  intros H. pose proof (u_pos prec) as U. pose proof (eta_pos emin) as E0. destruct (square_err r B H) as [A1 A2].
  assert (B0 : 0 <= B) by (pose proof (Rabs_pos r); lra).
  pose proof (mul_error emin prec P0 (square emin prec r) r) as M. fold (cube emin prec r) in M.
  assert (S : Rabs (square emin prec r * r) <= ((1 + u) * B ^ 2 + eta) * B).
  { rewrite Rabs_mult. apply Rmult_le_compat; try apply Rabs_pos; assumption. }
  assert (T : Rabs (square emin prec r * r - r ^ 3) <= (u * B ^ 2 + eta) * B).
  { replace (square emin prec r * r - r ^ 3) with ((square emin prec r - r ^ 2) * r) by ring. rewrite Rabs_mult. apply Rmult_le_compat; try apply Rabs_pos; assumption. }
  replace (cube emin prec r - r ^ 3) with ((cube emin prec r - square emin prec r * r) + (square emin prec r * r - r ^ 3)) by ring.
  eapply Rle_trans; [apply Rabs_triang|].
  assert (X : u * Rabs (square emin prec r * r) <= u * (((1 + u) * B ^ 2 + eta) * B)) by (apply Rmult_le_compat_l; lra).
  replace (((1 + u) ^ 2 - 1) * B ^ 3 + ((1 + u) * B * eta + eta)) with (u * (((1 + u) * B ^ 2 + eta) * B) + eta + (u * B ^ 2 + eta) * B) by ring. lra.
Qed.

Lemma fourth_err r B : Rabs r <= B -> Rabs (fourth emin prec r - r ^ 4) <= ((1 + u) ^ 3 - 1) * B ^ 4 + ((1 + u) * (2 * (1 + u) * B ^ 2 * eta + eta ^ 2) + eta).
Proof.
  intros H. pose proof (u_pos prec) as U. pose proof (eta_pos emin) as E0. destruct (square_err r B H) as [A1 A2].
  assert (B0 : 0 <= B) by (pose proof (Rabs_pos r); lra).
  set (q := square emin prec r) in *. pose proof (mul_error emin prec P0 q q) as M. unfold fourth. fold q.
  set (C := (1 + u) * B ^ 2 + eta) in *.
  assert (S : Rabs (q * q) <= C * C) by (rewrite Rabs_mult; apply Rmult_le_compat; try apply Rabs_pos; assumption).
  assert (R2 : Rabs (r ^ 2) <= B ^ 2) by (rewrite <- RPow_abs; apply pow_incr; split; [apply Rabs_pos|exact H]).
  assert (T : Rabs (q * q - r ^ 4) <= (u * B ^ 2 + eta) * (C + B ^ 2)).
  { replace (q * q - r ^ 4) with ((q - r ^ 2) * (q + r ^ 2)) by ring. rewrite Rabs_mult. apply Rmult_le_compat; try apply Rabs_pos; [assumption|].
    eapply Rle_trans; [apply Rabs_triang|]. lra. }
  replace (rn (q * q) - r ^ 4) with ((rn (q * q) - q * q) + (q * q - r ^ 4)) by ring.
  eapply Rle_trans; [apply Rabs_triang|].
  assert (X : u * Rabs (q * q) <= u * (C * C)) by (apply Rmult_le_compat_l; lra).
  replace (((1 + u) ^ 3 - 1) * B ^ 4 + ((1 + u) * (2 * (1 + u) * B ^ 2 * eta + eta ^ 2) + eta)) with (u * (C * C) + eta + (u * B ^ 2 + eta) * (C + B ^ 2)) by (unfold C; ring). lra.
Qed.

Section Power.
Variable P : R -> R.
Variable k : nat.
Hypothesis FP : forall r, F (P r).
Hypothesis HP : forall r B, Rabs r <= B -> Rabs (P r - r ^ k) <= ((1 + u) ^ (k - 1) - 1) * B ^ k + lost emin prec k B.

(** The power of a number known within [d]. *)
Lemma power_near r e B d : Rabs r <= B -> Rabs e <= B -> Rabs (r - e) <= d -> Rabs (P r - e ^ k) <= power_bound emin prec k B d.
Proof.
  intros Hr He Hd. assert (B0 : 0 <= B) by (pose proof (Rabs_pos r); lra).
  replace (P r - e ^ k) with ((P r - r ^ k) + (r ^ k - e ^ k)) by ring. eapply Rle_trans; [apply Rabs_triang|].
  pose proof (HP r B Hr) as A. pose proof (pow_diff k r e B Hr He) as D.
  assert (INR k * B ^ (k - 1) * Rabs (r - e) <= INR k * B ^ (k - 1) * d).
  { apply Rmult_le_compat_l; [apply Rmult_le_pos; [apply pos_INR|apply pow_le, B0]|exact Hd]. }
  unfold power_bound. lra.
Qed.

Variable l : list R.
Hypothesis Fl : Forall F l.
Hypothesis Hn : (Z.of_nat (length l) <= 2 ^ prec)%Z.
Hypothesis Hl : l <> [].
Variable X : R.
Hypothesis HX : Forall (fun x => Rabs (x - avg l) <= X) l.

Lemma X_pos : 0 <= X.
Proof. destruct l as [|a r]; [congruence|]. inversion HX; subst. pose proof (Rabs_pos (a - avg (a :: r))). lra. Qed.

Lemma numerator m : F m -> Rabs (m - avg l) <= mean_bound emin prec l ->
  Rabs (fst (sum_kahan o (kadd o) (map P (map (fun x => rn (x - m)) l))) / size l - deviations (fun r => r ^ k) l / size l) <= numerator_bound emin prec k l X.
Proof.
  intros Fm Hm. pose proof X_pos as X0. pose proof (u_pos prec) as U.
  set (D := mean_bound emin prec l) in *. assert (D0 : 0 <= D) by (pose proof (Rabs_pos (m - avg l)); lra).
  unfold numerator_bound. fold D. set (d := u * (X + D) + D). set (q := power_bound emin prec k (X + d) d).
  assert (d0 : 0 <= d) by (unfold d; assert (0 <= u * (X + D)) by (apply Rmult_le_pos; lra); lra).
  assert (Near : forall x, In x l -> Rabs (P (rn (x - m)) - (x - avg l) ^ k) <= q).
  { intros x Hx. rewrite Forall_forall in HX, Fl. pose proof (HX x Hx) as Bx. pose proof (sub_error emin prec Pp x m (Fl x Hx) Fm) as S.
    assert (A : Rabs (x - m) <= X + D).
    { replace (x - m) with ((x - avg l) + - (m - avg l)) by ring. eapply Rle_trans; [apply Rabs_triang|]. rewrite Rabs_Ropp. lra. }
    assert (Cl : Rabs (rn (x - m) - (x - avg l)) <= d).
    { replace (rn (x - m) - (x - avg l)) with ((rn (x - m) - (x - m)) + - (m - avg l)) by ring. eapply Rle_trans; [apply Rabs_triang|]. rewrite Rabs_Ropp.
      assert (u * Rabs (x - m) <= u * (X + D)) by (apply Rmult_le_compat_l; lra). unfold d. lra. }
    apply power_near; [|lra|exact Cl].
    replace (rn (x - m)) with ((x - avg l) + (rn (x - m) - (x - avg l))) by ring. eapply Rle_trans; [apply Rabs_triang|]. lra. }
  assert (q0 : 0 <= q).
  { destruct l as [|a r]; [congruence|]. pose proof (Near a (or_introl eq_refl)) as H. eapply Rle_trans; [apply Rabs_pos|exact H]. }
  rewrite map_map.
  destruct (kahan_near emin prec Pp 0 q (map (fun x => P (rn (x - m))) l) (map (fun x => (x - avg l) ^ k) l)) as [_ B].
  - lra.
  - exact q0.
  - rewrite map_length. exact Hn.
  - apply Forall_forall. intros y Hy. apply in_map_iff in Hy. destruct Hy as [x [<- _]]. apply FP.
  - apply near_map. intros x Hx. unfold near. rewrite Rmult_0_l, Rplus_0_l. apply Near, Hx.
  - rewrite map_length in B. fold (deviations (fun r => r ^ k) l) in B. fold (size l) in B.
    pose proof (size_pos emin prec l Fl Hn Hl) as N. set (g := compensated_rate prec (length l)) in *.
    assert (G0 : 0 <= g) by apply (rate_pos prec Pp).
    assert (W : weight (map (fun x => (x - avg l) ^ k) l) <= size l * X ^ k).
    { unfold weight. change (size l * X ^ k) with (INR (length l) * X ^ k). rewrite map_map, <- (total_const (X ^ k) l). clear - HX. revert HX. generalize (avg l). intros c HX.
      induction HX as [|x r H HF IH]; [cbn; lra|]. specialize (IH HF). cbn [map]. rewrite !total_cons.
      assert (Rabs ((x - c) ^ k) <= X ^ k) by (rewrite <- RPow_abs; apply pow_incr; split; [apply Rabs_pos|exact H]). lra. }
    set (S := fst (sum_kahan o (kadd o) (map (fun x => P (rn (x - m))) l))) in *. set (M := deviations (fun r => r ^ k) l) in *.
    unfold Rdiv. rewrite <- Rmult_minus_distr_r, Rabs_mult, (Rabs_pos_eq (/ size l)) by (apply Rlt_le, Rinv_0_lt_compat; lra).
    assert (Z : Rabs (S - M) <= size l * (g * X ^ k + (1 + g) * q)).
    { eapply Rle_trans; [exact B|]. rewrite Rplus_0_r, Rmult_1_r. replace (1 + g - 1) with g by ring.
      assert (g * weight (map (fun x => (x - avg l) ^ k) l) <= g * (size l * X ^ k)) by (apply Rmult_le_compat_l; assumption).
      replace (size l * (g * X ^ k + (1 + g) * q)) with (g * (size l * X ^ k) + (1 + g) * (size l * q)) by ring. lra. }
    replace (g * X ^ k + (1 + g) * q) with (size l * (g * X ^ k + (1 + g) * q) * / size l) by (field; lra).
    apply Rmult_le_compat_r; [apply Rlt_le, Rinv_0_lt_compat; lra|exact Z].
Qed.

Lemma denominator s : Rabs (s - sigma l) <= stddev_bound emin prec l ->
  Rabs (rn (size l * P s) / size l - sigma l ^ k) <= denominator_bound emin prec k l.
Proof.
  intros Hs. pose proof (u_pos prec) as U. pose proof (eta_pos emin) as E0. pose proof (size_pos emin prec l Fl Hn Hl) as N.
  assert (S0 : 0 <= sigma l) by apply sqrt_pos. set (Ds := stddev_bound emin prec l) in *.
  assert (D0 : 0 <= Ds) by (pose proof (Rabs_pos (s - sigma l)); lra).
  unfold denominator_bound. fold Ds. set (q := power_bound emin prec k (sigma l + Ds) Ds).
  assert (A : Rabs (P s - sigma l ^ k) <= q).
  { apply power_near; [|rewrite Rabs_pos_eq; lra|exact Hs].
    replace s with (sigma l + (s - sigma l)) by ring. eapply Rle_trans; [apply Rabs_triang|]. rewrite (Rabs_pos_eq (sigma l)) by exact S0. lra. }
  assert (K0 : 0 <= sigma l ^ k) by (apply pow_le, S0).
  assert (B : Rabs (P s) <= sigma l ^ k + q).
  { replace (P s) with (sigma l ^ k + (P s - sigma l ^ k)) by ring. eapply Rle_trans; [apply Rabs_triang|]. rewrite (Rabs_pos_eq (sigma l ^ k)) by exact K0. lra. }
  pose proof (mul_error emin prec P0 (size l) (P s)) as M. rewrite Rabs_mult, (Rabs_pos_eq (size l)) in M by lra.
  set (I := / size l). assert (I0 : 0 < I) by (apply Rinv_0_lt_compat; lra). assert (I1 : I <= 1) by (unfold I; rewrite <- Rinv_1; apply Rinv_le_contravar; lra).
  assert (NI : size l * I = 1) by (unfold I; field; lra).
  replace (rn (size l * P s) / size l - sigma l ^ k) with ((rn (size l * P s) - size l * P s) * I + (P s - sigma l ^ k)) by (unfold I; field; lra).
  eapply Rle_trans; [apply Rabs_triang|]. rewrite Rabs_mult, (Rabs_pos_eq I) by lra.
  assert (C : Rabs (rn (size l * P s) - size l * P s) * I <= u * Rabs (P s) + eta).
  { eapply Rle_trans; [apply Rmult_le_compat_r; [lra|exact M]|].
    replace ((u * (size l * Rabs (P s)) + eta) * I) with (u * Rabs (P s) * (size l * I) + eta * I) by ring. rewrite NI.
    assert (eta * I <= eta * 1) by (apply Rmult_le_compat_l; lra). lra. }
  assert (u * Rabs (P s) <= u * (sigma l ^ k + q)) by (apply Rmult_le_compat_l; lra).
  replace ((1 + u) * q + u * sigma l ^ k + eta) with (u * (sigma l ^ k + q) + eta + q) by ring. lra.
Qed.

Lemma ratio m s : F m -> Rabs (m - avg l) <= mean_bound emin prec l -> Rabs (s - sigma l) <= stddev_bound emin prec l ->
  denominator_bound emin prec k l < sigma l ^ k ->
  0 < rn (size l * P s) /\
  Rabs (rn (fst (sum_kahan o (kadd o) (map P (map (fun x => rn (x - m)) l))) / rn (size l * P s)) - standardized k l) <= ratio_bound emin prec k l X.
Proof.
  intros Fm Hm Hs Hd. pose proof (numerator m Fm Hm) as A. pose proof (denominator s Hs) as B. pose proof (size_pos emin prec l Fl Hn Hl) as N.
  assert (H0 : 0 < sigma l ^ k - denominator_bound emin prec k l) by lra. destruct (ratio_diff _ _ _ _ _ _ H0 A B) as [Q E].
  set (K := fst (sum_kahan o (kadd o) (map P (map (fun x => rn (x - m)) l)))) in *. set (R := rn (size l * P s)) in *.
  assert (R0 : 0 < R).
  { replace R with (R / size l * size l) by (field; lra). apply Rmult_lt_0_compat; [exact Q|lra]. }
  split; [exact R0|]. fold (standardized k l) in E.
  replace (K / size l / (R / size l)) with (K / R) in E by (field; split; lra).
  unfold ratio_bound. set (e := (numerator_bound emin prec k l X + Rabs (standardized k l) * denominator_bound emin prec k l) / (sigma l ^ k - denominator_bound emin prec k l)) in *.
  pose proof (rn_error emin prec Pp (K / R)) as M. pose proof (u_pos prec) as U.
  assert (T : Rabs (K / R) <= Rabs (standardized k l) + e).
  { replace (K / R) with (standardized k l + (K / R - standardized k l)) by ring. eapply Rle_trans; [apply Rabs_triang|]. lra. }
  replace (rn (K / R) - standardized k l) with ((rn (K / R) - K / R) + (K / R - standardized k l)) by ring.
  eapply Rle_trans; [apply Rabs_triang|]. assert (u * Rabs (K / R) <= u * (Rabs (standardized k l) + e)) by (apply Rmult_le_compat_l; lra). lra.
Qed.
End Power.
End Rounded.

(** What the code divides. *)
Lemma rmoment_high emin prec input mask mo m s : (forall mk, mask = Some mk -> length mk = length input) ->
  rmoment emin prec input mask = Ok mo -> mo_mean mo = Some m -> mo_stddev mo = Some s -> s <> 0 ->
  let l := counted input mask in let S t := fst (sum_kahan (fp_ops emin prec) (kadd (fp_ops emin prec)) t) in let rn := rndp emin prec in
  (exists t, m = rn t) /\
  mo_skewness mo = Some (rn (S (map (cube emin prec) (map (fun x => rn (x - m)) l)) / rn (size l * cube emin prec s))) /\
  mo_kurtosis mo = Some (rn (rn (S (map (fourth emin prec) (map (fun x => rn (x - m)) l)) / rn (size l * fourth emin prec s)) - 3)).
Proof.
  intros Hm E Em Es Ns. cbv zeta. set (l := counted input mask). set (o := fp_ops emin prec).
  assert (N : (match mask with Some mk => zlen input - count mk | None => zlen input end)%Z = Z.of_nat (length l)).
  { unfold l, counted. destruct mask as [mk|]; [|reflexivity]. rewrite <- (unmasked_length input mk); [reflexivity|].
    symmetry. apply Hm. reflexivity. }
  assert (SM : forall f : R -> R, fst (match mask with Some mk => sum_kahan_mask o (kadd o) (map f input) mk | None => sum_kahan o (kadd o) (map f input) end)
               = fst (sum_kahan o (kadd o) (map f l))).
  { intros f. unfold l, counted. destruct mask as [mk|]; [|reflexivity].
    rewrite sum_kahan_mask_eq by (rewrite map_length; symmetry; apply Hm; reflexivity). rewrite unmasked_map. reflexivity. }
  unfold rmoment in E. fold o in E.
  replace (match mask with Some mk => if negb (zlen mk =? zlen input)%Z then Err RuntimeError else Ok tt | None => Ok tt end) with (@Ok unit tt) in E.
  2:{ destruct mask as [mk|]; [|reflexivity]. replace (zlen mk) with (zlen input) by (unfold zlen; rewrite (Hm mk); reflexivity).
      rewrite Z.eqb_refl. reflexivity. }
  cbn [bind] in E. rewrite N in E. destruct (Z.eqb_spec (Z.of_nat (length l)) 0) as [E0|E0]; [injection E as <-; discriminate|].
  assert (ZI : IZR (Z.of_nat (length l)) = size l) by (unfold size; rewrite INR_IZR_INZ; reflexivity).
  injection E as <-. cbn [mo_mean mo_stddev mo_skewness mo_kurtosis] in *. injection Em as Em. rewrite Em in *. rewrite Es. rewrite !map_map, !SM, ZI.
  unfold is_zero, lift1. destruct (Req_EM_T s 0) as [Q|Q]; [contradiction|]. split; [|split; reflexivity]. eexists. symmetry. exact Em.
Qed.

(** The skewness and the kurtosis are numbers, within their bounds, as soon as the bound on the
    denominator does not reach it. *)
Lemma high emin prec input mask X k P : (8 <= prec)%Z ->
  (forall mk, mask = Some mk -> length mk = length input) ->
  (Z.of_nat (length (counted input mask)) <= 2 ^ prec)%Z -> Forall (representable emin prec) input ->
  (forall r, generic_format radix2 (FLT_exp emin prec) (P r)) ->
  (forall r B, Rabs r <= B -> Rabs (P r - r ^ k) <= ((1 + unit_of prec) ^ (k - 1) - 1) * B ^ k + lost emin prec k B) -> P 0 = 0 ->
  let l := counted input mask in (2 <= length l)%nat -> Forall (fun x => Rabs (x - avg l) <= X) l ->
  denominator_bound emin prec k l < sigma l ^ k ->
  exists mo m s, rmoment emin prec input mask = Ok mo /\ mo_mean mo = Some m /\ mo_stddev mo = Some s /\ s <> 0 /\
  Rabs (rndp emin prec (fst (sum_kahan (fp_ops emin prec) (kadd (fp_ops emin prec)) (map P (map (fun x => rndp emin prec (x - m)) l))) / rndp emin prec (size l * P s))
        - standardized k l) <= ratio_bound emin prec k l X.
Proof.
  intros Pp Hm Hn Fi FP HP HP0 l L2 HX Hd. assert (P0 : (0 < prec)%Z) by lia.
  assert (Fl : Forall (generic_format radix2 (FLT_exp emin prec)) l).
  { apply formats. unfold l, counted. destruct mask as [mk|]; [apply counted_some, Fi|exact Fi]. }
  assert (Hl : l <> []) by (destruct l; [cbn in L2; lia|discriminate]).
  destruct (C113_moments emin prec input mask Pp Hm Hn Fi) as [mo [E [_ [H1 [_ H2]]]]]. cbv zeta in H1, H2. fold l in H1, H2.
  destruct (H1 Hl) as [m [d [Em [_ [Bm _]]]]]. destruct (H2 L2) as [v [s [_ [Es [_ [_ Bs]]]]]].
  pose proof (size_pos emin prec l Fl Hn Hl) as N.
  assert (Ns : s <> 0).
  { intros ->. pose proof (denominator emin prec Pp P k HP l Fl Hn Hl 0 Bs) as B. rewrite HP0, Rmult_0_r, rn0 in B. unfold Rdiv in B. rewrite Rmult_0_l in B.
    pose proof (Rle_abs (- (0 - sigma l ^ k))) as A. rewrite Rabs_Ropp in A. lra. }
  exists mo, m, s. repeat split; auto.
  destruct (rmoment_high emin prec input mask mo m s Hm E Em Es Ns) as [[t Et] _].
  apply (ratio emin prec Pp P k FP HP l Fl Hn Hl X HX); auto. subst m. apply format_round, P0.
Qed.

Theorem C113_skewness : forall emin prec input mask X, (8 <= prec)%Z ->
  (forall mk, mask = Some mk -> length mk = length input) ->
  (Z.of_nat (length (counted input mask)) <= 2 ^ prec)%Z -> Forall (representable emin prec) input ->
  let l := counted input mask in (2 <= length l)%nat -> Forall (fun x => Rabs (x - avg l) <= X) l ->
  denominator_bound emin prec 3 l < sigma l ^ 3 ->
  exists mo s, rmoment emin prec input mask = Ok mo /\ mo_skewness mo = Some s /\ Rabs (s - skewness_of l) <= ratio_bound emin prec 3 l X.
Proof.
  intros emin prec input mask X Pp Hm Hn Fi l L2 HX Hd. assert (P0 : (0 < prec)%Z) by lia.
  destruct (high emin prec input mask X 3 (cube emin prec) Pp Hm Hn Fi) as [mo [m [s [E [Em [Es [Ns B]]]]]]]; auto.
  - intros r. apply format_round, P0.
  - intros r B H. apply (cube_err emin prec Pp r B H).
  - unfold cube, square. now rewrite !Rmult_0_r, rn0.
  - destruct (rmoment_high emin prec input mask mo m s Hm E Em Es Ns) as [_ [K _]]. exists mo. eexists. split; [exact E|]. split; [exact K|exact B].
Qed.
Print Assumptions C113_skewness.

Theorem C113_kurtosis : forall emin prec input mask X, (8 <= prec)%Z ->
  (forall mk, mask = Some mk -> length mk = length input) ->
  (Z.of_nat (length (counted input mask)) <= 2 ^ prec)%Z -> Forall (representable emin prec) input ->
  let l := counted input mask in (2 <= length l)%nat -> Forall (fun x => Rabs (x - avg l) <= X) l ->
  denominator_bound emin prec 4 l < sigma l ^ 4 ->
  exists mo s, rmoment emin prec input mask = Ok mo /\ mo_kurtosis mo = Some s /\ Rabs (s - kurtosis_of l) <= kurtosis_bound emin prec l X.
Proof.
  intros emin prec input mask X Pp Hm Hn Fi l L2 HX Hd. assert (P0 : (0 < prec)%Z) by lia.
  destruct (high emin prec input mask X 4 (fourth emin prec) Pp Hm Hn Fi) as [mo [m [s [E [Em [Es [Ns B]]]]]]]; auto.
  - intros r. apply format_round, P0.
  - intros r B H. apply (fourth_err emin prec Pp r B H).
  - unfold fourth, square. now rewrite !Rmult_0_r, rn0, Rmult_0_r, rn0.
  - destruct (rmoment_high emin prec input mask mo m s Hm E Em Es Ns) as [_ [_ K]]. exists mo. eexists. split; [exact E|]. split; [exact K|].
    fold l in B, K |- *. cbv zeta.
    match type of B with Rabs (?q - _) <= _ => set (Q := q) in * end.
    unfold kurtosis_bound, kurtosis_of. pose proof (rn_error emin prec Pp (Q - 3)) as M. pose proof (u_pos prec) as U.
    set (t := standardized 4 l) in *. set (e := ratio_bound emin prec 4 l X) in *.
    assert (T : Rabs (Q - 3) <= Rabs (t - 3) + e).
    { replace (Q - 3) with ((t - 3) + (Q - t)) by ring. eapply Rle_trans; [apply Rabs_triang|]. lra. }
    replace (rndp emin prec (Q - 3) - (t - 3)) with ((rndp emin prec (Q - 3) - (Q - 3)) + (Q - t)) by ring.
    eapply Rle_trans; [apply Rabs_triang|]. assert (unit_of prec * Rabs (Q - 3) <= unit_of prec * (Rabs (t - 3) + e)) by (apply Rmult_le_compat_l; lra). lra.
Qed.
Print Assumptions C113_kurtosis.

(** Four samples of standard deviation 2. *)
Example C113_high_example : let l := [1; 1; 1; -3] in
  skewness_of l = - 3 / 4 /\ kurtosis_of l = - 27 / 16 /\
  exists mo s k, rmoment (-1074) 53 l None = Ok mo /\ mo_skewness mo = Some s /\ mo_kurtosis mo = Some k /\
  Rabs (s - - 3 / 4) <= / 10 ^ 6 /\ Rabs (k - - 27 / 16) <= / 10 ^ 5.
Proof.
  intros l. assert (A0 : avg l = 0) by (unfold avg, size, total, l; cbn; lra).
  assert (V : variance l = 4) by (unfold variance, deviations; rewrite A0; unfold size, total, l; cbn; lra).
  assert (G2 : sigma l = 2).
  { unfold sigma. rewrite V. replace 4 with (2 * 2) by ring. apply sqrt_square. lra. }
  assert (S4 : size l = 4) by (unfold size, l; cbn; lra).
  assert (T3 : standardized 3 l = - 3 / 4) by (unfold standardized, deviations; rewrite A0, G2, S4; unfold total, l; cbn; lra).
  assert (T4 : standardized 4 l = 21 / 16) by (unfold standardized, deviations; rewrite A0, G2, S4; unfold total, l; cbn; lra).
  assert (K4 : kurtosis_of l = - 27 / 16) by (unfold kurtosis_of; rewrite T4; lra).
  split; [exact T3|]. split; [exact K4|].
  assert (W : weight l = 6).
  { unfold weight, total, l. cbn [map fold_right]. rewrite (Rabs_left (-3)), (Rabs_pos_eq 1) by lra. lra. }
  assert (U : unit_of 53 = / 9007199254740992).
  { unfold unit_of. rewrite pow2. change (- (53))%Z with (-53)%Z. cbn [bpow]. f_equal. }
  assert (T : 0 < tiny_of (-1074) <= / 9007199254740992).
  { split; [apply eta_pos|]. rewrite <- U. unfold tiny_of, unit_of. rewrite !pow2. apply bpow_le. lia. }
  assert (C : 0 <= compensated_rate 53 (length l) <= 4 * / 9007199254740992).
  { split; [apply rate_pos; lia|]. unfold compensated_rate, second_order. rewrite U. unfold l. cbn [length INR]. lra. }
  set (t := tiny_of (-1074)) in *. set (r := compensated_rate 53 (length l)) in *. set (w := / 9007199254740992) in *.
  assert (w0 : 0 < w <= / 10 ^ 15) by (unfold w; lra).
  assert (D : 0 <= mean_bound (-1074) 53 l <= 10 * w).
  { unfold mean_bound. rewrite W, S4, U. fold t r. split; nra. }
  set (D' := mean_bound (-1074) 53 l) in *.
  assert (VB : 0 <= variance_bound (-1074) 53 l <= / 10 ^ 13).
  { unfold variance_bound. rewrite V, S4, U. fold t r D'. cbv zeta.
    assert (D2 : 0 <= 4 / (4 - 1) * D' ^ 2 <= w) by (split; nra). set (x := 4 / (4 - 1) * D' ^ 2) in *.
    assert (W2 : 1 <= (1 + w) ^ 2 <= 1 + 2.1 * w) by (split; nra).
    assert (W4 : 1 <= (1 + w) ^ 4 <= 1 + 4.5 * w) by (replace ((1 + w) ^ 4) with ((1 + w) ^ 2 * (1 + w) ^ 2) by ring; set (y := (1 + w) ^ 2) in *; split; nra).
    assert (G : 0 <= (1 + r) * (1 + w) ^ 4 - 1 <= 9 * w) by (set (y := (1 + w) ^ 4) in *; split; nra). set (g := (1 + r) * (1 + w) ^ 4 - 1) in *.
    assert (0 <= (1 + r) * (1 + w) * (4 / (4 - 1)) + 1 <= 4) by (split; nra).
    assert (0 <= ((1 + r) * (1 + w) * (4 / (4 - 1)) + 1) * t <= 4 * t) by (split; [apply Rmult_le_pos; lra|apply Rmult_le_compat_r; lra]).
    assert (0 <= g * (4 + x) <= g * 5) by (split; [apply Rmult_le_pos; lra|apply Rmult_le_compat_l; lra]). split; lra. }
  assert (SB : 0 <= stddev_bound (-1074) 53 l <= 4 * / 10 ^ 7).
  { unfold stddev_bound. rewrite G2, U. fold t.
    assert (Q : 0 <= sqrt (variance_bound (-1074) 53 l) <= 3.2 * / 10 ^ 7).
    { split; [apply sqrt_pos|]. rewrite <- (sqrt_square (3.2 * / 10 ^ 7)) by lra. apply sqrt_le_1; lra. }
    set (q := sqrt (variance_bound (-1074) 53 l)) in *. assert (0 <= (1 + w) * q <= 1.1 * q) by (split; [apply Rmult_le_pos; lra|apply Rmult_le_compat_r; lra]). split; lra. }
  set (Ds := stddev_bound (-1074) 53 l) in *.
  set (d := w * (3 + D') + D'). assert (Hd : 0 <= d <= 20 * w) by (unfold d; split; nra).
  assert (P3 : forall B, 0 <= B <= 4 -> 0 <= lost (-1074) 53 3 B <= 10 * w).
  { intros B HB. unfold lost. rewrite U. fold t. assert (0 <= (1 + w) * B <= 5) by (split; nra).
    assert (0 <= (1 + w) * B * t <= 5 * t) by (split; [apply Rmult_le_pos; lra|apply Rmult_le_compat_r; lra]). split; lra. }
  assert (P4 : forall B, 0 <= B <= 4 -> 0 <= lost (-1074) 53 4 B <= 100 * w).
  { intros B HB. unfold lost. rewrite U. fold t. assert (B2 : 0 <= B ^ 2 <= 16) by (split; nra).
    assert (0 <= 2 * (1 + w) * B ^ 2 <= 40) by (split; nra).
    assert (0 <= 2 * (1 + w) * B ^ 2 * t <= 40 * t) by (split; [apply Rmult_le_pos; lra|apply Rmult_le_compat_r; lra]).
    assert (0 <= t ^ 2 <= t) by (split; nra).
    assert (0 <= (1 + w) * (2 * (1 + w) * B ^ 2 * t + t ^ 2) <= 2 * (2 * (1 + w) * B ^ 2 * t + t ^ 2)) by (split; [apply Rmult_le_pos; lra|apply Rmult_le_compat_r; lra]). split; lra. }
  assert (PB3 : forall B e, 0 <= B <= 4 -> 0 <= e -> 0 <= power_bound (-1074) 53 3 B e <= 3 * B ^ 2 * e + 300 * w).
  { intros B e HB He. unfold power_bound. rewrite U. pose proof (P3 B HB) as L. cbn [Nat.sub]. replace (INR 3) with 3 by (cbn; lra).
    assert (B3 : 0 <= B ^ 3 <= 64) by (split; [apply pow_le; lra|replace 64 with (4 ^ 3) by ring; apply pow_incr; lra]).
    assert (U2 : 0 <= (1 + w) ^ 2 - 1 <= 3 * w) by (split; nra).
    assert (0 <= ((1 + w) ^ 2 - 1) * B ^ 3 <= (3 * w) * 64) by (split; [apply Rmult_le_pos; lra|apply Rmult_le_compat; lra]).
    assert (0 <= 3 * B ^ 2 * e) by (apply Rmult_le_pos; [nra|exact He]). split; lra. }
  assert (PB4 : forall B e, 0 <= B <= 4 -> 0 <= e -> 0 <= power_bound (-1074) 53 4 B e <= 4 * B ^ 3 * e + 2000 * w).
  { intros B e HB He. unfold power_bound. rewrite U. pose proof (P4 B HB) as L. cbn [Nat.sub]. replace (INR 4) with 4 by (cbn; lra).
    assert (B4 : 0 <= B ^ 4 <= 256) by (split; [apply pow_le; lra|replace 256 with (4 ^ 4) by ring; apply pow_incr; lra]).
    assert (U2 : 0 <= (1 + w) ^ 3 - 1 <= 4 * w) by (split; nra).
    assert (0 <= ((1 + w) ^ 3 - 1) * B ^ 4 <= (4 * w) * 256) by (split; [apply Rmult_le_pos; lra|apply Rmult_le_compat; lra]).
    assert (0 <= B ^ 3) by (apply pow_le; lra).
    assert (0 <= 4 * B ^ 3 * e) by (apply Rmult_le_pos; lra). split; lra. }
  assert (DB3 : 0 <= denominator_bound (-1074) 53 3 l <= 6 * / 10 ^ 6).
  { unfold denominator_bound. rewrite G2, U. fold t Ds. pose proof (PB3 (2 + Ds) Ds ltac:(lra) ltac:(lra)) as Q.
    assert (B2 : 0 <= (2 + Ds) ^ 2 <= 4.1) by (split; nra). assert (0 <= 3 * (2 + Ds) ^ 2 * Ds <= 12.3 * Ds) by (split; [apply Rmult_le_pos; lra|apply Rmult_le_compat_r; lra]).
    set (q := power_bound (-1074) 53 3 (2 + Ds) Ds) in *. assert (0 <= (1 + w) * q <= 1.1 * q) by (split; [apply Rmult_le_pos; lra|apply Rmult_le_compat_r; lra]).
    split; lra. }
  assert (DB4 : 0 <= denominator_bound (-1074) 53 4 l <= 20 * / 10 ^ 6).
  { unfold denominator_bound. rewrite G2, U. fold t Ds. pose proof (PB4 (2 + Ds) Ds ltac:(lra) ltac:(lra)) as Q.
    assert (B2 : 0 <= (2 + Ds) ^ 3 <= 8.1) by (split; [apply pow_le; lra|]; assert ((2 + Ds) ^ 3 <= 2.001 ^ 3) by (apply pow_incr; lra); lra).
    assert (0 <= 4 * (2 + Ds) ^ 3 * Ds <= 32.4 * Ds) by (split; [apply Rmult_le_pos; lra|apply Rmult_le_compat_r; lra]).
    set (q := power_bound (-1074) 53 4 (2 + Ds) Ds) in *. assert (0 <= (1 + w) * q <= 1.1 * q) by (split; [apply Rmult_le_pos; lra|apply Rmult_le_compat_r; lra]).
    split; lra. }
  assert (NB3 : 0 <= numerator_bound (-1074) 53 3 l 3 <= / 10 ^ 10).
  { unfold numerator_bound. rewrite U. fold r D'. cbv zeta. fold d. pose proof (PB3 (3 + d) d ltac:(lra) ltac:(lra)) as Q.
    assert (B2 : 0 <= 3 * (3 + d) ^ 2 <= 48) by (split; nra). assert (0 <= 3 * (3 + d) ^ 2 * d <= 48 * d) by (split; [apply Rmult_le_pos; lra|apply Rmult_le_compat_r; lra]).
    set (q := power_bound (-1074) 53 3 (3 + d) d) in *. assert (0 <= (1 + r) * q <= 2 * q) by (split; [apply Rmult_le_pos; lra|apply Rmult_le_compat_r; lra]). split; lra. }
  assert (NB4 : 0 <= numerator_bound (-1074) 53 4 l 3 <= / 10 ^ 10).
  { unfold numerator_bound. rewrite U. fold r D'. cbv zeta. fold d. pose proof (PB4 (3 + d) d ltac:(lra) ltac:(lra)) as Q.
    assert (B2 : 0 <= (3 + d) ^ 3 <= 64) by (split; [apply pow_le; lra|replace 64 with (4 ^ 3) by ring; apply pow_incr; lra]).
    assert (0 <= 4 * (3 + d) ^ 3 * d <= 256 * d) by (split; [apply Rmult_le_pos; lra|apply Rmult_le_compat_r; lra]).
    set (q := power_bound (-1074) 53 4 (3 + d) d) in *. assert (0 <= (1 + r) * q <= 2 * q) by (split; [apply Rmult_le_pos; lra|apply Rmult_le_compat_r; lra]). split; lra. }
  assert (RB3 : ratio_bound (-1074) 53 3 l 3 <= / 10 ^ 6).
  { unfold ratio_bound. rewrite T3, G2, U. fold t. cbv zeta. rewrite (Rabs_left (- 3 / 4)) by lra.
    set (a := numerator_bound (-1074) 53 3 l 3) in *. set (b := denominator_bound (-1074) 53 3 l) in *.
    assert (Q : (a + - (- 3 / 4) * b) / (2 ^ 3 - b) <= (5 * / 10 ^ 6) * / 7).
    { unfold Rdiv at 1. apply Rmult_le_compat; [lra|apply Rlt_le, Rinv_0_lt_compat; lra|lra|apply Rinv_le_contravar; lra]. }
    assert (Q0 : 0 <= (a + - (- 3 / 4) * b) / (2 ^ 3 - b)) by (apply Rmult_le_pos; [lra|apply Rlt_le, Rinv_0_lt_compat; lra]).
    set (q := (a + - (- 3 / 4) * b) / (2 ^ 3 - b)) in *. assert ((1 + w) * q <= 1.1 * q) by (apply Rmult_le_compat_r; lra). lra. }
  assert (RB4 : 0 <= ratio_bound (-1074) 53 4 l 3 <= 3 * / 10 ^ 6).
  { unfold ratio_bound. rewrite T4, G2, U. fold t. cbv zeta. rewrite (Rabs_pos_eq (21 / 16)) by lra.
    set (a := numerator_bound (-1074) 53 4 l 3) in *. set (b := denominator_bound (-1074) 53 4 l) in *.
    assert (Q : (a + 21 / 16 * b) / (2 ^ 4 - b) <= (27 * / 10 ^ 6) * / 15).
    { unfold Rdiv at 1. apply Rmult_le_compat; [lra|apply Rlt_le, Rinv_0_lt_compat; lra|lra|apply Rinv_le_contravar; lra]. }
    assert (Q0 : 0 <= (a + 21 / 16 * b) / (2 ^ 4 - b)) by (apply Rmult_le_pos; [lra|apply Rlt_le, Rinv_0_lt_compat; lra]).
    set (q := (a + 21 / 16 * b) / (2 ^ 4 - b)) in *. assert (0 <= (1 + w) * q <= 1.1 * q) by (split; [apply Rmult_le_pos; lra|apply Rmult_le_compat_r; lra]). split; lra. }
  assert (HX : Forall (fun x => Rabs (x - avg l) <= 3) l).
  { rewrite A0. unfold l. apply Forall_forall. intros x [<-|[<-|[<-|[<-|[]]]]]; apply Rabs_le; lra. }
  assert (I : forall n, (Z.abs n < 2 ^ 53)%Z -> representable (-1074) 53 (IZR n)).
  { intros n Hn. exists n, 0%Z. split; [cbn [powerRZ]; ring|split; [exact Hn|lia]]. }
  assert (FR : Forall (representable (-1074) 53) l) by (unfold l; apply Forall_forall; intros x [<-|[<-|[<-|[<-|[]]]]]; apply I; lia).
  destruct (C113_skewness (-1074) 53 l None 3) as [mo [s [E [Es Hs]]]];
    [lia|discriminate|cbn; lia|exact FR|cbn; lia|exact HX|cbn [counted]; rewrite G2; lra|].
  destruct (C113_kurtosis (-1074) 53 l None 3) as [mo' [k [E' [Ek Hk]]]];
    [lia|discriminate|cbn; lia|exact FR|cbn; lia|exact HX|cbn [counted]; rewrite G2; lra|].
  rewrite E in E'. injection E' as <-. cbn [counted] in Hs, Hk. exists mo, s, k. repeat split; auto.
  - unfold skewness_of in Hs. rewrite T3 in Hs. lra.
  - unfold kurtosis_bound in Hk. rewrite K4, U in Hk. fold t in Hk. rewrite (Rabs_left (- 27 / 16)) in Hk by lra.
    set (q := ratio_bound (-1074) 53 4 l 3) in *. assert ((1 + w) * q <= 1.1 * q) by (apply Rmult_le_compat_r; lra). lra.
Qed.
