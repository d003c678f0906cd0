(** C152: the 1/f spectrum with rounded operations. *)
From Coq Require Import ZArith Reals Lra Lia List.
From Flocq Require Import Core.
From Verif Require Import Base RndModel RndSpec RndProps BirFacts RgnFacts RmdModel RmdProps RbaFacts RprProps RdsProps RgaProps RofModel.
Import ListNotations.
Open Scope R_scope.

(** The documented distribution, with the level of the code: white noise and a power law in the knee frequency over the frequency. *)
Definition spectrum_1f (n : Z) (fs sigma fknee fslope : R) (m : Z) : R :=
  sigma * sigma / fs * (1 + (if (m =? 0)%Z then 0 else Rpower (fknee / Rabs (IZR m * fs / IZR n)) fslope)).

Lemma ln_near e x y : 0 < y -> 0 <= e <= / 2 -> Rabs (x - y) <= e * y -> 0 < x /\ Rabs (ln x - ln y) <= e / (1 - e).
Proof.
  intros Y E H. apply Rabs_le_inv in H. assert (ey : e * y <= / 2 * y) by (apply Rmult_le_compat_r; lra). assert (x0 : 0 < x) by lra. split; [exact x0|].
  assert (L : forall z, 0 < z -> ln z <= z - 1). { intros z Z. rewrite <- (ln_exp (z - 1)). destruct (Rle_lt_or_eq_dec z (exp (z - 1))) as [Q|Q]; [|left; apply ln_increasing; assumption|rewrite <- Q; lra].
    destruct (Req_dec (z - 1) 0) as [O|O]; [rewrite O, exp_0; lra|]. pose proof (exp_ineq1 (z - 1) O). lra. }
  assert (iy : 0 < / y) by (apply Rinv_0_lt_compat; exact Y). assert (ix : 0 < / x) by (apply Rinv_0_lt_compat; exact x0). pose proof (L (x / y) ltac:(apply Rmult_lt_0_compat; assumption)) as A. pose proof (L (y / x) ltac:(apply Rmult_lt_0_compat; assumption)) as B.
  unfold Rdiv in A, B. rewrite ln_mult, ln_Rinv in A, B by assumption. assert (e1 : 0 < / (1 - e)) by (apply Rinv_0_lt_compat; lra). assert (ee : e <= e / (1 - e)). { unfold Rdiv. rewrite <- (Rmult_1_r e) at 1. apply Rmult_le_compat_l; [lra|]. rewrite <- Rinv_1 at 1. apply Rinv_le_contravar; lra. }
  assert (A1 : x * / y - 1 <= e). { apply (Rmult_le_reg_r y); [exact Y|]. replace ((x * / y - 1) * y) with (x - y) by (field; lra). lra. }
  assert (B1 : y * / x - 1 <= e / (1 - e)). { apply (Rmult_le_reg_r x); [exact x0|]. replace ((y * / x - 1) * x) with (y - x) by (field; lra). apply Rle_trans with (e * y); [lra|]. apply Rle_trans with (e / (1 - e) * ((1 - e) * y)); [right; field; lra|]. apply Rmult_le_compat_l; lra. }
  apply Rabs_le. lra.
Qed.
Section T.
Variables (emin prec : Z).
Notation rn := (rndp emin prec).
Notation u := (unit_of prec).
Notation eta := (tiny_of emin).
Hypothesis Pp : (24 <= prec)%Z.
Hypothesis Pe : (emin <= 1 - 4 * prec)%Z.
Let Pe2 : (emin <= 1 - 2 * prec)%Z. Proof. lia. Qed.
Let P0 : (0 < prec)%Z := RmdProps.Q0 prec Pp.
Let U0 : 0 < u := V0 prec.
Let U2 : u <= / 16777216 := RmdProps.V2 prec Pp.
Notation rel := (rel prec).
(** The same with larger relative errors. *)
Lemma wide_rn e x y : 0 < y -> 0 <= e <= / 32 -> Rabs (x - y) <= e * y -> 2 * eta <= u * y -> Rabs (rn x - y) <= (e + 1.6 * u) * y.
Proof.
  intros Y E H T. pose proof (rn_err emin prec P0 x) as R. pose proof H as H'. apply Rabs_le_inv in H'. assert (e * y <= / 32 * y) by (apply Rmult_le_compat_r; lra). rewrite (Rabs_pos_eq x) in R by lra. assert (u * x <= u * (33 / 32 * y)) by (apply Rmult_le_compat_l; lra). assert (0 <= u * y) by (apply Rmult_le_pos; lra). pose proof (tri (rn x) x y). lra.
Qed.
Variables (libpow : R -> R -> R) (r : R).
Hypothesis Lp : forall x a, 0 < x -> Rabs (libpow x a - Rpower x a) <= 2 * u * Rpower x a + eta.
Hypothesis Lz : forall a, 0 < a -> libpow 0 a = 0.
Hypothesis R0 : 0 < r <= 1.
Hypothesis Re : 64 * eta <= u * (r * r * r).
Lemma small_3 y : r * r * r <= y -> 2 * eta <= u * y.
Proof. intros H. assert (u * (r * r * r) <= u * y) by (apply Rmult_le_compat_l; lra). assert (0 <= u * (r * r * r)) by (apply Rmult_le_pos; [lra|]; apply Rmult_le_pos; [apply sq_pos|lra]). lra. Qed.
Let rr : 0 < r * r <= r. Proof. split; [apply Rmult_lt_0_compat; lra|]. assert (r * r <= 1 * r) by (apply Rmult_le_compat_r; lra). lra. Qed.
Let rrr : 0 < r * r * r <= r * r. Proof. split; [apply Rmult_lt_0_compat; lra|]. assert (r * r * r <= r * r * 1) by (apply Rmult_le_compat_l; lra). lra. Qed.
Let ir : 0 < / r. Proof. apply Rinv_0_lt_compat; lra. Qed.
Lemma over a b : r <= a -> 0 < b <= / r -> r * r <= a / b.
Proof. intros A B. unfold Rdiv. apply Rmult_le_compat; [lra|lra|exact A|]. replace r with (/ / r) by (field; lra). apply Rinv_le_contravar; lra. Qed.
Lemma inv_low b : 0 < b <= / r -> r <= 1 / b.
Proof. intros B. unfold Rdiv. rewrite Rmult_1_l. replace r with (/ / r) by (field; lra). apply Rinv_le_contravar; lra. Qed.
(** The ratio of the frequencies for a positive index. *)
Lemma ratio_near n fs fknee m : (0 < m <= n)%Z -> (n <= 2 ^ prec)%Z -> IZR n <= / r -> r <= fs <= / r -> r <= fknee <= / r ->
  rel 10.2 (rn (fknee / fftfreq_r emin prec n (rn (1 / fs)) m)) (fknee / (IZR m * fs / IZR n)).
Proof.
  intros Hm Hn Nr F K. assert (m1 : 1 <= IZR m) by (apply IZR_le; lia). assert (mn : IZR m <= IZR n) by (apply IZR_le; lia).
  assert (In : rn (IZR n) = IZR n) by (apply (int_exact emin prec Pp Pe2), (idx_small prec Pp); lia). assert (Im : rn (IZR m) = IZR m) by (apply (int_exact emin prec Pp Pe2), (idx_small prec Pp); lia).
  unfold fftfreq_r. cbv zeta. rewrite In, Im. set (N := IZR n) in Nr, mn |- *. set (k := IZR m) in m1, mn |- *. assert (A : rel 0 (1 / fs) (1 / fs)) by (split; [apply Rdiv_lt_0_compat; lra|]; rewrite Rminus_eq_0, Rabs_R0; lra).
  pose proof (inv_low fs ltac:(lra)) as f1. apply (rel_rn emin prec Pp) in A; [|lra|apply small_3; lra]. apply (rel_mul prec _ _ _ N) in A; [|lra]. rewrite !(Rmult_comm _ N) in A.
  assert (n1 : r <= N * (1 / fs)) by (assert (1 * (1 / fs) <= N * (1 / fs)) by (apply Rmult_le_compat_r; lra); lra). apply (rel_rn emin prec Pp) in A; [|lra|apply small_3; lra]. apply (rel_inv prec Pp _ _ _ 1) in A; [|lra|lra].
  assert (v : 1 / (N * (1 / fs)) = fs / N) by (field; lra). rewrite v in A. pose proof (over fs N ltac:(lra) ltac:(lra)) as v1. apply (rel_rn emin prec Pp) in A; [|lra|apply small_3; lra]. apply (rel_mul prec _ _ _ k) in A; [|lra]. rewrite !(Rmult_comm _ k) in A.
  assert (k1 : r * r <= k * (fs / N)) by (assert (1 * (fs / N) <= k * (fs / N)) by (apply Rmult_le_compat_r; lra); lra). apply (rel_rn emin prec Pp) in A; [|lra|apply small_3; lra]. apply (rel_inv prec Pp _ _ _ fknee) in A; [|lra|lra].
  replace (k * (fs / N)) with (k * fs / N) in A, k1 by (unfold Rdiv; ring). assert (kf : k * fs / N <= / r). { apply Rle_trans with fs; [|lra]. apply (Rmult_le_reg_r N); [lra|]. replace (k * fs / N * N) with (k * fs) by (field; lra). rewrite (Rmult_comm fs). apply Rmult_le_compat_r; lra. }
  pose proof (over fknee (k * fs / N) ltac:(lra) ltac:(lra)) as q1. apply (rel_rn emin prec Pp) in A; [|lra|apply small_3; lra]. destruct A as [q0 A]. split; [exact q0|]. eapply Rle_trans; [exact A|]. apply Rmult_le_compat_r; [lra|]. apply Rmult_le_compat_r; lra.
Qed.
Lemma power_near x q a : rel 10.2 x q -> Rabs a * u <= / 1024 -> Rabs (libpow x a - Rpower q a) <= (12.6 * Rabs a + 2.1) * u * Rpower q a + eta.
Proof.
  intros [Q H] A. pose proof (Rabs_pos a) as a0. destruct (ln_near (10.2 * u) x q Q ltac:(lra) H) as [x0 L]. assert (E : 10.2 * u / (1 - 10.2 * u) <= 10.3 * u). { apply (Rmult_le_reg_r (1 - 10.2 * u)); [lra|]. replace (10.2 * u / (1 - 10.2 * u) * (1 - 10.2 * u)) with (10.2 * u) by (field; lra). assert (u * u <= / 16777216 * u) by (apply Rmult_le_compat_r; lra). lra. }
  assert (D : Rabs (a * (ln x - ln q)) <= 10.3 * (Rabs a * u)). { rewrite Rabs_mult. apply Rle_trans with (Rabs a * (10.3 * u)); [apply Rmult_le_compat_l; lra|right; ring]. }
  pose proof (exp_near _ ltac:(eapply Rle_trans; [exact D|]; lra)) as X. set (P := Rpower q a). assert (p0 : 0 < P) by apply exp_pos. assert (F : Rpower x a = P * exp (a * (ln x - ln q))) by (unfold P, Rpower; rewrite <- exp_plus; f_equal; ring).
  set (f := exp (a * (ln x - ln q))) in *. pose proof (Lp x a x0) as B. assert (au : 0 <= Rabs a * u) by (apply Rmult_le_pos; lra).
  assert (G : Rabs (Rpower x a - P) <= 12.37 * (Rabs a * u) * P). { rewrite F. replace (P * f - P) with (P * (f - 1)) by ring. rewrite Rabs_mult, (Rabs_pos_eq P), Rmult_comm by lra. apply Rmult_le_compat_r; lra. }
  assert (S : Rpower x a <= 1.02 * P). { apply Rabs_le_inv in G. assert (12.37 * (Rabs a * u) * P <= 0.02 * P) by (apply Rmult_le_compat_r; lra). lra. }
  assert (2 * u * Rpower x a <= 2 * u * (1.02 * P)) by (apply Rmult_le_compat_l; lra). pose proof (tri (libpow x a) (Rpower x a) P). assert (0 <= u * P) by (apply Rmult_le_pos; lra). assert (0 <= Rabs a * u * P) by (apply Rmult_le_pos; lra). lra.
Qed.
Lemma level_near sigma fs a p P : r <= sigma <= / r -> r <= fs <= / r -> Rabs a * u <= / 1024 -> 0 <= P -> Rabs (p - P) <= (12.6 * Rabs a + 2.1) * u * P + eta ->
  Rabs (rn (rn (rn (sigma * sigma) * rn (1 + p)) / fs) - sigma * sigma / fs * (1 + P)) <= (12.7 * Rabs a + 10) * u * (sigma * sigma / fs * (1 + P)).
Proof.
  intros S F A P1 H. pose proof (Rabs_pos a) as a0. assert (au : 0 <= Rabs a * u) by (apply Rmult_le_pos; lra). assert (sg : r * r <= sigma * sigma) by (apply Rmult_le_compat; lra). pose proof (eta4 emin prec Pe) as E4. pose proof (eta_small emin prec Pp Pe) as Es. pose proof (uu_le prec Pp) as UU.
  assert (e1 : eta <= u / 100). { assert (/ 16777216 * u * u <= / 16777216 * (/ 16777216 * u)) by (rewrite Rmult_assoc; apply Rmult_le_compat_l; lra). lra. } set (y := 1 + P). assert (y1 : 1 <= y) by (unfold y; lra). assert (uP : 0 <= u * P) by (apply Rmult_le_pos; lra). assert (aP : 0 <= Rabs a * u * P) by (apply Rmult_le_pos; lra).
  assert (B : Rabs (1 + p - y) <= (12.6 * (Rabs a * u) + 2.1 * u) * y). { unfold y. replace (1 + p - (1 + P)) with (p - P) by ring. eapply Rle_trans; [exact H|]. lra. }
  apply wide_rn in B; [|lra|lra|apply small_3; lra]. set (h := rn (1 + p)) in *. assert (R2 : rel 0 (sigma * sigma) (sigma * sigma)) by (split; [lra|]; rewrite Rminus_eq_0, Rabs_R0; lra). apply (rel_rn emin prec Pp) in R2; [|lra|apply small_3; lra].
  destruct (rel_bounds prec Pp (0 + 2) _ _ ltac:(lra) R2) as [t0 t1]. destruct R2 as [_ T]. set (t := rn (sigma * sigma)) in *. set (s := sigma * sigma) in *. assert (sy : 0 < s * y) by (apply Rmult_lt_0_compat; lra).
  assert (M : Rabs (t * h - s * y) <= (12.65 * (Rabs a * u) + 5.8 * u) * (s * y)).
  { replace (t * h - s * y) with (t * (h - y) + y * (t - s)) by ring. eapply Rle_trans; [apply Rabs_triang|]. rewrite !Rabs_mult, (Rabs_pos_eq t), (Rabs_pos_eq y) by lra.
    assert (t * Rabs (h - y) <= 1.001 * s * ((12.6 * (Rabs a * u) + 2.1 * u + 1.6 * u) * y)) by (apply Rmult_le_compat; [lra|apply Rabs_pos|exact t1|exact B]). assert (y * Rabs (t - s) <= y * ((0 + 2) * u * s)) by (apply Rmult_le_compat_l; lra). assert (0 <= u * (s * y)) by (apply Rmult_le_pos; lra). assert (0 <= Rabs a * u * (s * y)) by (apply Rmult_le_pos; lra). lra. }
  assert (s1 : r * r <= s * y) by (assert (s * 1 <= s * y) by (apply Rmult_le_compat_l; lra); lra). apply wide_rn in M; [|lra|lra|apply small_3; lra]. set (w := rn (t * h)) in *.
  assert (iF : 0 < / fs) by (apply Rinv_0_lt_compat; lra). assert (D : Rabs (w / fs - s / fs * y) <= (12.65 * (Rabs a * u) + 5.8 * u + 1.6 * u) * (s / fs * y)).
  { replace (w / fs - s / fs * y) with ((w - s * y) * / fs) by (unfold Rdiv; ring). rewrite Rabs_mult, (Rabs_pos_eq (/ fs)) by lra. replace (s / fs * y) with (s * y * / fs) by (unfold Rdiv; ring). rewrite <- Rmult_assoc. apply Rmult_le_compat_r; lra. }
  assert (z1 : r * r * r <= s / fs * y). { replace (s / fs * y) with (s * y * (1 / fs)) by (unfold Rdiv; ring). apply Rmult_le_compat; [lra|lra|exact s1|apply inv_low; lra]. }
  apply wide_rn in D; [|lra|lra|apply small_3; exact z1]. eapply Rle_trans; [exact D|]. apply Rmult_le_compat_r; lra.
Qed.
Lemma fftfreq_opp n d m : fftfreq_r emin prec n d (- m) = - fftfreq_r emin prec n d m.
Proof. unfold fftfreq_r. cbv zeta. rewrite opp_IZR. assert (O : forall x, rn (- x) = - rn x) by (intros x; apply round_NE_opp). rewrite O, Ropp_mult_distr_l_reverse. apply O. Qed.
Lemma ratio_opp n d f m : Rabs (rn (f / fftfreq_r emin prec n d (- m))) = Rabs (rn (f / fftfreq_r emin prec n d m)).
Proof. rewrite fftfreq_opp. replace (f / - fftfreq_r emin prec n d m) with (- (f / fftfreq_r emin prec n d m)). { unfold rndp. rewrite round_NE_opp. apply Rabs_Ropp. } unfold Rdiv. destruct (Req_dec (fftfreq_r emin prec n d m) 0) as [->|N]; [rewrite Ropp_0; unfold Rdiv; rewrite Rinv_0; ring|field; exact N]. Qed.
End T.

(** C152.  The value of the spectrum at every frequency, positive, negative or zero, is that of the documented distribution with the level of the code, within (12.7 abs(fslope) + 10) units of roundoff relative to it. *)
Theorem C152_spectrum emin prec libpow r n fs sigma fknee fslope m : (24 <= prec)%Z -> (emin <= 1 - 4 * prec)%Z ->
  (forall x a, 0 < x -> Rabs (libpow x a - Rpower x a) <= 2 * unit_of prec * Rpower x a + tiny_of emin) -> (forall a, 0 < a -> libpow 0 a = 0) ->
  0 < r <= 1 -> 64 * tiny_of emin <= unit_of prec * (r * r * r) -> (n <= 2 ^ prec)%Z -> IZR n <= / r -> r <= fs <= / r -> r <= sigma <= / r -> r <= fknee <= / r ->
  0 < fslope -> fslope * unit_of prec <= / 1024 -> (Z.abs m <= n)%Z ->
  let s := spectrum_1f n fs sigma fknee fslope m in
  Rabs (psd_1f_r emin prec libpow n fs sigma fknee fslope m - s) <= (12.7 * fslope + 10) * unit_of prec * s.
Proof.
  intros Pp Pe Lp Lz R0 Re Hn Nr F S K A0 A Hm s. pose proof (V0 prec) as U0. destruct (eta4 emin prec Pe) as [E0 _]. assert (Aa : Rabs fslope = fslope) by (apply Rabs_pos_eq; lra). unfold s, spectrum_1f, psd_1f_r. cbv zeta. rewrite <- Aa at 3.
  destruct (Z.eqb_spec m 0) as [M|M].
  - apply (level_near emin prec Pp Pe r R0 Re); [exact S|exact F|rewrite Aa; exact A|lra|]. rewrite Rabs_R0, Lz by exact A0. rewrite Rminus_eq_0, Rabs_R0. lra.
  - assert (G : exists k, (0 < k <= n)%Z /\ Rabs (IZR m * fs / IZR n) = IZR k * fs / IZR n /\ Rabs (rndp emin prec (fknee / fftfreq_r emin prec n (rndp emin prec (1 / fs)) m)) = Rabs (rndp emin prec (fknee / fftfreq_r emin prec n (rndp emin prec (1 / fs)) k))).
    { exists (Z.abs m). split; [lia|]. assert (n0 : 0 < IZR n) by (apply IZR_lt; lia). split; [unfold Rdiv; rewrite !Rabs_mult, abs_IZR, (Rabs_pos_eq fs), (Rabs_pos_eq (/ IZR n)); [reflexivity| |lra]; left; apply Rinv_0_lt_compat; exact n0|]. destruct (Z.abs_eq_or_opp m) as [->| ->]; [reflexivity|symmetry; apply ratio_opp]. }
    destruct G as [k [Hk [-> ->]]]. assert (Q : rel prec 10.2 (rndp emin prec (fknee / fftfreq_r emin prec n (rndp emin prec (1 / fs)) k)) (fknee / (IZR k * fs / IZR n))) by (eapply ratio_near; eassumption). destruct (rel_bounds prec Pp 10.2 _ _ ltac:(lra) Q) as [q1 _]. assert (q0 := proj1 Q). rewrite (Rabs_pos_eq (rndp _ _ _)) by lra.
    apply (level_near emin prec Pp Pe r R0 Re); [exact S|exact F|rewrite Aa; exact A|left; apply exp_pos|]. apply (power_near emin prec Pp libpow Lp); [exact Q|rewrite Aa; exact A].
Qed.
Print Assumptions C152_spectrum.
(** The rounded spectrum is exactly even, as _fold_psd assumes, whatever the power of the library. *)
Theorem C152_even emin prec libpow n fs sigma fknee fslope m : psd_1f_r emin prec libpow n fs sigma fknee fslope (- m) = psd_1f_r emin prec libpow n fs sigma fknee fslope m.
Proof.
  unfold psd_1f_r. cbv zeta. destruct (Z.eqb_spec m 0) as [->|M]; [reflexivity|]. destruct (Z.eqb_spec (- m) 0) as [M'|_]; [lia|]. rewrite ratio_opp. reflexivity.
Qed.
Print Assumptions C152_even.
(** It does not increase with the frequency and is not under the value at zero, the roundings included, if the power of the library does not decrease with its base; the frequencies must not be rounded to zero. *)
Theorem C152_decreasing emin prec libpow n fs sigma fknee fslope m m' : (0 < prec)%Z -> (forall x y, 0 <= x <= y -> libpow x fslope <= libpow y fslope) ->
  (0 < n)%Z -> 0 < fs -> 0 <= fknee -> (0 < m <= m')%Z -> 0 < fftfreq_r emin prec n (rndp emin prec (1 / fs)) m ->
  let psd := psd_1f_r emin prec libpow n fs sigma fknee fslope in psd 0%Z <= psd m' <= psd m.
Proof.
  intros Pp L n0 F K M V psd. assert (Ve : Valid_exp (FLT_exp emin prec)) by (apply FLT_exp_valid; exact Pp). assert (H : forall x y, x <= y -> rndp emin prec x <= rndp emin prec y) by (intros x y h; apply round_le; [exact Ve|apply valid_rnd_N|exact h]).
  assert (Z0 : rndp emin prec 0 = 0) by (apply round_0; apply valid_rnd_N). assert (P : forall x, 0 <= x -> 0 <= rndp emin prec x) by (intros x X; rewrite <- Z0; apply H, X). assert (iF : 0 < / fs) by (apply Rinv_0_lt_compat; exact F).
  assert (G : forall x y, 0 <= x <= y -> rndp emin prec (rndp emin prec (rndp emin prec (sigma * sigma) * rndp emin prec (1 + libpow x fslope)) / fs) <= rndp emin prec (rndp emin prec (rndp emin prec (sigma * sigma) * rndp emin prec (1 + libpow y fslope)) / fs)).
  { intros x y X. pose proof (L x y X) as Q. apply H. unfold Rdiv. apply Rmult_le_compat_r; [lra|]. apply H. apply Rmult_le_compat_l; [apply P, sq_pos|]. apply H. lra. }
  assert (f1 : fftfreq_r emin prec n (rndp emin prec (1 / fs)) m <= fftfreq_r emin prec n (rndp emin prec (1 / fs)) m').
  { unfold fftfreq_r. cbv zeta. apply H. apply Rmult_le_compat_r; [|apply H, IZR_le; lia]. apply P. set (d := rndp emin prec (rndp emin prec (IZR n) * rndp emin prec (1 / fs))). assert (d0 : 0 <= d) by (apply P, Rmult_le_pos; apply P; [apply IZR_le; lia|unfold Rdiv; lra]).
    unfold Rdiv. rewrite Rmult_1_l. destruct d0 as [d0|d0]; [left; apply Rinv_0_lt_compat, d0|rewrite <- d0, Rinv_0; lra]. }
  set (f := fftfreq_r emin prec n (rndp emin prec (1 / fs)) m) in *. set (f' := fftfreq_r emin prec n (rndp emin prec (1 / fs)) m') in *. assert (q' : 0 <= rndp emin prec (fknee / f')) by (apply P; unfold Rdiv; apply Rmult_le_pos; [exact K|left; apply Rinv_0_lt_compat; lra]).
  assert (q : rndp emin prec (fknee / f') <= rndp emin prec (fknee / f)) by (apply H; unfold Rdiv; apply Rmult_le_compat_l; [exact K|]; apply Rinv_le_contravar; lra).
  unfold psd, psd_1f_r. cbv zeta. fold f f'. destruct (Z.eqb_spec m 0) as [?|_]; [lia|]. destruct (Z.eqb_spec m' 0) as [?|_]; [lia|]. cbn [Z.eqb]. rewrite Rabs_R0, !Rabs_pos_eq by lra. split; apply G; lra.
Qed.
Print Assumptions C152_decreasing.
(** Double precision, a power rounded once, 8 samples at 4 Hz, a knee at 1 Hz and a slope of 1: the hypotheses hold at the index -2, the frequency -1 Hz, where the value is 9/2, and at 0, where it is 9/4. *)
Example C152_example : let libpow := fun x a => if Rlt_dec 0 x then rndp (-1074) 53 (Rpower x a) else 0 in
  Rabs (psd_1f_r (-1074) 53 libpow 8 4 3 1 1 (-2) - 9 / 2) <= 23 * unit_of 53 * (9 / 2) /\ Rabs (psd_1f_r (-1074) 53 libpow 8 4 3 1 1 0 - 9 / 4) <= 23 * unit_of 53 * (9 / 4).
Proof.
  intros libpow. pose proof (V0 53) as U0. pose proof (eta4 (-1074) 53 ltac:(lia)) as E4. pose proof (eta_small (-1074) 53 ltac:(lia) ltac:(lia)) as Es. pose proof (uu_le 53 ltac:(lia)) as UU. assert (U53 := unit_53).
  assert (u1 : / 16777216 * unit_of 53 * unit_of 53 <= / 16777216 * (/ 16777216 * unit_of 53)) by (rewrite Rmult_assoc; apply Rmult_le_compat_l; lra).
  assert (Lp : forall x a, 0 < x -> Rabs (libpow x a - Rpower x a) <= 2 * unit_of 53 * Rpower x a + tiny_of (-1074)).
  { intros x a X. unfold libpow. destruct (Rlt_dec 0 x) as [_|N]; [|contradiction]. assert (p0 : 0 < Rpower x a) by apply exp_pos. pose proof (rn_err (-1074) 53 ltac:(lia) (Rpower x a)) as R. rewrite (Rabs_pos_eq (Rpower x a)) in R by lra. assert (0 <= unit_of 53 * Rpower x a) by (apply Rmult_le_pos; lra). lra. }
  assert (Lz : forall a, 0 < a -> libpow 0 a = 0) by (intros a _; unfold libpow; destruct (Rlt_dec 0 0) as [N|_]; [lra|reflexivity]).
  assert (C := fun m H => C152_spectrum (-1074) 53 libpow (/ 8) 8 4 3 1 1 m ltac:(lia) ltac:(lia) Lp Lz ltac:(lra) ltac:(lra) ltac:(lia) ltac:(lra) ltac:(lra) ltac:(lra) ltac:(lra) ltac:(lra) ltac:(rewrite U53; lra) H). cbv zeta in C.
  assert (S2 : spectrum_1f 8 4 3 1 1 (-2) = 9 / 2). { unfold spectrum_1f. cbn [Z.eqb]. replace (-2 * 4 / 8) with (- (1)) by field. rewrite Rabs_Ropp, Rabs_R1. replace (1 / 1) with 1 by field. rewrite Rpower_1 by lra. field. }
  assert (S0 : spectrum_1f 8 4 3 1 1 0 = 9 / 4) by (unfold spectrum_1f; cbn [Z.eqb]; field).
  split; [specialize (C (-2)%Z ltac:(lia)); rewrite S2 in C|specialize (C 0%Z ltac:(lia)); rewrite S0 in C]; lra.
Qed.
(** Double precision, 8 samples at 4 Hz, a slope of 1 for which the power is the base: the frequency of index 1 is 1/2 and the values at the indices 1, 3 and 0 are ordered. *)
Example C152_decreasing_example : let psd := psd_1f_r (-1074) 53 (fun x _ => x) 8 4 3 1 1 in psd 0%Z <= psd 3%Z <= psd 1%Z /\ psd (-3)%Z = psd 3%Z.
Proof.
  intros psd. split; [|apply (C152_even (-1074) 53 (fun x _ => x) 8 4 3 1 1 3)]. apply (C152_decreasing (-1074) 53 (fun x _ => x) 8 4 3 1 1 1 3); [lia|intros; lra|lia|lra|lra|lia|].
  assert (H : forall k, (k = -1 \/ k = -2)%Z -> rndp (-1074) 53 (bpow radix2 k) = bpow radix2 k) by (intros k Hk; apply rn_rep; exists 1%Z, k; split; [rewrite pow2; lra|lia]). pose proof (H (-1)%Z ltac:(lia)) as H1. pose proof (H (-2)%Z ltac:(lia)) as H2. change (bpow radix2 (-1)) with (/ 2) in H1. change (bpow radix2 (-2)) with (/ 4) in H2.
  unfold fftfreq_r. cbv zeta. rewrite (rndp_int 8) by lia. rewrite (rndp_int 1) by lia. replace (1 / 4) with (/ 4) by field. rewrite H2. replace (8 * / 4) with (IZR 2) by field. rewrite (rndp_int 2) by lia. replace (1 / 2) with (/ 2) by field. rewrite H1, Rmult_1_l, H1. lra.
Qed.
