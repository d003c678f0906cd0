(** C134: the nearest pixels and the weights of detectors with rounded operations. *)
From Coq Require Import Reals ZArith Lra Lia Bool.
From Flocq Require Import Core.
From Verif Require Import Base RndModel RndSpec RndProps BiFacts BirFacts BirFacts2 BirFacts3 RgnModel RgnFacts SkyModel SkySpec WcsModel WcsSpec WcsFacts WcsFacts2 RgnProps NnModel NnProps RnnModel RnnFacts.
Open Scope R_scope.

(** *** Directions of detectors *)
Section Offset.
Variables (emin prec : Z) (sn cs : R -> R) (deg rad : R).
Notation rn := (rndp emin prec).
Notation u := (unit_of prec).
Notation eta := (tiny_of emin).
Hypothesis Pp : (0 < prec)%Z.
Hypothesis L : libm prec sn cs deg rad.
Hypothesis U1 : u <= / 4096.
Hypothesis He : eta <= u * u.
Notation produ := (prod_e emin prec 1 u Pp w1 (uu prec) U1 He).
Notation sumu := (sum_e emin prec 1 u Pp w1 (uu prec) U1 He).
Variables (ra dec pa v w : R).
Hypothesis Hra : Rabs ra <= 360.
Hypothesis Hpa : Rabs pa <= 360.
Hypothesis Hv : Rabs v <= 3600.
Hypothesis Hw : Rabs w <= 3600.
Notation t := (pa * (PI / 180)).
Notation c1 := (rn (v / 3600)).
Notation c2 := (rn (w / 3600)).
Notation cpa := (cs (rn (pa * deg))).
Notation spa := (sn (rn (pa * deg))).
Lemma small x : Rabs x <= 3600 -> Rabs (x / 3600) <= 1.
Proof. intros H. unfold Rdiv. rewrite Rabs_mult, (Rabs_right (/ 3600)) by lra. lra. Qed.
Lemma sec_near x : Rabs x <= 3600 -> Rabs (rn (x / 3600) - x / 3600) <= 1.01 * u.
Proof. intros H. pose proof (rn_err emin prec Pp (x / 3600)). pose proof (small x H). pose proof (u_pos prec). pose proof (eu' emin prec U1 He). assert (u * Rabs (x / 3600) <= u * 1) by (apply Rmult_le_compat_l; lra). lra. Qed.
Lemma cpa_near : Rabs (cpa - cos t) <= 28 * u.
Proof. replace 28 with (26 + 2) by ring. apply (cos_near prec sn cs deg rad L), (lambda_near emin prec sn cs deg rad Pp L U1 He), Hpa. Qed.
Lemma spa_near : Rabs (spa - sin t) <= 28 * u.
Proof. replace 28 with (26 + 2) by ring. apply (sin_near prec sn cs deg rad L), (lambda_near emin prec sn cs deg rad Pp L U1 He), Hpa. Qed.
Lemma pair_near s s' p q : Rabs s' <= 1 -> Rabs q <= 1 -> Rabs (s - s') <= 28 * u -> Rabs (p - q) <= 1.01 * u -> Rabs (rn (p * s) - q * s') <= 30.1 * u /\ Rabs (q * s') <= 1.
Proof.
  intros Hs Hq Hss Hpq. split; [apply (produ _ _ _ _ 1.01 28 1 1 30.1); try lra; assumption|]. rewrite Rabs_mult, <- (Rmult_1_r 1). apply Rmult_le_compat; try apply Rabs_pos; assumption.
Qed.
Notation sum1 := (rn (rn (- c1 * spa) + rn (c2 * cpa))).
Notation sum2 := (rn (rn (c1 * cpa) + rn (c2 * spa))).
Notation sum1' := (- (v / 3600) * sin t + w / 3600 * cos t).
Notation sum2' := (v / 3600 * cos t + w / 3600 * sin t).
Lemma sum1_near : Rabs (sum1 - sum1') <= 62.3 * u /\ Rabs sum1' <= 2.
Proof.
  assert (N1 : Rabs (- (v / 3600)) <= 1) by (rewrite Rabs_Ropp; now apply small). assert (N2 : Rabs (- c1 - - (v / 3600)) <= 1.01 * u) by (replace (- c1 - - (v / 3600)) with (- (c1 - v / 3600)) by ring; rewrite Rabs_Ropp; now apply sec_near).
  destruct (pair_near spa (sin t) (- c1) (- (v / 3600)) (sin_1 _) N1 spa_near N2) as [A1 A2]. destruct (pair_near cpa (cos t) c2 (w / 3600) (cos_1 _) (small w Hw) cpa_near (sec_near w Hw)) as [B1 B2].
  assert (B : Rabs sum1' <= 2) by (eapply Rle_trans; [apply Rabs_triang | lra]). split; [|exact B]. apply (sumu _ _ _ _ 30.1 30.1 2 62.3); try lra; assumption.
Qed.
Lemma sum2_near : Rabs (sum2 - sum2') <= 62.3 * u /\ Rabs sum2' <= 2.
Proof.
  destruct (pair_near cpa (cos t) c1 (v / 3600) (cos_1 _) (small v Hv) cpa_near (sec_near v Hv)) as [A1 A2]. destruct (pair_near spa (sin t) c2 (w / 3600) (sin_1 _) (small w Hw) spa_near (sec_near w Hw)) as [B1 B2].
  assert (B : Rabs sum2' <= 2) by (eapply Rle_trans; [apply Rabs_triang | lra]). split; [|exact B]. apply (sumu _ _ _ _ 30.1 30.1 2 62.3); try lra; assumption.
Qed.
Notation dec' := (dec + sum1').
Notation dec_r := (rn (dec + sum1)).
Hypothesis Hdec : Rabs dec' <= 90.
Lemma dec_near : Rabs (dec_r - dec') <= 153 * u.
Proof. apply (sumu _ _ _ _ 0 62.3 90 153); try lra; [|apply sum1_near]. unfold Rminus. rewrite Rplus_opp_r, Rabs_R0. lra. Qed.
Notation C := (cos (dec' * (PI / 180))).
Lemma cos_dec_near : Rabs (cs (rn (dec_r * deg)) - C) <= 12 * u.
Proof.
  pose proof dec_near as N. pose proof pi_low. pose proof pi_high. pose proof (u_pos prec) as U0. replace 12 with (10 + 2) by ring. apply (cos_near prec sn cs deg rad L). set (x := dec_r) in *.
  assert (Hx : Rabs x <= 90.04) by (eapply Rle_trans; [apply (near_abs _ _ _ _ N Hdec) | lra]).
  assert (A : Rabs (rn (x * deg) - x * (PI / 180)) <= 7 * u) by (apply (angle emin prec sn cs deg rad Pp L U1 He x (90.04 * (3.15 / 180)) 7); [lra | now apply scaled | lra]).
  assert (B : Rabs (x * (PI / 180) - dec' * (PI / 180)) <= 2.7 * u). { rewrite <- Rmult_minus_distr_r, Rabs_mult, (Rabs_right (PI / 180)) by lra. apply Rle_trans with (153 * u * (3.15 / 180)); [apply Rmult_le_compat; try lra; apply Rabs_pos | lra]. }
  pose proof (tri (rn (x * deg)) (x * (PI / 180)) (dec' * (PI / 180))). lra.
Qed.
Hypothesis HC : 4096 * u <= C.
Lemma quotient n n' c D : 4096 * u <= D <= 1 -> Rabs (n - n') <= 62.3 * u -> Rabs n' <= 2 -> Rabs (c - D) <= 12 * u -> Rabs (rn (n / c) - n' / D) <= 90 * (u / (D * D)) /\ Rabs (n' / D) <= 2 * / D.
Proof.
  intros [D1 D2] Hn Bn Hc. pose proof (u_pos prec) as U0. pose proof (eu' emin prec U1 He) as Eu. apply Rabs_le_inv in Hc as Hc'. assert (D0 : 0 < D) by lra. assert (c0 : 0.997 * D <= c) by lra. assert (cp : 0 < c) by lra.
  set (i := / D). assert (i1 : 1 <= i) by (unfold i; rewrite <- Rinv_1; apply Rinv_le_contravar; lra). assert (iD : i * D = 1) by (unfold i; field; lra). replace (u / (D * D)) with (u * (i * i)) by (unfold i; field; lra).
  assert (ii : i <= i * i) by (rewrite <- (Rmult_1_r i) at 1; apply Rmult_le_compat_l; lra).
  assert (Ic : / c <= 1.0031 * i). { apply (Rmult_le_reg_r c); [lra|]. rewrite Rinv_l by lra. apply Rle_trans with (1.0031 * i * (0.997 * D)); [replace (1.0031 * i * (0.997 * D)) with (1.0031 * 0.997 * (i * D)) by ring; rewrite iD; lra | apply Rmult_le_compat_l; lra]. }
  assert (Ic0 : 0 < / c) by now apply Rinv_0_lt_compat.
  assert (P : Rabs (n / c - n' / D) <= 86.7 * (u * (i * i))).
  { replace (n / c - n' / D) with (((n - n') * D - n' * (c - D)) * (/ c * i)) by (unfold i; field; lra). rewrite Rabs_mult, (Rabs_right (/ c * i)) by (left; apply Rmult_lt_0_compat; lra).
    assert (M : Rabs ((n - n') * D - n' * (c - D)) <= 86.3 * u). { eapply Rle_trans; [unfold Rminus at 1; apply Rabs_triang|]. rewrite Rabs_Ropp, !Rabs_mult, (Rabs_right D) by lra. assert (Rabs (n - n') * D <= 62.3 * u * 1) by (apply Rmult_le_compat; try lra; apply Rabs_pos). assert (Rabs n' * Rabs (c - D) <= 2 * (12 * u)) by (apply Rmult_le_compat; try lra; apply Rabs_pos). lra. }
    assert (K : / c * i <= 1.0031 * (i * i)) by (replace (1.0031 * (i * i)) with (1.0031 * i * i) by ring; apply Rmult_le_compat_r; lra).
    apply Rle_trans with (86.3 * u * (1.0031 * (i * i))); [apply Rmult_le_compat; try assumption; [apply Rabs_pos | left; apply Rmult_lt_0_compat; lra]|]. assert (0 <= u * (i * i)) by (apply Rmult_le_pos; lra). lra. }
  assert (Bq : Rabs (n' / D) <= 2 * i). { unfold Rdiv. fold i. rewrite Rabs_mult, (Rabs_right i) by lra. apply Rmult_le_compat_r; lra. }
  split; [|exact Bq]. assert (ui : u * (i * i) <= / 4096 * i). { replace (u * (i * i)) with (u * i * i) by ring. apply Rmult_le_compat_r; [lra|]. apply (Rmult_le_reg_r D); [lra|]. rewrite Rmult_assoc, iD. lra. }
  pose proof (near_abs _ _ _ _ P Bq) as A. pose proof (rn_err emin prec Pp (n / c)) as E. assert (u * Rabs (n / c) <= u * (2.03 * i)) by (apply Rmult_le_compat_l; lra). assert (u * i <= u * (i * i)) by (apply Rmult_le_compat_l; lra). assert (u * 1 <= u * i) by (apply Rmult_le_compat_l; lra).
  pose proof (tri (rn (n / c)) (n / c) (n' / D)). lra.
Qed.
Lemma ra_near : Rabs (rn (ra + rn (sum2 / cs (rn (dec_r * deg)))) - (ra + sum2' / C)) <= 460 * (u / (C * C)).
Proof.
  pose proof (u_pos prec) as U0. pose proof (eu' emin prec U1 He) as Eu. assert (C1 : 4096 * u <= C <= 1) by (pose proof (COS_bound (dec' * (PI / 180))); lra). destruct sum2_near as [N B]. destruct (quotient _ _ _ _ C1 N B cos_dec_near) as [Q A].
  set (q := rn (sum2 / cs (rn (dec_r * deg)))) in *. set (q' := sum2' / C) in *. set (c := C) in *. set (i := / c) in *. assert (i1 : 1 <= i) by (unfold i; rewrite <- Rinv_1; apply Rinv_le_contravar; lra). assert (iD : i * c = 1) by (unfold i; field; lra).
  replace (u / (c * c)) with (u * (i * i)) in * by (unfold i; field; lra). assert (ii : i <= i * i) by (rewrite <- (Rmult_1_r i) at 1; apply Rmult_le_compat_l; lra). assert (ui : u * (i * i) <= / 4096 * i). { replace (u * (i * i)) with (u * i * i) by ring. apply Rmult_le_compat_r; [lra|]. apply (Rmult_le_reg_r c); [lra|]. rewrite Rmult_assoc, iD. lra. }
  pose proof (near_abs _ _ _ _ Q A) as A'. pose proof (rn_err emin prec Pp (ra + q)) as E. pose proof (Rabs_triang ra q). assert (u * Rabs (ra + q) <= u * (360 + 2.03 * i)) by (apply Rmult_le_compat_l; lra). assert (u * i <= u * (i * i)) by (apply Rmult_le_compat_l; lra). assert (u * 1 <= u * i) by (apply Rmult_le_compat_l; lra).
  pose proof (tri (rn (ra + q)) (ra + q) (ra + q')) as T. replace (ra + q - (ra + q')) with (q - q') in T by ring. lra.
Qed.
End Offset.
(** Within one degree of the boresight; the right ascension is less accurate near the poles. *)
Theorem C134_direction : forall emin prec sn cs deg rad ra dec pa v w ra' dec', (0 < prec)%Z -> (emin <= 1 - 2 * prec)%Z -> libm prec sn cs deg rad ->
  Rabs ra <= 360 -> Rabs pa <= 360 -> Rabs v <= 3600 -> Rabs w <= 3600 -> pointed ra dec pa v w ra' dec' -> Rabs dec' <= 90 -> let c := cos (dec' * PI / 180) in 4096 * unit_of prec <= c ->
  let '(r, d) := object2ad_r emin prec sn cs deg ra dec pa (v, w) in Rabs (d - dec') <= 153 * unit_of prec /\ Rabs (r - ra') <= 460 * (unit_of prec / (c * c)).
Proof.
  intros emin prec sn cs deg rad ra dec pa v w ra' dec' Pp Pe L Hra Hpa Hv Hw [Pd Pr] Hd c Hc. assert (U1 : unit_of prec <= / 4096) by (pose proof (COS_bound (dec' * PI / 180)); unfold c in *; lra). pose proof (eta_uu emin prec Pe) as He.
  assert (T : pa * PI / 180 = pa * (PI / 180)) by (unfold Rdiv; ring). cbv zeta in Pd, Pr. rewrite T in Pd, Pr. set (t := pa * (PI / 180)) in *.
  assert (Ed : dec' = dec + (- (v / 3600) * sin t + w / 3600 * cos t)) by (rewrite Pd; field). assert (Er : ra' = ra + (v / 3600 * cos t + w / 3600 * sin t) / cos (dec' * (PI / 180))).
  { rewrite Pr. replace (dec' * PI / 180) with (dec' * (PI / 180)) by (unfold Rdiv; ring). unfold Rdiv. ring. }
  assert (Ec : c = cos (dec' * (PI / 180))) by (unfold c; f_equal; unfold Rdiv; ring). rewrite Ec in *. clear c Ec Pd Pr T. rewrite Er. rewrite Ed in Hd, Hc |- *. unfold object2ad_r. cbn [fst snd]. unfold t in *. split.
  - exact (dec_near emin prec sn cs deg rad Pp L U1 He dec pa v w Hpa Hv Hw Hd).
  - exact (ra_near emin prec sn cs deg rad Pp L U1 He ra dec pa v w Hra Hpa Hv Hw Hd Hc).
Qed.
Print Assumptions C134_direction.

(** *** Pixels *)
Lemma rotated emin prec a m m' d ra dec x y xsi eta : (0 < prec)%Z -> (emin <= 1 - 2 * prec)%Z -> let D := cosine (crval a) ra dec in let S := 180 / PI / D in let e := unit_of prec / D in
  0 < D -> unit_of prec <= / 4096 -> e <= / 4096 -> unit_of prec <= e -> 1 <= S -> direction ra dec = scale3 D (tangent (fst (crval a)) (snd (crval a)) xsi eta) ->
  Rabs (x - xsi) <= 239 * e * S -> Rabs (y - eta) <= 239 * e * S -> Rabs xsi <= S -> Rabs eta <= S -> inverse_of m (cdm a) -> close22 d m m' ->
  exists X Y, seen (cdm a) (crpix a) (crval a) (X + 1) (Y + 1) (direction ra dec) /\
    let '(px, py) := rotation_r emin prec m' (crpix_r emin prec (crpix a)) x y in let '((i11, i12), (i21, i22)) := m' in
    Rabs (px - X) <= pixel_error emin prec D d i11 i12 (fst (crpix a)) /\ Rabs (py - Y) <= pixel_error emin prec D d i21 i22 (snd (crpix a)).
Proof.
  intros Pp Pe D S e D0 U1 E1 Ue Sb G X Y Bx By I C. pose proof (u_pos prec) as U0. unfold pixel_error. fold S e.
  destruct m as [[j11 j12] [j21 j22]], m' as [[i11 i12] [i21 i22]]. destruct a as [[c1 c2] crv [[p q] [r s]]]. cbn [cdm crpix crval fst snd] in *. destruct I as (I1 & I2 & I3 & I4), C as (C1 & C2 & C3 & C4).
  assert (H : forall i1 i2 j1 j2 c, Rabs (j1 - i1) <= d -> Rabs (j2 - i2) <= d ->
    Rabs (rndp emin prec (rndp emin prec (rndp emin prec (i1 * x) + rndp emin prec (i2 * y)) + rndp emin prec (c - 1)) - (j1 * xsi + j2 * eta + (c - 1))) <= 243 * (Rabs i1 + Rabs i2) * e * S + 2 * d * S + 3 * unit_of prec * Rabs (c - 1) + 7 * tiny_of emin).
  { intros i1 i2 j1 j2 c D1 D2. pose proof (row emin prec Pp U1 (eta_uu emin prec Pe) e S E1 Ue Sb i1 i2 (rndp emin prec (c - 1)) x y xsi eta X Y Bx By) as R. pose proof (offset emin prec Pp U1 c) as O. set (o := rndp emin prec (c - 1)) in *.
    match type of R with Rabs (?v - ?w) <= _ => pose proof (tri v w (j1 * xsi + j2 * eta + (c - 1))) as T end.
    assert (Q : Rabs (i1 * xsi + i2 * eta + o - (j1 * xsi + j2 * eta + (c - 1))) <= 2 * d * S + Rabs (o - (c - 1))).
    { replace (i1 * xsi + i2 * eta + o - (j1 * xsi + j2 * eta + (c - 1))) with ((- (j1 - i1)) * xsi + (- (j2 - i2)) * eta + (o - (c - 1))) by ring. eapply Rle_trans; [apply Rabs_triang|]. pose proof (Rabs_triang (- (j1 - i1) * xsi) (- (j2 - i2) * eta)) as V. rewrite !Rabs_mult, !Rabs_Ropp in V.
      assert (Rabs (j1 - i1) * Rabs xsi <= d * S) by (apply Rmult_le_compat; try apply Rabs_pos; assumption). assert (Rabs (j2 - i2) * Rabs eta <= d * S) by (apply Rmult_le_compat; try apply Rabs_pos; assumption). lra. }
    lra. }
  exists (j11 * xsi + j12 * eta + (c1 - 1)), (j21 * xsi + j22 * eta + (c2 - 1)). split; [|unfold rotation_r, crpix_r; cbn [fst snd]; split; apply H; assumption].
  exists D. split; [exact D0|]. unfold intermediate. cbn [fst snd].
  assert (Dt : (j11 * j22 - j12 * j21) * (p * s - q * r) = 1). { transitivity ((j11 * p + j12 * r) * (j21 * q + j22 * s) - (j11 * q + j12 * s) * (j21 * p + j22 * r)); [ring|]. rewrite I1, I2, I3, I4. ring. }
  set (dj := j11 * j22 - j12 * j21) in *. set (dc := p * s - q * r) in *. assert (dj <> 0) by (intros Z; rewrite Z in Dt; lra).
  assert (K : p * dj = j22 /\ q * dj = - j12 /\ r * dj = - j21 /\ s * dj = j11).
  { repeat split.
    - transitivity ((j11 * p + j12 * r) * j22 - j12 * (j21 * p + j22 * r)); [unfold dj; ring|]. rewrite I1, I3. ring.
    - transitivity ((j11 * q + j12 * s) * j22 - j12 * (j21 * q + j22 * s)); [unfold dj; ring|]. rewrite I2, I4. ring.
    - transitivity (j11 * (j21 * p + j22 * r) - j21 * (j11 * p + j12 * r)); [unfold dj; ring|]. rewrite I1, I3. ring.
    - transitivity (j11 * (j21 * q + j22 * s) - j21 * (j11 * q + j12 * s)); [unfold dj; ring|]. rewrite I2, I4. ring. }
  destruct K as (K1 & K2 & K3 & K4).
  assert (X1 : p * (j11 * xsi + j12 * eta + (c1 - 1) + 1 - c1) + q * (j21 * xsi + j22 * eta + (c2 - 1) + 1 - c2) = xsi).
  { apply (Rmult_eq_reg_r dj); [|assumption]. transitivity ((p * dj) * (j11 * xsi + j12 * eta) + (q * dj) * (j21 * xsi + j22 * eta)); [ring|]. rewrite K1, K2. unfold dj. ring. }
  assert (X2 : r * (j11 * xsi + j12 * eta + (c1 - 1) + 1 - c1) + s * (j21 * xsi + j22 * eta + (c2 - 1) + 1 - c2) = eta).
  { apply (Rmult_eq_reg_r dj); [|assumption]. transitivity ((r * dj) * (j11 * xsi + j12 * eta) + (s * dj) * (j21 * xsi + j22 * eta)); [ring|]. rewrite K3, K4. unfold dj. ring. }
  rewrite X1, X2. exact G.
Qed.
Lemma weight_near emin prec emin' prec' s s' area e : (0 < prec)%Z -> (0 < prec')%Z -> unit_of prec <= e -> e <= / 4096 -> 0 < s' -> Rabs (s - s') <= 364 * e * s' ->
  Rabs (rndp emin' prec' (rndp emin prec (s * area)) - s' * area) <= (366 * e + 1.1 * unit_of prec') * (s' * Rabs area) + 2 * tiny_of emin + tiny_of emin'.
Proof.
  intros Pp Pp' Ue E1 S0 Hs. pose proof (u_pos prec) as U0. pose proof (u_pos prec') as V0. pose proof (eta_pos emin) as T0. pose proof (eta_pos emin') as T0'.
  assert (V1 : unit_of prec' <= / 2). { unfold unit_of. rewrite pow2. apply Rle_trans with (bpow radix2 (-1)); [apply bpow_le; lia|]. cbn. lra. }
  set (M := s' * Rabs area). assert (M0 : 0 <= M) by (apply Rmult_le_pos; [lra | apply Rabs_pos]).
  assert (A : Rabs (s * area - s' * area) <= 364 * e * M). { rewrite <- Rmult_minus_distr_r, Rabs_mult. unfold M. rewrite <- Rmult_assoc. apply Rmult_le_compat_r; [apply Rabs_pos | exact Hs]. }
  assert (B : Rabs (s' * area) <= M) by (rewrite Rabs_mult, (Rabs_right s') by lra; right; reflexivity). pose proof (near_abs _ _ _ _ A B) as C. pose proof (rn_err emin prec Pp (s * area)) as E. pose proof (tri (rndp emin prec (s * area)) (s * area) (s' * area)) as T.
  assert (eM : e * M <= / 4096 * M) by (apply Rmult_le_compat_r; lra). assert (uM : unit_of prec * M <= e * M) by (apply Rmult_le_compat_r; lra). assert (Q : unit_of prec * Rabs (s * area) <= unit_of prec * (1.09 * M)) by (apply Rmult_le_compat_l; lra).
  assert (eM0 : 0 <= e * M) by (apply Rmult_le_pos; lra). assert (F : Rabs (rndp emin prec (s * area) - s' * area) <= 366 * (e * M) + tiny_of emin) by lra. set (z := rndp emin prec (s * area)) in *. pose proof (near_abs _ _ _ _ F B) as G. pose proof (rn_err emin' prec' Pp' z) as E'. pose proof (tri (rndp emin' prec' z) z (s' * area)) as T'.
  assert (unit_of prec' * Rabs z <= unit_of prec' * (1.1 * M + tiny_of emin)) by (apply Rmult_le_compat_l; lra). assert (unit_of prec' * tiny_of emin <= / 2 * tiny_of emin) by (apply Rmult_le_compat_r; lra). lra.
Qed.
(** At most [e] outside of the pixel [i]. *)
Definition about_pixel (e x : R) (i : Z) : Prop := IZR i - / 2 - e <= x < IZR i + / 2 + e.
(** The element of a detector that is seen in the direction that is found: the pixel is the one of a position within the error of
    where this direction is seen, and the weight is near the ratio of the areas. *)
Theorem C134_element : forall emin prec emin' prec' sn cs deg rad a m m' d nx ny ra dec pa coord area r dd, (0 < prec)%Z -> (0 < prec')%Z -> (emin <= 1 - 2 * prec)%Z -> libm prec sn cs deg rad ->
  inverse_of m (cdm a) -> close22 d m m' -> object2ad_r emin prec sn cs deg ra dec pa coord = (r, dd) -> degrees_ok (crval a) r dd -> let c := cosine (crval a) r dd in 4096 * unit_of prec <= c ->
  exists x y ix iy out index value, seen (cdm a) (crpix a) (crval a) (x + 1) (y + 1) (direction r dd) /\
    nearest_one_r emin prec emin' prec' sn cs deg rad (crval a) m' (crpix_r emin prec (crpix a)) nx ny (ra, dec, pa) coord area = Some (out, (index, value)) /\
    (let '((i11, i12), (i21, i22)) := m' in about_pixel (pixel_error emin prec c d i11 i12 (fst (crpix a))) x ix /\ about_pixel (pixel_error emin prec c d i21 i22 (snd (crpix a))) y iy) /\
    (in_map nx ny ix iy -> out = false /\ index = (iy * nx + ix)%Z) /\ (~ in_map nx ny ix iy -> out = true /\ index = (-1)%Z) /\
    Rabs (value - area / (c * c * c)) <= (366 * (unit_of prec / c) + 1.1 * unit_of prec') * (Rabs area / (c * c * c)) + 2 * tiny_of emin + tiny_of emin'.
Proof.
  intros emin prec emin' prec' sn cs deg rad a m m' d nx ny ra dec pa coord area r dd Pp Pp' Pe L I C O A c HD.
  destruct (plane_explicit emin prec sn cs deg rad (crval a) r dd Pp Pe L A HD) as (_ & _ & xsi & eta & _ & G & _ & _ & Bx & By & Sb & E1 & Ue & U1). clear xsi eta G Bx By.
  destruct A as (Ha & Hb & Ha0 & Hb0). destruct (exact_plane (crval a) r dd) as [Ec Ex]. pose proof (u_pos prec) as U0. pose proof HD as HD'. unfold c in HD'. rewrite Ec in HD'.
  destruct (plane_s emin prec sn cs deg rad Pp L U1 (eta_uu emin prec Pe) r dd (fst (crval a)) (snd (crval a)) Ha Ha0 Hb Hb0 HD') as (x & y & s & E & X & Y & Sc). rewrite <- Ec in X, Y, Sc. rewrite <- surjective_pairing in E.
  pose proof (two r (fst (crval a)) (snd (crval a) * (PI / 180)) (dd * (PI / 180))) as [_ T2]. fold c in X, Y, Sc, Sb, E1, Ue.
  assert (C0 : cosc (Astrometry (0, 0) (crval a) ((1, 0), (0, 1))) r dd <> 0) by (rewrite cosc_scalar; cbn [crval]; fold (cosine (crval a) r dd); fold c; lra). pose proof (gnomonic_ray _ _ _ C0) as G. rewrite Ex, cosc_scalar in G. cbn [crval] in G. fold (cosine (crval a) r dd) in G. fold c in G.
  assert (B : forall v, Rabs v <= 1 -> Rabs (180 / PI / c * v) <= 180 / PI / c).
  { intros v Hv. rewrite Rabs_mult, (Rabs_right (180 / PI / c)) by lra. rewrite <- (Rmult_1_r (180 / PI / c)) at 2. apply Rmult_le_compat_l; lra. }
  assert (c0 : 0 < c) by lra.
  destruct (rotated emin prec a m m' d r dd x y _ _ Pp Pe c0 U1 E1 Ue Sb G X Y (B _ (one _ _ (cos_1 _) (sin_1 _))) (B _ T2) I C) as (px & py & Sn & Q).
  assert (F : let '(qx, qy) := rotation_r emin prec m' (crpix_r emin prec (crpix a)) x y in generic_format radix2 (FLT_exp emin prec) qx /\ generic_format radix2 (FLT_exp emin prec) qy).
  { unfold rotation_r. destruct m' as [[i11 i12] [i21 i22]]. split; apply format_round; exact Pp. }
  unfold nearest_one_r. rewrite O. unfold ad2xys_r. rewrite E. destruct (rotation_r emin prec m' (crpix_r emin prec (crpix a)) x y) as [qx qy]. destruct F as [Fx Fy].
  assert (P0 : (emin <= 0)%Z) by lia. pose proof (nint_up_r_ok emin prec qx Pp P0 Fx) as Nx. pose proof (nint_up_r_ok emin prec qy Pp P0 Fy) as Ny. unfold xy2pmatrix_r. set (ix := nint_up_r emin prec qx) in *. set (iy := nint_up_r emin prec qy) in *.
  exists px, py, ix, iy.
  assert (V : Rabs (rndp emin' prec' (rndp emin prec (s * area)) - area / (c * c * c)) <= (366 * (unit_of prec / c) + 1.1 * unit_of prec') * (Rabs area / (c * c * c)) + 2 * tiny_of emin + tiny_of emin').
  { assert (S0 : 0 < / (c * c * c)) by (apply Rinv_0_lt_compat; repeat apply Rmult_lt_0_compat; lra). pose proof (weight_near emin prec emin' prec' s (/ (c * c * c)) area (unit_of prec / c) Pp Pp' Ue E1 S0 Sc) as W. replace (area / (c * c * c)) with (/ (c * c * c) * area) by (unfold Rdiv; ring). replace (Rabs area / (c * c * c)) with (/ (c * c * c) * Rabs area) by (unfold Rdiv; ring). exact W. }
  assert (K : let '((i11, i12), (i21, i22)) := m' in about_pixel (pixel_error emin prec c d i11 i12 (fst (crpix a))) px ix /\ about_pixel (pixel_error emin prec c d i21 i22 (snd (crpix a))) py iy).
  { destruct m' as [[i11 i12] [i21 i22]]. destruct Q as [Q1 Q2]. apply Rabs_le_inv in Q1, Q2. unfold about_pixel, in_pixel in *. fold c in Q1, Q2. lra. }
  destruct ((ix <? 0)%Z || (nx - 1 <? ix)%Z || (iy <? 0)%Z || (ny - 1 <? iy)%Z) eqn:Bo; do 3 eexists; (split; [exact Sn|]); (split; [reflexivity|]); (split; [exact K|]); unfold in_map; (split; [|split; [|exact V]]).
  - intros [M1 M2]. exfalso. lia.
  - intros _. split; reflexivity.
  - intros _. split; [reflexivity|lia].
  - intros M. exfalso. apply M. lia.
Qed.
Print Assumptions C134_element.
(** A direction is seen at one place. *)
Lemma seen_once cd crpix crval m x y x' y' w : inverse_of m cd -> seen cd crpix crval x y w -> seen cd crpix crval x' y' w -> x = x' /\ y = y'.
Proof.
  intros I (k & K & E) (k' & K' & E'). destruct cd as [[p q] [r s]], m as [[j11 j12] [j21 j22]]. unfold intermediate in E, E'. destruct I as (I1 & I2 & I3 & I4).
  pose proof (tangent_coordinates (fst crval) (snd crval) k (p * (x - fst crpix) + q * (y - snd crpix)) (r * (x - fst crpix) + s * (y - snd crpix))) as (A1 & A2 & A3). pose proof (tangent_coordinates (fst crval) (snd crval) k' (p * (x' - fst crpix) + q * (y' - snd crpix)) (r * (x' - fst crpix) + s * (y' - snd crpix))) as (B1 & B2 & B3).
  rewrite <- E in A1, A2, A3. rewrite <- E' in B1, B2, B3. rewrite A1 in B1. subst k'. rewrite A2 in B2. rewrite A3 in B3. pose proof PI_RGT_0.
  assert (Q1 : p * (x - x') + q * (y - y') = 0). { apply (Rmult_eq_reg_l (k * (PI / 180))); [|apply Rgt_not_eq, Rmult_lt_0_compat; lra]. lra. }
  assert (Q2 : r * (x - x') + s * (y - y') = 0). { apply (Rmult_eq_reg_l (k * (PI / 180))); [|apply Rgt_not_eq, Rmult_lt_0_compat; lra]. lra. }
  assert (x - x' = 0). { transitivity ((j11 * p + j12 * r) * (x - x') + (j11 * q + j12 * s) * (y - y')); [rewrite I1, I2; ring|]. transitivity (j11 * (p * (x - x') + q * (y - y')) + j12 * (r * (x - x') + s * (y - y'))); [ring|]. rewrite Q1, Q2. ring. }
  assert (y - y' = 0). { transitivity ((j21 * p + j22 * r) * (x - x') + (j21 * q + j22 * s) * (y - y')); [rewrite I3, I4; ring|]. transitivity (j21 * (p * (x - x') + q * (y - y')) + j22 * (r * (x - x') + s * (y - y'))); [ring|]. rewrite Q1, Q2. ring. }
  lra.
Qed.
(** Inside of the pixel [i] by [e]. *)
Definition well_inside (e x : R) (i : Z) : Prop := IZR i - / 2 + e <= x < IZR i + / 2 - e.
(** The pixel is the one where the direction is seen if this is not too close to a border. *)
Theorem C134_inside : forall emin prec emin' prec' sn cs deg rad a m m' d nx ny ra dec pa coord area r dd x y ix iy, (0 < prec)%Z -> (0 < prec')%Z -> (emin <= 1 - 2 * prec)%Z -> libm prec sn cs deg rad ->
  inverse_of m (cdm a) -> close22 d m m' -> object2ad_r emin prec sn cs deg ra dec pa coord = (r, dd) -> degrees_ok (crval a) r dd -> let c := cosine (crval a) r dd in 4096 * unit_of prec <= c ->
  seen (cdm a) (crpix a) (crval a) (x + 1) (y + 1) (direction r dd) ->
  (let '((i11, i12), (i21, i22)) := m' in well_inside (pixel_error emin prec c d i11 i12 (fst (crpix a))) x ix /\ well_inside (pixel_error emin prec c d i21 i22 (snd (crpix a))) y iy) ->
  exists out index value, nearest_one_r emin prec emin' prec' sn cs deg rad (crval a) m' (crpix_r emin prec (crpix a)) nx ny (ra, dec, pa) coord area = Some (out, (index, value)) /\
    (in_map nx ny ix iy -> out = false /\ index = (iy * nx + ix)%Z) /\ (~ in_map nx ny ix iy -> out = true /\ index = (-1)%Z).
Proof.
  intros emin prec emin' prec' sn cs deg rad a m m' d nx ny ra dec pa coord area r dd x y ix iy Pp Pp' Pe L I C O A c HD Sn W.
  destruct (C134_element emin prec emin' prec' sn cs deg rad a m m' d nx ny ra dec pa coord area r dd Pp Pp' Pe L I C O A HD) as (x' & y' & jx & jy & out & index & value & Sn' & E & K & In1 & In2 & _). fold c in K.
  destruct (seen_once _ _ _ _ _ _ _ _ _ I Sn Sn') as [Ex Ey]. assert (x' = x) by lra. assert (y' = y) by lra. subst x' y'. destruct m' as [[i11 i12] [i21 i22]]. destruct W as [W1 W2], K as [K1 K2].
  assert (U : forall e z i j, well_inside e z i -> about_pixel e z j -> j = i). { intros e z i j V1 V2. unfold well_inside, about_pixel in *. assert (IZR j < IZR (i + 1)) by (rewrite plus_IZR; lra). assert (IZR i < IZR (j + 1)) by (rewrite plus_IZR; lra). apply lt_IZR in H, H0. lia. }
  pose proof (U _ _ _ _ W1 K1). pose proof (U _ _ _ _ W2 K2). subst jx jy. exists out, index, value. tauto.
Qed.
Print Assumptions C134_inside.
(** A detector at one degree of the boresight, in double precision, at the reference of a map of five columns and six lines. *)
Example C134_example : let f x := rndp (-1074) 53 (sin x) in let g x := rndp (-1074) 53 (cos x) in let deg := rndp (-1074) 53 (PI / 180) in let a := Astrometry (3, 4) (1, 0) ((- / 2, 0), (0, / 4)) in let m := ((-2, 0), (0, 4)) in
  libm 53 f g deg (rndp (-1074) 53 (180 / PI)) /\ object2ad_r (-1074) 53 f g deg 0 0 0 (3600, 0) = (1, 0) /\ pointed 0 0 0 3600 0 1 0 /\ 4096 * unit_of 53 <= cos (0 * PI / 180) /\
  degrees_ok (crval a) 1 0 /\ cosine (crval a) 1 0 = 1 /\ 4096 * unit_of 53 <= 1 /\ inverse_of m (cdm a) /\ close22 0 m m /\ seen (cdm a) (crpix a) (crval a) (2 + 1) (3 + 1) (direction 1 0) /\
  well_inside (pixel_error (-1074) 53 1 0 (-2) 0 3) 2 2 /\ well_inside (pixel_error (-1074) 53 1 0 0 4 4) 3 3 /\ in_map 5 6 2 3.
Proof.
  cbv zeta. cbn [crval cdm crpix]. assert (Pp : (0 < 53)%Z) by lia. assert (R0 : rndp (-1074) 53 0 = 0) by (apply round_0, valid_rnd_N). assert (R1 : rndp (-1074) 53 1 = 1) by (apply integer_exact; [lia | lia | now exists 1%Z | rewrite Rabs_R1; apply IZR_le; lia]).
  assert (U : 4096 * 4096 * unit_of 53 <= / 512). { unfold unit_of. rewrite pow2. apply Rle_trans with (4096 * 4096 * bpow radix2 (-33)); [apply Rmult_le_compat_l; [lra | apply bpow_le; lia]|]. unfold bpow. change (Z.pow_pos radix2 33) with 8589934592%Z. lra. } pose proof (u_pos 53) as U0.
  assert (T : tiny_of (-1074) <= unit_of 53) by (unfold tiny_of, unit_of; rewrite !pow2; apply bpow_le; lia). pose proof (eta_pos (-1074)) as T0.
  split; [apply C132_rounded; lia|]. split.
  { unfold object2ad_r. cbn [fst snd]. rewrite !Rmult_0_l. replace (3600 / 3600) with 1 by field. replace (0 / 3600) with 0 by field. assert (Q : 1 / 1 = 1) by field. repeat first [rewrite R0 | rewrite R1 | rewrite sin_0 | rewrite cos_0 | rewrite Rmult_0_r | rewrite Rmult_0_l | rewrite Rmult_1_l | rewrite Rplus_0_l | rewrite Rplus_0_r | rewrite Q]. reflexivity. }
  assert (Z0 : 0 * PI / 180 = 0) by field.
  split; [unfold pointed; rewrite Z0, sin_0, cos_0; split; field|]. split; [rewrite Z0, cos_0; lra|].
  split; [unfold degrees_ok; cbn [fst snd]; rewrite Rabs_R0, Rabs_R1; lra|].
  assert (Cs : cosine (1, 0) 1 0 = 1). { destruct (basis_orthonormal 1 0) as [H1 _]. unfold cosine. cbn [fst snd]. exact H1. } split; [exact Cs|]. split; [lra|]. split; [repeat split; lra|]. split; [repeat split; rewrite Rminus_eq_0, Rabs_R0; lra|]. split.
  { exists 1. split; [lra|]. unfold intermediate. cbn [fst snd]. unfold tangent. destruct (centre 1 0) as [[c0 c1] c2] eqn:Ec. unfold centre in Ec. rewrite Ec. destruct (east 1 0) as [[e0 e1] e2], (north 1 0) as [[n0 n1] n2]. cbn [scale3 add3]. repeat apply (f_equal2 pair); field. }
  assert (P : 0 <= 180 / PI / 1 <= 60). { pose proof pi_low. unfold Rdiv. rewrite Rinv_1, Rmult_1_r. assert (/ PI <= / 3) by (apply Rinv_le_contravar; lra). assert (0 < / PI) by (apply Rinv_0_lt_compat; lra). lra. }
  assert (V : forall i1 i2 c, Rabs i1 + Rabs i2 <= 4 -> Rabs (c - 1) <= 3 -> pixel_error (-1074) 53 1 0 i1 i2 c <= / 4).
  { intros i1 i2 c Hi Hc. unfold pixel_error. pose proof (Rabs_pos i1). pose proof (Rabs_pos i2). unfold Rdiv at 1. rewrite Rinv_1, Rmult_1_r. set (w := 180 / PI / 1) in *. assert ((Rabs i1 + Rabs i2) * unit_of 53 * w <= 4 * unit_of 53 * 60) by (apply Rmult_le_compat; [apply Rmult_le_pos; lra | lra | apply Rmult_le_compat_r; lra | lra]).
    assert (unit_of 53 * Rabs (c - 1) <= unit_of 53 * 3) by (apply Rmult_le_compat_l; lra). lra. }
  split; [|split]; [| |unfold in_map; lia]; unfold well_inside.
  - assert (pixel_error (-1074) 53 1 0 (-2) 0 3 <= / 4) by (apply V; unfold Rabs; repeat destruct (Rcase_abs _); lra). lra.
  - assert (pixel_error (-1074) 53 1 0 0 4 4 <= / 4) by (apply V; unfold Rabs; repeat destruct (Rcase_abs _); lra). lra.
Qed.
