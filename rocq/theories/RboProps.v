(** C140: positions in the sky of detectors within some rounding errors. *)
From Coq Require Import Reals ZArith Lra Lia.
From Flocq Require Import Core.
From Verif Require Import Base RndModel RndSpec RndProps BiFacts BirFacts BirFacts2 GalFacts RgnModel RgnFacts RgnProps RboModel RboSpec WcsModel.
Open Scope R_scope.

Section T.
Variables (emin prec : Z) (sn cs : R -> R) (deg rad : R).
Notation rn := (rndp emin prec).
Notation u := (unit_of prec).
Notation eta := (tiny_of emin).
Hypothesis Pp : (24 <= prec)%Z.
Hypothesis Pe : (emin <= 1 - 2 * prec)%Z.
Hypothesis L : libm prec sn cs deg rad.
Lemma P0 : (0 < prec)%Z. Proof. lia. Qed.
Lemma U0 : 0 < u. Proof. apply u_pos. Qed.
Lemma U2 : u <= / 16777216. Proof. unfold unit_of. rewrite pow2. apply Rle_trans with (bpow radix2 (-24)); [apply bpow_le; lia|]. unfold bpow. change (Z.pow_pos radix2 24) with 16777216%Z. lra. Qed.
Lemma U1 : u <= / 4096. Proof. pose proof U2. lra. Qed.
Lemma He : eta <= u * u. Proof. exact (eta_uu emin prec Pe). Qed.
Lemma Eu : eta <= / 16777216 * u. Proof. pose proof U0. pose proof U2. apply Rle_trans with (1 := He). apply Rmult_le_compat_r; lra. Qed.
Notation produ := (prod_e emin prec 1 u P0 w1 (uu prec) U1 He).
Notation sumu := (sum_e emin prec 1 u P0 w1 (uu prec) U1 He).

Lemma sin_1 t : Rabs (sin t) <= 1. Proof. apply Rabs_le. pose proof (SIN_bound t). lra. Qed.
Lemma cos_1 t : Rabs (cos t) <= 1. Proof. apply Rabs_le. pose proof (COS_bound t). lra. Qed.
Lemma trig pa : Rabs pa <= 360 -> Rabs (sn (rn (pa * deg)) - sin (pa * (PI / 180))) <= 28 * u /\ Rabs (cs (rn (pa * deg)) - cos (pa * (PI / 180))) <= 28 * u.
Proof.
  intros H. pose proof (lambda_near emin prec sn cs deg rad P0 L U1 He pa H) as N. replace 28 with (26 + 2) by ring. split; [eapply sin_near|eapply cos_near]; eassumption.
Qed.
Lemma quotient x : Rabs x <= 36000 -> Rabs (rn (x / 3600) - x / 3600) <= 10.01 * u /\ Rabs (x / 3600) <= 10.
Proof.
  intros H. assert (B : Rabs (x / 3600) <= 10) by (unfold Rdiv; rewrite Rabs_mult, (Rabs_right (/ 3600)) by lra; lra). split; [|exact B].
  pose proof (rn_err emin prec P0 (x / 3600)). pose proof U0. pose proof Eu. assert (u * Rabs (x / 3600) <= u * 10) by (apply Rmult_le_compat_l; lra). lra.
Qed.
(** One product in each version. *)
Lemma product_f x c t : Rabs x <= 36000 -> Rabs (c - t) <= 28 * u -> Rabs t <= 1 -> Rabs (rn (rn (x / 3600) * c) - x / 3600 * t) <= 301 * u.
Proof. intros Hx Hc Ht. destruct (quotient x Hx) as [Q B]. apply (produ _ _ _ _ 10.01 28 10 1); try lra; assumption. Qed.
Lemma product_p x c t : Rabs x <= 36000 -> Rabs (c - t) <= 28 * u -> Rabs t <= 1 -> Rabs (rn (x * rn (c / 3600)) - x / 3600 * t) <= 301 * u.
Proof.
  intros Hx Hc Ht. pose proof U0 as U0. pose proof U1 as U1. replace (x / 3600 * t) with (x * (t / 3600)) by field.
  assert (B : Rabs (t / 3600) <= / 3600) by (unfold Rdiv; rewrite Rabs_mult, (Rabs_right (/ 3600)) by lra; lra).
  assert (D : Rabs (c / 3600 - t / 3600) <= 28 / 3600 * u) by (replace (c / 3600 - t / 3600) with ((c - t) * / 3600) by field; rewrite Rabs_mult, (Rabs_right (/ 3600)) by lra; lra).
  pose proof (near_abs _ _ _ _ D B) as N. pose proof (rn_err emin prec P0 (c / 3600)) as E. pose proof Eu as Eu. pose proof (tri (rn (c / 3600)) (c / 3600) (t / 3600)) as T.
  assert (u * Rabs (c / 3600) <= u * (/ 3600 + 28 / 3600 / 4096)) by (apply Rmult_le_compat_l; lra).
  apply (produ _ _ _ _ 0 (29.01 / 3600 + / 16777216) 36000 (/ 3600)); try lra.
  unfold Rminus. rewrite Rplus_opp_r, Rabs_R0. lra.
Qed.
Lemma sums a b a' b' : Rabs (a - a') <= 301 * u -> Rabs (b - b') <= 301 * u -> Rabs a' <= 10 -> Rabs b' <= 10 -> Rabs (rn (a + b) - (a' + b')) <= 623 * u /\ Rabs (a' + b') <= 20.
Proof.
  intros Ha Hb A B. assert (S : Rabs (a' + b') <= 20) by (pose proof (Rabs_triang a' b'); lra). split; [|exact S]. apply (sumu _ _ _ _ 301 301 20); try lra; assumption.
Qed.

(** The position from the coordinates along the meridian and the parallel. *)
Lemma sky_near ra dec n e n' e' : Rabs ra <= 360 -> Rabs dec <= 90 -> Rabs (n - n') <= 623 * u -> Rabs n' <= 20 -> Rabs (e - e') <= 623 * u -> Rabs e' <= 20 ->
  let C := cos ((dec + n') * (PI / 180)) in 95000 * u <= Rabs C ->
  exists a d, sky_r emin prec cs deg ra dec n e = Some (a, d) /\ Rabs (d - (dec + n')) <= 735 * u /\ Rabs (a - (ra + e' / C)) <= 1500 * u / (C * C).
Proof.
  intros Hra Hdec Hn Hn' Hee He' C HC. pose proof U0 as U0. pose proof U2 as U2. pose proof Eu as Eu.
  assert (S : Rabs (dec + n') <= 110) by (pose proof (Rabs_triang dec n'); lra).
  assert (D : Rabs (rn (dec + n) - (dec + n')) <= 735 * u). { apply (sumu _ _ _ _ 0 623 110); try lra. unfold Rminus. rewrite Rplus_opp_r, Rabs_R0. lra. }
  unfold sky_r. set (d := rn (dec + n)) in *. cbv zeta.
  assert (A : Rabs (rn (d * deg) - (dec + n') * (PI / 180)) <= 21 * u).
  { assert (Bd : Rabs d <= 111) by (pose proof (near_abs _ _ _ _ D S); lra).
    pose proof (angle emin prec sn cs deg rad P0 L U1 He d (111 * (3.15 / 180)) 7.8 ltac:(lra) (scaled d 111 Bd) ltac:(lra)) as An.
    pose proof (tri (rn (d * deg)) (d * (PI / 180)) ((dec + n') * (PI / 180))) as T. replace (d * (PI / 180) - (dec + n') * (PI / 180)) with ((d - (dec + n')) * (PI / 180)) in T by ring.
    pose proof (scaled _ _ D) as Sc. lra. }
  pose proof (cos_near prec sn cs deg rad L _ _ _ A) as Cn. fold C in Cn. set (c := cs (rn (d * deg))) in *. replace (21 + 2) with 23 in Cn by ring.
  set (K := Rabs C) in *. assert (K1 : K <= 1) by apply cos_1. assert (K0 : 0 < K) by lra.
  assert (Cl : 4095 / 4096 * K <= Rabs c). { pose proof (Rabs_triang_inv C (C - c)) as I. replace (C - (C - c)) with c in I by ring. rewrite (Rabs_minus_sym C c) in I. fold K in I. lra. }
  assert (c0 : c <> 0) by (intros E; rewrite E, Rabs_R0 in Cl; lra). assert (C0 : C <> 0) by (intros E; unfold K in K0; rewrite E, Rabs_R0 in K0; lra).
  destruct (Req_EM_T c 0) as [E|_]; [contradiction|]. do 2 eexists. split; [reflexivity|]. split; [exact D|].
  assert (KK : C * C = K * K). { unfold K. rewrite <- Rabs_mult. symmetry. apply Rabs_right. pose proof (Rle_0_sqr C). unfold Rsqr in *. lra. }
  rewrite KK. set (q := e / c). set (q' := e' / C).
  assert (I : / Rabs c <= 4096 / 4095 * / K). { replace (4096 / 4095 * / K) with (/ (4095 / 4096 * K)) by (field; lra). apply Rinv_le; lra. }
  assert (Ic : 0 < / Rabs c) by (apply Rinv_0_lt_compat, Rabs_pos_lt, c0). assert (IK : 1 <= / K) by (rewrite <- Rinv_1; apply Rinv_le; lra). 
  set (i := / K) in *.
  assert (Q1 : Rabs (q - q') <= (623 * u + 460 * u * i) * (4096 / 4095 * i)).
  { replace (q - q') with (((e - e') + (- e') * ((c - C) * / C)) * / c) by (unfold q, q'; field; split; assumption).
    rewrite Rabs_mult, Rabs_inv. apply Rmult_le_compat; [apply Rabs_pos | lra | | exact I]. eapply Rle_trans; [apply Rabs_triang|]. rewrite !Rabs_mult, Rabs_Ropp, Rabs_inv. fold K. fold i.
    assert (X : Rabs e' * (Rabs (c - C) * i) <= 20 * (23 * u * i)). { apply Rmult_le_compat; [apply Rabs_pos | | lra | apply Rmult_le_compat_r; lra]. apply Rmult_le_pos; [apply Rabs_pos | lra]. } lra. }
  assert (Q2 : Rabs q <= 20.01 * (4096 / 4095 * i)).
  { unfold q, Rdiv. rewrite Rabs_mult, Rabs_inv. apply Rmult_le_compat; [apply Rabs_pos | lra | pose proof (near_abs _ _ _ _ Hee He'); lra | exact I]. }
  pose proof (rn_err emin prec P0 q) as R1. pose proof (rn_err emin prec P0 (ra + rn q)) as R2. set (r := rn q) in *.
  assert (Q3 : u * Rabs q <= u * (20.01 * (4096 / 4095 * i))) by (apply Rmult_le_compat_l; lra).
  assert (ui : u <= u * i) by (rewrite <- (Rmult_1_r u) at 1; apply Rmult_le_compat_l; lra).
  assert (ii : u * i <= u * i * i) by (rewrite <- (Rmult_1_r (u * i)) at 1; apply Rmult_le_compat_l; [apply Rmult_le_pos|]; lra).
  assert (R1' : Rabs (r - q) <= 20.1 * (u * i)) by lra.
  assert (uis : u * i <= / 16777216 * i) by (apply Rmult_le_compat_r; lra).
  assert (Br : Rabs (ra + r) <= 360 + 20.1 * i).
  { eapply Rle_trans; [apply Rabs_triang|]. pose proof (near_abs r q _ _ R1' Q2). lra. }
  assert (R2' : u * Rabs (ra + r) <= u * (360 + 20.1 * i)) by (apply Rmult_le_compat_l; lra).
  pose proof (tri (rn (ra + r)) (ra + r) (ra + q')) as T. replace (ra + r - (ra + q')) with ((r - q) + (q - q')) in T by ring. pose proof (Rabs_triang (r - q) (q - q')) as T2.
  replace (1500 * u / (K * K)) with (1500 * (u * i * i)) by (unfold i; field; lra).
  assert (Q4 : Rabs (q - q') <= 623.2 * (u * i) + 460.2 * (u * i * i)) by (eapply Rle_trans; [exact Q1|]; lra).
  lra.
Qed.
End T.

(** Detectors at most at ten degrees of the axis along each coordinate: the declination is within 735 units in the last place of one degree, the right ascension
    too, up to the square of the cosine of the declination, far enough from the poles.  Both versions. *)
Definition near_axis (x : R * R) : Prop := Rabs (fst x) <= 36000 /\ Rabs (snd x) <= 36000.
Definition accurate (prec : Z) (ra dec pa : R) (x : R * R) (p : option (R * R)) : Prop :=
  let d' := declination dec pa (fst x) (snd x) in let C := cos (d' * (PI / 180)) in
  exists a d, p = Some (a, d) /\ Rabs (d - d') <= 735 * unit_of prec /\ Rabs (a - right_ascension ra dec pa (fst x) (snd x)) <= 1500 * unit_of prec / (C * C).
Theorem C140_positions : forall emin prec sn cs deg rad ra dec pa x, (24 <= prec)%Z -> (emin <= 1 - 2 * prec)%Z -> libm prec sn cs deg rad ->
  Rabs ra <= 360 -> Rabs dec <= 90 -> Rabs pa <= 360 -> near_axis x -> 95000 * unit_of prec <= Rabs (cos (declination dec pa (fst x) (snd x) * (PI / 180))) ->
  accurate prec ra dec pa x (object2ad_r emin prec sn cs deg ra dec pa x) /\ accurate prec ra dec pa x (boresight_r emin prec sn cs deg ra dec pa x).
Proof.
  intros emin prec sn cs deg rad ra dec pa [x y] Pp Pe L Hra Hdec Hpa [Hx Hy]. cbn [fst snd] in *. unfold accurate, right_ascension. cbn [fst snd]. set (t := pa * (PI / 180)).
  destruct (trig emin prec sn cs deg rad Pp Pe L pa Hpa) as [S C]. fold t in S, C. pose proof (sin_1 t) as S1. pose proof (cos_1 t) as C1. pose proof Rabs_Ropp as Op.
  assert (Bx : Rabs (x / 3600) <= 10 /\ Rabs (y / 3600) <= 10) by (split; [now apply (quotient emin prec Pp Pe x)|now apply (quotient emin prec Pp Pe y)]). destruct Bx as [Bx By].
  assert (M : forall v w, Rabs v <= 10 -> Rabs w <= 1 -> Rabs (v * w) <= 10) by (intros v w Hv Hw; rewrite Rabs_mult; replace 10 with (10 * 1) by ring; apply Rmult_le_compat; try apply Rabs_pos; assumption).
  assert (E1 : declination dec pa x y = dec + (- x / 3600 * sin t + y / 3600 * cos t)) by (unfold declination; fold t; field).
  assert (E2 : (x * cos t + y * sin t) / 3600 = x / 3600 * cos t + y / 3600 * sin t) by field. rewrite E1, E2. intros HC.
  assert (Hmx : Rabs (- x) <= 36000) by (rewrite Op; exact Hx). assert (Bmx : Rabs (- x / 3600) <= 10) by (replace (- x / 3600) with (- (x / 3600)) by field; rewrite Op; exact Bx).
  split.
  - unfold object2ad_r. cbn [fst snd]. cbv zeta.
    assert (Nx : - rndp emin prec (x / 3600) = rndp emin prec (- x / 3600)). { unfold rndp. rewrite <- round_NE_opp. f_equal. field. } rewrite Nx.
    pose proof (product_f emin prec Pp Pe (- x) _ _ Hmx S S1) as P1. pose proof (product_f emin prec Pp Pe y _ _ Hy C C1) as P2. pose proof (product_f emin prec Pp Pe x _ _ Hx C C1) as P3. pose proof (product_f emin prec Pp Pe y _ _ Hy S S1) as P4.
    destruct (sums emin prec Pp Pe _ _ _ _ P1 P2 (M _ _ Bmx S1) (M _ _ By C1)) as [N Nb]. destruct (sums emin prec Pp Pe _ _ _ _ P3 P4 (M _ _ Bx C1) (M _ _ By S1)) as [Ea Eb].
    exact (sky_near emin prec sn cs deg rad Pp Pe L ra dec _ _ _ _ Hra Hdec N Nb Ea Eb HC).
  - unfold boresight_r. cbn [fst snd]. cbv zeta.
    pose proof (product_p emin prec Pp Pe (- x) _ _ Hmx S S1) as P1. pose proof (product_p emin prec Pp Pe y _ _ Hy C C1) as P2. pose proof (product_p emin prec Pp Pe x _ _ Hx C C1) as P3. pose proof (product_p emin prec Pp Pe y _ _ Hy S S1) as P4.
    destruct (sums emin prec Pp Pe _ _ _ _ P1 P2 (M _ _ Bmx S1) (M _ _ By C1)) as [N Nb]. destruct (sums emin prec Pp Pe _ _ _ _ P3 P4 (M _ _ Bx C1) (M _ _ By S1)) as [Ea Eb].
    exact (sky_near emin prec sn cs deg rad Pp Pe L ra dec _ _ _ _ Hra Hdec N Nb Ea Eb HC).
Qed.
Print Assumptions C140_positions.
(** The specification is what both versions compute without rounding. *)
Theorem C140_exact ra dec pa x : object2ad ra dec pa x = (right_ascension ra dec pa (fst x) (snd x), declination dec pa (fst x) (snd x)) /\
  boresight ra dec pa x = (right_ascension ra dec pa (fst x) (snd x), declination dec pa (fst x) (snd x)).
Proof.
  destruct x as [x y]. unfold object2ad, boresight, right_ascension, declination, DEG2RAD, SkyModel.radians. cbn [fst snd]. set (t := pa * (PI / 180)).
  assert (E : dec + (- (x / 3600) * sin t + y / 3600 * cos t) = dec + (y * cos t - x * sin t) / 3600) by field.
  assert (E' : dec + (- x * (sin t / 3600) + y * (cos t / 3600)) = dec + (y * cos t - x * sin t) / 3600) by field.
  assert (Q : x / 3600 * cos t + y / 3600 * sin t = (x * cos t + y * sin t) / 3600) by field.
  assert (Q' : x * (cos t / 3600) + y * (sin t / 3600) = (x * cos t + y * sin t) / 3600) by field.
  split; [now rewrite E, Q|now rewrite E', Q'].
Qed.
Print Assumptions C140_exact.
(** At the axis, without rotation, in double precision, the position is within 2 10^-13 degrees of the pointing (10, 20). *)
Example C140_case : near_axis (0, 0) /\ Rabs 10 <= 360 /\ Rabs 20 <= 90 /\ 95000 * unit_of 53 <= Rabs (cos (declination 20 0 0 0 * (PI / 180))) /\ declination 20 0 0 0 = 20 /\ right_ascension 10 20 0 0 0 = 10 /\
  libm 53 (fun x => rndp (-1074) 53 (sin x)) (fun x => rndp (-1074) 53 (cos x)) (rndp (-1074) 53 (PI / 180)) (rndp (-1074) 53 (180 / PI)).
Proof.
  assert (D : declination 20 0 0 0 = 20) by (unfold declination; field). split; [split; cbn; rewrite Rabs_R0; lra|]. split; [rewrite Rabs_right; lra|]. split; [rewrite Rabs_right; lra|].
  split; [|split; [exact D|split; [unfold right_ascension; rewrite !Rmult_0_l, Rplus_0_l; unfold Rdiv; rewrite !Rmult_0_l; ring|apply C132_rounded; lia]]].
  rewrite D. assert (P : 0 < PI) by apply PI_RGT_0. pose proof (cos_decr_1 (20 * (PI / 180)) (PI / 3)) as Hc. pose proof cos_PI3 as C3. assert (1 / 2 < cos (20 * (PI / 180))) by (rewrite <- C3; apply cos_decreasing_1; lra).
  rewrite Rabs_right by lra. unfold unit_of. rewrite pow2. assert (B : bpow radix2 (- (53)) = / 9007199254740992) by reflexivity. rewrite B. lra.
Qed.
