(** C132: the gnomonic projection within some rounding errors, which grow far from the reference. *)
From Coq Require Import Reals ZArith Lra Lia.
From Flocq Require Import Core.
From Verif Require Import Base RndModel RndSpec RndProps BiFacts BirFacts BirFacts2 BirFacts3 RgnModel RgnFacts SkyModel SkySpec WcsModel WcsSpec WcsFacts WcsFacts2.
Open Scope R_scope.

Lemma eta_uu emin prec : (emin <= 1 - 2 * prec)%Z -> tiny_of emin <= unit_of prec * unit_of prec.
Proof. intros H. unfold tiny_of, unit_of. rewrite !pow2, <- bpow_plus. apply bpow_le. lia. Qed.
(** The cosine of the angle between the reference and a direction. *)
Definition cosine (crv : R * R) (ra dec : R) : R := scalar (centre (fst crv) (snd crv)) (direction ra dec).
Definition degrees_ok (crv : R * R) (ra dec : R) : Prop := Rabs ra <= 360 /\ Rabs dec <= 90 /\ Rabs (fst crv) <= 360 /\ Rabs (snd crv) <= 90.
Lemma exact_plane crv ra dec : let a := Astrometry (0, 0) crv ((1, 0), (0, 1)) in let l := ra * (PI / 180) in let l0 := fst crv * (PI / 180) in let p := dec * (PI / 180) in let p1 := snd crv * (PI / 180) in
  cosine crv ra dec = sin p1 * sin p + cos p1 * cos p * cos (l - l0) /\
  xsi_eta a ra dec = (180 / PI / cosine crv ra dec * (cos p * sin (l - l0)), 180 / PI / cosine crv ra dec * (cos p1 * sin p - sin p1 * cos p * cos (l - l0))).
Proof. cbv zeta. unfold cosine. rewrite <- (cosc_scalar (Astrometry (0, 0) crv ((1, 0), (0, 1)))). split; [reflexivity|]. unfold xsi_eta. cbv zeta. cbn [crval]. fold RAD2DEG DEG2RAD. now rewrite Rmult_assoc. Qed.
Lemma plane_explicit emin prec sn cs deg rad crv ra dec : (0 < prec)%Z -> (emin <= 1 - 2 * prec)%Z -> libm prec sn cs deg rad -> degrees_ok crv ra dec -> 4096 * unit_of prec <= cosine crv ra dec ->
  let S := 180 / PI / cosine crv ra dec in let e := unit_of prec / cosine crv ra dec in
  exists x y xsi eta, xsi_eta_r emin prec sn cs deg rad (init_gnomonic_r emin prec sn cs deg crv) ra dec = Some (x, y) /\
    direction ra dec = scale3 (cosine crv ra dec) (tangent (fst crv) (snd crv) xsi eta) /\ Rabs (x - xsi) <= 239 * e * S /\ Rabs (y - eta) <= 239 * e * S /\
    Rabs xsi <= S /\ Rabs eta <= S /\ 1 <= S /\ e <= / 4096 /\ unit_of prec <= e /\ unit_of prec <= / 4096.
Proof.
  intros Pp Pe L (Ha & Hb & Ha0 & Hb0) HD. cbv zeta. destruct (exact_plane crv ra dec) as [Ec Ex]. pose proof (u_pos prec) as U0.
  pose proof (two ra (fst crv) (snd crv * (PI / 180)) (dec * (PI / 180))) as [T T2]. rewrite <- Ec in T. apply Rabs_le_inv in T. assert (U1 : unit_of prec <= / 4096) by lra. pose proof HD as HD'. rewrite Ec in HD'.
  destruct (plane emin prec sn cs deg rad Pp L U1 (eta_uu emin prec Pe) ra dec (fst crv) (snd crv) Ha Ha0 Hb Hb0 HD') as (x & y & E & X & Y). rewrite <- Ec in X, Y. rewrite <- surjective_pairing in E.
  assert (C0 : cosc (Astrometry (0, 0) crv ((1, 0), (0, 1))) ra dec <> 0) by (rewrite cosc_scalar; cbn [crval]; fold (cosine crv ra dec); lra). pose proof (gnomonic_ray _ _ _ C0) as G. rewrite Ex, cosc_scalar in G. cbn [crval] in G.
  assert (Sb : 1 <= 180 / PI / cosine crv ra dec) by (rewrite Ec; exact (S_big prec ra dec (fst crv) (snd crv) HD')).
  do 4 eexists. split; [exact E|]. split; [exact G|]. split; [exact X|]. split; [exact Y|].
  assert (B : forall v, Rabs v <= 1 -> Rabs (180 / PI / cosine crv ra dec * v) <= 180 / PI / cosine crv ra dec).
  { intros v Hv. rewrite Rabs_mult, (Rabs_right (180 / PI / cosine crv ra dec)) by lra. rewrite <- (Rmult_1_r (180 / PI / cosine crv ra dec)) at 2. apply Rmult_le_compat_l; lra. }
  split; [apply B, one; [apply cos_1 | apply sin_1]|]. split; [apply B, T2|]. split; [exact Sb|]. split; [rewrite Ec; exact (E1' prec ra dec (fst crv) (snd crv) HD')|]. split; [rewrite Ec; exact (u_e prec ra dec (fst crv) (snd crv) HD') | exact U1].
Qed.
(** In the tangent plane, in degrees. *)
Theorem C132_plane : forall emin prec sn cs deg rad crv ra dec, (0 < prec)%Z -> (emin <= 1 - 2 * prec)%Z -> libm prec sn cs deg rad -> degrees_ok crv ra dec -> 4096 * unit_of prec <= cosine crv ra dec ->
  exists x y xsi eta, xsi_eta_r emin prec sn cs deg rad (init_gnomonic_r emin prec sn cs deg crv) ra dec = Some (x, y) /\
    direction ra dec = scale3 (cosine crv ra dec) (tangent (fst crv) (snd crv) xsi eta) /\
    Rabs (x - xsi) <= 239 * (unit_of prec / cosine crv ra dec) * (180 / PI / cosine crv ra dec) /\ Rabs (y - eta) <= 239 * (unit_of prec / cosine crv ra dec) * (180 / PI / cosine crv ra dec).
Proof.
  intros emin prec sn cs deg rad crv ra dec Pp Pe L A HD. destruct (plane_explicit emin prec sn cs deg rad crv ra dec Pp Pe L A HD) as (x & y & xsi & eta & E & G & X & Y & _). exists x, y, xsi, eta. tauto.
Qed.
Print Assumptions C132_plane.

(** [m] is the inverse of [cd]; the elements of [m'] are within [d] of those of [m]. *)
Definition inverse_of (m cd : R * R * (R * R)) : Prop := let '((a, b), (c, d)) := m in let '((p, q), (r, s)) := cd in a * p + b * r = 1 /\ a * q + b * s = 0 /\ c * p + d * r = 0 /\ c * q + d * s = 1.
Definition close22 (e : R) (m m' : R * R * (R * R)) : Prop := let '((a, b), (c, d)) := m in let '((p, q), (r, s)) := m' in Rabs (a - p) <= e /\ Rabs (b - q) <= e /\ Rabs (c - r) <= e /\ Rabs (d - s) <= e.
(** What the stored inverse gives: [k] bounds the products of the matrix by its determinant. *)
Theorem C132_inverse : forall emin prec cd k, (0 < prec)%Z -> 1 <= k -> k * unit_of prec <= / 4096 -> determinant cd <> 0 -> tiny_of emin <= unit_of prec * unit_of prec * Rabs (determinant cd) ->
  (let '((a, b), (c, d)) := cd in Rabs (a * d) + Rabs (b * c) <= k * Rabs (determinant cd)) ->
  exists m m', cdinv_r emin prec cd = Some m' /\ inverse_of m cd /\
    let '((a, b), (c, d)) := m in let '((p, q), (r, s)) := m' in let near x y := Rabs (y - x) <= 2 * (k + 1) * unit_of prec * Rabs x + tiny_of emin in near a p /\ near b q /\ near c r /\ near d s.
Proof.
  intros emin prec [[a b] [c d]] k Pp Hk Ku N Et K. unfold determinant in *. pose proof (u_pos prec) as U0. assert (U1 : unit_of prec <= / 4096). { assert (1 * unit_of prec <= k * unit_of prec) by (apply Rmult_le_compat_r; lra). lra. }
  assert (N' : a * d - c * b <> 0) by lra. assert (Dt : a * d - b * c = a * d - c * b) by ring. rewrite Dt in *. rewrite (Rmult_comm b c) in K.
  pose proof (det_near emin prec Pp U1 (a * d) (c * b) k Hk Ku N' K Et) as Hd. set (dt := a * d - c * b) in *. unfold cdinv_r. set (r := rndp emin prec (rndp emin prec (a * d) - rndp emin prec (c * b))) in *.
  exists ((d / dt, - b / dt), (- c / dt, a / dt)). destruct (Req_EM_T r 0) as [Z|_]. { exfalso. exact (proj1 (quotient_near emin prec Pp U1 0 dt r k Hk Ku N' Hd) Z). }
  eexists. split; [reflexivity|]. split; [unfold inverse_of, dt in *; repeat split; field; exact N'|]. cbv zeta. repeat split; exact (proj2 (quotient_near emin prec Pp U1 _ dt r k Hk Ku N' Hd)).
Qed.
Print Assumptions C132_inverse.

Definition pixel_error (emin prec : Z) (D d i1 i2 c : R) : R :=
  243 * (Rabs i1 + Rabs i2) * (unit_of prec / D) * (180 / PI / D) + 2 * d * (180 / PI / D) + 3 * unit_of prec * Rabs (c - 1) + 7 * tiny_of emin.
(** The pixel, with an inverse that is stored within [d]. *)
Theorem C132_pixel : forall emin prec sn cs deg rad a m m' d ra dec, (0 < prec)%Z -> (emin <= 1 - 2 * prec)%Z -> libm prec sn cs deg rad -> degrees_ok (crval a) ra dec -> 4096 * unit_of prec <= cosine (crval a) ra dec ->
  inverse_of m (cdm a) -> close22 d m m' ->
  exists px py x y, ad2xy_r emin prec sn cs deg rad (crval a) m' (crpix_r emin prec (crpix a)) ra dec = Some (px, py) /\
    seen (cdm a) (crpix a) (crval a) (x + 1) (y + 1) (direction ra dec) /\
    let '((i11, i12), (i21, i22)) := m' in
    Rabs (px - x) <= pixel_error emin prec (cosine (crval a) ra dec) d i11 i12 (fst (crpix a)) /\ Rabs (py - y) <= pixel_error emin prec (cosine (crval a) ra dec) d i21 i22 (snd (crpix a)).
Proof.
  intros emin prec sn cs deg rad a m m' d ra dec Pp Pe L A HD I C. destruct (plane_explicit emin prec sn cs deg rad (crval a) ra dec Pp Pe L A HD) as (x & y & xsi & eta & E & G & X & Y & Bx & By & Sb & E1 & Ue & U1).
  pose proof (u_pos prec) as U0. set (D := cosine (crval a) ra dec) in *. unfold pixel_error. set (S := 180 / PI / D) in *. set (e := unit_of prec / D) in *.
  destruct m as [[j11 j12] [j21 j22]], m' as [[i11 i12] [i21 i22]]. destruct a as [[c1 c2] crv [[p q] [r s]]]. cbn [cdm crpix crval fst snd] in *. destruct I as (I1 & I2 & I3 & I4), C as (C1 & C2 & C3 & C4).
  assert (H : forall i1 i2 j1 j2 c, Rabs (j1 - i1) <= d -> Rabs (j2 - i2) <= d ->
    Rabs (rndp emin prec (rndp emin prec (rndp emin prec (i1 * x) + rndp emin prec (i2 * y)) + rndp emin prec (c - 1)) - (j1 * xsi + j2 * eta + (c - 1))) <= 243 * (Rabs i1 + Rabs i2) * e * S + 2 * d * S + 3 * unit_of prec * Rabs (c - 1) + 7 * tiny_of emin).
  { intros i1 i2 j1 j2 c D1 D2. pose proof (row emin prec Pp U1 (eta_uu emin prec Pe) e S E1 Ue Sb i1 i2 (rndp emin prec (c - 1)) x y xsi eta X Y Bx By) as R. pose proof (offset emin prec Pp U1 c) as O. set (o := rndp emin prec (c - 1)) in *.
    match type of R with Rabs (?v - ?w) <= _ => pose proof (tri v w (j1 * xsi + j2 * eta + (c - 1))) as T end.
    assert (Q : Rabs (i1 * xsi + i2 * eta + o - (j1 * xsi + j2 * eta + (c - 1))) <= 2 * d * S + Rabs (o - (c - 1))).
    { replace (i1 * xsi + i2 * eta + o - (j1 * xsi + j2 * eta + (c - 1))) with ((- (j1 - i1)) * xsi + (- (j2 - i2)) * eta + (o - (c - 1))) by ring. eapply Rle_trans; [apply Rabs_triang|]. pose proof (Rabs_triang (- (j1 - i1) * xsi) (- (j2 - i2) * eta)) as V. rewrite !Rabs_mult, !Rabs_Ropp in V.
      assert (Rabs (j1 - i1) * Rabs xsi <= d * S) by (apply Rmult_le_compat; try apply Rabs_pos; assumption). assert (Rabs (j2 - i2) * Rabs eta <= d * S) by (apply Rmult_le_compat; try apply Rabs_pos; assumption). lra. }
    lra. }
  do 2 eexists. exists (j11 * xsi + j12 * eta + (c1 - 1)), (j21 * xsi + j22 * eta + (c2 - 1)). split; [unfold ad2xy_r; rewrite E; unfold rotation_r, crpix_r; cbn [fst snd]; reflexivity|]. split; [|split; apply H; assumption].
  exists D. split; [pose proof U0; lra|]. unfold intermediate. cbn [fst snd].
  (* m is also a right inverse *)
  assert (Dt : (j11 * j22 - j12 * j21) * (p * s - q * r) = 1). { transitivity ((j11 * p + j12 * r) * (j21 * q + j22 * s) - (j11 * q + j12 * s) * (j21 * p + j22 * r)); [ring|]. rewrite I1, I2, I3, I4. ring. }
  set (dj := j11 * j22 - j12 * j21) in *. set (dc := p * s - q * r) in *. assert (dj <> 0) by (intros Z; rewrite Z in Dt; lra).
  assert (K : p * dj = j22 /\ q * dj = - j12 /\ r * dj = - j21 /\ s * dj = j11).
  { repeat split.
    - transitivity ((j11 * p + j12 * r) * j22 - j12 * (j21 * p + j22 * r)); [unfold dj; ring|]. rewrite I1, I3. ring.
    - transitivity ((j11 * q + j12 * s) * j22 - j12 * (j21 * q + j22 * s)); [unfold dj; ring|]. rewrite I2, I4. ring.
    - transitivity (j11 * (j21 * p + j22 * r) - j21 * (j11 * p + j12 * r)); [unfold dj; ring|]. rewrite I1, I3. ring.
    - transitivity (j11 * (j21 * q + j22 * s) - j21 * (j11 * q + j12 * s)); [unfold dj; ring|]. rewrite I2, I4. ring. }
  destruct K as (K1 & K2 & K3 & K4).
  assert (X1 : p * (j11 * xsi + j12 * eta + (c1 - 1) + 1 - c1) + q * (j21 * xsi + j22 * eta + (c2 - 1) + 1 - c2) = xsi).
  { apply (Rmult_eq_reg_r dj); [|assumption]. transitivity ((p * dj) * (j11 * xsi + j12 * eta) + (q * dj) * (j21 * xsi + j22 * eta)); [ring|]. rewrite K1, K2. unfold dj. ring. }
  assert (X2 : r * (j11 * xsi + j12 * eta + (c1 - 1) + 1 - c1) + s * (j21 * xsi + j22 * eta + (c2 - 1) + 1 - c2) = eta).
  { apply (Rmult_eq_reg_r dj); [|assumption]. transitivity ((r * dj) * (j11 * xsi + j12 * eta) + (s * dj) * (j21 * xsi + j22 * eta)); [ring|]. rewrite K3, K4. unfold dj. ring. }
  rewrite X1, X2. exact G.
Qed.
Print Assumptions C132_pixel.
(** The functions and constants rounded to nearest, in double precision, meet the hypotheses. *)
Theorem C132_rounded : forall emin prec, (12 <= prec)%Z -> (emin <= 1 - 2 * prec)%Z ->
  libm prec (fun x => rndp emin prec (sin x)) (fun x => rndp emin prec (cos x)) (rndp emin prec (PI / 180)) (rndp emin prec (180 / PI)).
Proof.
  intros emin prec Pp Pe. assert (P0 : (0 < prec)%Z) by lia. pose proof (u_pos prec) as U0. pose proof (eta_uu emin prec Pe) as He. pose proof pi_low as P3. pose proof pi_high as P4.
  assert (U1 : unit_of prec <= / 4096). { unfold unit_of. rewrite pow2. apply Rle_trans with (bpow radix2 (-12)); [apply bpow_le; lia|]. unfold bpow. change (Z.pow_pos radix2 12) with 4096%Z. lra. }
  assert (Eu : tiny_of emin <= / 4096 * unit_of prec) by (apply Rle_trans with (1 := He), Rmult_le_compat_r; lra).
  assert (F : forall v, Rabs v <= 1 -> Rabs (rndp emin prec v - v) <= 2 * unit_of prec). { intros v Hv. pose proof (rn_err emin prec P0 v). assert (unit_of prec * Rabs v <= unit_of prec * 1) by (apply Rmult_le_compat_l; lra). lra. }
  assert (C : forall v, / 2048 <= v -> Rabs (rndp emin prec v - v) <= 3 * unit_of prec * v). { intros v Hv. pose proof (rn_err emin prec P0 v) as E. rewrite (Rabs_right v) in E by lra. assert (unit_of prec * / 2048 <= unit_of prec * v) by (apply Rmult_le_compat_l; lra). lra. }
  split; [intros x; apply F, sin_1 | intros x; apply F, cos_1 | apply C; lra | apply C]. apply (Rmult_le_reg_r PI); [lra|]. unfold Rdiv. rewrite Rmult_assoc, Rinv_l by lra. lra.
Qed.
Print Assumptions C132_rounded.
Example C132_example : let a := Astrometry (1, 1) (0, 0) ((- / 2, 0), (0, / 4)) in degrees_ok (crval a) 45 0 /\ 4096 * unit_of 53 <= cosine (crval a) 45 0 /\ inverse_of ((-2, 0), (0, 4)) (cdm a) /\ close22 0 ((-2, 0), (0, 4)) ((-2, 0), (0, 4)) /\
  determinant (cdm a) <> 0 /\ tiny_of (-1074) <= unit_of 53 * unit_of 53 * Rabs (determinant (cdm a)) /\ Rabs (- / 2 * / 4) + Rabs (0 * 0) <= 1 * Rabs (determinant (cdm a)).
Proof.
  cbv zeta. cbn [crval cdm]. unfold degrees_ok, inverse_of, close22, determinant. cbn [fst snd]. assert (Dt : - / 2 * / 4 - 0 * 0 = - / 8) by lra. rewrite Dt. rewrite (Rabs_left (- / 8)) by lra.
  split; [repeat split; unfold Rabs; destruct (Rcase_abs _); lra|]. split.
  - unfold cosine. rewrite <- (cosc_scalar (Astrometry (1, 1) (0, 0) ((1, 0), (0, 1)))). unfold cosc. cbn [crval fst snd]. replace (45 * DEG2RAD - 0 * DEG2RAD) with (PI / 4) by (unfold DEG2RAD; field). rewrite !Rmult_0_l, sin_0, cos_0, cos_PI4.
    assert (/ 2 <= 1 / sqrt 2). { pose proof (sqrt_lt_R0 2 ltac:(lra)) as S0. pose proof (sqrt_def 2 ltac:(lra)) as S2. assert (sqrt 2 <= 2) by nra. unfold Rdiv. rewrite Rmult_1_l. apply Rinv_le_contravar; lra. }
    assert (4096 * unit_of 53 <= / 2). { unfold unit_of. rewrite pow2. apply Rle_trans with (4096 * bpow radix2 (-13)); [apply Rmult_le_compat_l; [lra | apply bpow_le; lia]|]. unfold bpow. change (Z.pow_pos radix2 13) with 8192%Z. lra. } lra.
  - split; [repeat split; lra|]. split; [rewrite !Rminus_eq_0, Rabs_R0; lra|]. split; [lra|]. split.
    + unfold tiny_of, unit_of. rewrite !pow2. replace (- - / 8) with (bpow radix2 (-3)) by (unfold bpow; change (Z.pow_pos radix2 3) with 8%Z; lra). rewrite <- !bpow_plus. apply bpow_le. lia.
    + rewrite Rmult_0_l, Rabs_R0. rewrite Rabs_left by lra. lra.
Qed.
