(** C134, from the pointing to the pixel: the pixel of the exact direction is found, unless it is seen too close to a border. *)
From Coq Require Import Reals ZArith Lra Lia Bool.
From Flocq Require Import Core.
From Verif Require Import Base RndModel RndSpec RndProps BiFacts BirFacts BirFacts2 BirFacts3 GalFacts RgnModel RgnFacts SkyModel SkySpec WcsModel WcsSpec WcsFacts WcsFacts2 RgnProps NnModel NnProps RnnModel RnnFacts RnnProps.
Open Scope R_scope.

Lemma dot_directions r d a b : scalar (direction r d) (direction a b) = sin (d * PI / 180) * sin (b * PI / 180) + cos (d * PI / 180) * cos (b * PI / 180) * cos (r * PI / 180 - a * PI / 180).
Proof. unfold scalar, direction. cbn [fst snd]. rewrite cos_minus. ring. Qed.
Lemma dot_1 r d a b : Rabs (scalar (direction r d) (direction a b)) <= 1.
Proof.
  rewrite dot_directions. pose proof (two r a (d * (PI / 180)) (b * (PI / 180))) as [T _]. replace (d * PI / 180) with (d * (PI / 180)) by (unfold Rdiv; ring). replace (b * PI / 180) with (b * (PI / 180)) by (unfold Rdiv; ring). replace (r * PI / 180 - a * PI / 180) with (r * (PI / 180) - a * (PI / 180)) by (unfold Rdiv; ring). exact T.
Qed.
Lemma shrink k x e : Rabs k <= 1 -> Rabs x <= e -> Rabs (k * x) <= e.
Proof. intros K X. rewrite Rabs_mult. pose proof (Rabs_pos x). assert (Rabs k * Rabs x <= 1 * Rabs x) by (apply Rmult_le_compat_r; lra). lra. Qed.
(** The cosine with a fixed direction changes at most as the angles. *)
Lemma dot_drift r d r' d' a b e f : Rabs ((d' - d) * (PI / 180)) <= e -> Rabs ((r' - r) * (PI / 180)) <= f ->
  Rabs (scalar (direction r' d') (direction a b) - scalar (direction r d) (direction a b)) <= 2 * e + f.
Proof.
  intros E F. rewrite !dot_directions. set (p' := d' * PI / 180). set (p := d * PI / 180). set (q := b * PI / 180). set (t' := r' * PI / 180 - a * PI / 180). set (t := r * PI / 180 - a * PI / 180).
  assert (P : p' - p = (d' - d) * (PI / 180)) by (unfold p, p', Rdiv; ring). assert (T : t' - t = (r' - r) * (PI / 180)) by (unfold t, t', Rdiv; ring). rewrite <- P in E. rewrite <- T in F.
  pose proof (Rle_trans _ _ _ (sin_lipschitz p' p) E) as S. pose proof (Rle_trans _ _ _ (cos_lipschitz p' p) E) as C. pose proof (Rle_trans _ _ _ (cos_lipschitz t' t) F) as Ct.
  replace (sin p' * sin q + cos p' * cos q * cos t' - (sin p * sin q + cos p * cos q * cos t)) with (sin q * (sin p' - sin p) + (cos q * cos t' * (cos p' - cos p) + cos p * cos q * (cos t' - cos t))) by ring.
  pose proof (shrink _ _ _ (sin_1 q) S) as H1. pose proof (shrink _ _ _ (one _ _ (cos_1 q) (cos_1 t')) C) as H2. pose proof (shrink _ _ _ (one _ _ (cos_1 p) (cos_1 q)) Ct) as H3.
  apply Rabs_le_inv in H1, H2, H3. apply Rabs_le. lra.
Qed.
Lemma ratio_drift A A' D D' w : 0 < D <= 1 -> D / 2 <= D' -> Rabs A' <= 1 -> Rabs (A' - A) <= w -> Rabs (D' - D) <= w -> Rabs (A' / D' - A / D) <= 3 * w / (D * D).
Proof.
  intros [D0 D1] H A1 Ha Hd. assert (D' <> 0) by (apply Rgt_not_eq; lra). assert (D <> 0) by (apply Rgt_not_eq; lra). replace (A' / D' - A / D) with ((A' - A) / D - A' * (D' - D) / (D * D')) by (field; auto).
  assert (W : 0 <= w) by (pose proof (Rabs_pos (A' - A)); lra). assert (B0 : 0 < D * D) by (apply Rmult_lt_0_compat; lra).
  assert (B1 : Rabs ((A' - A) / D) <= w / (D * D)). { unfold Rdiv. rewrite Rabs_mult, (Rabs_right (/ D)) by (left; now apply Rinv_0_lt_compat). apply Rmult_le_compat; [apply Rabs_pos | left; now apply Rinv_0_lt_compat | exact Ha|]. apply Rinv_le_contravar; [exact B0|]. assert (D * D <= D * 1) by (apply Rmult_le_compat_l; lra). lra. }
  assert (B2 : Rabs (A' * (D' - D) / (D * D')) <= 2 * (w / (D * D))). { unfold Rdiv. rewrite Rabs_mult, (Rabs_right (/ (D * D'))) by (left; apply Rinv_0_lt_compat, Rmult_lt_0_compat; lra). replace (2 * (w * / (D * D))) with (w * / (D * (D / 2))) by (field; lra). apply Rmult_le_compat; [apply Rabs_pos | left; apply Rinv_0_lt_compat, Rmult_lt_0_compat; lra | now apply shrink |]. apply Rinv_le_contravar; [apply Rmult_lt_0_compat; lra | apply Rmult_le_compat_l; lra]. }
  replace (3 * w / (D * D)) with (w / (D * D) + 2 * (w / (D * D))) by (unfold Rdiv; ring). apply Rabs_le_inv in B1, B2. apply Rabs_le. lra.
Qed.
(** Two directions that differ little are seen at places that differ little. *)
Lemma seen_drift cd crpix crval m x y x' y' r d r' d' e f : inverse_of m cd -> seen cd crpix crval x y (direction r d) -> seen cd crpix crval x' y' (direction r' d') ->
  Rabs ((d' - d) * (PI / 180)) <= e -> Rabs ((r' - r) * (PI / 180)) <= f -> let D := cosine crval r d in 2 * (2 * e + f) <= D ->
  let '((m11, m12), (m21, m22)) := m in let s := 180 / PI * (3 * (2 * e + f) / (D * D)) in Rabs (x' - x) <= (Rabs m11 + Rabs m12) * s /\ Rabs (y' - y) <= (Rabs m21 + Rabs m22) * s.
Proof.
  intros I (k & K & W) (k' & K' & W') E F D HD. destruct cd as [[p q] [s t]], m as [[m11 m12] [m21 m22]]. unfold intermediate in W, W'. destruct I as (I1 & I2 & I3 & I4). cbv zeta.
  set (xi := p * (x - fst crpix) + q * (y - snd crpix)) in *. set (et := s * (x - fst crpix) + t * (y - snd crpix)) in *. set (xi' := p * (x' - fst crpix) + q * (y' - snd crpix)) in *. set (et' := s * (x' - fst crpix) + t * (y' - snd crpix)) in *.
  pose proof (tangent_coordinates (fst crval) (snd crval) k xi et) as (A1 & A2 & A3). pose proof (tangent_coordinates (fst crval) (snd crval) k' xi' et') as (B1 & B2 & B3). cbv zeta in *. rewrite <- W in A1, A2, A3. rewrite <- W' in B1, B2, B3. clear W W'.
  assert (Dk : D = k) by (unfold D, cosine; rewrite <- A1; unfold scalar; ring). rewrite Dk in *. clear D Dk.
  pose proof (dot_drift r d r' d' (fst crval) (snd crval) e f E F) as Q1. change (direction (fst crval) (snd crval)) with (centre (fst crval) (snd crval)) in Q1. rewrite A1, B1 in Q1.
  pose proof (dot_drift r d r' d' (fst crval + 90) 0 e f E F) as Q2. change (direction (fst crval + 90) 0) with (east (fst crval) (snd crval)) in Q2. rewrite A2, B2 in Q2.
  pose proof (dot_drift r d r' d' (fst crval) (snd crval + 90) e f E F) as Q3. change (direction (fst crval) (snd crval + 90)) with (north (fst crval) (snd crval)) in Q3. rewrite A3, B3 in Q3.
  pose proof (dot_1 r d (fst crval) (snd crval)) as K1. change (direction (fst crval) (snd crval)) with (centre (fst crval) (snd crval)) in K1. rewrite A1 in K1. apply Rabs_le_inv in K1.
  pose proof (dot_1 r' d' (fst crval + 90) 0) as E1. change (direction (fst crval + 90) 0) with (east (fst crval) (snd crval)) in E1. rewrite B2 in E1.
  pose proof (dot_1 r' d' (fst crval) (snd crval + 90)) as N1. change (direction (fst crval) (snd crval + 90)) with (north (fst crval) (snd crval)) in N1. rewrite B3 in N1.
  assert (Kh : k / 2 <= k') by (apply Rabs_le_inv in Q1; lra). assert (K2 : 0 < k <= 1) by lra. pose proof PI_RGT_0 as P0. set (w := 2 * e + f) in *.
  pose proof (ratio_drift _ _ _ _ _ K2 Kh E1 Q2 Q1) as X. pose proof (ratio_drift _ _ _ _ _ K2 Kh N1 Q3 Q1) as Y. set (z := 3 * w / (k * k)) in *.
  assert (S0 : 0 < 180 / PI) by (apply Rdiv_lt_0_compat; lra).
  assert (X' : Rabs (xi' - xi) <= 180 / PI * z). { replace (xi' - xi) with (180 / PI * (k' * (xi' * PI / 180) / k' - k * (xi * PI / 180) / k)) by (field; lra). rewrite Rabs_mult, (Rabs_right (180 / PI)) by lra. apply Rmult_le_compat_l; lra. }
  assert (Y' : Rabs (et' - et) <= 180 / PI * z). { replace (et' - et) with (180 / PI * (k' * (et' * PI / 180) / k' - k * (et * PI / 180) / k)) by (field; lra). rewrite Rabs_mult, (Rabs_right (180 / PI)) by lra. apply Rmult_le_compat_l; lra. }
  assert (G : forall a b, Rabs (a * (xi' - xi) + b * (et' - et)) <= (Rabs a + Rabs b) * (180 / PI * z)). { intros a b. eapply Rle_trans; [apply Rabs_triang|]. rewrite !Rabs_mult, Rmult_plus_distr_r. apply Rplus_le_compat; apply Rmult_le_compat_l; auto using Rabs_pos. }
  split.
  - replace (x' - x) with (m11 * (xi' - xi) + m12 * (et' - et)); [apply G|]. unfold xi, xi', et, et'. transitivity ((m11 * p + m12 * s) * (x' - x) + (m11 * q + m12 * t) * (y' - y)); [ring | rewrite I1, I2; ring].
  - replace (y' - y) with (m21 * (xi' - xi) + m22 * (et' - et)); [apply G|]. unfold xi, xi', et, et'. transitivity ((m21 * p + m22 * s) * (x' - x) + (m21 * q + m22 * t) * (y' - y)); [ring | rewrite I3, I4; ring].
Qed.
Lemma pixel_error_mono emin prec D D' d i1 i2 c : 0 < D <= D' -> 0 <= d -> pixel_error emin prec D' d i1 i2 c <= pixel_error emin prec D d i1 i2 c.
Proof.
  intros [H0 H1] Hd. unfold pixel_error. pose proof (u_pos prec) as U0. pose proof PI_RGT_0. assert (V : / D' <= / D) by (apply Rinv_le_contravar; lra). assert (V0 : 0 < / D') by (apply Rinv_0_lt_compat; lra). assert (S0 : 0 < 180 / PI) by (apply Rdiv_lt_0_compat; lra).
  assert (A : unit_of prec / D' <= unit_of prec / D) by (apply Rmult_le_compat_l; lra). assert (B : 180 / PI / D' <= 180 / PI / D) by (apply Rmult_le_compat_l; lra). assert (A0 : 0 <= unit_of prec / D') by (apply Rmult_le_pos; lra). assert (B0 : 0 <= 180 / PI / D') by (apply Rmult_le_pos; lra).
  assert (I : 0 <= 243 * (Rabs i1 + Rabs i2)) by (pose proof (Rabs_pos i1); pose proof (Rabs_pos i2); lra).
  assert (243 * (Rabs i1 + Rabs i2) * (unit_of prec / D') * (180 / PI / D') <= 243 * (Rabs i1 + Rabs i2) * (unit_of prec / D) * (180 / PI / D)) by (apply Rmult_le_compat; [apply Rmult_le_pos; lra | lra | apply Rmult_le_compat_l; lra | lra]).
  assert (2 * d * (180 / PI / D') <= 2 * d * (180 / PI / D)) by (apply Rmult_le_compat_l; lra). lra.
Qed.
(** What the pixel of a detector is known within: the errors of the projection and of the direction. *)
Definition whole_error (emin prec : Z) (D c d i1 i2 m1 m2 p : R) : R :=
  pixel_error emin prec (D / 2) d i1 i2 p + 41 * (Rabs m1 + Rabs m2) * (unit_of prec / (c * c)) * (180 / PI / (D * D)).
Theorem C134_whole : forall emin prec emin' prec' sn cs deg rad a m m' d nx ny ra dec pa v w area ra' dec' x y ix iy, (0 < prec)%Z -> (0 < prec')%Z -> (emin <= 1 - 2 * prec)%Z -> libm prec sn cs deg rad ->
  inverse_of m (cdm a) -> close22 d m m' -> Rabs ra <= 360 -> Rabs pa <= 360 -> Rabs v <= 3600 -> Rabs w <= 3600 -> Rabs (fst (crval a)) <= 360 -> Rabs (snd (crval a)) <= 90 ->
  pointed ra dec pa v w ra' dec' -> Rabs dec' <= 90 -> let c := cos (dec' * PI / 180) in let D := cosine (crval a) ra' dec' in
  0 < D -> 8192 * (unit_of prec / (c * c)) <= D -> 0 < c -> Rabs ra' + 460 * (unit_of prec / (c * c)) <= 360 ->
  seen (cdm a) (crpix a) (crval a) (x + 1) (y + 1) (direction ra' dec') ->
  (let '((i11, i12), (i21, i22)) := m' in let '((m11, m12), (m21, m22)) := m in
   well_inside (whole_error emin prec D c d i11 i12 m11 m12 (fst (crpix a))) x ix /\ well_inside (whole_error emin prec D c d i21 i22 m21 m22 (snd (crpix a))) y iy) ->
  exists out index value, nearest_one_r emin prec emin' prec' sn cs deg rad (crval a) m' (crpix_r emin prec (crpix a)) nx ny (ra, dec, pa) (v, w) area = Some (out, (index, value)) /\
    (in_map nx ny ix iy -> out = false /\ index = (iy * nx + ix)%Z) /\ (~ in_map nx ny ix iy -> out = true /\ index = (-1)%Z).
Proof.
  intros emin prec emin' prec' sn cs deg rad a m m' d nx ny ra dec pa v w area ra' dec' x y ix iy Pp Pp' Pe L I C Hra Hpa Hv Hw Hc1 Hc2 Po Hd c D D0 HD c0 Hr Sn W.
  pose proof (u_pos prec) as U0. pose proof pi_low as P3. pose proof pi_high as P4. assert (c1 : c <= 1) by (unfold c; apply COS_bound). assert (D1 : D <= 1). { pose proof (dot_1 (fst (crval a)) (snd (crval a)) ra' dec') as T. apply Rabs_le_inv in T. exact (proj2 T). }
  assert (cc : 0 < c * c <= c). { split; [apply Rmult_lt_0_compat; lra|]. assert (c * c <= c * 1) by (apply Rmult_le_compat_l; lra). lra. }
  set (q := unit_of prec / (c * c)) in *. assert (Q : unit_of prec = q * (c * c)) by (unfold q; field; lra). assert (q0 : 0 < q) by (apply Rdiv_lt_0_compat; lra).
  assert (Uq : unit_of prec <= q). { rewrite Q. assert (q * (c * c) <= q * 1) by (apply Rmult_le_compat_l; lra). lra. }
  assert (Hc : 8192 * unit_of prec <= c). { rewrite Q. assert (q * (c * c) <= / 8192 * c) by (apply Rmult_le_compat; lra). lra. }
  pose proof (C134_direction emin prec sn cs deg rad ra dec pa v w ra' dec' Pp Pe L Hra Hpa Hv Hw Po Hd) as Dr. cbv zeta in Dr. fold c in Dr. fold q in Dr. specialize (Dr ltac:(lra)).
  destruct (object2ad_r emin prec sn cs deg ra dec pa (v, w)) as [r dd] eqn:O. destruct Dr as [Ed Er].
  assert (G : 8192 * unit_of prec * (180 / PI) <= 90 - Rabs dec').
  { assert (K : c <= (90 - Rabs dec') * (PI / 180)).
    { destruct (Rle_dec 0 dec') as [Hp|Hn].
      - rewrite Rabs_right in * by lra. pose proof (cos_lipschitz (dec' * PI / 180) (PI / 2)) as K. rewrite cos_PI2, Rminus_0_r in K. fold c in K. rewrite (Rabs_right c) in K by lra. assert (dec' * PI <= 90 * PI) by (apply Rmult_le_compat_r; lra). rewrite Rabs_left1 in K by lra. lra.
      - rewrite Rabs_left in * by lra. pose proof (cos_lipschitz (dec' * PI / 180) (- (PI / 2))) as K. rewrite cos_neg, cos_PI2, Rminus_0_r in K. fold c in K. rewrite (Rabs_right c) in K by lra. assert (- dec' * PI <= 90 * PI) by (apply Rmult_le_compat_r; lra). rewrite Rabs_right in K by lra. lra. }
    apply Rle_trans with ((90 - Rabs dec') * (PI / 180) * (180 / PI)); [apply Rmult_le_compat_r; [left; apply Rdiv_lt_0_compat; lra | lra] | right; field; lra]. }
  assert (S1 : 1 <= 180 / PI) by (apply (Rmult_le_reg_r PI); [lra|]; unfold Rdiv; rewrite Rmult_assoc, Rinv_l by lra; lra).
  assert (8192 * unit_of prec * 1 <= 8192 * unit_of prec * (180 / PI)) by (apply Rmult_le_compat_l; lra).
  assert (A : degrees_ok (crval a) r dd). { repeat split; auto. - pose proof (Rabs_triang ra' (r - ra')) as T. replace (ra' + (r - ra')) with r in T by ring. lra. - pose proof (Rabs_triang dec' (dd - dec')) as T. replace (dec' + (dd - dec')) with dd in T by ring. lra. }
  set (e := 153 * unit_of prec * (3.15 / 180)). set (f := 460 * q * (3.15 / 180)).
  assert (E : Rabs ((dd - dec') * (PI / 180)) <= e). { rewrite Rabs_mult, (Rabs_right (PI / 180)) by lra. apply Rmult_le_compat; [apply Rabs_pos | lra | exact Ed | lra]. }
  assert (F : Rabs ((r - ra') * (PI / 180)) <= f). { rewrite Rabs_mult, (Rabs_right (PI / 180)) by lra. apply Rmult_le_compat; [apply Rabs_pos | lra | exact Er | lra]. }
  assert (Ef : 2 * e + f <= 13.5 * q) by (unfold e, f; lra). pose proof (dot_drift ra' dec' r dd (fst (crval a)) (snd (crval a)) e f E F) as Dd.
  set (D' := cosine (crval a) r dd). assert (DD : D / 2 <= D'). { assert (T : forall s t, cosine (crval a) s t = scalar (direction s t) (direction (fst (crval a)) (snd (crval a)))) by (intros; unfold cosine, centre, scalar; ring). rewrite <- !T in Dd. fold D D' in Dd. apply Rabs_le_inv in Dd. lra. }
  assert (D4 : 4096 * unit_of prec <= D') by lra.
  destruct (C134_element emin prec emin' prec' sn cs deg rad a m m' d nx ny ra dec pa (v, w) area r dd Pp Pp' Pe L I C O A D4) as (x' & y' & _ & _ & _ & _ & _ & Sn' & _).
  pose proof (seen_drift _ _ _ m _ _ _ _ _ _ _ _ e f I Sn Sn' E F) as Sd. cbv zeta in Sd. fold D in Sd. specialize (Sd ltac:(lra)).
  apply (C134_inside emin prec emin' prec' sn cs deg rad a m m' d nx ny ra dec pa (v, w) area r dd x' y' ix iy Pp Pp' Pe L I C O A D4 Sn').
  destruct m as [[m11 m12] [m21 m22]], m' as [[i11 i12] [i21 i22]]. destruct Sd as [S2 S3], W as [W1 W2]. assert (d0 : 0 <= d) by (destruct C as (C1 & _); pose proof (Rabs_pos (m11 - i11)); lra).
  assert (Hs : forall m1 m2, (Rabs m1 + Rabs m2) * (180 / PI * (3 * (2 * e + f) / (D * D))) <= 41 * (Rabs m1 + Rabs m2) * q * (180 / PI / (D * D))).
  { intros m1 m2. replace (41 * (Rabs m1 + Rabs m2) * q * (180 / PI / (D * D))) with ((Rabs m1 + Rabs m2) * (180 / PI * (41 * q * / (D * D)))) by (field; lra). apply Rmult_le_compat_l; [pose proof (Rabs_pos m1); pose proof (Rabs_pos m2); lra|]. apply Rmult_le_compat_l; [lra|]. apply Rmult_le_compat_r; [left; apply Rinv_0_lt_compat, Rmult_lt_0_compat; lra | lra]. }
  pose proof (Hs m11 m12) as T1. pose proof (Hs m21 m22) as T2. fold D'. assert (DD' : 0 < D / 2 <= D') by lra.
  pose proof (pixel_error_mono emin prec (D / 2) D' d i11 i12 (fst (crpix a)) DD' d0) as M1. pose proof (pixel_error_mono emin prec (D / 2) D' d i21 i22 (snd (crpix a)) DD' d0) as M2.
  unfold well_inside, whole_error in *. fold q in W1, W2. apply Rabs_le_inv in S2, S3. split; lra.
Qed.
Print Assumptions C134_whole.
(** The detector of [C134_example]: what it further needs. *)
Example C134_whole_example : cos (0 * PI / 180) = 1 /\ cosine (1, 0) 1 0 = 1 /\ 8192 * (unit_of 53 / (1 * 1)) <= 1 /\ Rabs 1 + 460 * (unit_of 53 / (1 * 1)) <= 360 /\
  well_inside (whole_error (-1074) 53 1 1 0 (-2) 0 (-2) 0 3) 2 2 /\ well_inside (whole_error (-1074) 53 1 1 0 0 4 0 4 4) 3 3.
Proof.
  assert (U : 4096 * 4096 * unit_of 53 <= / 512). { unfold unit_of. rewrite pow2. apply Rle_trans with (4096 * 4096 * bpow radix2 (-33)); [apply Rmult_le_compat_l; [lra | apply bpow_le; lia]|]. unfold bpow. change (Z.pow_pos radix2 33) with 8589934592%Z. lra. } pose proof (u_pos 53) as U0.
  assert (T : tiny_of (-1074) <= unit_of 53) by (unfold tiny_of, unit_of; rewrite !pow2; apply bpow_le; lia). pose proof (eta_pos (-1074)) as T0.
  split; [replace (0 * PI / 180) with 0 by field; apply cos_0|]. split; [destruct (basis_orthonormal 1 0) as [H1 _]; exact H1|]. assert (E : unit_of 53 / (1 * 1) = unit_of 53) by field. rewrite E. split; [lra|]. split; [rewrite Rabs_R1; lra|].
  assert (P : 0 <= 180 / PI <= 60). { pose proof pi_low. unfold Rdiv. assert (/ PI <= / 3) by (apply Rinv_le_contravar; lra). assert (0 < / PI) by (apply Rinv_0_lt_compat; lra). lra. }
  assert (V : forall i1 i2 c, Rabs i1 + Rabs i2 <= 4 -> Rabs (c - 1) <= 3 -> whole_error (-1074) 53 1 1 0 i1 i2 i1 i2 c <= / 4).
  { intros i1 i2 c Hi Hc. unfold whole_error, pixel_error. rewrite E. pose proof (Rabs_pos i1). pose proof (Rabs_pos i2). set (w := 180 / PI) in *. replace (w / (1 / 2)) with (2 * w) by field. replace (w / (1 * 1)) with w by field. replace (unit_of 53 / (1 / 2)) with (2 * unit_of 53) by field.
    assert ((Rabs i1 + Rabs i2) * unit_of 53 * w <= 4 * unit_of 53 * 60) by (apply Rmult_le_compat; [apply Rmult_le_pos; lra | lra | apply Rmult_le_compat_r; lra | lra]). assert (unit_of 53 * Rabs (c - 1) <= unit_of 53 * 3) by (apply Rmult_le_compat_l; lra).
    replace (243 * (Rabs i1 + Rabs i2) * (2 * unit_of 53) * (2 * w)) with (972 * ((Rabs i1 + Rabs i2) * unit_of 53 * w)) by ring. replace (41 * (Rabs i1 + Rabs i2) * unit_of 53 * w) with (41 * ((Rabs i1 + Rabs i2) * unit_of 53 * w)) by ring. lra. }
  split; unfold well_inside.
  - assert (whole_error (-1074) 53 1 1 0 (-2) 0 (-2) 0 3 <= / 4) by (apply V; unfold Rabs; repeat destruct (Rcase_abs _); lra). lra.
  - assert (whole_error (-1074) 53 1 1 0 0 4 0 4 4 <= / 4) by (apply V; unfold Rabs; repeat destruct (Rcase_abs _); lra). lra.
Qed.
