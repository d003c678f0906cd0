(** C141: pixels of detectors in a map within some rounding errors. *)
From Coq Require Import Reals ZArith Lra Lia.
From Flocq Require Import Core.
From Verif Require Import Base RndModel RndSpec RndProps BiFacts BirFacts BirFacts2 BirFacts3 GalFacts RgnModel RgnFacts RgnProps ConstModel SkyModel SkySpec WcsModel WcsSpec WcsFacts WcsFacts2 RboModel RboSpec RboProps RboModel2.
Open Scope R_scope.

(** ** The projection of close directions *)
Lemma times a b a' b' : Rabs a <= 1 -> Rabs b' <= 1 -> Rabs (a * b - a' * b') <= Rabs (a - a') + Rabs (b - b').
Proof.
  intros Ha Hb. replace (a * b - a' * b') with ((a - a') * b' + a * (b - b')) by ring. eapply Rle_trans; [apply Rabs_triang|]. rewrite !Rabs_mult.
  assert (Rabs (a - a') * Rabs b' <= Rabs (a - a') * 1) by (apply Rmult_le_compat_l; [apply Rabs_pos|assumption]). assert (Rabs a * Rabs (b - b') <= 1 * Rabs (b - b')) by (apply Rmult_le_compat_r; [apply Rabs_pos|assumption]). lra.
Qed.
Lemma scaled_1 a b : Rabs a <= 1 -> Rabs (a * b) <= Rabs b.
Proof. intros H. rewrite Rabs_mult. rewrite <- (Rmult_1_l (Rabs b)) at 2. apply Rmult_le_compat_r; [apply Rabs_pos|assumption]. Qed.
Section Plane.
Variables (crv : R * R) (a d a' d' : R).
Notation r x := (x * (PI / 180)).
Notation l := (r a - r (fst crv)).
Notation l' := (r a' - r (fst crv)).
Notation p1 := (r (snd crv)).
Notation move := (2 * Rabs (r d - r d') + Rabs (r a - r a')).
Lemma cs_near : Rabs (cos (r d) * cos l - cos (r d') * cos l') <= Rabs (r d - r d') + Rabs (r a - r a').
Proof. eapply Rle_trans; [apply times; apply cos_1|]. pose proof (cos_lipschitz (r d) (r d')). pose proof (cos_lipschitz l l') as Hl. replace (l - l') with (r a - r a') in Hl by ring. lra. Qed.
Lemma xsi_near : Rabs (cos (r d) * sin l - cos (r d') * sin l') <= move.
Proof. eapply Rle_trans; [apply times; [apply cos_1|apply sin_1]|]. pose proof (cos_lipschitz (r d) (r d')). pose proof (sin_lipschitz l l') as Hl. replace (l - l') with (r a - r a') in Hl by ring. pose proof (Rabs_pos (r d - r d')). lra. Qed.
Lemma eta_near : Rabs ((cos p1 * sin (r d) - sin p1 * cos (r d) * cos l) - (cos p1 * sin (r d') - sin p1 * cos (r d') * cos l')) <= move.
Proof.
  replace ((cos p1 * sin (r d) - sin p1 * cos (r d) * cos l) - (cos p1 * sin (r d') - sin p1 * cos (r d') * cos l')) with (cos p1 * (sin (r d) - sin (r d')) + - (sin p1 * (cos (r d) * cos l - cos (r d') * cos l'))) by ring.
  eapply Rle_trans; [apply Rabs_triang|]. rewrite Rabs_Ropp. pose proof (scaled_1 (cos p1) (sin (r d) - sin (r d')) (cos_1 _)). pose proof (scaled_1 (sin p1) (cos (r d) * cos l - cos (r d') * cos l') (sin_1 _)). pose proof cs_near. pose proof (sin_lipschitz (r d) (r d')). lra.
Qed.
Lemma cosine_near : Rabs (cosine crv a d - cosine crv a' d') <= move.
Proof.
  rewrite (proj1 (exact_plane crv a d)), (proj1 (exact_plane crv a' d')).
  replace (sin p1 * sin (r d) + cos p1 * cos (r d) * cos l - (sin p1 * sin (r d') + cos p1 * cos (r d') * cos l')) with (sin p1 * (sin (r d) - sin (r d')) + cos p1 * (cos (r d) * cos l - cos (r d') * cos l')) by ring.
  eapply Rle_trans; [apply Rabs_triang|]. pose proof (scaled_1 (sin p1) (sin (r d) - sin (r d')) (sin_1 _)). pose proof (scaled_1 (cos p1) (cos (r d) * cos l - cos (r d') * cos l') (cos_1 _)). pose proof cs_near. pose proof (sin_lipschitz (r d) (r d')). lra.
Qed.
End Plane.
Lemma ratio n D n' D' m : 0 < D -> 0 < D' <= 1 -> Rabs (n - n') <= m -> Rabs (D - D') <= m -> Rabs n' <= 1 -> Rabs (n / D - n' / D') <= 2 * m / (D * D').
Proof.
  intros HD [HD' HD1] Hn Hd H1. assert (m0 : 0 <= m) by (pose proof (Rabs_pos (n - n')); lra). replace (n / D - n' / D') with (((n - n') * D' + (- n') * (D - D')) * / (D * D')) by (field; lra).
  rewrite Rabs_mult, Rabs_inv, (Rabs_right (D * D')) by (apply Rle_ge, Rmult_le_pos; lra). apply Rmult_le_compat_r; [left; apply Rinv_0_lt_compat, Rmult_lt_0_compat; lra|].
  eapply Rle_trans; [apply Rabs_triang|]. rewrite !Rabs_mult, Rabs_Ropp, (Rabs_right D') by lra.
  assert (Rabs (n - n') * D' <= m * 1) by (apply Rmult_le_compat; try lra; apply Rabs_pos). assert (Rabs n' * Rabs (D - D') <= 1 * m) by (apply Rmult_le_compat; try lra; apply Rabs_pos). lra.
Qed.

(** ** Pixels *)
(** What the pixel needs: the detector is near the axis, its direction is neither near a pole nor far from the reference of the map. *)
Definition visible (prec : Z) (crv : R * R) (p : R * R * R) (x : R * R) : Prop :=
  let '(ra, dec, pa) := p in let a := right_ascension ra dec pa (fst x) (snd x) in let d := declination dec pa (fst x) (snd x) in let C := cos (d * (PI / 180)) in
  Rabs ra <= 360 /\ Rabs dec <= 90 /\ Rabs pa <= 360 /\ near_axis x /\ Rabs a <= 359 /\ Rabs d <= 89 /\ Rabs (fst crv) <= 360 /\ Rabs (snd crv) <= 90 /\
  95000 * unit_of prec <= C * C * cosine crv a d.
Definition sky_pixel_error (emin prec : Z) (C D d i1 i2 c : R) : R :=
  365 * (Rabs i1 + Rabs i2) * (unit_of prec / (C * C * D)) * (180 / PI / D) + 2 * d * (180 / PI / D) + 3 * unit_of prec * Rabs (c - 1) + 7 * tiny_of emin.

Lemma plane_of emin prec sn cs deg rad crv ra dec pa x : (24 <= prec)%Z -> (emin <= 1 - 2 * prec)%Z -> libm prec sn cs deg rad -> visible prec crv (ra, dec, pa) x ->
  let a' := right_ascension ra dec pa (fst x) (snd x) in let d' := declination dec pa (fst x) (snd x) in let C := cos (d' * (PI / 180)) in let D := cosine crv a' d' in
  let S := 180 / PI / D in let e := 3 / 2 * (unit_of prec / (C * C * D)) in
  exists a d X Y xsi eta, object2ad_r emin prec sn cs deg ra dec pa x = Some (a, d) /\ xsi_eta_r emin prec sn cs deg rad (init_gnomonic_r emin prec sn cs deg crv) a d = Some (X, Y) /\
    direction a' d' = scale3 D (tangent (fst crv) (snd crv) xsi eta) /\ 0 < D /\ Rabs (X - xsi) <= 239 * e * S /\ Rabs (Y - eta) <= 239 * e * S /\ Rabs xsi <= S /\ Rabs eta <= S /\ 1 <= S /\ e <= / 4096 /\ unit_of prec <= e.
Proof.
  intros Pp Pe L (Hra & Hdec & Hpa & Hx & Ba & Bd & Hc1 & Hc2 & V). cbv zeta. set (a' := right_ascension ra dec pa (fst x) (snd x)) in *. set (d' := declination dec pa (fst x) (snd x)) in *.
  set (C := cos (d' * (PI / 180))) in *. set (D := cosine crv a' d') in *. set (u := unit_of prec) in *.
  assert (U0 : 0 < u) by apply u_pos. assert (U2 : u <= / 16777216) by (apply U2; exact Pp).
  destruct (exact_plane crv a' d') as [Ec Ex]. fold D in Ec, Ex. pose proof (two a' (fst crv) (snd crv * (PI / 180)) (d' * (PI / 180))) as [T T2]. rewrite <- Ec in T. apply Rabs_le_inv in T.
  assert (CC : 0 <= C * C <= 1). { pose proof (cos_1 (d' * (PI / 180))) as H. fold C in H. split; [pose proof (Rle_0_sqr C); unfold Rsqr in *; lra|]. apply Rabs_le_inv in H. nra. }
  assert (D0 : 0 < D). { destruct (Rlt_dec 0 D) as [G|G]; [exact G|]. assert (C * C * D <= C * C * 0) by (apply Rmult_le_compat_l; lra). lra. }
  assert (CD : C * C * D <= D) by (rewrite <- (Rmult_1_l D) at 2; apply Rmult_le_compat_r; lra). assert (CD' : C * C * D <= C * C) by (rewrite <- (Rmult_1_r (C * C)) at 2; apply Rmult_le_compat_l; lra).
  assert (C2 : C * C <= Rabs C). { pose proof (cos_1 (d' * (PI / 180))) as H. fold C in H. rewrite <- (Rabs_right (C * C)) by lra. rewrite Rabs_mult. rewrite <- (Rmult_1_r (Rabs C)) at 3. apply Rmult_le_compat_l; [apply Rabs_pos|exact H]. }
  assert (CCp : 0 < C * C) by lra. assert (Cn0 : C <> 0) by (intros Z; rewrite Z in CCp; lra). assert (CDp : 0 < C * C * D) by lra.
  destruct (proj1 (C140_positions emin prec sn cs deg rad ra dec pa x Pp Pe L Hra Hdec Hpa Hx ltac:(fold d'; fold C; fold u; lra))) as (a & d & Eo & Hd & Ha). fold d' in Hd. fold a' d' in Ha. fold C u in Ha. fold u in Hd.
  exists a, d. 
  (* both errors are small before D *)
  assert (eps : 1500 * u / (C * C) <= 0.016 * D). { apply (Rmult_le_reg_r (C * C)); [lra|]. unfold Rdiv. rewrite Rmult_assoc, Rinv_l by lra. lra. }
  assert (eps0 : u <= u / (C * C)). { apply (Rmult_le_reg_r (C * C)); [lra|]. unfold Rdiv. rewrite Rmult_assoc, Rinv_l by lra. rewrite Rmult_1_r. rewrite <- (Rmult_1_r u) at 2. apply Rmult_le_compat_l; lra. }
  pose proof pi_low as P3. pose proof pi_high as P4.
  set (m := 2970 * (u / (C * C)) * (PI / 180)).
  assert (M : 2 * Rabs (d * (PI / 180) - d' * (PI / 180)) + Rabs (a * (PI / 180) - a' * (PI / 180)) <= m).
  { replace (d * (PI / 180) - d' * (PI / 180)) with ((d - d') * (PI / 180)) by ring. replace (a * (PI / 180) - a' * (PI / 180)) with ((a - a') * (PI / 180)) by ring. rewrite !Rabs_mult, (Rabs_right (PI / 180)) by lra.
    unfold m. replace (2 * (Rabs (d - d') * (PI / 180)) + Rabs (a - a') * (PI / 180)) with ((2 * Rabs (d - d') + Rabs (a - a')) * (PI / 180)) by ring. apply Rmult_le_compat_r; [lra|]. replace (1500 * u / (C * C)) with (1500 * (u / (C * C))) in Ha by (field; repeat split; (exact Cn0 || lra)). lra. }
  assert (m1 : m <= 0.001 * D). { unfold m. replace (1500 * u / (C * C)) with (1500 * (u / (C * C))) in eps by (field; repeat split; (exact Cn0 || lra)). apply Rle_trans with (2970 * (u / (C * C)) * (3.15 / 180)); [apply Rmult_le_compat_l|]; lra. }
  pose proof (cosine_near crv a d a' d') as Dn. fold D in Dn. assert (Dm : Rabs (cosine crv a d - D) <= m) by lra. set (Dr := cosine crv a d) in *. pose proof (Rabs_le_inv _ _ Dm) as Dm'.
  assert (Bad : degrees_ok crv a d). { split; [|split; [|split; assumption]].
    - apply Rle_trans with (1 := near_abs _ _ _ _ Ha Ba). lra.
    - apply Rle_trans with (1 := near_abs _ _ _ _ Hd Bd). lra. }
  assert (Vd : 4096 * unit_of prec <= Dr) by (fold u; lra).
  destruct (exact_plane crv a d) as [Ecr Exr]. fold Dr in Ecr, Exr.
  pose proof (two a (fst crv) (snd crv * (PI / 180)) (d * (PI / 180))) as [Tr _]. rewrite <- Ecr in Tr. apply Rabs_le_inv in Tr.
  assert (U1 : unit_of prec <= / 4096) by (fold u; lra). pose proof Vd as Vd'. rewrite Ecr in Vd'.
  destruct Bad as (B1 & B2 & B3 & B4).
  destruct (plane emin prec sn cs deg rad ltac:(lia) L U1 (eta_uu emin prec Pe) a d (fst crv) (snd crv) B1 B3 B2 B4 Vd') as (X & Y & E & HX & HY). rewrite <- Ecr in HX, HY. rewrite <- surjective_pairing in E.
  assert (C0 : cosc (Astrometry (0, 0) crv ((1, 0), (0, 1))) a' d' <> 0) by (rewrite cosc_scalar; cbn [crval]; fold (cosine crv a' d'); fold D; lra). pose proof (gnomonic_ray _ _ _ C0) as G. rewrite Ex, cosc_scalar in G. cbn [crval] in G. fold (cosine crv a' d') in G. fold D in G.
  exists X, Y. do 2 eexists. split; [exact Eo|]. split; [exact E|]. split; [exact G|]. split; [exact D0|].
  set (S := 180 / PI / D). assert (S1 : 1 <= S). { unfold S. apply (Rmult_le_reg_r (PI * D)); [apply Rmult_lt_0_compat; lra|]. replace (180 / PI / D * (PI * D)) with 180 by (field; repeat split; (exact Cn0 || lra)). assert (PI * D <= 3.15 * 1) by (apply Rmult_le_compat; lra). lra. }
  set (e' := u / (C * C * D)). assert (ue : u <= e'). { unfold e'. apply (Rmult_le_reg_r (C * C * D)); [lra|]. replace (u / (C * C * D) * (C * C * D)) with u by (field; repeat split; (exact Cn0 || lra)). rewrite <- (Rmult_1_r u) at 2. apply Rmult_le_compat_l; lra. }
  assert (e1 : e' <= / 95000). { unfold e'. apply (Rmult_le_reg_r (C * C * D)); [lra|]. replace (u / (C * C * D) * (C * C * D)) with u by (field; repeat split; (exact Cn0 || lra)). lra. }
  assert (B : forall v, Rabs v <= 1 -> Rabs (S * v) <= S). { intros v Hv. rewrite Rabs_mult, (Rabs_right S) by lra. rewrite <- (Rmult_1_r S) at 2. apply Rmult_le_compat_l; lra. }
  (* one coordinate *)
  assert (K : forall z n n', Rabs (z - 180 / PI / Dr * n) <= 239 * (u / Dr) * (180 / PI / Dr) -> Rabs (n - n') <= m -> Rabs n' <= 1 -> Rabs (z - S * n') <= 239 * (3 / 2 * e') * S).
  { intros z n n' Hz Hn Hn'. pose proof (tri z (180 / PI / Dr * n) (S * n')) as Tz. pose proof (ratio n Dr n' D m ltac:(lra) ltac:(lra) Hn Dm Hn') as Q.
    replace (180 / PI / Dr * n - S * n') with (180 / PI * (n / Dr - n' / D)) in Tz by (unfold S; field; repeat split; (exact Cn0 || lra)). rewrite Rabs_mult, (Rabs_right (180 / PI)) in Tz by (apply Rle_ge; left; apply Rdiv_lt_0_compat; lra).
    assert (I : / Dr <= 1.0011 * / D). { replace (1.0011 * / D) with (/ (D / 1.0011)) by (field; repeat split; (exact Cn0 || lra)). apply Rinv_le; lra. } assert (Ip : 0 < / Dr) by (apply Rinv_0_lt_compat; lra). assert (Iq : 0 < / D) by (apply Rinv_0_lt_compat; lra).
    assert (ES0 : 0 <= e' * S) by (apply Rmult_le_pos; lra).
    assert (Z1 : 239 * (u / Dr) * (180 / PI / Dr) <= 240 * (e' * S)).
    { assert (q0 : 0 < 180 / PI) by (apply Rdiv_lt_0_compat; lra). set (q := 180 / PI) in *. assert (II : / Dr * / Dr <= 1.0011 * / D * (1.0011 * / D)) by (apply Rmult_le_compat; lra).
      assert (uq : 0 < u * q) by (apply Rmult_lt_0_compat; lra). replace (239 * (u / Dr) * (q / Dr)) with (239 * (u * q * (/ Dr * / Dr))) by (field; repeat split; (exact Cn0 || lra)).
      apply Rle_trans with (239 * (u * q * (1.0011 * / D * (1.0011 * / D)))); [apply Rmult_le_compat_l; [lra|]; apply Rmult_le_compat_l; lra|].
      assert (X1 : u * q * (/ D * / D) <= e' * S). { replace (u * q * (/ D * / D)) with (u * / D * (q * / D)) by ring. unfold S, Rdiv at 1. fold q. change (q / D) with (q * / D). apply Rmult_le_compat_r; [apply Rmult_le_pos; lra|]. unfold e'. apply (Rmult_le_reg_r (C * C * D)); [lra|]. replace (u * / D * (C * C * D)) with (u * (C * C)) by (field; repeat split; (exact Cn0 || lra)). replace (u / (C * C * D) * (C * C * D)) with (u * 1) by (field; repeat split; (exact Cn0 || lra)). apply Rmult_le_compat_l; lra. }
      replace (239 * (u * q * (1.0011 * / D * (1.0011 * / D)))) with (239 * 1.0011 * 1.0011 * (u * q * (/ D * / D))) by ring. lra. }
    assert (Z2 : 180 / PI * Rabs (n / Dr - n' / D) <= 105 * (e' * S)).
    { apply Rle_trans with (180 / PI * (2 * m / (Dr * D))); [apply Rmult_le_compat_l; [left; apply Rdiv_lt_0_compat; lra|exact Q]|].
      replace (180 / PI * (2 * m / (Dr * D))) with (5940 * (u / (C * C)) * / D * / Dr) by (unfold m; field; repeat split; (exact Cn0 || lra)).
      replace (e' * S) with (180 / PI * (u / (C * C) * / D * / D)) by (unfold e', S; field; repeat split; (exact Cn0 || lra)).
      assert (w0 : 0 < u / (C * C) * / D) by (apply Rmult_lt_0_compat; [apply Rdiv_lt_0_compat|]; lra). set (w := u / (C * C) * / D) in *.
      apply Rle_trans with (5940 * w * (1.0011 * / D)); [replace (5940 * (u / (C * C)) * / D * / Dr) with (5940 * w * / Dr) by (unfold w; ring); apply Rmult_le_compat_l; lra|].
      assert (q1 : 57.14 <= 180 / PI). { apply (Rmult_le_reg_r PI); [lra|]. unfold Rdiv. rewrite Rmult_assoc, Rinv_l by lra. lra. }
      assert (wd : 0 < w * / D) by (apply Rmult_lt_0_compat; lra). replace (u / (C * C) * / D * / D) with (w * / D) by reflexivity. assert (57.14 * (w * / D) <= 180 / PI * (w * / D)) by (apply Rmult_le_compat_r; lra). lra. }
    lra. }
  split; [apply K with (n := cos (d * (PI / 180)) * sin (a * (PI / 180) - fst crv * (PI / 180))); [exact HX | pose proof (xsi_near crv a d a' d'); lra | apply one; [apply cos_1 | apply sin_1]]|].
  split; [apply K with (n := cos (snd crv * (PI / 180)) * sin (d * (PI / 180)) - sin (snd crv * (PI / 180)) * cos (d * (PI / 180)) * cos (a * (PI / 180) - fst crv * (PI / 180))); [exact HY | pose proof (eta_near crv a d a' d'); lra | exact T2]|].
  split; [apply B, one; [apply cos_1 | apply sin_1]|]. split; [apply B, T2|]. split; [exact S1|]. split; lra.
Qed.

(** The coordinates in the plane of the map, in degrees. *)
Theorem C141_plane : forall emin prec sn cs deg rad crv ra dec pa x, (24 <= prec)%Z -> (emin <= 1 - 2 * prec)%Z -> libm prec sn cs deg rad -> visible prec crv (ra, dec, pa) x ->
  let a' := right_ascension ra dec pa (fst x) (snd x) in let d' := declination dec pa (fst x) (snd x) in let C := cos (d' * (PI / 180)) in let D := cosine crv a' d' in
  exists a d X Y xsi eta, object2ad_r emin prec sn cs deg ra dec pa x = Some (a, d) /\ xsi_eta_r emin prec sn cs deg rad (init_gnomonic_r emin prec sn cs deg crv) a d = Some (X, Y) /\
    direction a' d' = scale3 D (tangent (fst crv) (snd crv) xsi eta) /\
    Rabs (X - xsi) <= 360 * (unit_of prec / (C * C * D)) * (180 / PI / D) /\ Rabs (Y - eta) <= 360 * (unit_of prec / (C * C * D)) * (180 / PI / D).
Proof.
  intros emin prec sn cs deg rad crv ra dec pa x Pp Pe L V. cbv zeta. destruct (plane_of emin prec sn cs deg rad crv ra dec pa x Pp Pe L V) as (a & d & X & Y & xsi & eta & E1 & E2 & G & D0 & HX & HY & _ & _ & S1 & _ & Ue). exists a, d, X, Y, xsi, eta.
  split; [exact E1|]. split; [exact E2|]. split; [exact G|]. pose proof (u_pos prec) as U0.
  match type of S1 with 1 <= ?s => set (S := s) in * end. match type of Ue with _ <= 3 / 2 * ?t => set (e := t) in * end. assert (0 <= e * S) by (apply Rmult_le_pos; lra). split; lra.
Qed.
Print Assumptions C141_plane.
(** The pixel: that of the map, for an inverse of the matrix that is stored within [dm]. *)
Theorem C141_pixel : forall emin prec sn cs deg rad a m m' dm ra dec pa x, (24 <= prec)%Z -> (emin <= 1 - 2 * prec)%Z -> libm prec sn cs deg rad -> visible prec (crval a) (ra, dec, pa) x -> inverse_of m (cdm a) -> close22 dm m m' ->
  let a' := right_ascension ra dec pa (fst x) (snd x) in let d' := declination dec pa (fst x) (snd x) in let C := cos (d' * (PI / 180)) in let D := cosine (crval a) a' d' in
  exists px py X Y, object2xy_r emin prec sn cs deg rad (crval a) m' (crpix_r emin prec (crpix a)) (ra, dec, pa) x = Some (px, py) /\
    seen (cdm a) (crpix a) (crval a) (X + 1) (Y + 1) (direction a' d') /\
    let '((i11, i12), (i21, i22)) := m' in
    Rabs (px - X) <= sky_pixel_error emin prec C D dm i11 i12 (fst (crpix a)) /\ Rabs (py - Y) <= sky_pixel_error emin prec C D dm i21 i22 (snd (crpix a)).
Proof.
  intros emin prec sn cs deg rad a m m' d ra dec pa z Pp Pe L V I Cl. cbv zeta.
  destruct (plane_of emin prec sn cs deg rad (crval a) ra dec pa z Pp Pe L V) as (ar & dr & x & y & xsi & eta & Eo & E & G & D0 & X & Y & Bx & By & Sb & E1 & Ue).
  set (a' := right_ascension ra dec pa (fst z) (snd z)) in *. set (d' := declination dec pa (fst z) (snd z)) in *. set (CC := cos (d' * (PI / 180))) in *. set (D := cosine (crval a) a' d') in *.
  pose proof (u_pos prec) as U0. assert (U1 : unit_of prec <= / 4096) by lra. unfold sky_pixel_error. set (S := 180 / PI / D) in *. set (e' := unit_of prec / (CC * CC * D)) in *. set (e := 3 / 2 * e') in *.
  destruct m as [[j11 j12] [j21 j22]], m' as [[i11 i12] [i21 i22]]. destruct a as [[c1 c2] crv [[p q] [r s]]]. cbn [cdm crpix crval fst snd] in *. destruct I as (I1 & I2 & I3 & I4), Cl as (C1 & C2 & C3 & C4).
  assert (H : forall i1 i2 j1 j2 c, Rabs (j1 - i1) <= d -> Rabs (j2 - i2) <= d ->
    Rabs (rndp emin prec (rndp emin prec (rndp emin prec (i1 * x) + rndp emin prec (i2 * y)) + rndp emin prec (c - 1)) - (j1 * xsi + j2 * eta + (c - 1))) <= 365 * (Rabs i1 + Rabs i2) * e' * S + 2 * d * S + 3 * unit_of prec * Rabs (c - 1) + 7 * tiny_of emin).
  { intros i1 i2 j1 j2 c D1 D2. pose proof (row emin prec ltac:(lia) U1 (eta_uu emin prec Pe) e S E1 Ue Sb i1 i2 (rndp emin prec (c - 1)) x y xsi eta X Y Bx By) as R. pose proof (offset emin prec ltac:(lia) U1 c) as O. set (o := rndp emin prec (c - 1)) in *.
    match type of R with Rabs (?v - ?w) <= _ => pose proof (tri v w (j1 * xsi + j2 * eta + (c - 1))) as T end.
    assert (Q : Rabs (i1 * xsi + i2 * eta + o - (j1 * xsi + j2 * eta + (c - 1))) <= 2 * d * S + Rabs (o - (c - 1))).
    { replace (i1 * xsi + i2 * eta + o - (j1 * xsi + j2 * eta + (c - 1))) with ((- (j1 - i1)) * xsi + (- (j2 - i2)) * eta + (o - (c - 1))) by ring. eapply Rle_trans; [apply Rabs_triang|]. pose proof (Rabs_triang (- (j1 - i1) * xsi) (- (j2 - i2) * eta)) as W. rewrite !Rabs_mult, !Rabs_Ropp in W.
      assert (Rabs (j1 - i1) * Rabs xsi <= d * S) by (apply Rmult_le_compat; try apply Rabs_pos; assumption). assert (Rabs (j2 - i2) * Rabs eta <= d * S) by (apply Rmult_le_compat; try apply Rabs_pos; assumption). lra. }
    assert (N0 : 0 <= (Rabs i1 + Rabs i2) * (e' * S)). { apply Rmult_le_pos; [pose proof (Rabs_pos i1); pose proof (Rabs_pos i2); lra|]. apply Rmult_le_pos; unfold e in *; lra. }
    replace (243 * (Rabs i1 + Rabs i2) * e * S) with (729 / 2 * ((Rabs i1 + Rabs i2) * (e' * S))) in R by (unfold e; field).
    replace (365 * (Rabs i1 + Rabs i2) * e' * S) with (365 * ((Rabs i1 + Rabs i2) * (e' * S))) by ring. lra. }
  do 2 eexists. exists (j11 * xsi + j12 * eta + (c1 - 1)), (j21 * xsi + j22 * eta + (c2 - 1)). split; [unfold object2xy_r; rewrite Eo; unfold ad2xy_r; rewrite E; unfold rotation_r, crpix_r; cbn [fst snd]; reflexivity|]. split; [|split; apply H; assumption].
  exists D. split; [exact D0|]. unfold intermediate. cbn [fst snd].
  (* m is also a right inverse *)
  assert (Dt : (j11 * j22 - j12 * j21) * (p * s - q * r) = 1). { transitivity ((j11 * p + j12 * r) * (j21 * q + j22 * s) - (j11 * q + j12 * s) * (j21 * p + j22 * r)); [ring|]. rewrite I1, I2, I3, I4. ring. }
  set (dj := j11 * j22 - j12 * j21) in *. set (dc := p * s - q * r) in *. assert (dj <> 0) by (intros Z; rewrite Z in Dt; lra).
  assert (K : p * dj = j22 /\ q * dj = - j12 /\ r * dj = - j21 /\ s * dj = j11).
  { repeat split.
    - transitivity ((j11 * p + j12 * r) * j22 - j12 * (j21 * p + j22 * r)); [unfold dj; ring|]. rewrite I1, I3. ring.
    - transitivity ((j11 * q + j12 * s) * j22 - j12 * (j21 * q + j22 * s)); [unfold dj; ring|]. rewrite I2, I4. ring.
    - transitivity (j11 * (j21 * p + j22 * r) - j21 * (j11 * p + j12 * r)); [unfold dj; ring|]. rewrite I1, I3. ring.
    - transitivity (j11 * (j21 * q + j22 * s) - j21 * (j11 * q + j12 * s)); [unfold dj; ring|]. rewrite I2, I4. ring. }
  destruct K as (K1 & K2 & K3 & K4).
  assert (X1 : p * (j11 * xsi + j12 * eta + (c1 - 1) + 1 - c1) + q * (j21 * xsi + j22 * eta + (c2 - 1) + 1 - c2) = xsi).
  { apply (Rmult_eq_reg_r dj); [|assumption]. transitivity ((p * dj) * (j11 * xsi + j12 * eta) + (q * dj) * (j21 * xsi + j22 * eta)); [ring|]. rewrite K1, K2. unfold dj. ring. }
  assert (X2 : r * (j11 * xsi + j12 * eta + (c1 - 1) + 1 - c1) + s * (j21 * xsi + j22 * eta + (c2 - 1) + 1 - c2) = eta).
  { apply (Rmult_eq_reg_r dj); [|assumption]. transitivity ((r * dj) * (j11 * xsi + j12 * eta) + (s * dj) * (j21 * xsi + j22 * eta)); [ring|]. rewrite K3, K4. unfold dj. ring. }
  rewrite X1, X2. exact G.
Qed.
Print Assumptions C141_pixel.

(** ** The least and greatest coordinates *)
Lemma minmax_fold l : forall x0 x1 y0 y1, exists u0 u1 v0 v1, minmax_r (map Some l) ((Fin x0, Fin x1), (Fin y0, Fin y1)) = Some ((Fin u0, Fin u1), (Fin v0, Fin v1)) /\
  least u0 (x0 :: map fst l) /\ greatest u1 (x1 :: map fst l) /\ least v0 (y0 :: map snd l) /\ greatest v1 (y1 :: map snd l).
Proof.
  induction l as [|p l IH]; intros x0 x1 y0 y1.
  - exists x0, x1, y0, y1. unfold least, greatest. cbn. split; [reflexivity|]. repeat split; try (now left); intros x [->|[]]; lra.
  - cbn [map minmax_r xy_step num_min num_max]. destruct (IH (Rmin x0 (fst p)) (Rmax x1 (fst p)) (Rmin y0 (snd p)) (Rmax y1 (snd p))) as (u0 & u1 & v0 & v1 & E & [A1 A2] & [B1 B2] & [C1 C2] & [D1 D2]). exists u0, u1, v0, v1. split; [exact E|].
    assert (Mi : forall m a b r, In m (Rmin a b :: r) -> (forall x, In x (Rmin a b :: r) -> m <= x) -> least m (a :: b :: r)).
    { intros m a b r Hm Hx. split.
      - destruct Hm as [<-|Hm]; [|right; now right]. unfold Rmin. destruct (Rle_dec a b); [now left|right; now left].
      - pose proof (Hx _ (or_introl eq_refl)) as H0. pose proof (Rmin_l a b). pose proof (Rmin_r a b). intros x [<-|[<-|Hr]]; [lra|lra|]. apply Hx. now right. }
    assert (Ma : forall m a b r, In m (Rmax a b :: r) -> (forall x, In x (Rmax a b :: r) -> x <= m) -> greatest m (a :: b :: r)).
    { intros m a b r Hm Hx. split.
      - destruct Hm as [<-|Hm]; [|right; now right]. unfold Rmax. destruct (Rle_dec a b); [right; now left|now left].
      - pose proof (Hx _ (or_introl eq_refl)) as H0. pose proof (Rmax_l a b). pose proof (Rmax_r a b). intros x [<-|[<-|Hr]]; [lra|lra|]. apply Hx. now right. }
    split; [now apply Mi|]. split; [now apply Ma|]. split; [now apply Mi|now apply Ma].
Qed.
Lemma minmax_all p l : exists u0 u1 v0 v1, minmax_r (map Some (p :: l)) ((Inf false, Inf true), (Inf false, Inf true)) = Some ((Fin u0, Fin u1), (Fin v0, Fin v1)) /\
  least u0 (map fst (p :: l)) /\ greatest u1 (map fst (p :: l)) /\ least v0 (map snd (p :: l)) /\ greatest v1 (map snd (p :: l)).
Proof. cbn [map minmax_r xy_step num_min num_max]. apply minmax_fold. Qed.
Lemma close_in (E : R) l r : Forall2 (fun a b => Rabs (a - b) <= E) l r -> (forall x, In x l -> exists y, In y r /\ Rabs (x - y) <= E) /\ (forall y, In y r -> exists x, In x l /\ Rabs (x - y) <= E).
Proof. induction 1 as [|a b l r H F [I1 I2]]; [split; intros x []|]. split; [intros x [<-|Hx]; [exists b; split; [now left|exact H]|destruct (I1 x Hx) as (y & Hy & Q); exists y; split; [now right|exact Q]]|intros y [<-|Hy]; [exists a; split; [now left|exact H]|destruct (I2 y Hy) as (x & Hx & Q); exists x; split; [now right|exact Q]]]. Qed.
Lemma least_close E l r m n : Forall2 (fun a b => Rabs (a - b) <= E) l r -> least m l -> least n r -> Rabs (m - n) <= E.
Proof. intros F [M1 M2] [N1 N2]. destruct (close_in E l r F) as [I1 I2]. destruct (I1 m M1) as (y & Hy & Q). destruct (I2 n N1) as (x & Hx & Q'). pose proof (M2 x Hx). pose proof (N2 y Hy). apply Rabs_le_inv in Q, Q'. apply Rabs_le. lra. Qed.
Lemma greatest_close E l r m n : Forall2 (fun a b => Rabs (a - b) <= E) l r -> greatest m l -> greatest n r -> Rabs (m - n) <= E.
Proof. intros F [M1 M2] [N1 N2]. destruct (close_in E l r F) as [I1 I2]. destruct (I1 m M1) as (y & Hy & Q). destruct (I2 n N1) as (x & Hx & Q'). pose proof (M2 x Hx). pose proof (N2 y Hy). apply Rabs_le_inv in Q, Q'. apply Rabs_le. lra. Qed.

(** The bounds of all the detectors for all the pointings: those of the exact pixels [exact], within a bound [E] of the errors of the pixels. *)
Definition pixel_of (a : astrometry) (p : R * R * R) (x : R * R) (P : R * R) : Prop :=
  let '(ra, dec, pa) := p in seen (cdm a) (crpix a) (crval a) (fst P + 1) (snd P + 1) (direction (right_ascension ra dec pa (fst x) (snd x)) (declination dec pa (fst x) (snd x))).
Definition error_below (emin prec : Z) (a : astrometry) (m' : R * R * (R * R)) (dm E : R) (p : R * R * R) (x : R * R) : Prop :=
  let '(ra, dec, pa) := p in let d' := declination dec pa (fst x) (snd x) in let C := cos (d' * (PI / 180)) in let D := cosine (crval a) (right_ascension ra dec pa (fst x) (snd x)) d' in
  let '((i11, i12), (i21, i22)) := m' in sky_pixel_error emin prec C D dm i11 i12 (fst (crpix a)) <= E /\ sky_pixel_error emin prec C D dm i21 i22 (snd (crpix a)) <= E.
Theorem C141_bounds : forall emin prec sn cs deg rad a m m' dm E coords pointings, (24 <= prec)%Z -> (emin <= 1 - 2 * prec)%Z -> libm prec sn cs deg rad -> inverse_of m (cdm a) -> close22 dm m m' -> coords <> [] -> pointings <> [] ->
  (forall p x, In p pointings -> In x coords -> visible prec (crval a) p x /\ error_below emin prec a m' dm E p x) ->
  exists exact x0 x1 y0 y1 x0' x1' y0' y1', Forall2 (fun px P => pixel_of a (fst px) (snd px) P) (list_prod pointings coords) exact /\
    object2xy_minmax_r emin prec sn cs deg rad (crval a) m' (crpix_r emin prec (crpix a)) coords pointings = Some ((Fin x0, Fin x1), (Fin y0, Fin y1)) /\
    least x0' (map fst exact) /\ greatest x1' (map fst exact) /\ least y0' (map snd exact) /\ greatest y1' (map snd exact) /\
    Rabs (x0 - x0') <= E /\ Rabs (x1 - x1') <= E /\ Rabs (y0 - y0') <= E /\ Rabs (y1 - y1') <= E.
Proof.
  intros emin prec sn cs deg rad a m m' dm E coords pointings Pp Pe L I Cl Nc Np H.
  set (f := object2xy_r emin prec sn cs deg rad (crval a) m' (crpix_r emin prec (crpix a))).
  assert (Fl : flat_map (fun p => map (f p) coords) pointings = map (fun px => f (fst px) (snd px)) (list_prod pointings coords)).
  { clear. induction pointings as [|p l IH]; [reflexivity|]. cbn [flat_map list_prod]. rewrite map_app, IH, map_map. reflexivity. }
  assert (Q : forall l, incl l (list_prod pointings coords) -> exists r exact, map (fun px => f (fst px) (snd px)) l = map Some r /\ Forall2 (fun px P => pixel_of a (fst px) (snd px) P) l exact /\
    Forall2 (fun u v => Rabs (u - v) <= E) (map fst r) (map fst exact) /\ Forall2 (fun u v => Rabs (u - v) <= E) (map snd r) (map snd exact)).
  { induction l as [|[p x] l IH]; intros Hl; [exists [], []; cbn; repeat split; constructor|]. destruct IH as (r & ex & E1 & F1 & F2 & F3); [intros z Hz; apply Hl; now right|].
    destruct (proj1 (in_prod_iff pointings coords p x) (Hl (p, x) (or_introl eq_refl))) as [Hp Hx]. destruct (H p x Hp Hx) as [V B]. destruct p as [[ra dec] pa].
    destruct (C141_pixel emin prec sn cs deg rad a m m' dm ra dec pa x Pp Pe L V I Cl) as (px & py & X & Y & E2 & S & W). unfold error_below in B. cbv zeta in B. destruct m' as [[i11 i12] [i21 i22]]. destruct W as [W1 W2], B as [B1 B2].
    exists ((px, py) :: r), ((X, Y) :: ex). cbn [map fst snd]. split; [f_equal; [exact E2|exact E1]|]. split; [constructor; [exact S|exact F1]|]. split; constructor; try assumption; lra. }
  destruct (Q _ (incl_refl _)) as (r & ex & E1 & F1 & F2 & F3).
  assert (Nl : r <> []). { destruct pointings as [|p l]; [contradiction|]. destruct coords as [|x c]; [contradiction|]. cbn in E1. destruct r; [discriminate E1|discriminate]. }
  destruct r as [|r0 r]; [contradiction|]. destruct ex as [|e0 ex]; [inversion F2|].
  destruct (minmax_all r0 r) as (u0 & u1 & v0 & v1 & Em & A & B & C & D). destruct (minmax_all e0 ex) as (u0' & u1' & v0' & v1' & _ & A' & B' & C' & D').
  exists (e0 :: ex), u0, u1, v0, v1, u0', u1', v0', v1'. split; [exact F1|]. split; [unfold object2xy_minmax_r; fold f; rewrite Fl, E1; exact Em|]. split; [exact A'|]. split; [exact B'|]. split; [exact C'|]. split; [exact D'|].
  split; [exact (least_close _ _ _ _ _ F2 A A')|]. split; [exact (greatest_close _ _ _ _ _ F2 B B')|]. split; [exact (least_close _ _ _ _ _ F3 C C')|exact (greatest_close _ _ _ _ _ F3 D D')].
Qed.
Print Assumptions C141_bounds.
(** In double precision, for the detector of the axis when the telescope points at the reference of the map. *)
Example C141_case : let a := Astrometry (1, 1) (0, 0) ((- / 2, 0), (0, / 4)) in visible 53 (crval a) (0, 0, 0) (0, 0) /\ inverse_of ((-2, 0), (0, 4)) (cdm a) /\ close22 0 ((-2, 0), (0, 4)) ((-2, 0), (0, 4)) /\ pixel_of a (0, 0, 0) (0, 0) (0, 0).
Proof.
  cbv zeta. cbn [crval cdm].
  assert (D : declination 0 0 0 0 = 0) by (unfold declination; field). assert (A : right_ascension 0 0 0 0 0 = 0) by (unfold right_ascension; rewrite D, !Rmult_0_l, !Rplus_0_l; unfold Rdiv; ring).
  assert (Co : cosine (0, 0) 0 0 = 1). { rewrite (proj1 (exact_plane (0, 0) 0 0)). cbn [fst snd]. rewrite !Rmult_0_l, Rminus_0_r, sin_0, cos_0. ring. }
  split; [|split; [unfold inverse_of; repeat split; lra|split; [unfold close22; rewrite !Rminus_eq_0, Rabs_R0; repeat split; lra|]]].
  - unfold visible. cbn [fst snd]. rewrite A, D, Co, !Rmult_0_l, cos_0, Rabs_R0. split; [lra|]. split; [lra|]. split; [lra|]. split; [split; cbn [fst snd]; rewrite Rabs_R0; lra|]. split; [lra|]. split; [lra|]. split; [lra|]. split; [lra|].
    unfold unit_of. rewrite pow2. assert (B : bpow radix2 (- (53)) = / 9007199254740992) by reflexivity. rewrite B. lra.
  - unfold pixel_of. cbn [fst snd crpix crval cdm]. rewrite A, D. exists 1. split; [lra|]. unfold intermediate. cbn [fst snd]. unfold tangent, direction, centre, east, north, scale3, add3, direction. 
    replace ((- / 2) * (0 + 1 - 1) + 0 * (0 + 1 - 1)) with 0 by ring. replace (0 * (0 + 1 - 1) + / 4 * (0 + 1 - 1)) with 0 by ring. f_equal; [f_equal|]; unfold Rdiv; ring.
Qed.
