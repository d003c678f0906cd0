From Coq Require Import Reals ZArith Lra Lia.
From Flocq Require Import Core.
From Verif Require Import Base WcsModel RndModel RndSpec RndProps BiFacts BirFacts BirFacts2 GalFacts RgnModel RgnFacts NnModel NnProps RnnModel.
Open Scope R_scope.

(** *** nint_up *)
Lemma nint_near x : Rabs (x - IZR (nint_real x)) <= / 2 /\ Rabs (x - IZR (nint_real x)) <= Rabs x.
Proof.
  unfold nint_real, Rltb. destruct (Rlt_dec x 0) as [N|N].
  - destruct (proj1 (int_part_iff (- x + / 2) _) eq_refl) as [A B]. set (k := Int_part (- x + / 2)) in *. rewrite opp_IZR. split; [apply Rabs_le; lra|].
    assert (K : (0 <= k)%Z). { assert (IZR (-1) < IZR k) by lra. apply lt_IZR in H. lia. } destruct (Z.eq_dec k 0) as [->|K1]; [right; f_equal; lra|]. assert (1 <= IZR k) by (apply IZR_le; lia). rewrite (Rabs_left x) by lra. apply Rabs_le; lra.
  - destruct (proj1 (int_part_iff (x + / 2) _) eq_refl) as [A B]. set (k := Int_part (x + / 2)) in *. split; [apply Rabs_le; lra|].
    assert (K : (0 <= k)%Z). { assert (IZR (-1) < IZR k) by lra. apply lt_IZR in H. lia. } destruct (Z.eq_dec k 0) as [->|K1]; [right; f_equal; lra|]. assert (1 <= IZR k) by (apply IZR_le; lia). rewrite (Rabs_right x) by lra. apply Rabs_le; lra.
Qed.
Lemma nint_sub_exact emin prec x : (0 < prec)%Z -> (emin <= 0)%Z -> generic_format radix2 (FLT_exp emin prec) x -> rndp emin prec (x - IZR (nint_real x)) = x - IZR (nint_real x).
Proof.
  intros Pp Pe F. destruct (nint_near x) as [H1 H2]. set (n := nint_real x) in *. unfold rndp. apply round_generic; [apply valid_rnd_N|].
  assert (V : Prec_gt_0 prec) by exact Pp.
  apply generic_format_FLT. apply FLT_format_generic in F; [|exact V]. destruct F as [[m e] E Hm He]. cbn [Fnum Fexp] in *.
  destruct (Z_lt_le_dec e 0) as [L|L].
  - exists (Float radix2 (m - n * 2 ^ (- e)) e); cbn [Fnum Fexp]; [| |exact He].
    + rewrite E. unfold F2R. cbn [Fnum Fexp]. rewrite minus_IZR, mult_IZR. change 2%Z with (radix_val radix2). rewrite (IZR_Zpower radix2) by lia. rewrite Rmult_minus_distr_r, Rmult_assoc, <- bpow_plus. replace (- e + e)%Z with 0%Z by lia. cbn [bpow]. ring.
    + assert (Q : x - IZR n = IZR (m - n * 2 ^ (- e)) * bpow radix2 e). { rewrite E. unfold F2R. cbn [Fnum Fexp]. rewrite minus_IZR, mult_IZR. change 2%Z with (radix_val radix2). rewrite (IZR_Zpower radix2) by lia. rewrite Rmult_minus_distr_r, Rmult_assoc, <- bpow_plus. replace (- e + e)%Z with 0%Z by lia. cbn [bpow]. ring. }
      apply Z.le_lt_trans with (2 := Hm). apply le_IZR. rewrite !abs_IZR. rewrite Q, E in H2. unfold F2R in H2. cbn [Fnum Fexp] in H2. rewrite !Rabs_mult in H2. apply Rmult_le_reg_r with (2 := H2). apply Rabs_pos_lt, Rgt_not_eq, bpow_gt_0.
  - assert (I : x = IZR (m * 2 ^ e)). { rewrite E. unfold F2R. cbn [Fnum Fexp]. rewrite mult_IZR. change 2%Z with (radix_val radix2). now rewrite (IZR_Zpower radix2). }
    assert (n = m * 2 ^ e)%Z. { rewrite I, <- minus_IZR in H1. rewrite <- abs_IZR in H1. assert (IZR (Z.abs (m * 2 ^ e - n)) < IZR 1) by lra. apply lt_IZR in H. lia. }
    exists (Float radix2 0 0); cbn [Fnum Fexp]; [rewrite I, H; unfold F2R; cbn; ring | | lia]. change (0 < 2 ^ prec)%Z. apply Z.pow_pos_nonneg; lia.
Qed.
Lemma nint_up_r_ok emin prec x : (0 < prec)%Z -> (emin <= 0)%Z -> generic_format radix2 (FLT_exp emin prec) x -> in_pixel x (nint_up_r emin prec x).
Proof. intros Pp Pe F. apply nint_up_ok. unfold nint_up_r. now rewrite nint_sub_exact. Qed.

(** *** The scale *)
Section G.
Variables (emin prec : Z) (sn cs : R -> R) (deg rad : R).
Notation rn := (rndp emin prec).
Notation u := (unit_of prec).
Notation eta := (tiny_of emin).
Hypothesis Pp : (0 < prec)%Z.
Hypothesis L : libm prec sn cs deg rad.
Hypothesis U1 : u <= / 4096.
Hypothesis He : eta <= u * u.
Notation produ := (prod_e emin prec 1 u Pp w1 (uu prec) U1 He).
Notation sumu := (sum_e emin prec 1 u Pp w1 (uu prec) U1 He).
Lemma eu' : eta <= / 4096 * u. Proof. exact (eu emin prec U1 He). Qed.

(** A rounded product of numbers that are near [S] and [T]. *)
Section Prod.
Variables (e S T : R).
Hypothesis E1 : e <= / 4096.
Hypothesis Ue : u <= e.
Hypothesis S1 : 1 <= S.
Hypothesis T1 : 1 <= T.
Lemma scaled_two x y i j k : 0 <= i -> 0 <= j -> Rabs (x / S - 1) <= i * e -> Rabs (y / T - 1) <= j * e -> i + j + i * j / 4096 + (1 + i / 4096) * (1 + j / 4096) + / 4096 <= k -> Rabs (rn (x * y) / (S * T) - 1) <= k * e.
Proof.
  intros Hi Hj Hx Hy Hk. pose proof (u_pos prec) as U0. pose proof eu' as Eu. pose proof (eta_pos emin) as E0. assert (C1 : Rabs 1 <= 1) by (rewrite Rabs_R1; lra).
  assert (ST : 1 <= S * T) by (rewrite <- (Rmult_1_r 1); apply Rmult_le_compat; lra).
  pose proof (prod_diff _ _ _ _ _ _ _ _ Hx Hy C1 C1) as P. replace (x / S * (y / T)) with (x * y / (S * T)) in P by (field; split; lra). rewrite Rmult_1_r in P.
  assert (A : Rabs (x * y / (S * T)) <= (1 + i / 4096) * (1 + j / 4096)).
  { replace (x * y / (S * T)) with (x / S * (y / T)) by (field; split; lra). rewrite Rabs_mult. assert (i * e <= i * / 4096) by (apply Rmult_le_compat_l; lra). assert (j * e <= j * / 4096) by (apply Rmult_le_compat_l; lra). pose proof (near_abs _ _ _ _ Hx C1). pose proof (near_abs _ _ _ _ Hy C1). apply Rmult_le_compat; try apply Rabs_pos; lra. }
  pose proof (rn_err emin prec Pp (x * y)) as E. set (Q := S * T) in *. assert (R : Rabs (rn (x * y) / Q - x * y / Q) <= u * Rabs (x * y / Q) + eta).
  { replace (rn (x * y) / Q - x * y / Q) with ((rn (x * y) - x * y) * / Q) by (unfold Rdiv; ring). rewrite Rabs_mult, (Rabs_right (/ Q)) by (left; apply Rinv_0_lt_compat; lra). apply (Rmult_le_reg_r Q); [lra|]. rewrite Rmult_assoc, Rinv_l, Rmult_1_r by lra. apply Rle_trans with (1 := E).
    replace (x * y) with (x * y / Q * Q) at 1 by (field; lra). rewrite Rabs_mult, (Rabs_right Q) by lra. assert (eta * 1 <= eta * Q) by (apply Rmult_le_compat_l; lra). lra. }
  pose proof (tri (rn (x * y) / Q) (x * y / Q) 1) as Tr. pose proof (Rabs_pos (x * y / Q)). set (q := Rabs (x * y / Q)) in *. assert (u * q <= e * ((1 + i / 4096) * (1 + j / 4096))) by (apply Rmult_le_compat; lra).
  assert (i * e * (j * e) <= i * j / 4096 * e). { replace (i * e * (j * e)) with (i * j * e * e) by ring. replace (i * j / 4096 * e) with (i * j * e * / 4096) by (unfold Rdiv; ring). apply Rmult_le_compat_l; [|lra]. apply Rmult_le_pos; [apply Rmult_le_pos; lra | lra]. }
  assert (e * (i + j + i * j / 4096 + (1 + i / 4096) * (1 + j / 4096) + / 4096) <= e * k) by (apply Rmult_le_compat_l; lra). lra.
Qed.
End Prod.

Section Dir.
Variables (a b a0 b0 : R).
Hypothesis Ha : Rabs a <= 360.
Hypothesis Ha0 : Rabs a0 <= 360.
Hypothesis Hb : Rabs b <= 90.
Hypothesis Hb0 : Rabs b0 <= 90.
Notation l := (a * (PI / 180)).
Notation l0 := (a0 * (PI / 180)).
Notation p := (b * (PI / 180)).
Notation p1 := (b0 * (PI / 180)).
Notation dl := (rn (rn (a * deg) - rn (a0 * deg))).
Notation sp := (sn (rn (b * deg))).
Notation cp := (cs (rn (b * deg))).
Notation sp1 := (sn (rn (b0 * deg))).
Notation cp1 := (cs (rn (b0 * deg))).
Notation D := (sin p1 * sin p + cos p1 * cos p * cos (l - l0)).
Notation den := (rn (rn (sp1 * sp) + rn (rn (cp1 * cp) * cs dl))).
Notation num := (rn (rn (cp1 * sp) - rn (rn (sp1 * cp) * cs dl))).
Hypothesis HD : 4096 * u <= D.
Notation e := (u / D).
Notation S := (180 / PI / D).
Notation inv := (rn (1 / den)).
Notation t := (rn (rad * inv)).
Lemma Dp : 0 < D <= 1. Proof. exact (D_pos prec a b a0 b0 HD). Qed.
Lemma Ep : 0 < e. Proof. exact (e_pos prec a b a0 b0 HD). Qed.
Lemma E1 : e <= / 4096. Proof. exact (E1' prec a b a0 b0 HD). Qed.
Lemma Ue : u <= e. Proof. exact (u_e prec a b a0 b0 HD). Qed.
Lemma invD : 1 <= / D. Proof. pose proof Dp. rewrite <- Rinv_1. apply Rinv_le_contravar; lra. Qed.
Lemma inv1_near : Rabs (inv / (/ D) - 1) <= 117.1 * e.
Proof.
  destruct (den_low emin prec sn cs deg rad Pp L U1 He a b a0 b0 Ha Ha0 Hb Hb0 HD) as [Dd Hd]. pose proof Dp as Dp. pose proof Ep as Ep. pose proof E1 as E1. pose proof Ue as Ue. pose proof eu' as Eu. pose proof (u_pos prec) as U0. pose proof (eta_pos emin) as E0. set (d := den) in *. set (DD := D) in *.
  pose proof (rn_err emin prec Pp (1 / d)) as R. set (q := rn (1 / d)) in *. replace (q / / DD - 1) with ((q - 1 / d) * DD + (DD / d - 1)) by (field; lra). eapply Rle_trans; [apply Rabs_triang|]. rewrite Rabs_mult, (Rabs_right DD) by lra.
  assert (Q : Rabs (1 / d) * DD <= 1.03). { rewrite <- (Rabs_right DD) at 1 by lra. rewrite <- Rabs_mult. replace (1 / d * DD) with (DD / d) by (field; lra). assert (C1 : Rabs 1 <= 1) by (rewrite Rabs_R1; lra). pose proof (near_abs _ _ _ _ Hd C1). assert (116 * (u / DD) <= 116 * / 4096) by lra. lra. }
  assert (Rabs (q - 1 / d) * DD <= (u * Rabs (1 / d) + eta) * DD) by (apply Rmult_le_compat_r; lra). assert (u * (Rabs (1 / d) * DD) <= u * 1.03) by (apply Rmult_le_compat_l; lra). assert (eta * DD <= eta * 1) by (apply Rmult_le_compat_l; lra). lra.
Qed.
Lemma t_near : Rabs (t / S - 1) <= 122 * e.
Proof.
  pose proof Dp as Dp. pose proof pi_low as P3. pose proof pi_high as P4. assert (P : 0 < 180 / PI) by (apply Rdiv_lt_0_compat; lra). assert (P1 : 1 <= 180 / PI) by (apply (Rmult_le_reg_r PI); [lra|]; unfold Rdiv; rewrite Rmult_assoc, Rinv_l; lra).
  pose proof Ue. replace S with (180 / PI * / D) by reflexivity. apply (scaled_two e (180 / PI) (/ D) E1 Ue P1 invD rad inv 3 117.1 122); try lra; [|apply inv1_near].
  replace (rad / (180 / PI) - 1) with ((rad - 180 / PI) * / (180 / PI)) by (field; lra). rewrite Rabs_mult, (Rabs_right (/ (180 / PI))) by (left; now apply Rinv_0_lt_compat).
  apply (Rmult_le_reg_r (180 / PI)); [assumption|]. rewrite Rmult_assoc, Rinv_l, Rmult_1_r by lra. apply Rle_trans with (1 := lib_rad _ _ _ _ _ L). apply Rmult_le_compat_r; lra.
Qed.
Lemma cube_near : Rabs (rn (rn (inv * inv) * inv) / (/ D * / D * / D) - 1) <= 364 * e.
Proof.
  pose proof invD as I. assert (I2 : 1 <= / D * / D) by (rewrite <- (Rmult_1_r 1); apply Rmult_le_compat; lra). apply (scaled_two e (/ D * / D) (/ D) E1 Ue I2 I _ inv 238.7 117.1 364); try lra; [|apply inv1_near].
  apply (scaled_two e (/ D) (/ D) E1 Ue I I inv inv 117.1 117.1 238.7); try lra; apply inv1_near.
Qed.
Notation xs := (rn (rn (t * cp) * sn dl)).
Notation ys := (rn (t * num)).
Notation sprod := (scaled_prod emin prec Pp U1 He a b a0 b0 HD).
Lemma xs_near' : Rabs (xs / S - cos p * sin (l - l0)) <= 205 * e.
Proof.
  pose proof Ue as Ue. pose proof Ep as Ep. assert (C1 : Rabs 1 <= 1) by (rewrite Rabs_R1; lra).
  replace (cos p * sin (l - l0)) with (1 * cos p * sin (l - l0)) by ring. apply (sprod _ _ _ _ 133 68 205); try lra.
  - apply (sprod _ _ _ _ 122 9 133); try lra; [apply t_near | pose proof (cp_near emin prec sn cs deg rad Pp L U1 He b Hb); lra | apply cos_1].
  - pose proof (sd_near emin prec sn cs deg rad Pp L U1 He a a0 Ha Ha0). lra.
  - rewrite Rmult_1_l. apply cos_1.
  - apply sin_1.
Qed.
Lemma ys_near' : Rabs (ys / S - (cos p1 * sin p - sin p1 * cos p * cos (l - l0))) <= 239 * e.
Proof.
  pose proof Ue as Ue. pose proof Ep as Ep. assert (C1 : Rabs 1 <= 1) by (rewrite Rabs_R1; lra).
  rewrite <- (Rmult_1_l (cos p1 * sin p - sin p1 * cos p * cos (l - l0))). apply (sprod _ _ _ _ 122 112 239); try lra; [apply t_near | pose proof (num_near emin prec sn cs deg rad Pp L U1 He a b a0 b0 Ha Ha0 Hb Hb0); lra | apply two].
Qed.
Lemma plane_s : exists x y s, xsi_eta_scale_r emin prec sn cs deg rad (init_gnomonic_r emin prec sn cs deg (a0, b0)) a b = Some (x, y, s) /\
  Rabs (x - S * (cos p * sin (l - l0))) <= 239 * e * S /\ Rabs (y - S * (cos p1 * sin p - sin p1 * cos p * cos (l - l0))) <= 239 * e * S /\ Rabs (s - / (D * D * D)) <= 364 * e * / (D * D * D).
Proof.
  exists xs, ys, (rn (rn (inv * inv) * inv)). split.
  - unfold xsi_eta_scale_r, init_gnomonic_r. cbn [fst snd]. destruct (Req_EM_T den 0) as [Z|_]; [|reflexivity]. destruct (den_low emin prec sn cs deg rad Pp L U1 He a b a0 b0 Ha Ha0 Hb Hb0 HD) as [P _]. rewrite Z in P. lra.
  - pose proof Ep. split; [|split; [apply (unscale prec a b a0 b0 HD), ys_near'|]].
    + apply (unscale prec a b a0 b0 HD). eapply Rle_trans; [apply xs_near'|]. apply Rmult_le_compat_r; lra.
    + pose proof Dp as Dp. pose proof cube_near as C. set (s := rn (rn (inv * inv) * inv)) in *. set (DD := D) in *. assert (P3 : 0 < / (DD * DD * DD)) by (apply Rinv_0_lt_compat; repeat apply Rmult_lt_0_compat; lra).
      replace (s - / (DD * DD * DD)) with ((s / (/ DD * / DD * / DD) - 1) * / (DD * DD * DD)) by (field; lra). rewrite Rabs_mult, (Rabs_right (/ (DD * DD * DD))) by lra. apply Rmult_le_compat_r; lra.
Qed.
End Dir.
End G.
