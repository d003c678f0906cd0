(** C143: angles between positions in the sky with rounded operations. *)
From Coq Require Import Reals QArith Qreals ZArith Lra Lia List.
From Flocq Require Import Core.
From Verif Require Import Base SkySpec RndModel RndSpec RndProps BiFacts BirFacts BirFacts2 GalFacts RgnModel RgnFacts RgnProps RanModel.
Open Scope R_scope.

Section T.
Variables (emin prec : Z) (sn cs ac : R -> R) (deg rad : R).
Notation rn := (rndp emin prec).
Notation u := (unit_of prec).
Notation eta := (tiny_of emin).
Hypothesis Pp : (24 <= prec)%Z.
Hypothesis Pe : (emin <= 1 - 2 * prec)%Z.
Hypothesis L : libm prec sn cs deg rad.
Lemma P0 : (0 < prec)%Z. Proof. lia. Qed.
Lemma U0 : 0 < u. Proof. apply u_pos. Qed.
Lemma U2 : u <= / 16777216. Proof. unfold unit_of. rewrite pow2. apply Rle_trans with (bpow radix2 (-24)); [apply bpow_le; lia|]. unfold bpow. change (Z.pow_pos radix2 24) with 16777216%Z. lra. Qed.
Lemma U1 : u <= / 4096. Proof. pose proof U2. lra. Qed.
Lemma He : eta <= u * u. Proof. exact (eta_uu emin prec Pe). Qed.
Notation produ := (prod_e emin prec 1 u P0 w1 (uu prec) U1 He).
Notation sumu := (sum_e emin prec 1 u P0 w1 (uu prec) U1 He).
Variables (lon1 lat1 lon2 lat2 : R).
Hypothesis H1 : Rabs lon1 <= 360.
Hypothesis H2 : Rabs lon2 <= 360.
Hypothesis L1 : Rabs lat1 <= 90.
Hypothesis L2 : Rabs lat2 <= 90.
Lemma difference : Rabs (rn (rn (lon2 - lon1) * deg) - (lon2 - lon1) * (PI / 180)) <= 66 * u.
Proof.
  pose proof U0. pose proof U2. pose proof He. pose proof pi_low. pose proof pi_high.
  assert (D : Rabs (lon2 - lon1) <= 720) by (unfold Rminus; eapply Rle_trans; [apply Rabs_triang|]; rewrite Rabs_Ropp; lra).
  pose proof (rn_err emin prec P0 (lon2 - lon1)) as E. assert (u * Rabs (lon2 - lon1) <= u * 720) by (apply Rmult_le_compat_l; lra).
  assert (u * u <= / 16777216 * u) by (apply Rmult_le_compat_r; lra).
  assert (E2 : Rabs (rn (lon2 - lon1) - (lon2 - lon1)) <= 720.001 * u) by lra.
  assert (B : Rabs (rn (lon2 - lon1)) <= 720.001) by (pose proof (near_abs _ _ 720 _ E2 D); lra).
  pose proof (angle emin prec sn cs deg rad P0 L U1 He (rn (lon2 - lon1)) (720.001 * (3.15 / 180)) 51) as A.
  specialize (A ltac:(lra) (scaled _ _ B) ltac:(lra)).
  assert (C : Rabs (rn (lon2 - lon1) * (PI / 180) - (lon2 - lon1) * (PI / 180)) <= 12.7 * u).
  { rewrite <- Rmult_minus_distr_r, Rabs_mult, (Rabs_pos_eq (PI / 180)) by lra. apply Rle_trans with (720.001 * u * (3.15 / 180)); [apply Rmult_le_compat; try apply Rabs_pos; lra|]. lra. }
  pose proof (tri (rn (rn (lon2 - lon1) * deg)) (rn (lon2 - lon1) * (PI / 180)) ((lon2 - lon1) * (PI / 180))). lra.
Qed.
Lemma scalar_is : scalar (direction lon1 lat1) (direction lon2 lat2) =
  cos (lat1 * (PI / 180)) * cos (lat2 * (PI / 180)) * cos ((lon2 - lon1) * (PI / 180)) + sin (lat1 * (PI / 180)) * sin (lat2 * (PI / 180)).
Proof.
  unfold scalar, direction. cbn [fst snd]. replace ((lon2 - lon1) * (PI / 180)) with (lon2 * PI / 180 - lon1 * PI / 180) by field. rewrite cos_minus.
  replace (lat1 * (PI / 180)) with (lat1 * PI / 180) by field. replace (lat2 * (PI / 180)) with (lat2 * PI / 180) by field. ring.
Qed.
Lemma phi x : Rabs x <= 90 -> Rabs (rn (x * deg) - x * (PI / 180)) <= 7 * u.
Proof. exact (phi_near emin prec sn cs deg rad P0 L U1 He x). Qed.
Lemma bounded a b c : Rabs (cos a * cos b * cos c + sin a * sin b) <= 1.
Proof.
  pose proof PI_RGT_0. pose proof (two (c * (180 / PI)) 0 b a) as [T _]. replace (c * (180 / PI) * (PI / 180) - 0 * (PI / 180)) with c in T by (field; lra). rewrite Rplus_comm, (Rmult_comm (sin a)), (Rmult_comm (cos a)). exact T.
Qed.
Lemma cosine_near : Rabs (cosine_r emin prec sn cs deg lon1 lat1 lon2 lat2 - scalar (direction lon1 lat1) (direction lon2 lat2)) <= 112 * u.
Proof.
  rewrite scalar_is. unfold cosine_r.
  assert (C : forall x, Rabs x <= 90 -> Rabs (cs (rn (x * deg)) - cos (x * (PI / 180))) <= 9 * u) by (intros x Hx; replace 9 with (7 + 2) by ring; apply (cos_near prec sn cs deg rad L), phi, Hx).
  assert (S : forall x, Rabs x <= 90 -> Rabs (sn (rn (x * deg)) - sin (x * (PI / 180))) <= 9 * u) by (intros x Hx; replace 9 with (7 + 2) by ring; apply (sin_near prec sn cs deg rad L), phi, Hx).
  assert (D : Rabs (cs (rn (rn (lon2 - lon1) * deg)) - cos ((lon2 - lon1) * (PI / 180))) <= 68 * u) by (replace 68 with (66 + 2) by ring; apply (cos_near prec sn cs deg rad L), difference).
  apply (sumu _ _ _ _ 90 20 1 112); try lra; [| |apply bounded].
  - apply (produ _ _ _ _ 20 68 1 1 90); try lra; [|apply one; apply cos_1|apply cos_1]. apply (produ _ _ _ _ 9 9 1 1 20); try lra; [now apply C|now apply C|apply cos_1|apply cos_1].
  - apply (produ _ _ _ _ 9 9 1 1 20); try lra; [now apply S|now apply S|apply sin_1|apply sin_1].
Qed.
Hypothesis A : forall c, Rabs c <= 1 -> Rabs (ac c - acos c) <= 4 * u.
Lemma angle_back t : angle_r emin prec sn cs ac deg rad lon1 lat1 lon2 lat2 = Some t ->
  exists c, -1 <= c <= 1 /\ Rabs (c - scalar (direction lon1 lat1) (direction lon2 lat2)) <= 112 * u /\ Rabs (t * (PI / 180) - acos c) <= 16.7 * u.
Proof.
  unfold angle_r. cbv zeta. pose proof cosine_near as C. set (c := cosine_r emin prec sn cs deg lon1 lat1 lon2 lat2) in *. destruct (Rle_dec (Rabs c) 1) as [B|]; [|discriminate]. intros E. injection E as <-.
  pose proof U0. pose proof U2. pose proof He. pose proof pi_low. pose proof pi_high. pose proof (A c B) as Ac. pose proof (acos_bound c) as Ab.
  set (a := ac c) in *. assert (Ba : Rabs a <= 3.151). { pose proof (near_abs a (acos c) 3.15 (4 * u) Ac) as N. rewrite Rabs_pos_eq in N by lra. specialize (N ltac:(lra)). lra. }
  pose proof (lib_rad _ _ _ _ _ L) as Lr. set (s := 180 / PI) in *. assert (s0 : 0 < s) by (apply Rdiv_lt_0_compat; lra). assert (sp : s * (PI / 180) = 1) by (unfold s; field; lra).
  assert (M : Rabs (a * rad - a * s) <= 9.46 * u * s).
  { replace (a * rad - a * s) with (a * (rad - s)) by ring. rewrite Rabs_mult. apply Rle_trans with (3.151 * (3 * u * s)); [apply Rmult_le_compat; try apply Rabs_pos; lra|]. assert (0 <= u * s) by (apply Rmult_le_pos; lra). lra. }
  assert (us : u * s <= / 16777216 * s) by (apply Rmult_le_compat_r; lra). assert (us0 : 0 <= u * s) by (apply Rmult_le_pos; lra).
  assert (Bar : Rabs (a * rad) <= 3.152 * s).
  { pose proof (near_abs (a * rad) (a * s) (3.151 * s) _ M) as N. rewrite Rabs_mult, (Rabs_pos_eq s) in N by lra. assert (Q : Rabs a * s <= 3.151 * s) by (apply Rmult_le_compat_r; lra). specialize (N Q). lra. }
  pose proof (rn_err emin prec P0 (a * rad)) as R. assert (u * Rabs (a * rad) <= u * (3.152 * s)) by (apply Rmult_le_compat_l; lra).
  assert (s1 : 1 <= s) by (unfold s; apply (Rmult_le_reg_r PI); [lra|]; unfold Rdiv; rewrite Rmult_assoc, Rinv_l by lra; lra).
  assert (u * u <= / 16777216 * (u * s)). { assert (u * u <= / 16777216 * u) by (apply Rmult_le_compat_r; lra). assert (u * 1 <= u * s) by (apply Rmult_le_compat_l; lra). lra. }
  assert (T : Rabs (rn (a * rad) - a * s) <= 12.7 * u * s) by (pose proof (tri (rn (a * rad)) (a * rad) (a * s)); lra).
  assert (T2 : Rabs (rn (a * rad) * (PI / 180) - a) <= 12.7 * u).
  { replace (rn (a * rad) * (PI / 180) - a) with ((rn (a * rad) - a * s) * (PI / 180)) by (rewrite Rmult_minus_distr_r, Rmult_assoc, sp; ring). rewrite Rabs_mult, (Rabs_pos_eq (PI / 180)) by lra.
    apply Rle_trans with (12.7 * u * s * (PI / 180)); [apply Rmult_le_compat_r; lra|]. rewrite Rmult_assoc, sp. lra. }
  exists c. split; [apply Rabs_le_inv in B; lra|]. split; [exact C|]. pose proof (tri (rn (a * rad) * (PI / 180)) a (acos c)). lra.
Qed.
Lemma angle_near t : angle_r emin prec sn cs ac deg rad lon1 lat1 lon2 lat2 = Some t ->
  Rabs (cos (t * (PI / 180)) - scalar (direction lon1 lat1) (direction lon2 lat2)) <= 135 * u.
Proof.
  intros E. destruct (angle_back t E) as [c [B [C T]]]. pose proof U0. pose proof (cos_lipschitz (t * (PI / 180)) (acos c)) as K. rewrite cos_acos in K by exact B.
  pose proof (tri (cos (t * (PI / 180))) c (scalar (direction lon1 lat1) (direction lon2 lat2))). lra.
Qed.
Lemma sin_half x : 0 <= x <= 1.6 -> x / 2 <= sin x.
Proof.
  intros H. destruct (pre_sin_bound x 0) as [B _]; [lra|lra|]. unfold sin_approx, sum_f_R0, sin_term in B. cbn in B. assert (0 <= x * (x * x)) by (repeat apply Rmult_le_pos; lra).
  assert (Q : x * x <= 1.6 * 1.6) by (apply Rmult_le_compat; lra). assert (x * (x * x) <= x * (1.6 * 1.6)) by (apply Rmult_le_compat_l; lra). lra.
Qed.
Lemma cos_apart a b : 0 <= a <= PI -> 0 <= b <= PI -> (a - b) * (a - b) <= 8 * Rabs (cos a - cos b).
Proof.
  assert (G : forall a b, 0 <= a -> a <= b -> b <= PI -> (b - a) * (b - a) <= 8 * Rabs (cos a - cos b)).
  { clear. intros a b A AB B. pose proof pi_high. rewrite form2, !Rabs_mult. replace (Rabs (-2)) with 2 by (rewrite Rabs_left; lra).
    replace ((a - b) / 2) with (- ((b - a) / 2)) by field. rewrite sin_neg, Rabs_Ropp. set (d := (b - a) / 2). set (m := (a + b) / 2).
    assert (D : d / 2 <= sin d) by (apply sin_half; unfold d; lra). assert (d0 : 0 <= d) by (unfold d; lra).
    assert (M : d / 2 <= sin m).
    { destruct (Rle_dec m (PI / 2)) as [H1|H1].
      - apply Rle_trans with (1 := D). apply sin_incr_1; unfold d, m in *; lra.
      - rewrite <- sin_PI_x. apply Rle_trans with (1 := D). apply sin_incr_1; unfold d, m in *; lra. }
    rewrite !Rabs_pos_eq by lra. assert (Q : d / 2 * (d / 2) <= sin d * sin m) by (apply Rmult_le_compat; lra). replace (b - a) with (2 * d) by (unfold d; field). lra. }
  intros HA HB. destruct (Rle_dec a b) as [H|H].
  - replace ((a - b) * (a - b)) with ((b - a) * (b - a)) by ring. apply G; lra.
  - rewrite Rabs_minus_sym. apply G; lra.
Qed.
Lemma angle_error t s : angle_r emin prec sn cs ac deg rad lon1 lat1 lon2 lat2 = Some t -> 0 <= s <= PI -> cos s = scalar (direction lon1 lat1) (direction lon2 lat2) ->
  Rabs (t * (PI / 180) - s) <= 31 * sqrt u.
Proof.
  intros E S Cs. destruct (angle_back t E) as [c [B [C T]]]. pose proof U0. pose proof U2. pose proof (acos_bound c) as Ab. pose proof (cos_apart (acos c) s Ab S) as Q.
  rewrite cos_acos, Cs in Q by exact B. pose proof (sqrt_sqrt u ltac:(lra)) as R. pose proof (sqrt_pos u) as R0. set (r := sqrt u) in *.
  assert (R1 : r <= / 4096) by (apply Rnot_lt_le; intros N; assert (/ 4096 * / 4096 < r * r) by (apply Rmult_le_0_lt_compat; lra); lra).
  assert (D : Rabs (acos c - s) <= 30 * r).
  { apply Rnot_lt_le. intros N. pose proof (Rmult_le_0_lt_compat (30 * r) (Rabs (acos c - s)) (30 * r) (Rabs (acos c - s)) ltac:(lra) ltac:(lra) N N) as W.
    rewrite <- Rabs_mult, (Rabs_pos_eq ((acos c - s) * (acos c - s))) in W by apply (Rle_0_sqr (acos c - s)). lra. }
  assert (r * r <= / 4096 * r) by (apply Rmult_le_compat_r; lra).
  pose proof (tri (t * (PI / 180)) (acos c) s). lra.
Qed.
Lemma angle_defined : Rabs (scalar (direction lon1 lat1) (direction lon2 lat2)) <= 1 - 112 * u -> exists t, angle_r emin prec sn cs ac deg rad lon1 lat1 lon2 lat2 = Some t.
Proof.
  intros H. unfold angle_r. cbv zeta. pose proof cosine_near as C. pose proof (near_abs _ _ _ _ C H) as B. destruct (Rle_dec _ 1) as [_|N]; [eexists; reflexivity|]. exfalso. apply N. lra.
Qed.
End T.

(** The cosine of the angle is that of the directions within a few rounding errors, if the result is finite, and it is unless the
    positions are closer to each other, or to being opposite, than about ten times the square root of the unit of roundoff. *)
Theorem C143_angle : forall emin prec sn cs ac deg rad lon1 lat1 lon2 lat2, (24 <= prec)%Z -> (emin <= 1 - 2 * prec)%Z -> libm prec sn cs deg rad ->
  (forall c, Rabs c <= 1 -> Rabs (ac c - acos c) <= 4 * unit_of prec) ->
  Rabs lon1 <= 360 -> Rabs lon2 <= 360 -> Rabs lat1 <= 90 -> Rabs lat2 <= 90 ->
  let c := scalar (direction lon1 lat1) (direction lon2 lat2) in
  (forall t, angle_r emin prec sn cs ac deg rad lon1 lat1 lon2 lat2 = Some t -> Rabs (cos (t * (PI / 180)) - c) <= 135 * unit_of prec /\
    forall s, 0 <= s <= PI -> cos s = c -> Rabs (t * (PI / 180) - s) <= 31 * sqrt (unit_of prec)) /\
  (Rabs c <= 1 - 112 * unit_of prec -> exists t, angle_r emin prec sn cs ac deg rad lon1 lat1 lon2 lat2 = Some t).
Proof.
  intros emin prec sn cs ac deg rad lon1 lat1 lon2 lat2 Pp Pe L A H1 H2 L1 L2. cbv zeta. split.
  - intros t E. split; [now apply (angle_near emin prec sn cs ac deg rad Pp Pe L lon1 lat1 lon2 lat2)|]. intros s. now apply (angle_error emin prec sn cs ac deg rad Pp Pe L lon1 lat1 lon2 lat2).
  - now apply (angle_defined emin prec sn cs ac deg rad Pp Pe L lon1 lat1 lon2 lat2).
Qed.
Print Assumptions C143_angle.
Example C143_angle_example : libm 53 (fun x => rndp (-1074) 53 (sin x)) (fun x => rndp (-1074) 53 (cos x)) (rndp (-1074) 53 (PI / 180)) (rndp (-1074) 53 (180 / PI)) /\
  (forall c, Rabs c <= 1 -> Rabs (acos c - acos c) <= 4 * unit_of 53) /\ Rabs (scalar (direction 10 0) (direction 100 0)) <= 1 - 112 * unit_of 53.
Proof.
  split; [apply C132_rounded; lia|]. assert (U : unit_of 53 <= / 4096) by (unfold unit_of; rewrite pow2; apply Rle_trans with (bpow radix2 (-12)); [apply bpow_le; lia|]; unfold bpow; change (Z.pow_pos radix2 12) with 4096%Z; lra).
  pose proof (u_pos 53) as U0. split; [intros c _; rewrite Rminus_eq_0, Rabs_R0; lra|].
  replace (scalar (direction 10 0) (direction 100 0)) with 0; [rewrite Rabs_R0; lra|].
  rewrite scalar_is, !Rmult_0_l, sin_0, cos_0. replace ((100 - 10) * (PI / 180)) with (PI / 2) by field. rewrite cos_PI2. ring.
Qed.

(** ** A position and itself *)
Lemma rnd53 s n x : (0 <= s <= 1000)%Z -> IZR (2 ^ 52) <= x * IZR (2 ^ s) < IZR (2 ^ 53) -> Rabs (x * IZR (2 ^ s) - IZR n) < / 2 -> rndp (-1074) 53 x = IZR n / IZR (2 ^ s).
Proof.
  intros S B N. assert (E : IZR (2 ^ s) = bpow radix2 s) by (rewrite <- IZR_Zpower by lia; reflexivity). rewrite E in *. assert (Q : bpow radix2 s * bpow radix2 (- s) = 1) by (rewrite <- bpow_plus, Z.add_opp_diag_r; reflexivity).
  pose proof (bpow_gt_0 radix2 (- s)) as P.
  unfold rndp, round, F2R, scaled_mantissa, cexp. rewrite (mag_unique_pos radix2 x (53 - s)).
  - replace (FLT_exp (-1074) 53 (53 - s)) with (- s)%Z by (unfold FLT_exp; lia). rewrite Z.opp_involutive. cbn [Defs.Fnum Defs.Fexp].
    rewrite (Znearest_imp (fun x => negb (Z.even x)) _ n N). rewrite bpow_opp. reflexivity.
  - change (IZR (2 ^ 52)) with (bpow radix2 52) in B. change (IZR (2 ^ 53)) with (bpow radix2 53) in B.
    replace (53 - s - 1)%Z with (52 + - s)%Z by lia. replace (53 - s)%Z with (53 + - s)%Z by lia. rewrite !bpow_plus.
    replace x with (x * bpow radix2 s * bpow radix2 (- s)) by (rewrite Rmult_assoc, Q; ring). split; [apply Rmult_le_compat_r; lra|apply Rmult_lt_compat_r; lra].
Qed.
Lemma pi_more : 314159265358979323 / 100000000000000000 < PI < 314159265358979324 / 100000000000000000.
Proof.
  assert (A : Q2R (1 # 100000000000000000000) <= sin (Q2R (314159265358979323 # 100000000000000000)) <= Q2R 1) by (apply (within_ok 7); vm_cast_no_check (eq_refl true)).
  assert (B : Q2R (-1) <= sin (Q2R (314159265358979324 # 100000000000000000)) <= Q2R (-1 # 100000000000000000000)) by (apply (within_ok 7); vm_cast_no_check (eq_refl true)).
  unfold Q2R in A, B. cbn [Qnum Qden] in A, B. pose proof PI2_3_2 as P2. unfold PI2 in P2. pose proof PI_4 as P4.
  fold (314159265358979323 / 100000000000000000) in A. fold (314159265358979324 / 100000000000000000) in B. split.
  - apply Rnot_le_lt. intros H. assert (sin (314159265358979323 / 100000000000000000) <= 0) by (apply sin_le_0; lra). lra.
  - apply Rnot_le_lt. intros H. assert (0 <= sin (314159265358979324 / 100000000000000000)) by (apply sin_ge_0; lra). lra.
Qed.
Notation rn64 := (rndp (-1074) 53).
Lemma pi_64 : rn64 PI = IZR 7074237752028440 / IZR (2 ^ 51).
Proof. pose proof pi_more. apply rnd53; [lia| |apply Rabs_def1]; change (2 ^ 51)%Z with 2251799813685248%Z; change (2 ^ 52)%Z with 4503599627370496%Z; change (2 ^ 53)%Z with 9007199254740992%Z; lra. Qed.
Lemma deg_64 : deg_r (-1074) 53 = IZR 5030569068109113 / IZR (2 ^ 58).
Proof. unfold deg_r. rewrite pi_64. apply rnd53; [lia| |apply Rabs_def1]; change (2 ^ 51)%Z with 2251799813685248%Z; change (2 ^ 58)%Z with 288230376151711744%Z; change (2 ^ 52)%Z with 4503599627370496%Z; change (2 ^ 53)%Z with 9007199254740992%Z; lra. Qed.

(** Eight degrees. *)
Definition x8 : R := IZR 5030569068109113 / IZR (2 ^ 55).
Lemma x8_is : rn64 (8 * deg_r (-1074) 53) = x8.
Proof. rewrite deg_64. apply rnd53; [lia| |apply Rabs_def1]; change (2 ^ 58)%Z with 288230376151711744%Z; change (2 ^ 55)%Z with 36028797018963968%Z; change (2 ^ 52)%Z with 4503599627370496%Z; change (2 ^ 53)%Z with 9007199254740992%Z; lra. Qed.
Lemma sin_8 : IZR 1391731009600654417765 / IZR 10000000000000000000000 <= sin x8 <= IZR 1391731009600654417766 / IZR 10000000000000000000000.
Proof.
  assert (A : Q2R (1391731009600654417765 # 10000000000000000000000) <= sin (Q2R (5030569068109113 # 36028797018963968)) <= Q2R (1391731009600654417766 # 10000000000000000000000)) by (apply (within_ok 5); vm_cast_no_check (eq_refl true)).
  unfold Q2R in A. cbn [Qnum Qden] in A. exact A.
Qed.
Lemma sin_4 : IZR 697564737441252995993 / IZR 10000000000000000000000 <= sin (x8 / 2) <= IZR 697564737441252995994 / IZR 10000000000000000000000.
Proof.
  assert (A : Q2R (697564737441252995993 # 10000000000000000000000) <= sin (Q2R (5030569068109113 # 72057594037927936)) <= Q2R (697564737441252995994 # 10000000000000000000000)) by (apply (within_ok 5); vm_cast_no_check (eq_refl true)).
  unfold Q2R in A. cbn [Qnum Qden] in A. replace (x8 / 2) with (IZR 5030569068109113 * / IZR 72057594037927936); [exact A|]. unfold x8. change (2 ^ 55)%Z with 36028797018963968%Z. lra.
Qed.

Lemma sin_64 : rn64 (sin x8) = IZR 5014239404989977 / IZR (2 ^ 55).
Proof. pose proof sin_8. apply rnd53; [lia| |apply Rabs_def1]; change (2 ^ 55)%Z with 36028797018963968%Z; change (2 ^ 52)%Z with 4503599627370496%Z; change (2 ^ 53)%Z with 9007199254740992%Z; lra. Qed.
Lemma cos_64 : rn64 (cos x8) = IZR 8919541810762874 / IZR (2 ^ 53).
Proof.
  pose proof sin_4 as [A B]. set (s := sin (x8 / 2)) in *. assert (C : cos x8 = 1 - 2 * s * s) by (unfold s; replace x8 with (2 * (x8 / 2)) at 1 by field; apply cos_2a_sin).
  match type of A with ?l <= _ => assert (L : l * l <= s * s) by (apply Rmult_le_compat; lra) end. match type of B with _ <= ?h => assert (H : s * s <= h * h) by (apply Rmult_le_compat; lra) end.
  rewrite C. apply rnd53; [lia| |apply Rabs_def1]; change (2 ^ 52)%Z with 4503599627370496%Z; change (2 ^ 53)%Z with 9007199254740992%Z; lra.
Qed.
(** FINDING 240.  In double precision, with a library that rounds to nearest, the angle between the position at latitude 8 degrees and itself is
    NaN, whatever the longitude. *)
Theorem C143_self_refuted : forall ac rad lon,
  angle_r (-1074) 53 (fun x => rn64 (sin x)) (fun x => rn64 (cos x)) ac (deg_r (-1074) 53) rad lon 8 lon 8 = None.
Proof.
  intros ac rad lon. assert (Z : rn64 0 = 0) by (apply (rndp_int 0); lia). assert (O : rn64 1 = 1) by (apply (rndp_int 1); lia).
  assert (CC : rn64 (IZR 8919541810762874 / IZR (2 ^ 53) * (IZR 8919541810762874 / IZR (2 ^ 53))) = IZR 8832737443003841 / IZR (2 ^ 53)).
  { apply rnd53; [lia| |apply Rabs_def1]; change (2 ^ 52)%Z with 4503599627370496%Z; change (2 ^ 53)%Z with 9007199254740992%Z; lra. }
  assert (CD : rn64 (IZR 8832737443003841 / IZR (2 ^ 53)) = IZR 8832737443003841 / IZR (2 ^ 53)).
  { apply rnd53; [lia| |apply Rabs_def1]; change (2 ^ 52)%Z with 4503599627370496%Z; change (2 ^ 53)%Z with 9007199254740992%Z; lra. }
  assert (SS : rn64 (IZR 5014239404989977 / IZR (2 ^ 55) * (IZR 5014239404989977 / IZR (2 ^ 55))) = IZR 5582777975588868 / IZR (2 ^ 58)).
  { apply rnd53; [lia| |apply Rabs_def1]; change (2 ^ 55)%Z with 36028797018963968%Z; change (2 ^ 58)%Z with 288230376151711744%Z; change (2 ^ 52)%Z with 4503599627370496%Z; change (2 ^ 53)%Z with 9007199254740992%Z; lra. }
  assert (T : rn64 (IZR 8832737443003841 / IZR (2 ^ 53) + IZR 5582777975588868 / IZR (2 ^ 58)) = IZR (2 ^ 52 + 1) / IZR (2 ^ 52)).
  { apply rnd53; [lia| |apply Rabs_def1]; change (2 ^ 52 + 1)%Z with 4503599627370497%Z; change (2 ^ 58)%Z with 288230376151711744%Z; change (2 ^ 52)%Z with 4503599627370496%Z; change (2 ^ 53)%Z with 9007199254740992%Z; lra. }
  assert (E : cosine_r (-1074) 53 (fun x => rn64 (sin x)) (fun x => rn64 (cos x)) (deg_r (-1074) 53) lon 8 lon 8 = IZR (2 ^ 52 + 1) / IZR (2 ^ 52)).
  { unfold cosine_r. rewrite x8_is, sin_64, cos_64. replace (lon - lon) with 0 by ring. rewrite Z, Rmult_0_l, Z, cos_0, O, CC, SS, Rmult_1_r, CD. exact T. }
  unfold angle_r. cbv zeta. rewrite E. destruct (Rle_dec _ 1) as [H|]; [|reflexivity]. exfalso.
  rewrite Rabs_pos_eq in H; change (2 ^ 52 + 1)%Z with 4503599627370497%Z in *; change (2 ^ 52)%Z with 4503599627370496%Z in *; lra.
Qed.
Print Assumptions C143_self_refuted.
