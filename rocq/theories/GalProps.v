(** C125: the galactic frame, and the angles in celestial frames. *)
From Coq Require Import Reals QArith Qreals Lra Lia String.
From Verif Require Import Base SkyModel SkySpec SkyFacts WcsModel WcsFacts GalModel GalSpec GalFacts GalFacts2 GalFacts3.
Open Scope R_scope.

(** The factor is orthogonal, and the other one is triangular, for any matrix. *)
Theorem C125_qr : forall m, rows_ok (qr_factor m) /\ rows_ok (swapaxes (qr_factor m)) /\ exists r, upper r /\ m = product (qr_factor m) r.
Proof.
  intros m. pose proof (qr_orthonormal m) as H. split; [exact H|]. split; [now apply rows_swap|]. destruct (qr_columns m) as [t1 [v1 [t2 [v2 [x12 [r3 [_ [_ [_ [_ M]]]]]]]]]].
  set (b1 := dlarfg_beta _ _) in M. set (d2 := dlarfg_beta _ _) in M. exists (swapaxes ((b1, 0, 0), (x12, d2, 0), r3)). split; [destruct r3 as [[x y] z]; cbn; auto|].
  eapply product_columns; [apply swap_swap | exact M].
Qed.
Print Assumptions C125_qr.
Example C125_qr_example : exists x, qr_factor ((3, 1, 0), (4, 2, 0), (0, 0, 5)) = x /\ fst (fst (fst (fst x))) = - 3 / 5 /\ fst (fst (snd (fst x))) = - 4 / 5.
Proof.
  eexists. split; [reflexivity|]. unfold qr_factor, first_column, second_column, dlarfg_tau, dlarfg_scale, dlarfg_beta. cbn [swapaxes].
  destruct (Req_EM_T (4 * 4 + 0 * 0) 0) as [E|_]; [lra|]. assert (sqrt (3 * 3 + (4 * 4 + 0 * 0)) = 5) as -> by (replace (3 * 3 + (4 * 4 + 0 * 0)) with (5 * 5) by ring; apply sqrt_square; lra).
  assert (fsign 5 3 = 5) as -> by (unfold fsign; destruct (Rle_dec 0 3); [apply Rabs_right; lra | lra]). cbn [reflect dot3 vtimes vsub swapaxes fst snd].
  destruct (Req_EM_T _ 0) as [E|N]; [split; field|]. exfalso. apply N. field.
Qed.

Lemma near_sym eps u v : near eps u v -> near eps v u.
Proof. intros [A [B C]]. repeat split; rewrite Rabs_minus_sym; assumption. Qed.
(** The matrix of the galactic frame is a rotation; its elements are those that are written, to nine decimal places. *)
Theorem C125_matrix : rows_ok g2e /\ (let '(a, b, c) := g2e in mixed a b c = 1 /\
  near (/ 1000000000) a (- 548755604 / 10000000000, 4941094279 / 10000000000, - 8676661490 / 10000000000) /\
  near (/ 1000000000) b (- 8734370902 / 10000000000, - 4448296300 / 10000000000, - 1980763734 / 10000000000) /\
  near (/ 1000000000) c (- 4838350155 / 10000000000, 7469822445 / 10000000000, 4559837762 / 10000000000)).
Proof.
  split; [apply qr_orthonormal|]. destruct g2e_columns as [k [l [n [p [K [L [N [P H]]]]]]]]. unfold dcol, column in H. unfold g2e_digits in H. cbn [swapaxes] in H. destruct H as [H M].
  destruct (swapaxes g2e) as [[c1 c2] c3] eqn:E. assert (G : g2e = swapaxes (c1, c2, c3)) by (rewrite <- E; symmetry; apply swap_swap). rewrite G. clear G E.
  assert (D : let '(a, b, c) := swapaxes (c1, c2, c3) in mixed a b c = 1) by (destruct c1 as [[? ?] ?], c2 as [[? ?] ?], c3 as [[? ?] ?]; rewrite <- M; cbn [swapaxes]; unfold mixed; ring).
  rewrite H in *. clear H M. cbn [swapaxes] in *. split; [exact D|]. clear D. unfold near. cbn [fst snd].
  assert (K' : - / 4000000000 <= k - 1 <= / 4000000000) by (unfold Rabs in K; destruct (Rcase_abs (k - 1)); lra). assert (L' : - / 4000000000 <= l - 1 <= / 4000000000) by (unfold Rabs in L; destruct (Rcase_abs (l - 1)); lra).
  assert (N' : - / 4000000000 <= n <= / 4000000000) by (unfold Rabs in N; destruct (Rcase_abs n); lra). assert (P' : - / 1900000000 <= p - 1 <= / 1900000000) by (unfold Rabs in P; destruct (Rcase_abs (p - 1)); lra).
  clear K L N P. repeat split; apply Rabs_le; split; lra.
Qed.
Print Assumptions C125_matrix.

Lemma sin_value d lo hi : within 4 (d * (31415926535897 # 1800000000000000)) lo hi = true -> Qle_bool 0 d = true -> Qle_bool d 90 = true ->
  Q2R lo - / 1000000000000 <= sin (Q2R d * PI / 180) <= Q2R hi + / 1000000000000.
Proof.
  intros H A B. apply sin_degrees; [exact H|]. apply Qle_bool_iff, Qle_Rle in A, B. split.
  - apply Rle_trans with (2 := A). unfold Q2R; cbn; lra.
  - apply Rle_trans with (1 := B). unfold Q2R; cbn; lra.
Qed.

Ltac sine d lo hi := let H := fresh in pose proof (sin_value d lo hi ltac:(vm_cast_no_check (eq_refl true)) eq_refl eq_refl) as H; unfold Q2R in H; cbn [Qnum Qden] in H.
Lemma product_close a c a0 c0 e : 0 <= e <= 1 -> Rabs (a - a0) <= e -> Rabs (c - c0) <= e -> Rabs a0 <= 1 -> Rabs c <= 1 -> Rabs (a * c - a0 * c0) <= 2 * e.
Proof.
  intros E H H' A C. replace (a * c - a0 * c0) with ((a - a0) * c + a0 * (c - c0)) by ring. apply Rle_trans with (1 := Rabs_triang _ _). rewrite !Rabs_mult.
  assert (Rabs (a - a0) * Rabs c <= e * 1) by (apply Rmult_le_compat; try apply Rabs_pos; lra). assert (Rabs a0 * Rabs (c - c0) <= 1 * e) by (apply Rmult_le_compat; try apply Rabs_pos; lra). lra.
Qed.
Lemma direction_near az el ca sa ce se e : 0 <= e <= 1 -> Rabs ca <= 1 -> Rabs sa <= 1 -> Rabs ce <= 1 -> Rabs (cos (az * PI / 180) - ca) <= e -> Rabs (sin (az * PI / 180) - sa) <= e ->
  Rabs (cos (el * PI / 180) - ce) <= e -> Rabs (sin (el * PI / 180) - se) <= e -> near (2 * e) (direction az el) (ce * ca, ce * sa, se).
Proof.
  intros E B1 B2 B3 H1 H2 H3 H4. unfold near, direction. cbn [fst snd]. repeat split; [| | lra].
  - apply product_close; try assumption. apply Rabs_le, COS_bound.
  - apply product_close; try assumption. apply Rabs_le, SIN_bound.
Qed.
Lemma near_trans e f u v w : near e u v -> near f v w -> near (e + f) u w.
Proof.
  intros [A [B C]] [A' [B' C']]. repeat split.
  - replace (fst (fst u) - fst (fst w)) with (fst (fst u) - fst (fst v) + (fst (fst v) - fst (fst w))) by ring. apply Rle_trans with (1 := Rabs_triang _ _). lra.
  - replace (snd (fst u) - snd (fst w)) with (snd (fst u) - snd (fst v) + (snd (fst v) - snd (fst w))) by ring. apply Rle_trans with (1 := Rabs_triang _ _). lra.
  - replace (snd u - snd w) with (snd u - snd v + (snd v - snd w)) by ring. apply Rle_trans with (1 := Rabs_triang _ _). lra.
Qed.
Lemma near_weaken e f u v : e <= f -> near e u v -> near f u v.
Proof. intros H [A [B C]]. repeat split; lra. Qed.
Lemma unit_entries (r : vec) : scalar r r = 1 -> Rabs (fst (fst r)) <= 1 /\ Rabs (snd (fst r)) <= 1 /\ Rabs (snd r) <= 1.
Proof. destruct r as [[x y] z]. unfold scalar. cbn [fst snd]. intros H. repeat split; apply Rabs_le; nra. Qed.
Lemma near_apply m e u v : rows_ok m -> near e u v -> near (3 * e) (apply_mat m u) (apply_mat m v).
Proof.
  destruct m as [[r0 r1] r2]. intros [H0 [H1 [H2 _]]] [A [B C]].
  assert (K : forall r : vec, scalar r r = 1 -> Rabs (dot3 r u - dot3 r v) <= 3 * e).
  { intros r Hr. destruct (unit_entries r Hr) as [R0 [R1 R2]]. clear H0 H1 H2. destruct r as [[x y] z], u as [[u0 u1] u2], v as [[w0 w1] w2]. cbn [dot3 fst snd] in *.
    replace (x * u0 + y * u1 + z * u2 - (x * w0 + y * w1 + z * w2)) with (x * (u0 - w0) + y * (u1 - w1) + z * (u2 - w2)) by ring.
    apply Rle_trans with (1 := Rabs_triang _ _). pose proof (Rabs_triang (x * (u0 - w0)) (y * (u1 - w1))). rewrite !Rabs_mult in *.
    assert (Rabs x * Rabs (u0 - w0) <= 1 * e) by (apply Rmult_le_compat; try apply Rabs_pos; lra). assert (Rabs y * Rabs (u1 - w1) <= 1 * e) by (apply Rmult_le_compat; try apply Rabs_pos; lra).
    assert (Rabs z * Rabs (u2 - w2) <= 1 * e) by (apply Rmult_le_compat; try apply Rabs_pos; lra). lra. }
  unfold near. cbn [apply_mat fst snd]. repeat split; apply K; assumption.
Qed.
Lemma pole_direction : near (/ 1000000000) (direction (19285948 / 100000) (2712825 / 100000)) (- 8676661490 / 10000000000, - 1980763734 / 10000000000, 4559837762 / 10000000000).
Proof.
  sine (1285948 # 100000) (222560701897 # 1000000000000) (222560701899 # 1000000000000). sine (7714052 # 100000) (974918834554 # 1000000000000) (974918834556 # 1000000000000).
  sine (2712825 # 100000) (455983776174 # 1000000000000) (455983776176 # 1000000000000). sine (6287175 # 100000) (889988087484 # 1000000000000) (889988087486 # 1000000000000).
  assert (C1 : cos (19285948 / 100000 * PI / 180) = - sin (7714052 * / 100000 * PI / 180)).
  { replace (19285948 / 100000 * PI / 180) with (1285948 / 100000 * PI / 180 + PI) by field. rewrite neg_cos, <- sin_shift. do 2 f_equal. field. }
  assert (S1 : sin (19285948 / 100000 * PI / 180) = - sin (1285948 * / 100000 * PI / 180)).
  { replace (19285948 / 100000 * PI / 180) with (1285948 * / 100000 * PI / 180 + PI) by field. apply neg_sin. }
  assert (C2 : cos (2712825 / 100000 * PI / 180) = sin (6287175 * / 100000 * PI / 180)) by (rewrite <- sin_shift; f_equal; field).
  apply near_weaken with (2 * / 100000000000 + / 10000000000); [lra|]. eapply near_trans.
  - apply (direction_near _ _ (- 974918834555 / 1000000000000) (- 222560701898 / 1000000000000) (889988087485 / 1000000000000) (455983776175 / 1000000000000)).
    + lra.
    + apply Rabs_le; lra.
    + apply Rabs_le; lra.
    + apply Rabs_le; lra.
    + rewrite C1. apply Rabs_le; lra.
    + rewrite S1. apply Rabs_le; lra.
    + rewrite C2. apply Rabs_le; lra.
    + change (2712825 / 100000) with (2712825 * / 100000). apply Rabs_le; lra.
  - unfold near. cbn [fst snd]. repeat split; apply Rabs_le; lra.
Qed.
Lemma centre_direction : near (162 / 100000000) (direction (2664051 / 10000) (- 28936175 / 1000000)) (- 548755604 / 10000000000, - 8734370902 / 10000000000, - 4838350155 / 10000000000).
Proof.
  sine (35949 # 10000) (62701683132 # 1000000000000) (62701683135 # 1000000000000). sine (864051 # 10000) (998032313570 # 1000000000000) (998032313573 # 1000000000000).
  sine (28936175 # 1000000) (483835031430 # 1000000000000) (483835031433 # 1000000000000). sine (61063825 # 1000000) (875159221146 # 1000000000000) (875159221149 # 1000000000000).
  assert (C1 : cos (2664051 / 10000 * PI / 180) = - sin (35949 * / 10000 * PI / 180)).
  { replace (2664051 / 10000 * PI / 180) with (864051 / 10000 * PI / 180 + PI) by field. rewrite neg_cos, <- sin_shift. do 2 f_equal. field. }
  assert (S1 : sin (2664051 / 10000 * PI / 180) = - sin (864051 * / 10000 * PI / 180)).
  { replace (2664051 / 10000 * PI / 180) with (864051 * / 10000 * PI / 180 + PI) by field. apply neg_sin. }
  assert (C2 : cos (- 28936175 / 1000000 * PI / 180) = sin (61063825 * / 1000000 * PI / 180)).
  { replace (- 28936175 / 1000000 * PI / 180) with (- (28936175 / 1000000 * PI / 180)) by field. rewrite cos_neg, <- sin_shift. f_equal; field. }
  assert (S2 : sin (- 28936175 / 1000000 * PI / 180) = - sin (28936175 * / 1000000 * PI / 180)).
  { replace (- 28936175 / 1000000 * PI / 180) with (- (28936175 * / 1000000 * PI / 180)) by field. apply sin_neg. }
  apply near_weaken with (2 * / 100000000000 + 161 / 100000000); [lra|]. eapply near_trans.
  - apply (direction_near _ _ (- 62701683133 / 1000000000000) (- 998032313571 / 1000000000000) (875159221147 / 1000000000000) (- 483835031432 / 1000000000000)).
    + lra.
    + apply Rabs_le; lra.
    + apply Rabs_le; lra.
    + apply Rabs_le; lra.
    + rewrite C1. apply Rabs_le; lra.
    + rewrite S1. apply Rabs_le; lra.
    + rewrite C2. apply Rabs_le; lra.
    + rewrite S2. apply Rabs_le; lra.
  - unfold near. cbn [fst snd]. repeat split; apply Rabs_le; lra.
Qed.
(** The galactic pole and the galactic centre are those of the documentation: the pole within a billionth, the centre
    within two millionths (a third of a second of arc). *)
Theorem C125_frame :
  near (2 / 1000000000) (galactic2equatorial g2e (0, 0, 1)) (direction (19285948 / 100000) (2712825 / 100000)) /\
  near (6 / 1000000000) (equatorial2galactic g2e (direction (19285948 / 100000) (2712825 / 100000))) (0, 0, 1) /\
  near (163 / 100000000) (galactic2equatorial g2e (1, 0, 0)) (direction (2664051 / 10000) (- 28936175 / 1000000)) /\
  near (489 / 100000000) (equatorial2galactic g2e (direction (2664051 / 10000) (- 28936175 / 1000000))) (1, 0, 0).
Proof.
  pose proof C125_matrix as [O M]. assert (P : near (2 / 1000000000) (galactic2equatorial g2e (0, 0, 1)) (direction (19285948 / 100000) (2712825 / 100000)) /\ near (163 / 100000000) (galactic2equatorial g2e (1, 0, 0)) (direction (2664051 / 10000) (- 28936175 / 1000000))).
  { unfold galactic2equatorial. destruct g2e as [[[[a0 a1] a2] [[b0 b1] b2]] [[c0 c1] c2]]. destruct M as [_ [A [B C]]]. unfold near in A, B, C. cbn [fst snd] in A, B, C. destruct A as [A0 [_ A2]], B as [B0 [_ B2]], C as [C0 [_ C2]]. split.
    - apply near_weaken with (/ 1000000000 + / 1000000000); [lra|]. eapply near_trans; [|apply near_sym, pole_direction]. unfold near. cbn [apply_mat dot3 fst snd]. rewrite !Rmult_0_r, !Rmult_1_r, !Rplus_0_l. repeat split; assumption.
    - apply near_weaken with (/ 1000000000 + 162 / 100000000); [lra|]. eapply near_trans; [|apply near_sym, centre_direction]. unfold near. cbn [apply_mat dot3 fst snd]. rewrite !Rmult_0_r, !Rmult_1_r, !Rplus_0_r. repeat split; assumption. }
  destruct P as [P1 P2]. split; [exact P1|]. split; [|split; [exact P2|]].
  - rewrite <- (apply_inverse_l g2e (0, 0, 1) O). apply near_weaken with (3 * (2 / 1000000000)); [lra|]. apply near_apply; [now apply rows_swap | now apply near_sym].
  - rewrite <- (apply_inverse_l g2e (1, 0, 0) O). apply near_weaken with (3 * (163 / 100000000)); [lra|]. apply near_apply; [now apply rows_swap | now apply near_sym].
Qed.
Print Assumptions C125_frame.
(** The examples of the documentation, to eight decimal places. *)
Theorem C125_examples :
  near (6 / 1000000000) (equatorial2galactic g2e (0, 0, 1)) (- 48383502 / 100000000, 74698224 / 100000000, 45598378 / 100000000) /\
  near (6 / 1000000000) (galactic2equatorial g2e (0, 0, 1)) (- 86766615 / 100000000, - 19807637 / 100000000, 45598378 / 100000000).
Proof.
  pose proof C125_matrix as [_ M]. unfold galactic2equatorial, equatorial2galactic. destruct g2e as [[[[a0 a1] a2] [[b0 b1] b2]] [[c0 c1] c2]]. destruct M as [_ [A [B C]]].
  unfold near in *. cbn [apply_mat swapaxes dot3 fst snd] in *. destruct A as [A0 [A1 A2]], B as [B0 [B1 B2]], C as [C0 [C1 C2]]. rewrite !Rmult_0_r, !Rmult_1_r, !Rplus_0_l.
  assert (T : forall x y z e f g, Rabs (x - y) <= e -> Rabs (y - z) <= f -> e + f <= g -> Rabs (x - z) <= g).
  { intros x y z e f g H1 H2 H3. replace (x - z) with (x - y + (y - z)) by ring. apply Rle_trans with (1 := Rabs_triang _ _). lra. }
  repeat split; (eapply T; [eassumption | apply Rabs_le; instantiate (1 := 5 / 1000000000); lra | lra]).
Qed.
Print Assumptions C125_examples.

(** *** Angles *)
Definition azimuth_ok (azimuth : R -> R -> R) : Prop := forall x y, sqrt (x * x + y * y) * cos (azimuth y x) = x /\ sqrt (x * x + y * y) * sin (azimuth y x) = y.
Lemma unit_in_degrees degrees x : unit_in degrees x = to_degrees degrees x * PI / 180.
Proof. pose proof PI_RGT_0. unfold unit_in, to_degrees. destruct degrees; field; lra. Qed.
Lemma unit_out_degrees degrees x : to_degrees degrees (unit_out degrees x) = x * 180 / PI.
Proof. pose proof PI_RGT_0. unfold unit_out, to_degrees. destruct degrees; field; lra. Qed.
Lemma spherical2cartesian_ok c degrees p : spherical2cartesian c degrees p = towards c degrees p.
Proof.
  unfold spherical2cartesian, towards, direction. rewrite !unit_in_degrees. set (a := to_degrees degrees (fst p)). set (b := to_degrees degrees (snd p)).
  assert (S : forall x, sin ((90 - x) * PI / 180) = cos (x * PI / 180)) by (intros x; rewrite <- sin_shift; f_equal; field). assert (C : forall x, cos ((90 - x) * PI / 180) = sin (x * PI / 180)) by (intros x; rewrite <- cos_shift; f_equal; field).
  destruct c; rewrite ?S, ?C; reflexivity.
Qed.
Lemma cartesian2spherical_ok azimuth c degrees v : azimuth_ok azimuth -> scalar v v = 1 ->
  towards c degrees (cartesian2spherical azimuth c degrees v) = v /\ -90 <= elevation c degrees (cartesian2spherical azimuth c degrees v) <= 90.
Proof.
  intros Z. destruct v as [[x y] z]. unfold scalar. cbn [fst snd]. intros U. assert (B : -1 <= z <= 1) by nra. destruct (Z x y) as [X Y]. pose proof PI_RGT_0 as P.
  assert (R : sqrt (x * x + y * y) = sqrt (1 - z²)) by (f_equal; unfold Rsqr; lra). rewrite R in X, Y.
  assert (D : towards c degrees (cartesian2spherical azimuth c degrees (x, y, z)) = direction (azimuth y x * 180 / PI) (asin z * 180 / PI) /\ elevation c degrees (cartesian2spherical azimuth c degrees (x, y, z)) = asin z * 180 / PI).
  { assert (A : 90 - acos z * 180 / PI = asin z * 180 / PI) by (rewrite (acos_asin z B); field; lra).
    unfold towards, elevation, cartesian2spherical. destruct c; cbn [fst snd]; rewrite !unit_out_degrees, ?A; split; reflexivity. }
  destruct D as [-> ->]. unfold direction. replace (asin z * 180 / PI * PI / 180) with (asin z) by (field; lra). replace (azimuth y x * 180 / PI * PI / 180) with (azimuth y x) by (field; lra).
  rewrite sin_asin, cos_asin by exact B. rewrite X, Y. split; [reflexivity|]. pose proof (asin_bound z) as [A1 A2]. split.
  - apply (Rmult_le_reg_r PI); [lra|]. replace (asin z * 180 / PI * PI) with (asin z * 180) by (field; lra). lra.
  - apply (Rmult_le_reg_r PI); [lra|]. replace (asin z * 180 / PI * PI) with (asin z * 180) by (field; lra). lra.
Qed.
Lemma direction_unit az el : scalar (direction az el) (direction az el) = 1.
Proof.
  unfold scalar, direction. cbn [fst snd]. pose proof (trig (az * PI / 180)) as A. pose proof (trig (el * PI / 180)) as B. set (c := cos (el * PI / 180)) in *. set (s := sin (el * PI / 180)) in *. set (c' := cos (az * PI / 180)) in *. set (s' := sin (az * PI / 180)) in *.
  transitivity (c * c * (s' * s' + c' * c') + s * s); [ring | rewrite A; lra].
Qed.
Lemma towards_unit c degrees p : scalar (towards c degrees p) (towards c degrees p) = 1.
Proof. unfold towards. destruct c; apply direction_unit. Qed.
Lemma elevation_unique c degrees p q : towards c degrees p = towards c degrees q -> -90 <= elevation c degrees p <= 90 -> -90 <= elevation c degrees q <= 90 -> elevation c degrees p = elevation c degrees q.
Proof.
  intros H P Q. pose proof PI_RGT_0. assert (K : forall r, snd (towards c degrees r) = sin (elevation c degrees r * PI / 180)) by (intros r; unfold towards, elevation, direction; destruct c; reflexivity).
  assert (S : sin (elevation c degrees p * PI / 180) = sin (elevation c degrees q * PI / 180)) by (rewrite <- !K, H; reflexivity).
  assert (E : elevation c degrees p * PI / 180 = elevation c degrees q * PI / 180).
  { rewrite <- (asin_sin (elevation c degrees p * PI / 180)), <- (asin_sin (elevation c degrees q * PI / 180)), S by nra. reflexivity. }
  apply (Rmult_eq_reg_r (PI / 180)); lra.
Qed.
(** With any arctangent that gives the angle of the vector, in any convention and any unit: the angles that are
    returned are those of the direction in the other frame, and the elevation is between -90 and 90 degrees. *)
Theorem C125_spherical : forall azimuth cin cout degrees p, azimuth_ok azimuth ->
  (let q := spherical_equatorial2galactic azimuth cin cout degrees p in
   towards cout degrees q = equatorial2galactic g2e (towards cin degrees p) /\ -90 <= elevation cout degrees q <= 90) /\
  (let q := spherical_galactic2equatorial azimuth cin cout degrees p in
   towards cout degrees q = galactic2equatorial g2e (towards cin degrees p) /\ -90 <= elevation cout degrees q <= 90) /\
  (forall jd latitude longitude, exists u q, equatorial2horizontal "NE" jd latitude longitude (towards cin degrees p) = Ok u /\
   spherical_equatorial2horizontal azimuth "NE" jd latitude longitude cin cout degrees p = Ok q /\ towards cout degrees q = u /\ -90 <= elevation cout degrees q <= 90) /\
  (forall jd latitude longitude, exists u q, horizontal2equatorial "NE" jd latitude longitude (towards cin degrees p) = Ok u /\
   spherical_horizontal2equatorial azimuth "NE" jd latitude longitude cin cout degrees p = Ok q /\ towards cout degrees q = u /\ -90 <= elevation cout degrees q <= 90).
Proof.
  intros az cin cout degrees p Z. assert (O : rows_ok g2e) by apply qr_orthonormal.
  assert (T : forall m, rows_ok m -> scalar (apply_mat m (towards cin degrees p)) (apply_mat m (towards cin degrees p)) = 1) by (intros m Hm; rewrite SkyFacts.angles by exact Hm; apply towards_unit).
  split; [|split; [|split]].
  - unfold spherical_equatorial2galactic. rewrite spherical2cartesian_ok. apply cartesian2spherical_ok; [exact Z|]. apply T, rows_swap, O.
  - unfold spherical_galactic2equatorial. rewrite spherical2cartesian_ok. apply cartesian2spherical_ok; [exact Z|]. now apply T.
  - intros jd lat lon. unfold spherical_equatorial2horizontal, equatorial2horizontal, equatorial_horizontal. cbn [String.eqb Ascii.eqb Bool.eqb negb bind]. do 2 eexists. split; [reflexivity|]. split; [reflexivity|].
    rewrite spherical2cartesian_ok. apply cartesian2spherical_ok; [exact Z|]. apply T, horizontal_rows.
  - intros jd lat lon. unfold spherical_horizontal2equatorial, horizontal2equatorial, equatorial_horizontal. cbn [String.eqb Ascii.eqb Bool.eqb negb bind]. do 2 eexists. split; [reflexivity|]. split; [reflexivity|].
    rewrite spherical2cartesian_ok. apply cartesian2spherical_ok; [exact Z|]. apply T, rows_swap, horizontal_rows.
Qed.
Print Assumptions C125_spherical.
(** Each undoes the other: the direction comes back, and the elevation if it is between -90 and 90 degrees. *)
Theorem C125_round_trip : forall azimuth cin cout degrees p, azimuth_ok azimuth ->
  (let q := spherical_galactic2equatorial azimuth cout cin degrees (spherical_equatorial2galactic azimuth cin cout degrees p) in
   towards cin degrees q = towards cin degrees p /\ (-90 <= elevation cin degrees p <= 90 -> elevation cin degrees q = elevation cin degrees p)) /\
  (forall jd latitude longitude, exists q r, spherical_equatorial2horizontal azimuth "NE" jd latitude longitude cin cout degrees p = Ok q /\
     spherical_horizontal2equatorial azimuth "NE" jd latitude longitude cout cin degrees q = Ok r /\
     towards cin degrees r = towards cin degrees p /\ (-90 <= elevation cin degrees p <= 90 -> elevation cin degrees r = elevation cin degrees p)).
Proof.
  intros az cin cout degrees p Z. assert (O : rows_ok g2e) by apply qr_orthonormal. split.
  - cbv zeta. destruct (C125_spherical az cin cout degrees p Z) as [[A _] _]. set (r := spherical_equatorial2galactic az cin cout degrees p) in *.
    destruct (C125_spherical az cout cin degrees r Z) as [_ [[B C] _]]. set (q := spherical_galactic2equatorial az cout cin degrees r) in *.
    assert (E : towards cin degrees q = towards cin degrees p) by (rewrite B, A; now apply apply_inverse). split; [exact E|]. intros H. now apply elevation_unique.
  - intros jd lat lon. destruct (C125_spherical az cin cout degrees p Z) as [_ [_ [A _]]]. destruct (A jd lat lon) as [u [q [A1 [A2 [A3 _]]]]].
    destruct (C125_spherical az cout cin degrees q Z) as [_ [_ [_ B]]]. destruct (B jd lat lon) as [w [r [B1 [B2 [B3 B4]]]]].
    exists q, r. split; [exact A2|]. split; [exact B2|]. assert (E : towards cin degrees r = towards cin degrees p).
    { rewrite B3. rewrite A3 in B1. unfold equatorial2horizontal, horizontal2equatorial, equatorial_horizontal in A1, B1. cbn [String.eqb Ascii.eqb Bool.eqb negb bind] in A1, B1. apply (f_equal (fun t => match t with Ok w => w | Err _ => (0, 0, 0) end)) in A1, B1. cbv beta iota in A1, B1. rewrite <- B1, <- A1.
      apply apply_inverse_l, horizontal_rows. }
    split; [exact E|]. intros H. now apply elevation_unique.
Qed.
Print Assumptions C125_round_trip.
Example C125_azimuth : azimuth_ok atan2.
Proof. intros x y. apply atan2_polar. Qed.
(** The coordinates of the samplings, in degrees. *)
Theorem C125_samplings : forall azimuth p, azimuth_ok azimuth ->
  towards Azimuth_elevation true p = direction (fst p) (snd p) /\
  (let q := equatorial_galactic azimuth p in direction (fst q) (snd q) = equatorial2galactic g2e (direction (fst p) (snd p)) /\ -90 <= snd q <= 90) /\
  (forall date time latitude longitude, exists u q r, horizontal2equatorial "NE" (date + time / 86400) latitude longitude (direction (fst p) (snd p)) = Ok u /\
     horizontal_equatorial azimuth date time latitude longitude p = Ok q /\ direction (fst q) (snd q) = u /\ -90 <= snd q <= 90 /\
     horizontal_galactic azimuth date time latitude longitude p = Ok r /\ direction (fst r) (snd r) = equatorial2galactic g2e u /\ -90 <= snd r <= 90).
Proof.
  intros az p Z. split; [reflexivity|]. split; [exact (proj1 (C125_spherical az Azimuth_elevation Azimuth_elevation true p Z))|].
  intros date time lat lon. destruct (C125_spherical az Azimuth_elevation Azimuth_elevation true p Z) as [_ [_ [_ A]]]. destruct (A (date + time / 86400) lat lon) as [u [q [A1 [A2 [A3 A4]]]]].
  destruct (C125_spherical az Azimuth_elevation Azimuth_elevation true q Z) as [[B1 B2] _].
  exists u, q, (spherical_equatorial2galactic az Azimuth_elevation Azimuth_elevation true q). split; [exact A1|]. split; [exact A2|]. split; [exact A3|]. split; [exact A4|].
  split; [unfold horizontal_galactic, horizontal_equatorial; rewrite A2; reflexivity|]. split; [|exact B2].
  etransitivity; [exact B1|]. rewrite A3. reflexivity.
Qed.
Print Assumptions C125_samplings.
(** The azimuth of the observer's north is that of the pole: looking north at the elevation of the latitude is looking at the pole. *)
Example C125_north : exists q, horizontal_equatorial atan2 2451545 0 48 2 (0, 48) = Ok q /\ direction (fst q) (snd q) = (0, 0, 1).
Proof.
  destruct (C125_samplings atan2 (0, 48) C125_azimuth) as [_ [_ A]]. destruct (A 2451545 0 48 2) as [u [q [_ [B1 [B2 [B3 [B4 _]]]]]]]. exists q. split; [exact B2|]. rewrite B3.
  unfold horizontal2equatorial, equatorial_horizontal in B1. cbn [String.eqb Ascii.eqb Bool.eqb negb bind] in B1. apply (f_equal (fun t => match t with Ok w => w | Err _ => (0, 0, 0) end)) in B1. cbv beta iota in B1. rewrite <- B1. clear B1. set (lst := gst2lst _ _).
  pose proof (horizontal_rows 48 lst) as H. assert (E : apply_mat (horizontal 48 lst) (0, 0, 1) = direction 0 48).
  { unfold horizontal, radians, direction. cbn [apply_mat dot3]. replace (0 * PI / 180) with 0 by field. rewrite cos_0, sin_0. replace (48 * PI / 180) with (48 * (PI / 180)) by field. repeat apply (f_equal2 pair); ring. }
  cbn [fst snd]. rewrite <- E. apply apply_inverse_l, H.
Qed.
