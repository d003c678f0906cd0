From Coq Require Import Reals Lra Lia String Permutation.
From Coquelicot Require Import Coquelicot.
From Verif Require Import Base BaseFacts ConstModel SkyModel SkySpec SkyFacts WcsModel WcsSpec WcsFacts.
Open Scope R_scope.
(** ** The gnomonic projection *)
Lemma cosc_scalar a ra dec : cosc a ra dec = scalar (centre (fst (crval a)) (snd (crval a))) (direction ra dec).
Proof.
  unfold cosc, centre, direction, scalar. cbn [fst snd]. rewrite !deg, cos_minus. ring.
Qed.
Lemma scale3_eq k u v : scale3 k (u : R * R * R) = v <-> (k * fst (fst u) = fst (fst v) /\ k * snd (fst u) = snd (fst v) /\ k * snd u = snd v).
Proof. destruct u as [[a b] c], v as [[x y] z]. cbn. split; [intros H; injection H as -> -> ->; auto | intros [-> [-> ->]]; reflexivity]. Qed.
Lemma gnomonic_ray a ra dec : cosc a ra dec <> 0 -> let '(xsi, eta) := xsi_eta a ra dec in
  direction ra dec = scale3 (cosc a ra dec) (tangent (fst (crval a)) (snd (crval a)) xsi eta).
Proof.
  intros H. unfold xsi_eta. cbv zeta beta iota. pose proof (basis_ok a) as B. unfold tangent.
  assert (Bc : centre (fst (crval a)) (snd (crval a)) = fst (fst (basis a))) by now rewrite B. assert (Be : east (fst (crval a)) (snd (crval a)) = snd (fst (basis a))) by now rewrite B. assert (Bn : north (fst (crval a)) (snd (crval a)) = snd (basis a)) by now rewrite B.
  rewrite Bc, Be, Bn. clear B Bc Be Bn. unfold basis. cbn [fst snd].
  set (D := cosc a ra dec) in *. unfold direction. rewrite <- !deg.
  set (p1 := snd (crval a) * DEG2RAD). set (l0 := fst (crval a) * DEG2RAD). set (p := dec * DEG2RAD). set (l := ra * DEG2RAD).
  assert (ED : D = sin p1 * sin p + cos p1 * cos p * cos (l - l0)) by reflexivity.
  assert (K : forall x, RAD2DEG / D * x * DEG2RAD = x / D). { intros x. pose proof pi_pos. unfold RAD2DEG, DEG2RAD. field. split; lra. }
  rewrite (Rmult_assoc (RAD2DEG / D) (cos p)), !K. cbn [scale3 add3].
  pose proof (trig p1) as T1.
  assert (X1 : cos l = cos l0 * cos (l - l0) - sin l0 * sin (l - l0)). { replace l with (l0 + (l - l0)) at 1 by ring. apply cos_plus. }
  assert (X2 : sin l = sin l0 * cos (l - l0) + cos l0 * sin (l - l0)). { replace l with (l0 + (l - l0)) at 1 by ring. apply sin_plus. }
  assert (U : D * cos p1 - sin p1 * (cos p1 * sin p - sin p1 * cos p * cos (l - l0)) = cos p * cos (l - l0)).
  { rewrite ED. transitivity ((sin p1 * sin p1 + cos p1 * cos p1) * (cos p * cos (l - l0))); [ring | rewrite T1; ring]. }
  assert (V : D * sin p1 + cos p1 * (cos p1 * sin p - sin p1 * cos p * cos (l - l0)) = sin p).
  { rewrite ED. transitivity ((sin p1 * sin p1 + cos p1 * cos p1) * sin p); [ring | rewrite T1; ring]. }
  repeat apply (f_equal2 pair).
  - rewrite X1. transitivity (cos l0 * (D * cos p1 - sin p1 * (cos p1 * sin p - sin p1 * cos p * cos (l - l0))) - sin l0 * (cos p * sin (l - l0))); [rewrite U; ring | field; exact H].
  - rewrite X2. transitivity (sin l0 * (D * cos p1 - sin p1 * (cos p1 * sin p - sin p1 * cos p * cos (l - l0))) + cos l0 * (cos p * sin (l - l0))); [rewrite U; ring | field; exact H].
  - rewrite <- V at 1. field. exact H.
Qed.
Lemma rotation_inverse a xsi eta : determinant (cdm a) <> 0 -> let '(x, y) := xy2xy_rotation a xsi eta in intermediate (cdm a) (crpix a) (x + 1) (y + 1) = (xsi, eta).
Proof.
  destruct a as [[p1 p2] v [[c11 c12] [c21 c22]]]. unfold determinant, xy2xy_rotation, intermediate, cdinv. cbn [cdm crpix fst snd]. intros H. assert (H' : c11 * c22 - c21 * c12 <> 0) by lra. f_equal; field; lra.
Qed.
Lemma rotation_inverse' a x y : determinant (cdm a) <> 0 -> let '(xsi, eta) := intermediate (cdm a) (crpix a) x y in xy2xy_rotation a xsi eta = (x - 1, y - 1).
Proof.
  destruct a as [[p1 p2] v [[c11 c12] [c21 c22]]]. unfold determinant, xy2xy_rotation, intermediate, cdinv. cbn [cdm crpix fst snd]. intros H. assert (H' : c11 * c22 - c21 * c12 <> 0) by lra. f_equal; field; lra.
Qed.
Lemma ad2xys_ok a ra dec : cosc a ra dec <> 0 -> ad2xys_gnomonic a ra dec = (ad2xy_gnomonic a ra dec, / (cosc a ra dec * cosc a ra dec * cosc a ra dec)).
Proof.
  intros H. unfold ad2xys_gnomonic, ad2xy_gnomonic, xsi_eta. set (D := cosc a ra dec) in *. cbv zeta. f_equal.
  - f_equal; field; exact H.
  - field. exact H.
Qed.
(** Tangent vectors determine their coordinates. *)
Lemma tangent_coordinates ra dec k xsi eta : let w := scale3 k (tangent ra dec xsi eta) in
  scalar w (centre ra dec) = k /\ scalar w (east ra dec) = k * (xsi * PI / 180) /\ scalar w (north ra dec) = k * (eta * PI / 180).
Proof.
  cbv zeta. destruct (basis_orthonormal ra dec) as [H1 [H2 [H3 [H4 [H5 H6]]]]]. unfold tangent. destruct (centre ra dec) as [[c0 c1] c2], (east ra dec) as [[e0 e1] e2], (north ra dec) as [[n0 n1] n2].
  unfold scalar in *. cbn [fst snd scale3 add3] in *. set (u := xsi * PI / 180). set (v := eta * PI / 180).
  repeat split.
  - transitivity (k * ((c0 * c0 + c1 * c1 + c2 * c2) + u * (c0 * e0 + c1 * e1 + c2 * e2) + v * (c0 * n0 + c1 * n1 + c2 * n2))); [ring | rewrite H1, H4, H5; ring].
  - transitivity (k * ((c0 * e0 + c1 * e1 + c2 * e2) + u * (e0 * e0 + e1 * e1 + e2 * e2) + v * (e0 * n0 + e1 * n1 + e2 * n2))); [ring | rewrite H2, H4, H6; ring].
  - transitivity (k * ((c0 * n0 + c1 * n1 + c2 * n2) + u * (e0 * n0 + e1 * n1 + e2 * n2) + v * (n0 * n0 + n1 * n1 + n2 * n2))); [ring | rewrite H3, H5, H6; ring].
Qed.
(** Plane area against solid angle, around the centre of the projection. *)
Lemma area_scale c : 0 < c < PI / 2 -> is_derive (fun c => PI * (tan c * tan c)) c (/ (cos c * cos c * cos c) * Derive (fun c => 2 * PI * (1 - cos c)) c).
Proof.
  intros H. assert (C : 0 < cos c) by (apply cos_gt_0; lra).
  replace (Derive (fun c => 2 * PI * (1 - cos c)) c) with (2 * PI * sin c). 2:{ symmetry. apply is_derive_unique. auto_derive; [exact I | ring]. }
  assert (T : is_derive tan c (tan c * tan c + 1)). { replace (tan c * tan c + 1) with (tan c ^ 2 + 1) by ring. apply is_derive_tan. lra. }
  evar_last.
  - apply (is_derive_scal (fun c => tan c * tan c) c PI). apply (is_derive_mult tan tan c _ _ T T). intros; apply Rmult_comm.
  - change (@eq R (PI * plus (mult (tan c * tan c + 1) (tan c)) (mult (tan c) (tan c * tan c + 1))) (/ (cos c * cos c * cos c) * (2 * PI * sin c))). unfold plus, mult. cbn. unfold tan. pose proof (trig c) as T'.
    transitivity (2 * PI * sin c * (sin c * sin c + cos c * cos c) / (cos c * cos c * cos c)); [field; lra | rewrite T'; field; lra].
Qed.
Lemma refpix_area_ok a : determinant (cdm a) <> 0 -> refpix_area a = Rabs (determinant (cdm a)) * (3600 * 3600).
Proof.
  destruct a as [[p1 p2] v [[c11 c12] [c21 c22]]]. unfold determinant, refpix_area, cdinv. cbn [cdm]. intros H. f_equal. set (d := c11 * c22 - c12 * c21) in *. replace (c11 * c22 - c21 * c12) with d by (unfold d; ring).
  replace (c22 / d * (c11 / d) - - c12 / d * (- c21 / d)) with (/ d) by (replace (c22 / d * (c11 / d) - - c12 / d * (- c21 / d)) with (d / (d * d)) by (unfold d; field; exact H); field; exact H).
  rewrite Rabs_inv. field. now apply Rabs_no_R0.
Qed.
(** ** Scale and angle of a matrix *)
Lemma cd_of_ok l c1 c2 pa : cd_of l (Many [c1; c2]) (Some pa) = Ok ((c1 * cos (- pa * PI / 180), c1 * sin (- pa * PI / 180)), (- c2 * sin (- pa * PI / 180), c2 * cos (- pa * PI / 180))).
Proof.
  unfold cd_of, diag. cbn [bind dot22 rotation]. replace (radians (- pa)) with (- pa * PI / 180) by (unfold radians; field). apply f_equal. repeat apply (f_equal2 pair); ring.
Qed.
Lemma cdelt_pa_row cd c1 c2 pa : cdelt_pa cd = Ok (c1, c2, pa) ->
  0 < c2 /\ -180 <= pa < 180 /\ c2 * c2 = snd (snd cd) * snd (snd cd) + fst (snd cd) * fst (snd cd) /\ c1 * c1 = fst (fst cd) * fst (fst cd) + snd (fst cd) * snd (fst cd) /\
  0 < c1 * determinant cd /\ fst (snd cd) = - c2 * sin (- pa * PI / 180) /\ snd (snd cd) = c2 * cos (- pa * PI / 180).
Proof.
  destruct cd as [[a b] [c d]]. unfold cdelt_pa, determinant. cbn [fst snd]. destruct (Req_EM_T (a * d - b * c) 0) as [|N]; [discriminate|]. intros H. injection H as <- <- <-.
  assert (P2 : 0 < d * d + c * c). { destruct (Rlt_dec 0 (d * d + c * c)) as [|W]; [assumption|]. exfalso. apply N. assert (d = 0) by nra. assert (c = 0) by nra. subst. ring. }
  assert (P1 : 0 < a * a + b * b). { destruct (Rlt_dec 0 (a * a + b * b)) as [|W]; [assumption|]. exfalso. apply N. assert (a = 0) by nra. assert (b = 0) by nra. subst. ring. }
  pose proof pi_pos. set (D := a * d - b * c) in *. assert (AD : 0 < Rabs D) by now apply Rabs_pos_lt.
  split; [now apply sqrt_lt_R0|]. split.
  { pose proof (atan2_range (- c) d). unfold RAD2DEG. split.
    - apply (Rmult_le_reg_r (PI / 180)); [lra|]. replace (- atan2 (- c) d * (180 / PI) * (PI / 180)) with (- atan2 (- c) d) by (field; lra). lra.
    - apply (Rmult_lt_reg_r (PI / 180)); [lra|]. replace (- atan2 (- c) d * (180 / PI) * (PI / 180)) with (- atan2 (- c) d) by (field; lra). lra. }
  split; [apply sqrt_sqrt; lra|]. split.
  { transitivity ((D / Rabs D) * (D / Rabs D) * (sqrt (a * a + b * b) * sqrt (a * a + b * b))); [ring|]. rewrite sqrt_sqrt by lra.
    replace (D / Rabs D * (D / Rabs D)) with 1; [ring|]. assert (E : Rabs D * Rabs D = D * D) by (rewrite <- Rabs_mult; apply Rabs_right; nra). replace (D / Rabs D * (D / Rabs D)) with ((D * D) / (Rabs D * Rabs D)) by (field; lra). rewrite E. field. exact N. }
  split.
  { replace (D / Rabs D * sqrt (a * a + b * b) * D) with (D * D / Rabs D * sqrt (a * a + b * b)) by (field; lra). apply Rmult_lt_0_compat; [|now apply sqrt_lt_R0]. apply Rmult_lt_0_compat; [nra | now apply Rinv_0_lt_compat]. }
  replace (- (- atan2 (- c) d * RAD2DEG) * PI / 180) with (atan2 (- c) d) by (unfold RAD2DEG; field; lra).
  pose proof (atan2_polar (- c) d) as [X Y]. replace (d * d + - c * - c) with (d * d + c * c) in * by ring. split; lra.
Qed.
Lemma cdelt_pa_same cd c1 c2 pa ctype : cdelt_pa cd = Ok (c1, c2, pa) ->
  (cd_of ctype (Many [c1; c2]) (Some pa) = Ok cd <-> fst (fst cd) * fst (snd cd) + snd (fst cd) * snd (snd cd) = 0).
Proof.
  intros H. pose proof (cdelt_pa_row _ _ _ _ H) as [P [_ [E2 [E1 [S [C D]]]]]]. rewrite cd_of_ok. set (t := - pa * PI / 180) in *. destruct cd as [[a b] [c d]]. unfold determinant in S. cbn [fst snd] in *. subst c d. pose proof (trig t) as T. split.
  - intros Q. injection Q as <- <-. ring.
  - intros O. set (s := sin t) in *. set (k := cos t) in *. assert (O' : b * k = a * s) by nra.
    (* (a, b) = q (k, s) *)
    set (q := a * k + b * s). assert (A : a = q * k). { unfold q. transitivity (a * (s * s + k * k)); [rewrite T; ring|]. transitivity (a * k * k + s * (a * s)); [ring|]. rewrite <- O'. ring. }
    assert (B : b = q * s). { unfold q. transitivity (b * (s * s + k * k)); [rewrite T; ring|]. transitivity (b * s * s + k * (b * k)); [ring|]. rewrite O'. ring. }
    assert (Q : q * q = c1 * c1). { rewrite E1, A, B. transitivity (q * q * (s * s + k * k)); [rewrite T; ring | ring]. }
    assert (W : a * (c2 * k) - b * (- c2 * s) = q * c2). { rewrite A, B. transitivity (q * c2 * (s * s + k * k)); [ring | rewrite T; ring]. }
    rewrite W in S. assert (c1 = q). { assert (Z : (c1 - q) * (c1 + q) = 0) by lra. apply Rmult_integral in Z. destruct Z as [Z|Z]; [lra|]. exfalso. assert (c1 = - q) by lra. subst c1. assert (0 <= q * q) by nra. nra. }
    subst c1. rewrite A, B at 1. reflexivity.
Qed.
Lemma cd_of_cdelt_pa ctype c1 c2 pa cd : c1 <> 0 -> c2 <> 0 -> cd_of ctype (Many [c1; c2]) (Some pa) = Ok cd ->
  exists pa', cdelt_pa cd = Ok (if Rlt_dec 0 c2 then (c1, c2, pa') else (- c1, - c2, pa')) /\ same_angle pa' (if Rlt_dec 0 c2 then pa else pa + 180).
Proof.
  intros H1 H2 E. rewrite cd_of_ok in E. injection E as <-. set (t := - pa * PI / 180). pose proof (trig t) as T.
  assert (D : c1 * cos t * (c2 * cos t) - c1 * sin t * (- c2 * sin t) = c1 * c2). { transitivity (c1 * c2 * (sin t * sin t + cos t * cos t)); [ring | rewrite T; ring]. }
  assert (N0 : c1 * c2 <> 0) by (apply Rmult_integral_contrapositive; auto).
  destruct (cdelt_pa ((c1 * cos t, c1 * sin t), (- c2 * sin t, c2 * cos t))) as [[[x y] pa']|e] eqn:E.
  2:{ exfalso. unfold cdelt_pa in E. rewrite D in E. destruct (Req_EM_T (c1 * c2) 0); [contradiction | discriminate]. }
  pose proof (cdelt_pa_row _ _ _ _ E) as [P [_ [E2 [E1 [S [C K]]]]]]. unfold determinant in S. cbn [fst snd] in *. rewrite D in S. pose proof pi_pos.
  replace (c2 * cos t * (c2 * cos t) + - c2 * sin t * (- c2 * sin t)) with (c2 * c2) in E2 by (transitivity (c2 * c2 * (sin t * sin t + cos t * cos t)); [rewrite T; ring | ring]).
  replace (c1 * cos t * (c1 * cos t) + c1 * sin t * (c1 * sin t)) with (c1 * c1) in E1 by (transitivity (c1 * c1 * (sin t * sin t + cos t * cos t)); [rewrite T; ring | ring]).
  assert (F2 : (y - c2) * (y + c2) = 0) by lra. assert (F1 : (x - c1) * (x + c1) = 0) by lra. apply Rmult_integral in F2, F1.
  exists pa'. destruct (Rlt_dec 0 c2) as [Q|Q].
  - assert (y = c2) by (destruct F2; lra). subst y. assert (x = c1). { destruct F1 as [|F1]; [lra|]. exfalso. assert (x = - c1) by lra. subst x. assert (0 < c1 * c1) by nra. nra. } subst x.
    split; [reflexivity|]. destruct (turns (- pa' * PI / 180) t) as [k K']; [apply (Rmult_eq_reg_l c2); lra | apply (Rmult_eq_reg_l c2); lra|].
    exists (- k)%Z. rewrite opp_IZR. unfold t in K'. apply (Rmult_eq_reg_r (PI / 180)); lra.
  - assert (y = - c2) by (destruct F2; lra). subst y. assert (x = - c1). { destruct F1 as [F1|]; [|lra]. exfalso. assert (x = c1) by lra. subst x. assert (0 < c1 * c1) by nra. assert (c2 < 0) by lra. nra. } subst x.
    split; [reflexivity|]. destruct (turns (- pa' * PI / 180) (t + PI)) as [k K']; [rewrite neg_cos; apply (Rmult_eq_reg_l c2); lra | rewrite neg_sin; apply (Rmult_eq_reg_l c2); lra|].
    exists (- k - 1)%Z. rewrite minus_IZR, opp_IZR. unfold t in K'. apply (Rmult_eq_reg_r (PI / 180)); lra.
Qed.
