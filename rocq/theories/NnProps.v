(** C98: nearest pixels and weights of detectors. *)
From Coq Require Import Reals Lra Lia.
From Verif Require Import Base BaseFacts ConstModel SkyModel SkySpec SkyFacts WcsModel WcsSpec WcsFacts WcsFacts2 WcsProps NnModel.
Open Scope R_scope.

(** The coordinate x is in the pixel i: its lower limit is in it, not its upper one. *)
Definition in_pixel (x : R) (i : Z) : Prop := IZR i - / 2 <= x < IZR i + / 2.
(** The direction of a detector at the offset (u, v) in arc seconds. *)
Definition pointed (ra dec pa u v ra' dec' : R) : Prop :=
  let t := pa * PI / 180 in
  dec' = dec + (v * cos t - u * sin t) / 3600 /\ ra' = ra + (u * cos t + v * sin t) / 3600 / cos (dec' * PI / 180).

Lemma int_part_iff x i : Int_part x = i <-> IZR i <= x < IZR i + 1.
Proof.
  destruct (base_Int_part x) as [H1 H2]. split.
  - intros <-. lra.
  - intros [A B]. assert (IZR (Int_part x) < IZR (i + 1)) by (rewrite plus_IZR; lra). assert (IZR i < IZR (Int_part x + 1)) by (rewrite plus_IZR; lra).
    apply lt_IZR in H, H0. lia.
Qed.
Lemma nint_up_ok x i : nint_up_real x = i <-> in_pixel x i.
Proof.
  assert (G : in_pixel x (nint_up_real x)).
  { unfold nint_up_real, nint_real, in_pixel, Rltb. destruct (Rlt_dec x 0) as [N|N].
    - destruct (proj1 (int_part_iff (- x + / 2) _) eq_refl) as [A B]. set (k := Int_part (- x + / 2)) in *.
      destruct (Req_EM_T (Rabs (x - IZR (- k))) (/ 2)) as [E|E].
      + rewrite plus_IZR. rewrite opp_IZR in *. unfold Rabs in E. destruct (Rcase_abs (x - - IZR k)); lra.
      + rewrite opp_IZR in *. split; [lra|]. destruct (Rlt_dec x (- IZR k + / 2)) as [L|L]; [exact L|]. exfalso. apply E. rewrite Rabs_pos_eq; lra.
    - destruct (proj1 (int_part_iff (x + / 2) _) eq_refl) as [A B]. lra. }
  split; [intros <-; exact G|]. intros H. unfold in_pixel in *.
  assert (IZR (nint_up_real x) < IZR (i + 1)) by (rewrite plus_IZR; lra). assert (IZR i < IZR (nint_up_real x + 1)) by (rewrite plus_IZR; lra).
  apply lt_IZR in H0, H1. lia.
Qed.

Definition in_map (nx ny ix iy : Z) : Prop := (0 <= ix < nx /\ 0 <= iy < ny)%Z.
Lemma nearest_one_ok a nx ny ra dec pa u v area : determinant (cdm a) <> 0 -> forall ra' dec', pointed ra dec pa u v ra' dec' ->
  let w := direction ra' dec' in let c := scalar (centre (fst (crval a)) (snd (crval a))) w in 0 < c ->
  exists x y e, nearest_one a nx ny (ra, dec, pa) (u, v) area = e /\ seen (cdm a) (crpix a) (crval a) (x + 1) (y + 1) w /\ snd (snd e) = area / (c * c * c) /\
  (forall ix iy, in_pixel x ix -> in_pixel y iy -> (in_map nx ny ix iy -> fst e = false /\ fst (snd e) = (iy * nx + ix)%Z) /\ (~ in_map nx ny ix iy -> fst e = true /\ fst (snd e) = (-1)%Z)).
Proof.
  intros D ra' dec' [Pd Pr] w c C.
  assert (O : object2ad ra dec pa (u, v) = (ra', dec')).
  { unfold object2ad. cbn [fst snd]. rewrite !deg. set (t := pa * PI / 180) in *.
    assert (E : dec + (- (u / 3600) * sin t + v / 3600 * cos t) = dec') by (rewrite Pd; field). rewrite E. f_equal. rewrite Pr. unfold Rdiv. ring. }
  assert (CE : cosc a ra' dec' = c) by apply cosc_scalar.
  destruct (ad2xy_gnomonic a ra' dec') as [x y] eqn:XY.
  assert (S : seen (cdm a) (crpix a) (crval a) (x + 1) (y + 1) w).
  { exists c. split; [exact C|]. unfold ad2xy_gnomonic in XY. assert (G := gnomonic_ray a ra' dec' ltac:(lra)). destruct (xsi_eta a ra' dec') as [xsi eta].
    assert (RI := rotation_inverse a xsi eta D). rewrite XY in RI. rewrite RI. rewrite <- CE. exact G. }
  exists x, y. eexists. split; [reflexivity|]. split; [exact S|]. unfold nearest_one. rewrite O, ad2xys_ok by lra. rewrite XY, CE. cbn [fst snd].
  unfold xy2pmatrix_real. destruct ((_ <? 0)%Z || _ || _ || _)%bool eqn:B.
  - cbn [fst snd]. split; [field; lra|]. intros ix iy Ix Iy. apply nint_up_ok in Ix, Iy. rewrite Ix, Iy in B. unfold in_map. split; [intros [M1 M2]; exfalso; lia|]. intros _. split; reflexivity.
  - cbn [fst snd]. split; [field; lra|]. intros ix iy Ix Iy. apply nint_up_ok in Ix, Iy. rewrite Ix, Iy in *. unfold in_map. split; [intros _; split; [reflexivity|ring]|]. intros M. exfalso. apply M. lia.
Qed.

(** The row of a sample that is not masked has one element for each detector: its pixel is the one where the direction of the
    detector is seen, in front of the tangent plane, and its weight the ratio of the areas of the detector and of the pixel.
    Masked samples have no pixel and no weight. *)
Theorem C98_nearest_partial : forall a nx ny coords areas pointings k j out rows row ra dec pa masked u v area, determinant (cdm a) <> 0 ->
  nearest_neighbour a nx ny coords areas pointings = (out, rows) -> length coords = length areas ->
  nth_error pointings k = Some ((ra, dec, pa), masked) -> nth_error rows k = Some row -> nth_error coords j = Some (u, v) -> nth_error areas j = Some area ->
  length rows = length pointings /\ length row = length coords /\
  (masked = true -> nth_error row j = Some ((-1)%Z, 0)) /\
  (masked = false -> forall ra' dec', pointed ra dec pa u v ra' dec' ->
     let w := direction ra' dec' in let c := scalar (centre (fst (crval a)) (snd (crval a))) w in 0 < c ->
     exists x y index, seen (cdm a) (crpix a) (crval a) (x + 1) (y + 1) w /\ nth_error row j = Some (index, area / (c * c * c)) /\
     forall ix iy, in_pixel x ix -> in_pixel y iy -> (in_map nx ny ix iy -> index = (iy * nx + ix)%Z) /\ (~ in_map nx ny ix iy -> index = (-1)%Z /\ out = true)).
Proof.
  intros a nx ny coords areas pointings k j out rows row ra dec pa masked u v area D E L Hp Hr Hc Ha. unfold nearest_neighbour in E.
  injection E as Eo Er. assert (Hr' := Hr). rewrite <- Er in Hr'. rewrite map_map in Hr'. rewrite nth_error_map, Hp in Hr'. cbn [option_map] in Hr'. injection Hr' as Hr'.
  unfold nearest_sample in Hr'. cbn [fst snd] in Hr'.
  split; [rewrite <- Er, !map_length; reflexivity|].
  destruct masked.
  - cbn [snd] in Hr'. subst row. split; [apply map_length|]. split; [intros _; rewrite nth_error_map, Hc; reflexivity|discriminate].
  - cbn [snd] in Hr'. subst row. rewrite !map_length, combine_length. split; [lia|]. split; [discriminate|].
    intros _ ra' dec' P w c C. destruct (nearest_one_ok a nx ny ra dec pa u v area D ra' dec' P C) as [x [y [e [Ee [S [W I]]]]]].
    assert (N : nth_error (combine coords areas) j = Some ((u, v), area)).
    { clear - Hc Ha. revert areas j Hc Ha. induction coords as [|p coords IH]; intros [|b areas] [|j] Hc Ha; cbn in *; try discriminate; [congruence|now apply IH]. }
    exists x, y, (fst (snd e)). split; [exact S|]. split.
    { rewrite !nth_error_map, N. cbn [option_map fst snd]. rewrite Ee. fold w c in W. rewrite <- W. f_equal. apply surjective_pairing. }
    intros ix iy Ix Iy. destruct (I ix iy Ix Iy) as [I1 I2]. split; [intros M; now apply I1|]. intros M. destruct (I2 M) as [O1 O2]. split; [exact O2|].
    rewrite <- Eo. apply existsb_exists. exists (nearest_sample a nx ny coords areas ((ra, dec, pa), false)). split; [apply in_map_iff; exists ((ra, dec, pa), false); split; [reflexivity|now apply nth_error_In in Hp]|].
    unfold nearest_sample. cbn [fst snd]. apply existsb_exists. exists e. split; [|exact O1]. apply in_map_iff. exists ((u, v), area). split; [exact Ee|now apply nth_error_In in N].
Qed.
Print Assumptions C98_nearest_partial.
(** The flag that tells that some detector is outside of the map is set only if an element has no pixel. *)
Theorem C98_flag : forall a nx ny coords areas pointings out rows, nearest_neighbour a nx ny coords areas pointings = (out, rows) -> (0 <= nx)%Z ->
  out = true <-> exists k p row j index value, nth_error pointings k = Some (p, false) /\ nth_error rows k = Some row /\ nth_error row j = Some (index, value) /\ (index < 0)%Z.
Proof.
  intros a nx ny coords areas pointings out rows E NX. unfold nearest_neighbour in E. injection E as <- <-.
  assert (K : forall p c ar, fst (nearest_one a nx ny p c ar) = true <-> (fst (snd (nearest_one a nx ny p c ar)) < 0)%Z).
  { intros [[ra dec] pa] c ar. unfold nearest_one. destruct (object2ad ra dec pa c) as [r d]. destruct (ad2xys_gnomonic a r d) as [xy s]. unfold xy2pmatrix_real.
    set (ix := nint_up_real (fst xy)). set (iy := nint_up_real (snd xy)). clearbody ix iy.
    destruct ((ix <? 0)%Z || _ || _ || _)%bool eqn:B; cbn [fst snd]; [split; [lia|reflexivity]|].
    split; [discriminate|]. intros H. exfalso. assert (0 <= ix /\ 0 <= iy)%Z by lia. assert (0 <= iy * nx)%Z by (apply Z.mul_nonneg_nonneg; lia). lia. }
  split.
  - intros H. apply existsb_exists in H. destruct H as [r [R1 R2]]. apply in_map_iff in R1. destruct R1 as [[p m] [R1 R3]]. unfold nearest_sample in R1. cbn [fst snd] in R1.
    destruct m; [subst r; discriminate|]. destruct (In_nth_error _ _ R3) as [k Hk]. subst r. cbn [fst] in R2. apply existsb_exists in R2. destruct R2 as [e [E1 E2]].
    apply in_map_iff in E1. destruct E1 as [ca [E1 E3]]. destruct (In_nth_error _ _ E3) as [j Hj].
    exists k, p, (map snd (map (fun ca => nearest_one a nx ny p (fst ca) (snd ca)) (combine coords areas))), j, (fst (snd e)), (snd (snd e)).
    split; [exact Hk|]. split; [rewrite map_map, nth_error_map, Hk; reflexivity|]. split; [rewrite !nth_error_map, Hj; cbn [option_map]; rewrite E1; f_equal; apply surjective_pairing|].
    subst e. now apply K.
  - intros [k [p [row [j [index [value [Hk [Hr [Hj I]]]]]]]]]. rewrite map_map, nth_error_map, Hk in Hr. cbn [option_map] in Hr. injection Hr as <-.
    apply existsb_exists. exists (nearest_sample a nx ny coords areas (p, false)). split; [apply in_map_iff; exists (p, false); split; [reflexivity|now apply nth_error_In in Hk]|].
    unfold nearest_sample in *. cbn [fst snd] in *. rewrite !nth_error_map in Hj. destruct (nth_error (combine coords areas) j) as [ca|] eqn:N; [|discriminate]. cbn [option_map] in Hj.
    apply existsb_exists. exists (nearest_one a nx ny p (fst ca) (snd ca)). split; [apply in_map_iff; exists ca; split; [reflexivity|now apply nth_error_In in N]|].
    apply K. injection Hj as Hj. rewrite Hj. exact I.
Qed.
Print Assumptions C98_flag.

(** One pixel of one degree at the direction (0, 0). *)
Definition map1 : astrometry := Astrometry (1, 1) (0, 0) ((-1, 0), (0, 1)).
Lemma pointed_boresight ra dec : pointed ra dec 0 0 0 ra dec.
Proof. unfold pointed. cbv zeta. split; unfold Rdiv; ring. Qed.
Lemma one_element ra dec e : nearest_one map1 1 1 (ra, dec, 0) (0, 0) 2 = e -> nearest_neighbour map1 1 1 [(0, 0)] [2] [((ra, dec, 0), false)] = (fst e, [[snd e]]).
Proof. intros E. unfold nearest_neighbour, nearest_sample. cbn [map combine fst snd existsb]. rewrite E, !orb_false_r. reflexivity. Qed.
Lemma half_turn : 180 * DEG2RAD = PI. Proof. unfold DEG2RAD. field. Qed.
Lemma zero_turn : 0 * DEG2RAD = 0. Proof. ring. Qed.
Lemma nint0 : nint_up_real 0 = 0%Z. Proof. apply nint_up_ok. unfold in_pixel. lra. Qed.
Lemma object_boresight ra dec : object2ad ra dec 0 (0, 0) = (ra, dec).
Proof. unfold object2ad. cbn [fst snd]. f_equal; unfold Rdiv; ring_simplify (0 * / 3600); rewrite ?Rmult_0_l, ?Ropp_0, ?Rmult_0_l, ?Rplus_0_r, ?Rmult_0_l, ?Rplus_0_r; reflexivity. Qed.
Lemma project1 ra : cos (ra * DEG2RAD) <> 0 -> sin (ra * DEG2RAD) = 0 -> nearest_one map1 1 1 (ra, 0, 0) (0, 0) 2 = (false, (0%Z, / (cos (ra * DEG2RAD) * cos (ra * DEG2RAD) * cos (ra * DEG2RAD)) * 2)).
Proof.
  intros C S. unfold nearest_one. rewrite object_boresight. assert (CE : cosc map1 ra 0 = cos (ra * DEG2RAD)). { unfold cosc, map1. cbn [crval fst snd]. rewrite zero_turn, sin_0, cos_0, Rminus_0_r. ring. }
  rewrite ad2xys_ok by (rewrite CE; exact C). rewrite CE.
  assert (XY : ad2xy_gnomonic map1 ra 0 = (0, 0)).
  { unfold ad2xy_gnomonic, xsi_eta. rewrite CE. unfold map1, xy2xy_rotation, cdinv. cbn [crval crpix cdm fst snd]. rewrite zero_turn, sin_0, cos_0, Rminus_0_r, S. f_equal; field; exact C. }
  rewrite XY. cbn [fst snd]. unfold xy2pmatrix_real. rewrite nint0. reflexivity.
Qed.
Example C98_nearest_case : determinant (cdm map1) <> 0 /\ 0 < scalar (centre (fst (crval map1)) (snd (crval map1))) (direction 0 0) /\ pointed 0 0 0 0 0 0 0 /\
  nearest_neighbour map1 1 1 [(0, 0)] [2] [((0, 0, 0), false); ((0, 0, 0), true)] = (false, [[(0%Z, 2)]; [((-1)%Z, 0)]]).
Proof.
  split; [cbn; lra|]. split. { unfold map1, centre, direction, scalar. cbn [crval fst snd]. replace (0 * PI / 180) with 0 by field. rewrite cos_0, sin_0. lra. }
  split; [apply pointed_boresight|].
  assert (P := project1 0 ltac:(rewrite zero_turn, cos_0; lra) ltac:(rewrite zero_turn; exact sin_0)). rewrite zero_turn, cos_0 in P.
  unfold nearest_neighbour, nearest_sample. cbn [map combine fst snd existsb]. rewrite P. cbn [fst snd orb]. repeat f_equal. field.
Qed.
(** Refuted: a detector that points to the opposite direction sees the map, with a negative weight. *)
Theorem C98_antipode_refuted : exists a ra dec area row, determinant (cdm a) <> 0 /\ scalar (centre (fst (crval a)) (snd (crval a))) (direction ra dec) = -1 /\ 0 < area /\
  nearest_neighbour a 1 1 [(0, 0)] [area] [((ra, dec, 0), false)] = (false, [[(0%Z, row)]]) /\ row < 0.
Proof.
  exists map1, 180, 0, 2, (-2). split; [cbn; lra|]. split. { unfold map1, centre, direction, scalar. cbn [crval fst snd]. replace (0 * PI / 180) with 0 by field. replace (180 * PI / 180) with PI by field. rewrite cos_0, sin_0, cos_PI, sin_PI. ring. }
  split; [lra|]. split; [|lra].
  assert (P := project1 180 ltac:(rewrite half_turn, cos_PI; lra) ltac:(rewrite half_turn; exact sin_PI)). rewrite half_turn, cos_PI in P.
  rewrite (one_element 180 0 _ P). cbn [fst snd]. repeat f_equal. field.
Qed.
Print Assumptions C98_antipode_refuted.
(** Refuted: the elements of the detectors that are outside of the map keep their weight, those of the masked samples have none. *)
Theorem C98_outside_refuted : exists a ra dec area w, nearest_neighbour a 0 0 [(0, 0)] [area] [((ra, dec, 0), false)] = (true, [[((-1)%Z, w)]]) /\ w <> 0.
Proof.
  exists map1, 0, 0, 2, (/ (1 * 1 * 1) * 2). split; [|lra]. unfold nearest_neighbour, nearest_sample. cbn [map combine fst snd existsb]. unfold nearest_one. rewrite object_boresight.
  assert (CE : cosc map1 0 0 = 1). { unfold cosc, map1. cbn [crval fst snd]. rewrite zero_turn, sin_0, cos_0, Rminus_0_r, cos_0. ring. }
  rewrite ad2xys_ok by (rewrite CE; lra). rewrite CE. unfold xy2pmatrix_real. set (x := nint_up_real _). set (y := nint_up_real _). clearbody x y.
  replace ((x <? 0)%Z || (0 - 1 <? x)%Z || (y <? 0)%Z || (0 - 1 <? y)%Z)%bool with true by lia. reflexivity.
Qed.
Print Assumptions C98_outside_refuted.
