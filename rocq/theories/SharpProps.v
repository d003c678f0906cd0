(** C120: pointing matrices of detectors with sharp edges. *)
From Coq Require Import Reals List ZArith Lia Lra Bool.
From Flocq Require Import Core.
From Verif Require Import Base BaseFacts SparseModel RndModel RndSpec RndProps PmModel PmSpec PmFacts2 GeoModel GeoSpec GeoFacts GeoFacts2 GeoFacts3 GeoFacts4 GeoFacts5 GeoProps ConstModel SkyModel SkySpec SkyFacts WcsModel WcsSpec WcsFacts WcsFacts2 WcsProps NnModel NnProps SharpModel SharpSpec SharpFacts.
Open Scope R_scope.

Lemma nth_error_combine {A B} (l : list A) (r : list B) k a b : nth_error l k = Some a -> nth_error r k = Some b -> nth_error (combine l r) k = Some (a, b).
Proof. revert r k. induction l as [|x l IH]; intros [|y r] [|k] Ha Hb; cbn in *; try discriminate; [congruence|now apply IH]. Qed.
Lemma fold_max_in l z : In z l -> (z <= fold_right Z.max 0 l)%Z.
Proof. induction l as [|b l IH]; [intros []|]. intros [->|H]; cbn [fold_right]; [lia|]. apply IH in H. lia. Qed.
Lemma fold_max_attained l : fold_right Z.max 0%Z l = 0%Z \/ In (fold_right Z.max 0%Z l) l.
Proof. induction l as [|b l IH]; [now left|]. cbn [fold_right]. destruct (Z.max_spec b (fold_right Z.max 0%Z l)) as [[_ ->]|[_ ->]]; [|right; now left]. destruct IH as [->|IH]; [now left|right; now right]. Qed.

(** The matrix of npixels_per_sample elements for each sample and each detector, one thread.  Each detector is seen as a
    polygon of pixels, the rays of which are those of the projection if they are in front of the tangent plane.  The row of a
    sample that is not masked lists the pixels of the map, in their order, with the area of the polygon over them in single
    precision (those whose area is zero are omitted), as many as there is room for; the rest of the row is cleared.  The row of
    a masked sample is cleared.  The required number of elements is the largest number of pixels of the samples that are not
    masked, and out tells if one of their polygons is not inside of the map. *)
Theorem C120_matrix : forall a nx ny w coords pointings pmatrix, determinant (cdm a) <> 0 -> length pmatrix = length pointings ->
  Forall (fun m => length m = length coords /\ Forall (fun row => length row = w) m) pmatrix -> Forall (fun v => v <> []) coords ->
  exists new out rows, sharp_edges a (Z.of_nat nx) (Z.of_nat ny) coords pointings pmatrix = Ok (new, out, rows) /\ length rows = length pointings /\
  exists (polygon : nat -> nat -> list (R * R)) (pixels : nat -> nat -> list (Z * R)),
  (forall k j ra dec pa masked vertices, nth_error pointings k = Some ((ra, dec, pa), masked) -> nth_error coords j = Some vertices ->
     projection (cdm a) (crpix a) (crval a) ra dec pa vertices (polygon k j) /\ lists_pixels nx ny (polygon k j) (pixels k j) /\
     exists m row, nth_error rows k = Some m /\ length m = length coords /\ nth_error m j = Some row /\
     row = if masked then repeat ((-1)%Z, 0) w else firstn w (pixels k j) ++ repeat ((-1)%Z, 0) (w - length (pixels k j))) /\
  (forall k j p, nth_error pointings k = Some (p, false) -> (j < length coords)%nat -> (Z.of_nat (length (pixels k j)) <= new)%Z) /\
  (new = 0%Z \/ exists k j p, nth_error pointings k = Some (p, false) /\ (j < length coords)%nat /\ new = Z.of_nat (length (pixels k j))) /\
  (out = true <-> exists k j p, nth_error pointings k = Some (p, false) /\ (j < length coords)%nat /\ ~ on_map nx ny (polygon k j)).
Proof.
  intros a nx ny w coords pointings pmatrix D L F V. assert (F' : Forall (fun m => length m = length coords) pmatrix) by (eapply Forall_impl; [|exact F]; intros m [H _]; exact H).
  unfold sharp_edges. rewrite (sharp_loop_ok a nx ny coords pointings pmatrix 0 false L F'). do 3 eexists. split; [reflexivity|].
  split; [rewrite map_length, combine_length; lia|].
  set (poly := fun (k j : nat) => match nth_error pointings k with Some (p, _) => projected a p (nth j coords []) | None => [] end).
  assert (Pol : forall k j p b, nth_error pointings k = Some (p, b) -> poly k j = projected a p (nth j coords [])) by (intros k j p b H; unfold poly; now rewrite H).
  exists poly, (fun k j => rounded_footprint nx ny (poly k j)). split; [|split; [|split]].
  - intros k j ra dec pa masked vertices Hk Hj. rewrite (Pol k j _ _ Hk), (nth_error_nth _ _ [] Hj). split; [now apply projected_ok|]. split; [apply rounded_lists|].
    destruct (nth_error pmatrix k) as [m|] eqn:Hm; [|apply nth_error_None in Hm; assert (k < length pointings)%nat by (apply nth_error_Some; congruence); lia].
    rewrite Forall_forall in F. destruct (F m (nth_error_In _ _ Hm)) as [Lm Fm]. rewrite Forall_forall in Fm.
    destruct (nth_error m j) as [row|] eqn:Hr; [|apply nth_error_None in Hr; assert (j < length coords)%nat by (apply nth_error_Some; congruence); lia].
    assert (Lr := Fm row (nth_error_In _ _ Hr)).
    exists (sample_rows a nx ny coords ((ra, dec, pa), masked) m). destruct masked; eexists; (split; [rewrite nth_error_map, (nth_error_combine _ _ _ _ _ Hk Hm); reflexivity|]); unfold sample_rows; cbn [fst snd].
    + split; [now rewrite map_length|]. split; [rewrite nth_error_map, Hr; reflexivity|]. rewrite <- Lr. clear. induction row as [|e row IH]; cbn; [reflexivity|]. now rewrite IH.
    + split; [rewrite map_length, combine_length, map_length; lia|]. split; [rewrite nth_error_map; rewrite (nth_error_combine _ _ j (projected a (ra, dec, pa) vertices) row); [reflexivity| now rewrite nth_error_map, Hj | exact Hr]|].
      cbn [fst snd]. rewrite Lr. reflexivity.
  - intros k j p Hk Hj. rewrite (Pol k j _ _ Hk). change (Z.of_nat (length ?l)) with (zlen l). apply fold_max_in. apply in_flat_map. exists (p, false). split; [now apply nth_error_In in Hk|].
    unfold sample_widths. cbn [fst snd]. rewrite map_map. apply in_map_iff. exists (nth j coords []). split; [reflexivity | now apply nth_In].
  - destruct (fold_max_attained (flat_map (sample_widths a nx ny coords) pointings)) as [E|I]; [now left|right].
    apply in_flat_map in I. destruct I as [[p masked] [I1 I2]]. unfold sample_widths in I2. cbn [fst snd] in I2. destruct masked; [destruct I2|].
    rewrite map_map in I2. apply in_map_iff in I2. destruct I2 as [v [E I2]]. destruct (In_nth_error _ _ I1) as [k Hk]. destruct (In_nth _ _ [] I2) as [j [Hj Ev]].
    exists k, j, p. split; [exact Hk|]. split; [exact Hj|]. rewrite (Pol k j _ _ Hk), Ev. symmetry. exact E.
  - rewrite orb_false_r, existsb_exists. rewrite Forall_forall in V.
    assert (NE : forall p v, In v coords -> projected a p v <> []) by (intros p v Hv E; apply (V v Hv); unfold projected in E; now apply map_eq_nil in E). split.
    + intros [[p masked] [I1 I2]]. unfold sample_out in I2. cbn [fst snd] in I2. destruct masked; [discriminate|]. apply existsb_exists in I2. destruct I2 as [q [I2 O]]. apply in_map_iff in I2. destruct I2 as [v [<- I2]].
      destruct (In_nth_error _ _ I1) as [k Hk]. destruct (In_nth _ _ [] I2) as [j [Hj Ev]]. exists k, j, p. split; [exact Hk|]. split; [exact Hj|]. rewrite (Pol k j _ _ Hk), Ev.
      apply is_outside_ok in O; [exact O | now apply NE].
    + intros [k [j [p [Hk [Hj O]]]]]. rewrite (Pol k j _ _ Hk) in O. exists (p, false). split; [now apply nth_error_In in Hk|]. unfold sample_out. cbn [fst snd]. apply existsb_exists.
      exists (projected a p (nth j coords [])). split; [apply List.in_map; now apply nth_In|]. apply is_outside_ok; [apply NE; now apply nth_In | exact O].
Qed.
Print Assumptions C120_matrix.

(** The values of the pixels of a convex polygon, of either orientation, that lies on the map add up to its area, up to the
    rounding of the values. *)
Theorem C120_flux : forall nx ny xy l, lists_pixels nx ny xy l -> convex xy \/ convex (rev xy) -> on_map nx ny xy ->
  Rabs (rsum (map snd l) - Rabs (shoelace xy)) <= powerRZ 2 (-24) * Rabs (shoelace xy) + INR (nx * ny) * powerRZ 2 (-150).
Proof.
  intros nx ny xy l [area [A ->]] O M.
  assert (FS : rsum (map (fun p => Rabs (overlap xy (fst p) (snd p))) (map_pixels nx ny)) = Rabs (shoelace xy)).
  { rewrite <- footprint_sum. destruct O as [C|C].
    - apply (row_flux 1); [exact M | lra|]. intros i j. rewrite Rmult_1_l. unfold overlap. rewrite <- intersection_ok. now apply cell_bounds.
    - apply (row_flux (-1)); [exact M | lra|]. intros i j. replace (-1 * overlap xy i j) with (overlap (rev xy) i j) by (rewrite overlap_rev; ring). unfold overlap. rewrite <- intersection_ok. now apply cell_bounds. }
  rewrite <- FS, <- map_pixels_length. rewrite map_map. cbn [snd]. clear FS O M.
  induction (map_pixels nx ny) as [|p r IH]; [cbn; rewrite Rminus_0_r, Rabs_R0; lra|]. cbn [filter map length]. rewrite S_INR.
  set (s := rsum (map (fun x => area x) _)) in IH. change (rsum (?x :: ?y)) with (x + rsum y). set (t := rsum (map _ r)) in *.
  assert (E : Rabs (area p - Rabs (overlap xy (fst p) (snd p))) <= powerRZ 2 (-24) * Rabs (overlap xy (fst p) (snd p)) + powerRZ 2 (-150)).
  { destruct (A p) as [_ N]. pose proof (single_error (Rabs (overlap xy (fst p) (snd p)))) as E. rewrite Rabs_Rabsolu in E. destruct (single_nearest (Rabs (overlap xy (fst p) (snd p)))) as [R1 _]. specialize (N _ R1). lra. }
  assert (S : rsum (map (fun x => area x) (if if Req_EM_T (area p) 0 then false else true then p :: filter (fun p => if Req_EM_T (area p) 0 then false else true) r else filter (fun p => if Req_EM_T (area p) 0 then false else true) r)) = area p + s).
  { destruct (Req_EM_T (area p) 0) as [Z|Z]; [rewrite Z, Rplus_0_l; reflexivity | reflexivity]. }
  rewrite S. replace (area p + s - (Rabs (overlap xy (fst p) (snd p)) + t)) with ((area p - Rabs (overlap xy (fst p) (snd p))) + (s - t)) by ring.
  eapply Rle_trans; [apply Rabs_triang|]. lra.
Qed.
Print Assumptions C120_flux.

(** A map of 2 x 3 pixels of 180 / pi degrees in the tangent plane, centred at the direction (0, 0), and a detector of 45
    degrees. *)
Definition map57 : astrometry := Astrometry (1, 2) (0, 0) ((180 / PI, 0), (0, 180 / PI)).
Definition triangle45 : list (R * R) := [(0, 0); (162000, 0); (0, 162000)].
Lemma turn45 : 45 * WcsModel.DEG2RAD = PI / 4. Proof. unfold WcsModel.DEG2RAD. field. Qed.
Lemma vertex1 ra : object2ad ra 0 0 (0, 0) = (ra, 0). Proof. apply object_boresight. Qed.
Lemma vertex2 ra : object2ad ra 0 0 (162000, 0) = (ra + 45, 0).
Proof. unfold object2ad. cbn [fst snd]. rewrite zero_turn, sin_0, cos_0. replace (0 + (- (162000 / 3600) * 0 + 0 / 3600 * 1)) with 0 by field. rewrite zero_turn, cos_0. f_equal. field. Qed.
Lemma vertex3 ra : object2ad ra 0 0 (0, 162000) = (ra, 45).
Proof.
  unfold object2ad. cbn [fst snd]. rewrite zero_turn, sin_0, cos_0. replace (0 + (- (0 / 3600) * 0 + 162000 / 3600 * 1)) with 45 by field. f_equal. rewrite turn45.
  assert (cos (PI / 4) <> 0) by (apply Rgt_not_eq, cos_gt_0; pose proof PI_RGT_0; lra). field. assumption.
Qed.
Lemma rad2deg : RAD2DEG = 180 / PI. Proof. reflexivity. Qed.
Lemma gnomonic57 ra dec : let l := ra * WcsModel.DEG2RAD in let f := dec * WcsModel.DEG2RAD in cos f * cos l <> 0 -> ad2xy_gnomonic map57 ra dec = (sin l / cos l, sin f / (cos f * cos l) + 1).
Proof.
  cbv zeta. intros N. pose proof PI_RGT_0. unfold ad2xy_gnomonic, xsi_eta, cosc, xy2xy_rotation, cdinv, map57. cbn [crval crpix cdm fst snd]. rewrite zero_turn, sin_0, cos_0, Rminus_0_r, rad2deg.
  set (l := ra * _) in *. set (f := dec * _) in *. assert (cos f <> 0 /\ cos l <> 0) as [N1 N2] by (split; intros E; apply N; rewrite E; ring).
  f_equal; field; repeat split; auto; lra.
Qed.
Lemma seen_front : projected map57 (0, 0, 0) triangle45 = [(0, 1); (1, 1); (0, 2)].
Proof.
  assert (N : cos (PI / 4) <> 0) by (apply Rgt_not_eq, cos_gt_0; pose proof PI_RGT_0; lra). assert (S : sin (PI / 4) = cos (PI / 4)) by (rewrite sin_PI4, cos_PI4; reflexivity).
  unfold projected, triangle45. cbn [map]. rewrite vertex1, vertex2, vertex3, Rplus_0_l. rewrite !gnomonic57; cbv zeta; rewrite ?zero_turn, ?turn45, ?cos_0, ?sin_0, ?S; [|lra|lra|lra].
  repeat f_equal; field; exact N.
Qed.
Lemma seen_behind : projected map57 (180, 0, 0) triangle45 = [(0, 1); (1, 1); (0, 0)].
Proof.
  assert (N : cos (PI / 4) <> 0) by (apply Rgt_not_eq, cos_gt_0; pose proof PI_RGT_0; lra). assert (S : sin (PI / 4) = cos (PI / 4)) by (rewrite sin_PI4, cos_PI4; reflexivity).
  assert (T : (180 + 45) * WcsModel.DEG2RAD = PI / 4 + PI) by (unfold WcsModel.DEG2RAD; field).
  unfold projected, triangle45. cbn [map]. rewrite vertex1, vertex2, vertex3. rewrite !gnomonic57; cbv zeta; rewrite ?T, ?neg_cos, ?neg_sin, ?zero_turn, ?half_turn, ?turn45, ?cos_0, ?sin_0, ?cos_PI, ?sin_PI, ?S; [|lra|lra|lra].
  repeat f_equal; field; exact N.
Qed.
Lemma small_error : powerRZ 2 (-24) * / 2 + INR (2 * 3) * powerRZ 2 (-150) <= / 10.
Proof.
  assert (powerRZ 2 (-150) <= powerRZ 2 (-24)). { rewrite !pow2. apply bpow_le. lia. }
  assert (powerRZ 2 (-24) <= / 100). { change (powerRZ 2 (-24)) with (/ 2 ^ 24). apply Rinv_le_contravar; cbn; lra. }
  replace (INR (2 * 3)) with 6 by (cbn; lra). lra.
Qed.
Lemma filter_shorter {A} (f : A -> bool) l : (length (filter f l) <= length l)%nat.
Proof. induction l as [|x l IH]; cbn; [lia|]. destruct (f x); cbn; lia. Qed.
Definition empty6 : list (Z * R) := repeat (0%Z, 0) 6.
Lemma row_of_triangle p xy : projected map57 p triangle45 = xy -> convex xy \/ convex (rev xy) -> on_map 2 3 xy -> Rabs (shoelace xy) = / 2 ->
  exists new row, sharp_edges map57 2 3 [triangle45] [(p, false); (p, true)] [[empty6]; [empty6]] = Ok (new, false, [[row]; [repeat ((-1)%Z, 0) 6]]) /\ 2 / 5 <= rsum (map snd row) <= 3 / 5.
Proof.
  intros E C M A. pose proof (sharp_loop_ok map57 2 3 [triangle45] [(p, false); (p, true)] [[empty6]; [empty6]] 0 false eq_refl ltac:(repeat constructor)) as K.
  change (Z.of_nat 2) with 2%Z in K. change (Z.of_nat 3) with 3%Z in K. cbn [flat_map existsb combine map fst snd] in K. unfold sample_rows, sample_out at 1 2, sample_widths in K. cbn [fst snd map combine] in K. rewrite E in K.
  exists (fold_right Z.max 0%Z [zlen (rounded_footprint 2 3 xy)]), (padded ((-1)%Z, 0) 6 (rounded_footprint 2 3 xy)). split.
  - unfold sharp_edges. rewrite K. f_equal. f_equal. f_equal. cbn [existsb orb]. rewrite !orb_false_r. destruct (is_outside (Z.of_nat 2) (Z.of_nat 3) (bounds xy)) eqn:O; [|reflexivity]. exfalso.
    assert (NE : xy <> []) by (rewrite <- E; discriminate). apply (is_outside_ok 2 3 xy NE) in O. now apply O.
  - unfold padded. assert (Ln : (length (rounded_footprint 2 3 xy) <= 6)%nat). { unfold rounded_footprint. rewrite map_length. eapply Nat.le_trans; [apply filter_shorter|]. rewrite map_pixels_length. lia. }
    rewrite firstn_all2 by exact Ln. rewrite map_app, rsum_app.
    assert (Z : forall k, rsum (map snd (repeat ((-1)%Z, 0) k)) = 0) by (unfold rsum; induction k as [|k IH]; cbn; [reflexivity | rewrite IH; ring]). rewrite Z, Rplus_0_r.
    pose proof (C120_flux 2 3 xy _ (rounded_lists 2 3 xy) C M) as B. rewrite A in B. pose proof small_error. apply Rabs_le_inv in B || (assert (B' := B); apply Rcomplements.Rabs_le_between in B). lra.
Qed.
Example C120_case : determinant (cdm map57) <> 0 /\ (exists new row, sharp_edges map57 2 3 [triangle45] [((0, 0, 0), false); ((0, 0, 0), true)] [[empty6]; [empty6]] = Ok (new, false, [[row]; [repeat ((-1)%Z, 0) 6]]) /\ 2 / 5 <= rsum (map snd row) <= 3 / 5) /\
  forall u v w, In (u, v) triangle45 -> vertex_direction 0 0 0 u v w -> in_front (crval map57) w.
Proof.
  pose proof PI_RGT_0. split; [|split].
  - cbn [map57 cdm determinant]. rewrite Rmult_0_l, Rminus_0_r. apply Rmult_integral_contrapositive_currified; unfold Rdiv; apply Rmult_integral_contrapositive_currified; try lra; apply Rinv_neq_0_compat; lra.
  - apply (row_of_triangle (0, 0, 0) _ seen_front).
    + left. intros i j k Hi Hk. cbn [length] in Hk. assert (i = 0 /\ j = 1 /\ k = 2)%nat as [-> [-> ->]] by lia. unfold turn. cbn [nth fst snd]. lra.
    + intros p [<-|[<-|[<-|[]]]]; cbn; lra.
    + unfold shoelace, GeoSpec.edges, rsum. cbn [last combine map fold_right fst snd]. rewrite Rabs_pos_eq; lra.
  - assert (N : 0 < cos (PI / 4)) by (apply cos_gt_0; lra). intros u v w I [ra [dec [Pd [Pr ->]]]]. cbv zeta in *. replace (0 * PI / 180) with 0 in * by field. rewrite sin_0, cos_0 in *.
    unfold in_front, scalar, centre, direction. cbn [map57 crval fst snd]. replace (0 * PI / 180) with 0 by field. rewrite sin_0, cos_0. destruct I as [I|[I|[I|[]]]]; injection I as <- <-.
    + assert (dec = 0) by lra. clear Pd. subst dec. assert (ra = 0) by (rewrite Pr; unfold Rdiv; ring). clear Pr. subst ra. replace (0 * PI / 180) with 0 by field. rewrite sin_0, cos_0. lra.
    + assert (dec = 0) by lra. clear Pd. subst dec. assert (ra = 45). { rewrite Pr. replace (0 * PI / 180) with 0 by field. rewrite cos_0. lra. } clear Pr. subst ra. replace (0 * PI / 180) with 0 by field. replace (45 * PI / 180) with (PI / 4) by field. rewrite sin_0, cos_0. lra.
    + assert (dec = 45) by lra. clear Pd. subst dec. replace (45 * PI / 180) with (PI / 4) in * by field. assert (ra = 0) by (rewrite Pr; unfold Rdiv; ring). clear Pr. subst ra. replace (0 * PI / 180) with 0 by field. rewrite sin_0, cos_0. lra.
Qed.
(** Refuted: a detector that looks away from the map, behind the tangent plane, has pixels of the map, with positive values. *)
Theorem C120_behind_refuted : exists a vertices p new row, determinant (cdm a) <> 0 /\
  (forall u v w, In (u, v) vertices -> vertex_direction (fst (fst p)) (snd (fst p)) (snd p) u v w -> scalar (centre (fst (crval a)) (snd (crval a))) w < 0) /\
  sharp_edges a 2 3 [vertices] [(p, false); (p, true)] [[empty6]; [empty6]] = Ok (new, false, [[row]; [repeat ((-1)%Z, 0) 6]]) /\ 2 / 5 <= rsum (map snd row).
Proof.
  pose proof PI_RGT_0. destruct (row_of_triangle (180, 0, 0) _ seen_behind) as [new [row [E B]]].
  - right. intros i j k Hi Hk. cbn [length rev app] in Hk. assert (i = 0 /\ j = 1 /\ k = 2)%nat as [-> [-> ->]] by lia. unfold turn. cbn [nth fst snd rev app]. lra.
  - intros p [<-|[<-|[<-|[]]]]; cbn; lra.
  - unfold shoelace, GeoSpec.edges, rsum. cbn [last combine map fold_right fst snd]. rewrite Rabs_left; lra.
  - exists map57, triangle45, (180, 0, 0), new, row. split; [apply C120_case|]. split; [|split; [exact E|lra]].
    assert (N : 0 < cos (PI / 4)) by (apply cos_gt_0; lra). intros u v w I [ra [dec [Pd [Pr ->]]]]. cbn [fst snd] in *. cbv zeta in *. replace (0 * PI / 180) with 0 in * by field. rewrite sin_0, cos_0 in *.
    unfold scalar, centre, direction. cbn [map57 crval fst snd]. replace (0 * PI / 180) with 0 by field. rewrite sin_0, cos_0. destruct I as [I|[I|[I|[]]]]; injection I as <- <-.
    + assert (dec = 0) by lra. clear Pd. subst dec. assert (ra = 180) by (rewrite Pr; unfold Rdiv; ring). clear Pr. subst ra. replace (0 * PI / 180) with 0 by field. replace (180 * PI / 180) with PI by field. rewrite sin_0, cos_0, cos_PI. lra.
    + assert (dec = 0) by lra. clear Pd. subst dec. assert (ra = 180 + 45). { rewrite Pr. replace (0 * PI / 180) with 0 by field. rewrite cos_0. lra. } clear Pr. subst ra. replace (0 * PI / 180) with 0 by field. replace ((180 + 45) * PI / 180) with (PI / 4 + PI) by field. rewrite sin_0, cos_0, neg_cos. lra.
    + assert (dec = 45) by lra. clear Pd. subst dec. replace (45 * PI / 180) with (PI / 4) in * by field. assert (ra = 180) by (rewrite Pr; unfold Rdiv; ring). clear Pr. subst ra. replace (180 * PI / 180) with PI by field. rewrite cos_PI. lra.
Qed.
Print Assumptions C120_behind_refuted.
