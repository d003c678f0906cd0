(** Lemmas for C120. *)
From Coq Require Import Reals List ZArith Lia Lra Bool.
From Flocq Require Import Core.
From Verif Require Import Base BaseFacts SparseModel RndModel RndSpec RndProps PmModel PmSpec PmFacts2 GeoModel GeoSpec GeoFacts GeoFacts2 GeoFacts3 ConstModel SkyModel SkySpec SkyFacts WcsModel WcsSpec WcsFacts WcsFacts2 WcsProps NnModel NnProps SharpModel SharpSpec.
Open Scope R_scope.

(** ** Regions *)
Lemma nint_up_htpi x : nint_up_real x = round_htpi x.
Proof. apply nint_up_ok. unfold in_pixel, round_htpi, floor. destruct (base_Int_part (x + / 2)). lra. Qed.
Lemma nint_opp x : nint_real (- x) = (- nint_real x)%Z.
Proof.
  unfold nint_real, Rltb. destruct (Rlt_dec (- x) 0), (Rlt_dec x 0); try lra; rewrite ?Ropp_involutive; try lia.
  assert (x = 0) as -> by lra. rewrite Ropp_0, Rplus_0_l. assert (Int_part (/ 2) = 0%Z) as -> by (apply int_part_iff; cbn; lra). reflexivity.
Qed.
Lemma nint_down_up x : nint_down_real x = (- nint_up_real (- x))%Z.
Proof.
  unfold nint_down_real, nint_up_real. rewrite nint_opp. unfold Rltb. destruct (Rlt_dec 0 x), (Rlt_dec (- x) 0); try lra; try lia.
  replace (Rabs (- x - IZR (- nint_real x))) with (Rabs (x - IZR (nint_real x))) by (rewrite opp_IZR, <- (Rabs_Ropp (x - IZR (nint_real x))); f_equal; ring).
  destruct (Req_EM_T _ _); lia.
Qed.
Lemma nint_down_htmi x : nint_down_real x = round_htmi x.
Proof. rewrite nint_down_up, nint_up_htpi. unfold round_htpi, round_htmi, ceiling, floor. do 2 f_equal. ring. Qed.
Lemma xy2roi_bounds xy : xy2roi xy = bounds xy.
Proof. unfold xy2roi, bounds. now rewrite !nint_up_htpi, !nint_down_htmi. Qed.

(** ** Single precision *)
Lemma single_0 : single 0 = 0.
Proof. apply round_0. apply valid_rnd_N. Qed.
Lemma single_abs x : single (Rabs x) = Rabs (single x).
Proof. unfold single, rndp. apply round_NE_abs. apply FLT_exp_valid. unfold Prec_gt_0. lia. Qed.
Instance prec24 : Prec_gt_0 24. Proof. unfold Prec_gt_0. lia. Qed.
Lemma representable_format x : representable (-149) 24 x <-> generic_format radix2 (FLT_exp (-149) 24) x.
Proof.
  split.
  - apply (format_representable (-149) 24).
  - intros H. apply (FLT_format_generic radix2 (-149) 24 (prec_gt_0_ := prec24)) in H. destruct H as [[m e] H1 H2 H3]. exists m, e. cbn [Fnum Fexp] in *.
    split; [rewrite H1; unfold F2R; cbn [Fnum Fexp]; now rewrite bpow_powerRZ|]. split; [exact H2|exact H3].
Qed.
Lemma single_nearest x : nearest_to (-149) 24 x (single x).
Proof.
  split.
  - apply representable_format. apply generic_format_round; [apply FLT_exp_valid; exact prec24|apply valid_rnd_N].
  - intros z Hz. apply representable_format in Hz. destruct (round_N_pt radix2 (FLT_exp (-149) 24) (fun x => negb (Z.even x)) x) as [_ H]. now apply H.
Qed.
Lemma single_error x : Rabs (single x - x) <= powerRZ 2 (-24) * Rabs x + powerRZ 2 (-150).
Proof. replace x with (1 * x) by ring. exact (mul_error (-149) 24 eq_refl 1 x). Qed.

(** ** Rows *)
(** The pixels of the map with their rounded areas. *)
Definition rounded_footprint (nx ny : nat) (v : list (R * R)) : list (Z * R) :=
  map (fun p => (Z.of_nat (fst p + snd p * nx), single (Rabs (overlap v (fst p) (snd p)))))
      (filter (fun p => if Req_EM_T (single (Rabs (overlap v (fst p) (snd p)))) 0 then false else true) (map_pixels nx ny)).
Lemma rounded_lists nx ny v : lists_pixels nx ny v (rounded_footprint nx ny v).
Proof. exists (fun p => single (Rabs (overlap v (fst p) (snd p)))). split; [intros p; apply single_nearest | reflexivity]. Qed.
Lemma intersected_rounded v nx ny :
  intersected (fun x => eqb x 0) Rabs (fst (fst (xy2roi v))) (snd (fst (xy2roi v))) (fst (snd (xy2roi v))) (snd (snd (xy2roi v))) (single_area v) nx ny = rounded_footprint nx ny v.
Proof.
  rewrite xy2roi_bounds. unfold intersected, rounded_footprint, single_area.
  rewrite (filter_ext _ (fun p => if Req_EM_T (single (Rabs (overlap v (fst p) (snd p)))) 0 then false else true)).
  - apply map_ext. intros p. now rewrite cell_overlap, single_abs.
  - intros p. pose proof (outside_zero v (Z.of_nat (fst p)) (Z.of_nat (snd p))) as O. unfold within in O. rewrite cell_overlap in *. rewrite single_abs.
    unfold eqb. destruct (Req_EM_T (single (overlap v (fst p) (snd p))) 0) as [E|N].
    + rewrite E, Rabs_R0. destruct (Req_EM_T 0 0); [|lra]. cbn. now rewrite andb_false_r.
    + destruct (Req_EM_T (Rabs _) 0) as [E|_]; [exfalso; revert E; now apply Rabs_no_R0|]. cbn [negb]. rewrite andb_true_r.
      match type of O with ?b = false -> _ => destruct b; [reflexivity | exfalso; apply N; rewrite O by reflexivity; apply single_0] end.
Qed.
Lemma sharp_sample_ok a nx ny coords p m new out : length m = length coords ->
  sharp_sample a (Z.of_nat nx) (Z.of_nat ny) coords (p, false) m new out =
    let polygons := map (projected a p) coords in
    Ok (fold_right Z.max new (map (fun v => zlen (rounded_footprint nx ny v)) polygons),
        existsb (fun v => is_outside (Z.of_nat nx) (Z.of_nat ny) (bounds v)) polygons || out,
        map (fun vr => padded ((-1)%Z, 0) (length (snd vr)) (rounded_footprint nx ny (fst vr))) (combine polygons m)).
Proof.
  intros L. unfold sharp_sample. cbn [fst snd]. cbv zeta. set (vs := map (projected a p) coords).
  assert (L' : length m = length vs) by (unfold vs; now rewrite map_length).
  pose proof (roi2pmatrix_ok (fp_ops (-149) 24) (fun x => eqb x 0) nx ny Rabs (map (fun v => (xy2roi v, single_area v)) vs) m new out) as E. cbv zeta in E. rewrite E by now rewrite map_length. clear E.
  rewrite map_map. f_equal. f_equal; [f_equal|].
  - f_equal. apply map_ext. intros v. cbn [fst snd]. f_equal. now apply intersected_rounded.
  - f_equal. clear. induction vs as [|v vs IH]; [reflexivity|]. cbn [map existsb fst]. rewrite IH, xy2roi_bounds. f_equal. symmetry. apply is_outside_roi.
  - clear L'. clearbody vs. clear L coords. revert m. induction vs as [|v vs IH]; intros [|r m]; try reflexivity. cbn [map combine fst snd]. rewrite IH. f_equal.
    rewrite intersected_rounded. reflexivity.
Qed.

(** ** Projection *)
Lemma projected_ok a ra dec pa vertices : determinant (cdm a) <> 0 -> projection (cdm a) (crpix a) (crval a) ra dec pa vertices (projected a (ra, dec, pa) vertices).
Proof.
  intros D. unfold projection, projected. induction vertices as [|[u v] vertices IH]; cbn [map]; constructor; [|exact IH].
  intros w [ra' [dec' [Pd [Pr ->]]]] F. cbn [fst snd] in Pd, Pr. unfold in_front in F.
  assert (O : object2ad ra dec pa (u, v) = (ra', dec')).
  { unfold object2ad. cbn [fst snd]. rewrite !deg. set (t := pa * PI / 180) in *.
    assert (E : dec + (- (u / 3600) * sin t + v / 3600 * cos t) = dec') by (rewrite Pd; field). rewrite E. f_equal. rewrite Pr. unfold Rdiv. ring. }
  rewrite O. set (c := scalar (centre (fst (crval a)) (snd (crval a))) (direction ra' dec')) in *.
  assert (CE : cosc a ra' dec' = c) by apply cosc_scalar.
  destruct (ad2xy_gnomonic a ra' dec') as [x y] eqn:XY. cbn [fst snd].
  exists c. split; [exact F|]. unfold ad2xy_gnomonic in XY. assert (G := gnomonic_ray a ra' dec' ltac:(lra)). destruct (xsi_eta a ra' dec') as [xsi eta].
  assert (RI := rotation_inverse a xsi eta D). rewrite XY in RI. rewrite RI. rewrite <- CE. exact G.
Qed.

(** ** All samples *)
Definition sample_rows (a : astrometry) (nx ny : nat) (coords : list (list pt)) (p : (R * R * R) * bool) (m : list (list (Z * R))) : list (list (Z * R)) :=
  if snd p then map (map (fun _ => ((-1)%Z, 0))) m
  else map (fun vr => padded ((-1)%Z, 0) (length (snd vr)) (rounded_footprint nx ny (fst vr))) (combine (map (projected a (fst p)) coords) m).
Definition sample_out (a : astrometry) (nx ny : nat) (coords : list (list pt)) (p : (R * R * R) * bool) : bool :=
  if snd p then false else existsb (fun v => is_outside (Z.of_nat nx) (Z.of_nat ny) (bounds v)) (map (projected a (fst p)) coords).
Definition sample_widths (a : astrometry) (nx ny : nat) (coords : list (list pt)) (p : (R * R * R) * bool) : list Z :=
  if snd p then [] else map (fun v => zlen (rounded_footprint nx ny v)) (map (projected a (fst p)) coords).
Lemma fold_max_init l x : fold_right Z.max x l = Z.max x (fold_right Z.max 0 l)%Z \/ (x < 0)%Z.
Proof. induction l as [|b l IH]; cbn [fold_right]; lia. Qed.
Lemma fold_max_app l r x : fold_right Z.max x (l ++ r) = fold_right Z.max (fold_right Z.max x r) l.
Proof. apply fold_right_app. Qed.
Lemma fold_max_comm l r x : fold_right Z.max (fold_right Z.max x l) r = fold_right Z.max (fold_right Z.max x r) l.
Proof. rewrite <- !fold_max_app. induction r as [|b r IH]; cbn [app fold_right]; [now rewrite app_nil_r|]. rewrite IH. clear. induction l as [|c l IH]; cbn [app fold_right]; [reflexivity|]. rewrite <- IH. lia. Qed.
Lemma sharp_loop_ok a nx ny coords : forall pointings pmatrix new out, length pmatrix = length pointings -> Forall (fun m => length m = length coords) pmatrix ->
  sharp_loop a (Z.of_nat nx) (Z.of_nat ny) coords pointings pmatrix new out =
    Ok (fold_right Z.max new (flat_map (sample_widths a nx ny coords) pointings),
        existsb (sample_out a nx ny coords) pointings || out,
        map (fun pm => sample_rows a nx ny coords (fst pm) (snd pm)) (combine pointings pmatrix)).
Proof.
  induction pointings as [|[p masked] ps IH]; intros [|m ms] new out L F; try discriminate; [reflexivity|]. inversion F; subst. cbn [sharp_loop].
  destruct masked.
  - unfold sharp_sample at 1. cbn [snd bind]. rewrite IH by (auto; injection L; auto). cbn [bind flat_map existsb combine map fst snd]. reflexivity.
  - rewrite sharp_sample_ok by assumption. cbv zeta. cbn [bind]. rewrite IH by (auto; injection L; auto). cbn [bind flat_map existsb combine map fst snd].
    unfold sample_out at 2, sample_rows at 2, sample_widths at 2. cbn [fst snd]. rewrite fold_max_app. rewrite fold_max_comm. f_equal. f_equal. f_equal.
    destruct (existsb (fun v => is_outside _ _ _) _), (existsb (sample_out a nx ny coords) ps), out; reflexivity.
Qed.

(** ** Sums *)
Lemma rounded_sum nx ny v : rsum (map snd (rounded_footprint nx ny v)) = rsum (map (fun p => single (Rabs (overlap v (fst p) (snd p)))) (map_pixels nx ny)).
Proof.
  unfold rounded_footprint. rewrite map_map. cbn [snd]. induction (map_pixels nx ny) as [|p l IH]; [reflexivity|]. cbn [filter].
  unfold rsum in *. destruct (Req_EM_T (single _) 0) as [E|N]; cbn [map fold_right]; rewrite IH; [rewrite E; ring | reflexivity].
Qed.
Lemma rounding_sum {A} (f : A -> R) l : Rabs (rsum (map (fun p => single (Rabs (f p))) l) - rsum (map (fun p => Rabs (f p)) l)) <= powerRZ 2 (-24) * rsum (map (fun p => Rabs (f p)) l) + INR (length l) * powerRZ 2 (-150).
Proof.
  induction l as [|p l IH].
  - cbn. rewrite Rminus_0_r, Rabs_R0. lra.
  - cbn [map length]. change (rsum (?x :: ?y)) with (x + rsum y). rewrite S_INR. pose proof (single_error (Rabs (f p))) as E. rewrite Rabs_Rabsolu in E.
    match goal with |- Rabs (?s + ?b - (?c + ?d)) <= _ => replace (s + b - (c + d)) with ((s - c) + (b - d)) by ring end. eapply Rle_trans; [apply Rabs_triang|]. lra.
Qed.
Lemma map_pixels_length nx ny : length (map_pixels nx ny) = (nx * ny)%nat.
Proof. unfold map_pixels. rewrite Nat.mul_comm. rewrite <- (seq_length ny 0) at 2. induction (seq 0 ny) as [|j l IH]; [reflexivity|]. cbn [flat_map length Nat.mul]. rewrite app_length, map_length, seq_length, IH. reflexivity. Qed.
