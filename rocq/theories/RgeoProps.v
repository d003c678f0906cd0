(** C127: areas of polygons inside of pixels, with every operation rounded. *)
From Coq Require Import Reals ZArith Lra Lia Bool List.
From Flocq Require Import Core.
From Coquelicot Require Import Coquelicot.
From Verif Require Import Base BaseFacts SparseModel PmModel PmSpec PmFacts2 GeoModel GeoSpec GeoFacts GeoFacts3 RndModel RndSpec RndProps BirFacts RgeoModel RgeoSpec RgeoFacts RgeoFacts2 RgeoFacts3 RgeoFacts4 RgeoFacts5 RgeoFacts6 RgeoFacts7 RgeoFacts8 ClipFacts SharpModel SharpFacts.
Open Scope R_scope.

(** The value of a pixel is the (signed) area of the polygon inside of it, up to
    n u (4 n + 370 M^2). *)
Theorem C127_pixel : forall emin prec xy ix iy M, (6 <= prec)%Z -> (emin <= 1 - 2 * prec)%Z -> 1 <= M ->
  (Z.abs ix <= 2 ^ (prec - 1) - 1)%Z -> (Z.abs iy <= 2 ^ (prec - 1) - 1)%Z ->
  (forall p, In p xy -> representable emin prec (fst p) /\ representable emin prec (snd p) /\ Rabs (fst p - (IZR ix - / 2)) <= M /\ Rabs (snd p - (IZR iy - / 2)) <= M) ->
  pixel_error prec (length xy) M <= 1 -> Rabs (cell_value_r emin prec xy ix iy - pixel_area xy ix iy) <= pixel_error prec (length xy) M.
Proof. intros. apply pixel_near; assumption. Qed.
Print Assumptions C127_pixel.
Example C127_pixel_example : let xy := [(0, 0); (3 / 2, 1); (1, 5 / 2)] in
  (forall p, In p xy -> representable (-1074) 53 (fst p) /\ representable (-1074) 53 (snd p) /\ Rabs (fst p - (IZR 0 - / 2)) <= 3 /\ Rabs (snd p - (IZR 0 - / 2)) <= 3) /\
  pixel_error 53 (length xy) 3 <= / 800000000000 /\ Rabs (cell_value_r (-1074) 53 xy 0 0 - pixel_area xy 0 0) <= / 800000000000 /\ pixel_area xy 0 0 = 7 / 60.
Proof.
  cbv zeta. set (xy := [(0, 0); (3 / 2, 1); (1, 5 / 2)]).
  assert (RH : forall z, (Z.abs z < 2 ^ 53)%Z -> representable (-1074) 53 (IZR z / 2)) by (intros z H; exists z, (-1)%Z; split; [change (powerRZ 2 (-1)) with (/ (2 * 1)); field | lia]).
  assert (V : forall p, In p xy -> representable (-1074) 53 (fst p) /\ representable (-1074) 53 (snd p) /\ Rabs (fst p - (IZR 0 - / 2)) <= 3 /\ Rabs (snd p - (IZR 0 - / 2)) <= 3).
  { assert (H0 : representable (-1074) 53 0) by (replace 0 with (0 / 2) by field; apply RH; lia). assert (H1 : representable (-1074) 53 1) by (replace 1 with (2 / 2) by field; apply RH; lia).
    intros p [<-|[<-|[<-|[]]]]; cbn [fst snd]; (split; [try assumption; apply RH; lia|]); (split; [try assumption; apply RH; lia|]); split; apply Rabs_le; lra. }
  assert (L : pixel_error 53 (length xy) 3 <= / 800000000000) by (unfold pixel_error, unit_of; rewrite pow2; change (bpow radix2 (- (53))) with (/ 9007199254740992); unfold xy; cbn [length INR]; lra).
  split; [exact V|]. split; [exact L|]. split.
  - apply Rle_trans with (2 := L). apply C127_pixel; try assumption; try lia; lra.
  - rewrite area_cell. unfold cell_value, intersection_polygon, xy. cbn [map last intersection_loop fst snd].
    unfold shifted. cbn [map last intersection_loop fst snd]. replace (0 - (IZR 0 - / 2)) with (/ 2) by field. replace (3 / 2 - (IZR 0 - / 2)) with 2 by field. replace (1 - (IZR 0 - / 2)) with (3 / 2) by field. replace (5 / 2 - (IZR 0 - / 2)) with 3 by field.
    assert (S1 : intersection_segment (/ 2) (/ 2) (3 / 2) 3 0 = 9 / 20).
    { unfold intersection_segment. destruct (eqb_spec (/ 2) (3 / 2)); [lra|]. unfold clip_x. destruct (ltb_spec (/ 2) (3 / 2)); [|lra]. destruct (leb_spec 1 (/ 2)); [lra|]. destruct (leb_spec (3 / 2) 0); [lra|]. cbn [orb]. rewrite Rmax_left, Rmin_right by lra. cbv zeta.
      replace ((3 - / 2) / (3 / 2 - / 2)) with (5 / 2) by field. replace (/ 2 - 5 / 2 * / 2) with (- 3 / 4) by field. replace (5 / 2 * / 2 + - 3 / 4) with (/ 2) by field. replace (5 / 2 * 1 + - 3 / 4) with (7 / 4) by field.
      destruct (leb_spec (/ 2) 0); [lra|]. cbn [andb]. destruct (ltb_spec (/ 2) 0); [lra|]. destruct (ltb_spec (7 / 4) 0); [lra|]. destruct (leb_spec 1 (/ 2)); [lra|]. cbn [andb]. destruct (ltb_spec 1 (/ 2)); [lra|]. destruct (ltb_spec 1 (7 / 4)); [|lra]. field. }
    rewrite S1. assert (S2 : intersection_segment 2 (3 / 2) (/ 2) (/ 2) (9 / 20) = 7 / 60).
    { unfold intersection_segment. destruct (eqb_spec 2 (/ 2)); [lra|]. unfold clip_x. destruct (ltb_spec 2 (/ 2)); [lra|]. destruct (leb_spec 1 (/ 2)); [lra|]. destruct (leb_spec 2 0); [lra|]. cbn [orb]. rewrite Rmin_right, Rmax_left by lra. cbv zeta.
      replace ((/ 2 - 3 / 2) / (/ 2 - 2)) with (2 / 3) by field. replace (3 / 2 - 2 / 3 * 2) with (/ 6) by field. replace (2 / 3 * 1 + / 6) with (5 / 6) by field. replace (2 / 3 * / 2 + / 6) with (/ 2) by field.
      destruct (leb_spec (5 / 6) 0); [lra|]. cbn [andb]. destruct (ltb_spec (5 / 6) 0); [lra|]. destruct (ltb_spec (/ 2) 0); [lra|]. destruct (leb_spec 1 (5 / 6)); [lra|]. cbn [andb]. destruct (ltb_spec 1 (5 / 6)); [lra|]. destruct (ltb_spec 1 (/ 2)); [lra|]. field. }
    rewrite S2. unfold intersection_segment. destruct (eqb_spec (3 / 2) 2); [lra|]. unfold clip_x. destruct (ltb_spec (3 / 2) 2); [|lra]. destruct (leb_spec 1 (3 / 2)); [reflexivity | lra].
Qed.

Lemma integration_loop_roi_r emin prec nx v pixels : forall ncols row,
  RgeoModel.integration_loop_r emin prec nx v pixels ncols row = do nr <- roi_loop rzero nx Rabs (cell_value_r emin prec v) pixels (ncols + 1) row; Ok ((fst nr - 1)%Z, snd nr).
Proof.
  induction pixels as [|[ix iy] r IH]; intros ncols row; cbn [RgeoModel.integration_loop_r roi_loop].
  - cbn [bind fst snd]. do 2 f_equal. lia.
  - cbv zeta. unfold rzero at 1. destruct (eqb (cell_value_r emin prec v ix iy) 0); [apply IH|].
    destruct (if (ncols + 1 <=? zlen row)%Z then _ else _) as [row'|e]; cbn [bind]; [apply IH | reflexivity].
Qed.
Lemma integration_row_roi_r emin prec nx ny v row : integration_row_r emin prec nx ny v row = roi2row r_ops rzero nx ny Rabs (bounds_r emin prec v) (cell_value_r emin prec v) row.
Proof.
  unfold integration_row_r, roi2row. rewrite integration_loop_roi_r. change (0 + 1)%Z with 1%Z. destruct (roi_loop _ _ _ _ _ _ _) as [[k r]|e]; [|reflexivity]. cbn [bind fst snd]. reflexivity.
Qed.
Lemma nodup_pixels nx ny : NoDup (map_pixels nx ny).
Proof.
  unfold map_pixels. generalize 0%nat at 2. induction ny as [|ny IH]; intros a; cbn [seq flat_map]; [constructor|].
  assert (A : NoDup (map (fun ix => (ix, a)) (seq 0 nx))) by (apply FinFun.Injective_map_NoDup; [intros x y E; congruence | apply seq_NoDup]).
  assert (D : forall p, In p (map (fun ix => (ix, a)) (seq 0 nx)) -> ~ In p (flat_map (fun iy => map (fun ix => (ix, iy)) (seq 0 nx)) (seq (S a) ny))).
  { intros p H1 H2. apply in_map_iff in H1 as (x & <- & _). apply in_flat_map in H2 as (b & Hb & H2). apply in_map_iff in H2 as (y & E & _). apply in_seq in Hb. injection E. lia. }
  specialize (IH (S a)). revert A D. generalize (map (fun ix => (ix, a)) (seq 0 nx)). intros l A D. induction A as [|p l N A IHl]; cbn [app]; [exact IH|]. constructor.
  - intros H. apply in_app_or in H as [H|H]; [contradiction|]. exact (D p (or_introl eq_refl) H).
  - apply IHl. intros q Hq. apply D. now right.
Qed.
Lemma stored_one {A} (idx : A -> Z) (val : A -> R) g l p0 : NoDup l -> In p0 l -> (forall p, In p l -> idx p = idx p0 -> p = p0) ->
  stored_for (map (fun p => (idx p, val p)) (filter g l)) (idx p0) = if g p0 then val p0 else 0.
Proof.
  unfold stored_for. intros N I U. induction N as [|p l Np N IH]; [contradiction|].
  assert (Z : (forall q, In q l -> idx q <> idx p0) -> filter (fun e : Z * R => (fst e =? idx p0)%Z) (map (fun q => (idx q, val q)) (filter g l)) = []).
  { clear. induction l as [|q l IH]; intros H; cbn [filter map]; [reflexivity|]. destruct (g q); cbn [map filter fst]; [|apply IH; intros r Hr; apply H; now right].
    destruct (Z.eqb_spec (idx q) (idx p0)) as [E|E]; [exfalso; exact (H q (or_introl eq_refl) E) | apply IH; intros r Hr; apply H; now right]. }
  destruct I as [-> |I].
  - assert (Q : forall q, In q l -> idx q <> idx p0) by (intros q Hq E; apply Np; rewrite <- (U q (or_intror Hq) E); exact Hq).
    cbn [filter]. destruct (g p0); cbn [map filter fst]; [rewrite Z.eqb_refl|]; rewrite (Z Q); cbn; [ring | reflexivity].
  - cbn [filter]. assert (P : idx p <> idx p0) by (intros E; apply Np; rewrite (U p (or_introl eq_refl) E); exact I).
    destruct (g p); cbn [map filter fst]; [destruct (Z.eqb_spec (idx p) (idx p0)); [contradiction|]|]; apply IH; try assumption; intros q Hq; apply U; now right.
Qed.
Lemma roi_stored (o : ops R) r f nx ny row n row' : k0 o = 0 -> roi2row o rzero (Z.of_nat nx) (Z.of_nat ny) Rabs r f row = Ok (n, row') -> (n <= zlen row)%Z ->
  forall ix iy, (ix < nx)%nat -> (iy < ny)%nat ->
  stored_for row' (Z.of_nat (ix + iy * nx)) = if within r (Z.of_nat ix) (Z.of_nat iy) then Rabs (f (Z.of_nat ix) (Z.of_nat iy)) else 0.
Proof.
  intros O0 E L ix iy Hx Hy. pose proof (roi2row_ok o rzero (Z.of_nat nx) (Z.of_nat ny) Rabs r f row) as K. cbv zeta in K.
  rewrite K, hit_list_intersected in E. set (hs := intersected _ _ _ _ _ _ _ _ _) in E. injection E as <- <-.
  rewrite firstn_all2 by (unfold zlen in L; lia).
  assert (A : forall m, filter (fun e : Z * R => (fst e =? Z.of_nat (ix + iy * nx))%Z) (repeat ((-1)%Z, k0 o) m) = []).
  { induction m as [|m IH]; cbn [repeat filter fst]; [reflexivity|]. destruct (Z.eqb_spec (-1) (Z.of_nat (ix + iy * nx))); [lia | exact IH]. }
  unfold stored_for. rewrite filter_app, A, app_nil_r. fold (stored_for hs (Z.of_nat (ix + iy * nx))). unfold hs, intersected. change (Z.of_nat (ix + iy * nx)) with ((fun p : nat * nat => Z.of_nat (fst p + snd p * nx)) (ix, iy)).
  rewrite (stored_one (fun p : nat * nat => Z.of_nat (fst p + snd p * nx)) (fun p => Rabs (f (Z.of_nat (fst p)) (Z.of_nat (snd p)))) _ (map_pixels nx ny) (ix, iy) (nodup_pixels nx ny)).
  - cbn [fst snd]. unfold within. destruct ((fst (fst r) <=? Z.of_nat ix) && (Z.of_nat ix <=? snd (fst r)) && (fst (snd r) <=? Z.of_nat iy) && (Z.of_nat iy <=? snd (snd r)))%Z; [|reflexivity]. cbn [andb].
    unfold rzero. destruct (eqb_spec (f (Z.of_nat ix) (Z.of_nat iy)) 0) as [-> |]; cbn [negb]; [rewrite Rabs_R0; reflexivity | reflexivity].
  - unfold map_pixels. apply in_flat_map. exists iy. split; [apply in_seq; lia|]. apply in_map_iff. exists ix. split; [reflexivity | apply in_seq; lia].
  - intros [a b] H G. unfold map_pixels in H. apply in_flat_map in H as (b' & Hb & H). apply in_map_iff in H as (a' & Q & Ha). injection Q as -> ->. apply in_seq in Ha, Hb. cbn [fst snd] in G. assert (a + b * nx = ix + iy * nx)%nat by lia. destruct (Nat.lt_trichotomy b iy) as [T|[T|T]].
    + assert (S b * nx <= iy * nx)%nat by (apply Nat.mul_le_mono_r; exact T). cbn [Nat.mul] in *. lia.
    + subst b. f_equal. lia.
    + assert (S iy * nx <= b * nx)%nat by (apply Nat.mul_le_mono_r; exact T). cbn [Nat.mul] in *. lia.
Qed.
Lemma row_stored emin prec nx ny xy row n row' : integration_row_r emin prec (Z.of_nat nx) (Z.of_nat ny) xy row = Ok (n, row') -> (n <= zlen row)%Z ->
  forall ix iy, (ix < nx)%nat -> (iy < ny)%nat ->
  stored_for row' (Z.of_nat (ix + iy * nx)) = if within (bounds_r emin prec xy) (Z.of_nat ix) (Z.of_nat iy) then Rabs (cell_value_r emin prec xy (Z.of_nat ix) (Z.of_nat iy)) else 0.
Proof. intros E. rewrite integration_row_roi_r in E. exact (roi_stored r_ops _ _ nx ny row n row' eq_refl E). Qed.
(** The row of the matrix: what it stores for any pixel of the map, listed or not, is the
    area of the polygon inside of the pixel up to the error of the row. *)
Theorem C127_row : forall emin prec nx ny xy row n row' C D, (6 <= prec)%Z -> (emin <= 1 - 2 * prec)%Z -> (Z.of_nat nx <= 2 ^ (prec - 1))%Z -> (Z.of_nat ny <= 2 ^ (prec - 1))%Z ->
  (forall p, In p xy -> representable emin prec (fst p) /\ representable emin prec (snd p) /\ Rabs (fst p) <= C /\ Rabs (snd p) <= C) ->
  (forall p q, In p xy -> In q xy -> fst p - fst q <= D /\ snd p - snd q <= D) -> row_error prec (length xy) C D <= 1 ->
  integration_row_r emin prec (Z.of_nat nx) (Z.of_nat ny) xy row = Ok (n, row') -> (n <= zlen row)%Z ->
  forall ix iy, (ix < nx)%nat -> (iy < ny)%nat -> Rabs (stored_for row' (Z.of_nat (ix + iy * nx)) - Rabs (overlap xy ix iy)) <= row_error prec (length xy) C D.
Proof.
  intros emin prec nx ny xy row n row' C D Pp Ee Nx Ny V X L E Ln ix iy Hx Hy. rewrite (row_stored _ _ _ _ _ _ _ _ E Ln ix iy Hx Hy). clear E Ln row n row'.
  assert (AO : overlap xy ix iy = pixel_area xy (Z.of_nat ix) (Z.of_nat iy)) by (unfold overlap, pixel_area; rewrite !INR_IZR_INZ; reflexivity). rewrite AO. clear AO.
  assert (U0 : 0 < unit_of prec) by apply u_pos. pose proof (U1 prec Pp) as U64.
  destruct xy as [|v0 xy0] eqn:Exy.
  { assert (A0 : pixel_area [] (Z.of_nat ix) (Z.of_nat iy) = 0) by reflexivity. rewrite A0. replace (cell_value_r _ _ _ _ _) with 0 by reflexivity. unfold row_error. cbn [length INR].
    destruct (within _ _ _); rewrite Rabs_R0, Rminus_eq_0, Rabs_R0; lra. }
  rewrite <- Exy in *. assert (I0 : In v0 xy) by (rewrite Exy; now left). destruct (V v0 I0) as (_ & _ & C0 & _). pose proof (Rabs_pos (fst v0)) as CP. destruct (X v0 v0 I0 I0) as [D0 _]. rewrite Rminus_eq_0 in D0.
  assert (N1 : 1 <= INR (length xy)) by (rewrite Exy; cbn [length]; rewrite S_INR; pose proof (pos_INR (length xy0)); lra). set (nn := INR (length xy)) in *.
  assert (NU : unit_of prec <= nn * unit_of prec) by (rewrite <- (Rmult_1_l (unit_of prec)) at 1; apply Rmult_le_compat_r; lra).
  set (w := unit_of prec * (C + / 2)). assert (W0 : 0 <= w) by (apply Rmult_le_pos; lra).
  assert (Wn : nn * (4 * w) <= row_error prec (length xy) C D /\ pixel_error prec (length xy) (D + 3 / 2) <= row_error prec (length xy) C D).
  { unfold row_error, pixel_error, w. fold nn. assert (0 <= nn * unit_of prec * nn) by (apply Rmult_le_pos; lra). assert (0 <= nn * unit_of prec * ((D + 3 / 2) * (D + 3 / 2))) by (apply Rmult_le_pos; [lra | apply Rmult_le_pos; lra]). assert (0 <= nn * unit_of prec * C) by (apply Rmult_le_pos; lra). lra. }
  destruct Wn as [Wn Pn]. assert (W4 : w <= / 4). { assert (4 * w <= nn * (4 * w)) by (rewrite <- (Rmult_1_l (4 * w)) at 1; apply Rmult_le_compat_r; lra). lra. }
  assert (mne : forall f : R * R -> R, map f xy <> []) by (intros f; rewrite Exy; discriminate).
  assert (Ri : forall l, l <> [] -> (forall x, In x l -> representable emin prec x /\ Rabs x <= C) -> (representable emin prec (minval l) /\ Rabs (minval l) <= C) /\ (representable emin prec (maxval l) /\ Rabs (maxval l) <= C)) by (intros l Hl H; split; apply H; [apply minval_in, Hl | apply maxval_in, Hl]).
  destruct (Ri (map fst xy) (mne fst)) as [[Rm1 Cm1] [Rm2 Cm2]]. { intros x Hx'. apply in_map_iff in Hx' as (p & <- & Hp). destruct (V p Hp) as (A & B & A' & B'). split; assumption. }
  destruct (Ri (map snd xy) (mne snd)) as [[Rm3 Cm3] [Rm4 Cm4]]. { intros x Hx'. apply in_map_iff in Hx' as (p & <- & Hp). destruct (V p Hp) as (A & B & A' & B'). split; assumption. }
  assert (Mi : forall f p, In p xy -> minval (map f xy) <= f p <= maxval (map f xy)) by (intros f p Hp; split; [apply minval_le | apply maxval_ge]; now apply List.in_map).
  destruct (within (bounds_r emin prec xy) (Z.of_nat ix) (Z.of_nat iy)) eqn:Wi.
  - apply Rle_trans with (2 := Pn). eapply Rle_trans; [apply Rabs_triang_inv2|]. apply pixel_near; try assumption; try lia; [lra | | lra].
    unfold within, bounds_r in Wi. cbn [fst snd] in Wi. apply andb_true_iff in Wi as [Wi W4']. apply andb_true_iff in Wi as [Wi W3']. apply andb_true_iff in Wi as [W1' W2']. apply Z.leb_le in W1', W2', W3', W4'.
    apply (htpi_in emin prec Pp Ee C) in W1', W3'; try assumption. apply (htmi_in emin prec Pp Ee C) in W2', W4'; try assumption. fold w in W1', W2', W3', W4'.
    intros p Hp. destruct (V p Hp) as (A & B & _ & _). split; [exact A|]. split; [exact B|].
    assert (Dx : maxval (map fst xy) - minval (map fst xy) <= D). { pose proof (minval_in _ (mne fst)) as H1. pose proof (maxval_in _ (mne fst)) as H2. apply in_map_iff in H1 as (p1 & E1 & P1). apply in_map_iff in H2 as (p2 & E2 & P2). rewrite <- E1, <- E2. exact (proj1 (X p2 p1 P2 P1)). }
    assert (Dy : maxval (map snd xy) - minval (map snd xy) <= D). { pose proof (minval_in _ (mne snd)) as H1. pose proof (maxval_in _ (mne snd)) as H2. apply in_map_iff in H1 as (p1 & E1 & P1). apply in_map_iff in H2 as (p2 & E2 & P2). rewrite <- E1, <- E2. exact (proj2 (X p2 p1 P2 P1)). }
    pose proof (Mi fst p Hp). pose proof (Mi snd p Hp). split; apply Rabs_le; lra.
  - rewrite Rminus_0_l, Rabs_Ropp, Rabs_Rabsolu. apply Rle_trans with (2 := Wn).
    assert (D4 : ((Z.of_nat ix < round_htpi_r emin prec (minval (map fst xy))) \/ (round_htmi_r emin prec (maxval (map fst xy)) < Z.of_nat ix) \/ (Z.of_nat iy < round_htpi_r emin prec (minval (map snd xy))) \/ (round_htmi_r emin prec (maxval (map snd xy)) < Z.of_nat iy))%Z) by (unfold within, bounds_r in Wi; cbn [fst snd] in Wi; lia).
    assert (G : forall a lo, lo <= a + w -> Rabs (a - Rmax a lo) <= w) by (intros a lo H; apply Rabs_le; unfold Rmax; destruct (Rle_dec a lo); lra). assert (G' : forall a hi, a - w <= hi -> Rabs (a - Rmin a hi) <= w) by (intros a hi H; apply Rabs_le; unfold Rmin; destruct (Rle_dec a hi); lra).
    assert (Id : forall a, Rabs (a - a) <= w) by (intros a; rewrite Rminus_eq_0, Rabs_R0; exact W0).
    destruct D4 as [H|[H|[H|H]]].
    + apply (htpi_r emin prec Pp Ee C) in H; try assumption. fold w in H. apply (aside xy _ _ w (fun p => (Rmax (fst p) (IZR (Z.of_nat ix) + / 2), snd p)) W0).
      * intros p Hp. pose proof (Mi fst p Hp). split; cbn [fst snd]; [apply G; lra | apply Id].
      * left. intros p _. cbn [fst]. apply Rmax_r.
    + apply (htmi_r emin prec Pp Ee C) in H; try assumption. fold w in H. apply (aside xy _ _ w (fun p => (Rmin (fst p) (IZR (Z.of_nat ix) - / 2), snd p)) W0).
      * intros p Hp. pose proof (Mi fst p Hp). split; cbn [fst snd]; [apply G'; lra | apply Id].
      * right. left. intros p _. cbn [fst]. apply Rmin_r.
    + apply (htpi_r emin prec Pp Ee C) in H; try assumption. fold w in H. apply (aside xy _ _ w (fun p => (fst p, Rmax (snd p) (IZR (Z.of_nat iy) + / 2))) W0).
      * intros p Hp. pose proof (Mi snd p Hp). split; cbn [fst snd]; [apply Id | apply G; lra].
      * right. right. left. intros p _. cbn [snd]. apply Rmax_r.
    + apply (htmi_r emin prec Pp Ee C) in H; try assumption. fold w in H. apply (aside xy _ _ w (fun p => (fst p, Rmin (snd p) (IZR (Z.of_nat iy) - / 2))) W0).
      * intros p Hp. pose proof (Mi snd p Hp). split; cbn [fst snd]; [apply Id | apply G'; lra].
      * right. right. right. intros p _. cbn [snd]. apply Rmin_r.
Qed.
Print Assumptions C127_row.
Example C127_row_example : let xy := [(0, 0); (3 / 2, 1); (1, 5 / 2)] in
  (forall p, In p xy -> representable (-149) 24 (fst p) /\ representable (-149) 24 (snd p) /\ Rabs (fst p) <= 5 / 2 /\ Rabs (snd p) <= 5 / 2) /\
  (forall p q, In p xy -> In q xy -> fst p - fst q <= 5 / 2 /\ snd p - snd q <= 5 / 2) /\ row_error 24 (length xy) (5 / 2) (5 / 2) <= / 900 /\
  overlap xy 0 0 + overlap xy 0 1 + overlap xy 0 2 + (overlap xy 1 0 + overlap xy 1 1 + overlap xy 1 2) = 11 / 8.
Proof.
  cbv zeta. assert (R5 : forall m e x, x = IZR m * powerRZ 2 e -> (Z.abs m < 2 ^ 24)%Z -> (-149 <= e)%Z -> representable (-149) 24 x) by (intros m e x H1 H2 H3; exists m, e; auto).
  assert (H0 : representable (-149) 24 0) by (apply (R5 0%Z 0%Z); [cbn; ring | lia | lia]). assert (H1 : representable (-149) 24 1) by (apply (R5 1%Z 0%Z); [cbn; ring | lia | lia]).
  assert (H3 : representable (-149) 24 (3 / 2)) by (apply (R5 3%Z (-1)%Z); [change (powerRZ 2 (-1)) with (/ (2 * 1)); field | lia | lia]). assert (H5 : representable (-149) 24 (5 / 2)) by (apply (R5 5%Z (-1)%Z); [change (powerRZ 2 (-1)) with (/ (2 * 1)); field | lia | lia]).
  split; [|split; [|split]].
  - intros p [<-|[<-|[<-|[]]]]; cbn [fst snd]; repeat split; try assumption; apply Rabs_le; lra.
  - intros p q [<-|[<-|[<-|[]]]] [<-|[<-|[<-|[]]]]; cbn [fst snd]; lra.
  - unfold row_error, unit_of. rewrite pow2. change (bpow radix2 (- (24))) with (/ 16777216). cbn [length INR]. lra.
  - pose proof (overlap_flux 2 3 [(0, 0); (3 / 2, 1); (1, 5 / 2)]) as F. unfold grid_sum, rsum in F. cbn [seq map fold_right] in F.
    assert (M : on_map 2 3 [(0, 0); (3 / 2, 1); (1, 5 / 2)]) by (intros p [<-|[<-|[<-|[]]]]; cbn; lra). specialize (F M). unfold shoelace, edges, rsum in F. cbn [last combine map fold_right fst snd] in F. lra.
Qed.

(** The pointing matrices of module_pointingmatrix.f90: vertices and areas of real64, elements of
    real32; the bounds of the pixels are exact. *)
Theorem C127_pointing : forall nx ny xy row n row' D, (Z.of_nat nx <= 2 ^ 52)%Z -> (Z.of_nat ny <= 2 ^ 52)%Z ->
  (forall p, In p xy -> representable (-1074) 53 (fst p) /\ representable (-1074) 53 (snd p)) -> (forall p q, In p xy -> In q xy -> fst p - fst q <= D /\ snd p - snd q <= D) -> pixel_error 53 (length xy) (D + 1) <= 1 ->
  roi2row (fp_ops (-149) 24) rzero (Z.of_nat nx) (Z.of_nat ny) Rabs (xy2roi xy) (single_area_r xy) row = Ok (n, row') -> (n <= zlen row)%Z ->
  forall ix iy, (ix < nx)%nat -> (iy < ny)%nat ->
  Rabs (stored_for row' (Z.of_nat (ix + iy * nx)) - Rabs (overlap xy ix iy)) <= unit_of 24 * Rabs (overlap xy ix iy) + 2 * pixel_error 53 (length xy) (D + 1) + tiny_of (-149).
Proof.
  intros nx ny xy row n row' D Nx Ny V X L E Ln ix iy Hx Hy. rewrite (roi_stored (fp_ops (-149) 24) _ _ _ _ _ _ _ eq_refl E Ln ix iy Hx Hy). clear E Ln row n row'.
  assert (AO : overlap xy ix iy = pixel_area xy (Z.of_nat ix) (Z.of_nat iy)) by (unfold overlap, pixel_area; rewrite !INR_IZR_INZ; reflexivity). rewrite AO.
  assert (T0 : 0 < tiny_of (-149)) by apply eta_pos. assert (U0 : 0 < unit_of 24) by apply u_pos. assert (U1 : unit_of 24 <= / 2) by (unfold unit_of; rewrite pow2; change (bpow radix2 (- (24))) with (/ 16777216); lra).
  rewrite xy2roi_bounds. destruct (within (bounds xy) (Z.of_nat ix) (Z.of_nat iy)) eqn:Wi.
  - assert (PN : Rabs (cell_value_r (-1074) 53 xy (Z.of_nat ix) (Z.of_nat iy) - pixel_area xy (Z.of_nat ix) (Z.of_nat iy)) <= pixel_error 53 (length xy) (D + 1)).
    { destruct xy as [|v0 xy0] eqn:Exy.
      { assert (A0 : pixel_area [] (Z.of_nat ix) (Z.of_nat iy) = 0) by reflexivity. rewrite A0. replace (cell_value_r _ _ _ _ _) with 0 by reflexivity. unfold pixel_error. cbn [length INR]. rewrite Rminus_eq_0, Rabs_R0. lra. }
      rewrite <- Exy in *. assert (I0 : In v0 xy) by (rewrite Exy; now left). destruct (X v0 v0 I0 I0) as [D0 _]. rewrite Rminus_eq_0 in D0.
      assert (mne : forall f : R * R -> R, map f xy <> []) by (intros f; rewrite Exy; discriminate).
      apply C127_pixel; try assumption; try lia; [lra|]. unfold within, bounds in Wi. cbn [fst snd] in Wi. apply andb_true_iff in Wi as [Wi W4']. apply andb_true_iff in Wi as [Wi W3']. apply andb_true_iff in Wi as [W1' W2']. apply Z.leb_le in W1', W2', W3', W4'.
      assert (Up : forall x i, (round_htpi x <= i)%Z -> x < IZR i + / 2). { intros x i H. unfold round_htpi, floor in H. destruct (base_Int_part (x + / 2)) as [A B]. apply IZR_le in H. lra. }
      assert (Dn : forall x i, (i <= round_htmi x)%Z -> IZR i - / 2 < x). { intros x i H. unfold round_htmi, ceiling in H. destruct (base_Int_part (- (x - / 2))) as [A B]. apply IZR_le in H. rewrite opp_IZR in H. lra. }
      apply Up in W1', W3'. apply Dn in W2', W4'.
      assert (Mi : forall f p, In p xy -> minval (map f xy) <= f p <= maxval (map f xy)) by (intros f p Hp; split; [apply minval_le | apply maxval_ge]; now apply List.in_map).
      assert (Dx : maxval (map fst xy) - minval (map fst xy) <= D). { pose proof (minval_in _ (mne fst)) as H1. pose proof (maxval_in _ (mne fst)) as H2. apply in_map_iff in H1 as (p1 & E1 & P1). apply in_map_iff in H2 as (p2 & E2 & P2). rewrite <- E1, <- E2. exact (proj1 (X p2 p1 P2 P1)). }
      assert (Dy : maxval (map snd xy) - minval (map snd xy) <= D). { pose proof (minval_in _ (mne snd)) as H1. pose proof (maxval_in _ (mne snd)) as H2. apply in_map_iff in H1 as (p1 & E1 & P1). apply in_map_iff in H2 as (p2 & E2 & P2). rewrite <- E1, <- E2. exact (proj2 (X p2 p1 P2 P1)). }
      intros p Hp. destruct (V p Hp) as [A B]. split; [exact A|]. split; [exact B|]. pose proof (Mi fst p Hp). pose proof (Mi snd p Hp). split; apply Rabs_le; lra. }
    unfold single_area_r. set (c := cell_value_r (-1074) 53 xy (Z.of_nat ix) (Z.of_nat iy)) in *. set (a := pixel_area xy (Z.of_nat ix) (Z.of_nat iy)) in *. set (e := pixel_error 53 (length xy) (D + 1)) in *.
    change (rndp (-149) 24 c) with (single c). eapply Rle_trans; [apply Rabs_triang_inv2|]. pose proof (single_error c) as S. change (powerRZ 2 (-24)) with (unit_of 24) in S. change (powerRZ 2 (-150)) with (tiny_of (-149)) in S.
    pose proof (tri (single c) c a) as T. pose proof (near_abs c a (Rabs a) e PN (Rle_refl _)) as NA. assert (unit_of 24 * Rabs c <= unit_of 24 * (Rabs a + e)) by (apply Rmult_le_compat_l; lra). assert (0 <= e) by (pose proof (Rabs_pos (c - a)); lra). assert (unit_of 24 * e <= / 2 * e) by (apply Rmult_le_compat_r; lra). lra.
  - pose proof (outside_zero xy _ _ Wi) as Z. rewrite area_cell, Z, Rabs_R0, Rminus_eq_0, Rabs_R0. assert (0 <= pixel_error 53 (length xy) (D + 1)); [|lra]. unfold pixel_error. assert (0 < unit_of 53) by apply u_pos. pose proof (pos_INR (length xy)). apply Rmult_le_pos; [apply Rmult_le_pos; lra|]. assert (0 <= (D + 1) * (D + 1)) by apply Rle_0_sqr. lra.
Qed.
Print Assumptions C127_pointing.
Lemma shorter {A} (f : A -> bool) l : (length (filter f l) <= length l)%nat.
Proof. induction l as [|x l IH]; cbn; [lia|]. destruct (f x); cbn; lia. Qed.
Example C127_pointing_example : let xy := [(0, 0); (3 / 2, 1); (1, 5 / 2)] in
  exists n row', roi2row (fp_ops (-149) 24) rzero 2 3 Rabs (xy2roi xy) (single_area_r xy) (repeat (7%Z, 7) 6) = Ok (n, row') /\ (n <= 6)%Z /\ Rabs (stored_for row' 0 - 7 / 60) <= / 100000000.
Proof.
  cbv zeta. set (xy := [(0, 0); (3 / 2, 1); (1, 5 / 2)]). assert (L : pixel_error 53 (length xy) (5 / 2 + 1) <= / 500000000000) by (unfold pixel_error, unit_of; rewrite pow2; change (bpow radix2 (- (53))) with (/ 9007199254740992); unfold xy; cbn [length INR]; lra).
  pose proof (roi2row_ok (fp_ops (-149) 24) rzero (Z.of_nat 2) (Z.of_nat 3) Rabs (xy2roi xy) (single_area_r xy) (repeat (7%Z, 7) 6)) as K. cbv zeta in K. rewrite hit_list_intersected in K.
  set (hs := intersected _ _ _ _ _ _ _ _ _) in K. assert (N : (zlen hs <= 6)%Z) by (unfold hs, zlen, intersected; rewrite map_length; apply (Nat2Z.inj_le _ 6), (shorter _ (map_pixels 2 3))). clearbody hs.
  exists (zlen hs), (firstn (length (repeat (7%Z, 7) 6)) hs ++ repeat ((-1)%Z, k0 (fp_ops (-149) 24)) (length (repeat (7%Z, 7) 6) - length hs)). split; [exact K|]. split; [exact N|].
  destruct C127_pixel_example as (V & _ & _ & A). fold xy in V, A. assert (OV : overlap xy 0 0 = 7 / 60) by exact A.
  pose proof (C127_pointing 2 3 xy _ _ _ (5 / 2) ltac:(lia) ltac:(lia) (fun p Hp => conj (proj1 (V p Hp)) (proj1 (proj2 (V p Hp))))
    (proj1 (proj2 C127_row_example)) ltac:(lra) K N 0%nat 0%nat ltac:(lia) ltac:(lia)) as P.
  rewrite OV, (Rabs_right (7 / 60)) in P by lra. change (Z.of_nat (0 + 0 * 2)) with 0%Z in P. eapply Rle_trans; [exact P|].
  unfold tiny_of, unit_of at 1. rewrite !pow2. change (bpow radix2 (- (24))) with (/ 16777216). assert (bpow radix2 (-149 - 1) <= bpow radix2 (-53)) by (apply bpow_le; lia). change (bpow radix2 (-53)) with (/ 9007199254740992) in *. lra.
Qed.

(** ** Pixels that the polygon does not touch *)
Lemma rn_near x g : representable (-1074) 53 g -> 2 * (1 + unit_of 53) * Rabs (x - g) < unit_of 53 * Rabs g -> rndp (-1074) 53 x = g.
Proof.
  intros G H. destruct (Req_dec (rndp (-1074) 53 x) g) as [E|N]; [exact E|]. exfalso.
  pose proof (rn_best (-1074) 53 eq_refl x g (format_representable _ _ _ G)) as B. assert (R : representable (-1074) 53 (rndp (-1074) 53 x)) by (apply format_is; [reflexivity | apply format_round; reflexivity]).
  destruct (apart (-1074) 53 eq_refl g (rndp (-1074) 53 x) G R (not_eq_sym N)) as [A _]. assert (U0 : 0 < unit_of 53) by apply u_pos.
  assert (T : Rabs (rndp (-1074) 53 x - g) <= 2 * Rabs (x - g)) by (pose proof (tri (rndp (-1074) 53 x) x g); rewrite (Rabs_minus_sym g x) in B; lra).
  assert ((1 + unit_of 53) * Rabs (rndp (-1074) 53 x - g) <= (1 + unit_of 53) * (2 * Rabs (x - g))) by (apply Rmult_le_compat_l; lra). lra.
Qed.
Lemma rn_same x : representable (-1074) 53 x -> rndp (-1074) 53 x = x.
Proof. intros H. apply rn_id, format_representable, H. Qed.
Lemma tie : rndp (-1074) 53 (bpow radix2 (-54) - 1) = -1.
Proof.
  unfold rndp, round, F2R, scaled_mantissa, cexp. set (e := bpow radix2 (-54)). assert (E : e = / IZR (2 ^ 54)) by reflexivity.
  assert (E0 : 0 < e) by apply bpow_gt_0. assert (E1 : e <= / 4) by (rewrite E; apply Rinv_le_contravar; [lra | apply IZR_le; lia]).
  assert (M : mag radix2 (e - 1) = 0%Z :> Z).
  { apply mag_unique. rewrite Rabs_left by lra. change (bpow radix2 (0 - 1)) with (/ 2). change (bpow radix2 0) with 1. lra. }
  rewrite M. change (FLT_exp (-1074) 53 0) with (-53)%Z. cbn [Defs.Fnum Defs.Fexp].
  change (bpow radix2 (- (-53))) with (IZR (2 ^ 53)). assert (H : e * IZR (2 ^ 53) = / 2). { rewrite E. replace (2 ^ 54)%Z with (2 ^ 53 * 2)%Z by reflexivity. rewrite mult_IZR. field. apply IZR_neq. lia. }
  replace ((e - 1) * IZR (2 ^ 53)) with (IZR (- 2 ^ 53) + / 2) by (rewrite opp_IZR; lra).
  unfold ZnearestE, Znearest. assert (F : Zfloor (IZR (- 2 ^ 53) + / 2) = (- 2 ^ 53)%Z) by (apply Zfloor_imp; rewrite plus_IZR; lra). rewrite F.
  replace (IZR (- 2 ^ 53) + / 2 - IZR (- 2 ^ 53)) with (/ 2) by ring. rewrite Rcompare_Eq by reflexivity. replace (negb (Z.even (- 2 ^ 53))) with false by reflexivity.
  rewrite opp_IZR. change (bpow radix2 (-53)) with (/ IZR (2 ^ 53)). field. apply IZR_neq. lia.
Qed.
Definition sliver : list pt := [(- / 2, 7 / 2); (3 / 2, - / 2); (bpow radix2 (-54) - / 2, 9 / 2)].
Lemma sliver_value : cell_value_r (-1074) 53 sliver 0 0 = - bpow radix2 (-54).
Proof.
  set (e := bpow radix2 (-54)). assert (E : e = / IZR (2 ^ 54)) by reflexivity. assert (E0 : 0 < e) by apply bpow_gt_0. assert (E1 : e <= / 1000000) by (rewrite E; apply Rinv_le_contravar; [lra | apply IZR_le; lia]).
  assert (U : unit_of 53 = 2 * e). { unfold unit_of. rewrite pow2. change (bpow radix2 (- (53))) with (bpow radix2 (1 + -54)). rewrite bpow_plus. reflexivity. }
  assert (RI : forall z, (Z.abs z < 2 ^ 53)%Z -> representable (-1074) 53 (IZR z)) by (intros z H; exists z, 0%Z; split; [cbn; ring | lia]).
  assert (RE : forall z, (Z.abs z < 2 ^ 53)%Z -> representable (-1074) 53 (IZR z * e)) by (intros z H; exists z, (-54)%Z; split; [rewrite pow2; reflexivity | lia]).
  assert (Re : representable (-1074) 53 e) by (replace e with (IZR 1 * e) by ring; apply RE; lia).
  assert (RH : forall z, (Z.abs z < 2 ^ 53)%Z -> representable (-1074) 53 (IZR z / 2)) by (intros z H; exists z, (-1)%Z; split; [change (powerRZ 2 (-1)) with (/ (2 * 1)); field | lia]).
  assert (C0 : corner_r (-1074) 53 0 = - / 2) by (rewrite (proj1 (corner_exact (-1074) 53 ltac:(lia) ltac:(lia) 0 ltac:(lia))); ring).
  unfold cell_value_r, sliver. cbn [map fst snd]. fold e. rewrite C0.
  replace (- / 2 - - / 2) with 0 by ring. replace (7 / 2 - - / 2) with 4 by field. replace (3 / 2 - - / 2) with 2 by field. replace (e - / 2 - - / 2) with e by ring. replace (9 / 2 - - / 2) with 5 by field.
  rewrite (rn_same 0), (rn_same 4), (rn_same 2), (rn_same e), (rn_same 5) by (try exact Re; apply RI; lia).
  unfold intersection_polygon_r. cbn [last RgeoModel.intersection_loop_r fst snd].
  assert (EI : rndp (-1074) 53 (1 / e) = IZR (2 ^ 54)). { replace (1 / e) with (IZR (2 ^ 54)) by (rewrite E; field; apply IZR_neq; lia). apply rn_same. exists 1%Z, 54%Z. split; [rewrite pow2; cbn; lra | lia]. }
  assert (EE : IZR (2 ^ 54) * e = 1) by (rewrite E; field; apply IZR_neq; lia).
  assert (S1 : intersection_segment_r (-1074) 53 0 4 e 5 0 = e).
  { unfold intersection_segment_r. destruct (eqb_spec 0 e); [lra|]. unfold clip_x. destruct (ltb_spec 0 e); [|lra]. destruct (leb_spec 1 0); [lra|]. destruct (leb_spec e 0); [lra|]. cbn [orb]. rewrite Rmax_left, Rmin_left by lra.
    replace (5 - 4) with 1 by ring. replace (e - 0) with e by ring. rewrite (rn_same 1), (rn_same e) by (try exact Re; apply RI; lia). rewrite EI, EE. replace (IZR (2 ^ 54) * 0) with 0 by ring. rewrite (rn_same 0), (rn_same 1) by (apply RI; lia). replace (4 - 0) with 4 by ring. rewrite (rn_same 4) by (apply RI; lia). replace (0 + 4) with 4 by ring. replace (1 + 4) with 5 by ring. rewrite (rn_same 4), (rn_same 5) by (apply RI; lia).
    destruct (leb_spec 4 0); [lra|]. cbn [andb]. destruct (ltb_spec 4 0); [lra|]. destruct (ltb_spec 5 0); [lra|]. destruct (leb_spec 1 4); [|lra]. destruct (leb_spec 1 5); [|lra]. cbn [andb]. replace (0 + e) with e by ring. rewrite (rn_same e) by exact Re. replace (e - 0) with e by ring. apply rn_same, Re. }
  rewrite S1.
  assert (S2 : intersection_segment_r (-1074) 53 2 0 0 4 e = -1).
  { unfold intersection_segment_r. destruct (eqb_spec 2 0); [lra|]. unfold clip_x. destruct (ltb_spec 2 0); [lra|]. destruct (leb_spec 1 0); [lra|]. destruct (leb_spec 2 0); [lra|]. cbn [orb]. rewrite Rmin_right, Rmax_left by lra.
    replace (4 - 0) with 4 by ring. replace (0 - 2) with (-2) by ring. rewrite (rn_same 4), (rn_same (-2)) by (apply RI; lia). replace (4 / -2) with (-2) by field. rewrite (rn_same (-2)) by (apply RI; lia).
    replace (-2 * 2) with (-4) by ring. rewrite (rn_same (-4)) by (apply RI; lia). replace (0 - -4) with 4 by ring. rewrite (rn_same 4) by (apply RI; lia). replace (-2 * 1) with (-2) by ring. replace (-2 * 0) with 0 by ring. rewrite (rn_same (-2)), (rn_same 0) by (apply RI; lia). replace (-2 + 4) with 2 by ring. replace (0 + 4) with 4 by ring. rewrite (rn_same 2), (rn_same 4) by (apply RI; lia).
    destruct (leb_spec 2 0); [lra|]. cbn [andb]. destruct (ltb_spec 2 0); [lra|]. destruct (ltb_spec 4 0); [lra|]. destruct (leb_spec 1 2); [|lra]. destruct (leb_spec 1 4); [|lra]. cbn [andb]. replace (e + 0) with e by ring. rewrite (rn_same e) by exact Re. apply tie. }
  rewrite S2.
  unfold intersection_segment_r. destruct (eqb_spec e 2); [lra|]. unfold clip_x. destruct (ltb_spec e 2); [|lra]. destruct (leb_spec 1 e); [lra|]. destruct (leb_spec 2 0); [lra|]. cbn [orb]. rewrite Rmax_left, Rmin_right by lra.
  replace (0 - 5) with (-5) by ring. rewrite (rn_same (-5)) by (apply RI; lia).
  assert (T1 : rndp (-1074) 53 (2 - e) = 2). { apply rn_near; [apply RI; lia|]. rewrite U. replace (2 - e - 2) with (- e) by ring. rewrite Rabs_Ropp, (Rabs_right e), (Rabs_right 2) by lra. nra. }
  rewrite T1. assert (T2 : rndp (-1074) 53 (-5 / 2) = -5 / 2) by (apply (rn_same (-5 / 2)), RH; lia). rewrite T2.
  assert (T3 : rndp (-1074) 53 (-5 / 2 * e) = -5 / 2 * e). { apply rn_same. exists (-5)%Z, (-55)%Z. split; [|lia]. rewrite pow2. unfold e. change (-54)%Z with (1 + -55)%Z. rewrite bpow_plus. change (bpow radix2 1) with 2. field. }
  rewrite T3. assert (T4 : forall s, s = 1 \/ s = -1 -> rndp (-1074) 53 (5 + s * (5 / 2 * e)) = 5).
  { intros s Hs. apply rn_near; [apply RI; lia|]. rewrite U. replace (5 + s * (5 / 2 * e) - 5) with (s * (5 / 2 * e)) by ring. assert (Rabs (s * (5 / 2 * e)) = 5 / 2 * e) as -> by (destruct Hs as [-> | ->]; [rewrite Rabs_right | rewrite Rabs_left]; lra). rewrite (Rabs_right 5) by lra. nra. }
  replace (5 - -5 / 2 * e) with (5 + 1 * (5 / 2 * e)) by field. rewrite (T4 1) by now left. replace (-5 / 2 * e + 5) with (5 + -1 * (5 / 2 * e)) by field. rewrite (T4 (-1)) by now right.
  replace (-5 / 2 * 1) with (-5 / 2) by field. rewrite (rn_same (-5 / 2)) by (apply RH; lia). replace (-5 / 2 + 5) with (5 / 2) by field. rewrite (rn_same (5 / 2)) by (apply RH; lia).
  destruct (leb_spec 5 0); [lra|]. cbn [andb]. destruct (ltb_spec 5 0); [lra|]. destruct (ltb_spec (5 / 2) 0); [lra|]. destruct (leb_spec 1 5); [|lra]. destruct (leb_spec 1 (5 / 2)); [|lra]. cbn [andb].
  replace (-1 + 1) with 0 by ring. rewrite (rn_same 0) by (apply RI; lia). replace (0 - e) with (- e) by ring. apply rn_same. replace (- e) with (IZR (-1) * e) by ring. apply RE. lia.
Qed.
(** This triangle, of numbers of real64, is above the pixel (0, 0), which has an element. *)
Theorem C127_untouched_refuted : exists xy, convex xy /\ (forall p, In p xy -> representable (-1074) 53 (fst p) /\ representable (-1074) 53 (snd p)) /\
  (forall p, inside xy p -> ~ (- / 2 < fst p < / 2 /\ - / 2 < snd p < / 2)) /\ overlap xy 0 0 = 0 /\
  integration_row_r (-1074) 53 1 1 xy [(7%Z, 7)] = Ok (1%Z, [(0%Z, bpow radix2 (-54))]).
Proof.
  set (e := bpow radix2 (-54)). assert (E : e = / IZR (2 ^ 54)) by reflexivity. assert (E0 : 0 < e) by apply bpow_gt_0. assert (E1 : e <= / 1000000) by (rewrite E; apply Rinv_le_contravar; [lra | apply IZR_le; lia]).
  assert (RH : forall z, (Z.abs z < 2 ^ 53)%Z -> representable (-1074) 53 (IZR z / 2)) by (intros z H; exists z, (-1)%Z; split; [change (powerRZ 2 (-1)) with (/ (2 * 1)); field | lia]).
  assert (Cv : convex sliver).
  { intros i j k H Hk. cbn [length sliver] in Hk. assert (i = 0 /\ j = 1 /\ k = 2)%nat as [-> [-> ->]] by lia. unfold turn, sliver. cbn [nth fst snd]. fold e. lra. }
  exists sliver. split; [exact Cv|]. split; [|split; [|split]].
  - assert (R1 : representable (-1074) 53 (- / 2)) by (replace (- / 2) with (IZR (-1) / 2) by field; apply RH; lia).
    assert (R2 : representable (-1074) 53 (e - / 2)). { exists (1 - 2 ^ 53)%Z, (-54)%Z. split; [|lia]. rewrite pow2. fold e. rewrite E, minus_IZR. replace (2 ^ 54)%Z with (2 ^ 53 * 2)%Z by reflexivity. rewrite mult_IZR. field. apply IZR_neq. lia. }
    intros p [<-|[<-|[<-|[]]]]; cbn [fst snd]; split; try assumption; apply RH; lia.
  - intros p H [[A B] [A' B']]. pose proof (H ((- / 2, 7 / 2), (3 / 2, - / 2))) as K. unfold turn in K. cbn [fst snd] in K. assert (I : In ((- / 2, 7 / 2), (3 / 2, - / 2)) (edges sliver)) by (right; left; reflexivity). specialize (K I). lra.
  - assert (Z : pixel_area sliver 0 0 = 0); [|unfold overlap, pixel_area in *; cbn [INR]; exact Z]. rewrite area_cell. unfold cell_value. rewrite intersection_ok. unfold edges, sliver, rsum. cbn [last combine map fold_right]. fold e.
    replace (0 - / 2) with (- / 2) by ring. set (x0 := - / 2).
    assert (UB : forall p q : R * R, (forall x, - / 2 <= x <= / 2 -> (fst q <= x <= fst p \/ fst p <= x <= fst q) -> / 2 <= line q p x) -> under x0 x0 (p, q) = clamp x0 (x0 + 1) (fst p) - clamp x0 (x0 + 1) (fst q)).
    { intros p q H. unfold under. cbn [fst snd]. rewrite (RInt_ext _ (fun _ => 1)).
      - rewrite RInt_const. unfold scal; cbn. unfold mult; cbn. match goal with |- @eq _ ?a ?b => change (@eq R a b) end. ring.
      - intros x Hx. assert (Q : / 2 <= line q p x) by (apply H; unfold x0, clamp, Rmax, Rmin in Hx; repeat match goal with H : context [Rle_dec ?a ?b] |- _ => destruct (Rle_dec a b) end; lra). match goal with |- @eq _ ?a ?b => change (@eq R a b) end. cbv beta. unfold clamp. rewrite Rmin_left by (unfold x0; lra). apply Rmax_right. lra. }
    rewrite !UB; [cbn [fst snd]; ring | | |]; intros x Hx Hb; cbn [fst snd] in Hb; unfold line; cbn [fst snd]; unfold x0 in *.
    + assert (T : -3 <= (- / 2 - 9 / 2) / (3 / 2 - (e - / 2)) <= 0) by (split; [apply Rmult_le_reg_r with (3 / 2 - (e - / 2)); [lra | unfold Rdiv; rewrite Rmult_assoc, Rinv_l by lra; lra] | apply Rmult_le_reg_r with (3 / 2 - (e - / 2)); [lra | unfold Rdiv; rewrite Rmult_assoc, Rinv_l by lra; lra]]).
      assert (T2 : 0 <= x - (e - / 2) <= 1) by lra. revert T T2. generalize ((- / 2 - 9 / 2) / (3 / 2 - (e - / 2))), (x - (e - / 2)). intros s t Hs Ht. assert (0 <= t * (s + 3)) by (apply Rmult_le_pos; lra). lra.
    + replace (- / 2 - 3 / 2) with (-2) by field. lra.
    + assert (0 <= (x - - / 2) * ((9 / 2 - 7 / 2) / (e - / 2 - - / 2))); [|lra]. apply Rmult_le_pos; [lra|]. apply Rdiv_le_0_compat; lra.
  - assert (FI : forall z, Int_part (IZR z) = z) by (intros z; pose proof (base_Int_part (IZR z)) as [A B]; apply le_IZR in A; assert (z < Int_part (IZR z) + 1)%Z by (apply lt_IZR; rewrite plus_IZR; lra); lia).
    assert (RI : forall z, (Z.abs z < 2 ^ 53)%Z -> rndp (-1074) 53 (IZR z) = IZR z) by (intros z H; apply rndp_int; lia).
    assert (B : bounds_r (-1074) 53 sliver = ((0, 1), (0, 4))%Z).
    { unfold bounds_r, sliver, minval, maxval. cbn [map fst snd fold_left]. fold e. rewrite (Rmin_left (- / 2) (3 / 2)), (Rmin_left (- / 2) (e - / 2)), (Rmax_right (- / 2) (3 / 2)), (Rmax_left (3 / 2)), (Rmin_right (7 / 2)), (Rmin_left (- / 2) (9 / 2)), (Rmax_left (7 / 2)), (Rmax_right (7 / 2)) by lra.
      unfold round_htpi_r, round_htmi_r, floor, ceiling. replace (- / 2 + / 2) with 0 by ring. replace (3 / 2 - / 2) with 1 by field. replace (9 / 2 - / 2) with 4 by field. rewrite !RI by lia. rewrite <- !opp_IZR, !FI. reflexivity. }
    unfold integration_row_r. rewrite B. replace (roi_pixels (0, 1, (0, 4))%Z 1 1) with [(0, 0)]%Z by reflexivity. cbn [RgeoModel.integration_loop_r]. rewrite sliver_value. fold e. destruct (eqb_spec (- e) 0); [lra|]. cbv zeta. change (0 + 1 <=? zlen [(7%Z, 7)])%Z with true. cbn.
    rewrite Rabs_Ropp, Rabs_right by lra. reflexivity.
Qed.
Print Assumptions C127_untouched_refuted.
