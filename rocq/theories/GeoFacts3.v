(** Lemmas for geometry: orientation and first vertex, rows of the integration matrix. *)
From Coq Require Import Reals List ZArith Lia Lra Bool.
From Coquelicot Require Import Coquelicot.
From Verif Require Import Base BaseFacts SparseModel PmModel PmSpec PmFacts2 ClipFacts GeoModel GeoSpec GeoFacts GeoFacts2.
Open Scope R_scope.

(** ** Closed walks *)
Section Walk.
Variable f : (R * R) * (R * R) -> R.
Fixpoint walk (l : list (R * R)) : R := match l with a :: ((b :: _) as t) => f (a, b) + walk t | _ => 0 end.
Lemma walk_path l : forall a, walk (a :: l) = rsum (map f (combine (a :: l) l)).
Proof. induction l as [|b l IH]; intros a; [reflexivity|]. rewrite combine_cons. cbn [map]. change (rsum (?x :: ?y)) with (x + rsum y). cbn [walk]. f_equal. apply IH. Qed.
Lemma walk_app l : forall a b r, walk (l ++ a :: b :: r) = walk (l ++ [a]) + f (a, b) + walk (b :: r).
Proof.
  induction l as [|c l IH]; intros a b r; [cbn; ring|]. destruct l as [|d l].
  - cbn [app walk]. ring.
  - specialize (IH a b r). cbn [app walk] in *. rewrite IH. ring.
Qed.
Lemma walk_rev : (forall p q, f (q, p) = - f (p, q)) -> forall l, walk (rev l) = - walk l.
Proof.
  intros S. induction l as [|a l IH]; [cbn; ring|]. destruct l as [|b l]; [cbn; ring|]. cbn [rev] in *. rewrite <- app_assoc. cbn [app].
  rewrite walk_app. rewrite IH. cbn [walk]. rewrite S. destruct l; ring.
Qed.
Lemma closed_walk a l : rsum (map f (edges (a :: l))) = walk ((a :: l) ++ [a]).
Proof.
  unfold edges. rewrite <- walk_path. destruct (exists_last (l := a :: l) ltac:(discriminate)) as [t [z E]].
  rewrite E at 1 2. rewrite last_last. destruct t as [|b t].
  - cbn in E. injection E as -> ->. reflexivity.
  - rewrite E. cbn [app] in *. injection E as -> El. replace ((t ++ [z]) ++ [b]) with (t ++ z :: b :: []) by (rewrite <- app_assoc; reflexivity).
    change (b :: t ++ z :: [b]) with ((b :: t) ++ z :: b :: []). rewrite walk_app. cbn [app walk]. ring.
Qed.
Lemma closed_rev xy : (forall p q, f (q, p) = - f (p, q)) -> rsum (map f (edges (rev xy))) = - rsum (map f (edges xy)).
Proof.
  intros S. destruct xy as [|a l]; [cbn; ring|]. rewrite closed_walk. rewrite <- (walk_rev S). rewrite rev_app_distr. cbn [rev app].
  unfold edges. destruct (rev l ++ [a]) as [|b t] eqn:E; [destruct (rev l); discriminate|]. rewrite <- E. rewrite last_last. now rewrite walk_path.
Qed.
Lemma closed_start l r : rsum (map f (edges (l ++ r))) = rsum (map f (edges (r ++ l))).
Proof.
  destruct l as [|a l]; [now rewrite app_nil_r|]. destruct r as [|b r]; [now rewrite app_nil_r|]. cbn [app]. rewrite !closed_walk. cbn [app]. rewrite <- !app_assoc. cbn [app].
  destruct (exists_last (l := a :: l) ltac:(discriminate)) as [l' [z Ez]]. destruct (exists_last (l := b :: r) ltac:(discriminate)) as [r' [y Ey]].
  replace (a :: l ++ b :: r ++ [a]) with (l' ++ z :: b :: (r ++ [a])) by (change (a :: l ++ b :: r ++ [a]) with ((a :: l) ++ b :: r ++ [a]); rewrite Ez, <- app_assoc; reflexivity).
  replace (b :: r ++ a :: l ++ [b]) with (r' ++ y :: a :: (l ++ [b])) by (change (b :: r ++ a :: l ++ [b]) with ((b :: r) ++ a :: l ++ [b]); rewrite Ey, <- app_assoc; reflexivity).
  rewrite !walk_app.
  replace (b :: r ++ [a]) with (r' ++ y :: a :: []) by (change (b :: r ++ [a]) with ((b :: r) ++ [a]); rewrite Ey, <- app_assoc; reflexivity).
  replace (a :: l ++ [b]) with (l' ++ z :: b :: []) by (change (a :: l ++ [b]) with ((a :: l) ++ [b]); rewrite Ez, <- app_assoc; reflexivity).
  rewrite !walk_app. cbn [walk]. ring.
Qed.
End Walk.

Lemma shoelace_rev xy : shoelace (rev xy) = - shoelace xy.
Proof. unfold shoelace. rewrite closed_rev by (intros p q; cbn [fst snd]; ring). ring. Qed.
Lemma shoelace_start l r : shoelace (l ++ r) = shoelace (r ++ l).
Proof. unfold shoelace. now rewrite closed_start. Qed.
Lemma under_swap x0 y0 p q : under x0 y0 (q, p) = - under x0 y0 (p, q).
Proof.
  unfold under. cbn [fst snd]. set (u := clamp x0 (x0 + 1) (fst p)). set (v := clamp x0 (x0 + 1) (fst q)).
  assert (S : forall f : R -> R, ex_RInt f v u -> RInt f u v = - RInt f v u) by (intros f H; symmetry; exact (opp_RInt_swap f v u H)).
  destruct (Req_dec (fst p) (fst q)) as [E|N].
  - assert (u = v) as -> by (unfold u, v; now rewrite E). assert (Z : forall f : R -> R, RInt f v v = 0) by (intros f; apply (RInt_point v f)). rewrite !Z. ring.
  - rewrite S by apply under_ex. f_equal. apply RInt_ext. intros x _. now rewrite line_sym by auto.
Qed.
Lemma overlap_rev xy ix iy : overlap (rev xy) ix iy = - overlap xy ix iy.
Proof. unfold overlap. apply closed_rev. intros. apply under_swap. Qed.
Lemma overlap_start l r ix iy : overlap (l ++ r) ix iy = overlap (r ++ l) ix iy.
Proof. apply closed_start. Qed.

(** An affine map of determinant d multiplies the area by d. *)
Lemma shoelace_affine (a b c d e g : R) xy :
  shoelace (map (fun p => (a * fst p + b * snd p + e, c * fst p + d * snd p + g)) xy) = (a * d - b * c) * shoelace xy.
Proof.
  destruct xy as [|p xy]; [unfold shoelace; cbn; ring|]. unfold shoelace. rewrite edges_map by discriminate. rewrite map_map. cbn [fst snd].
  pose proof (edges_telescope (fun p => (e * (c * fst p + d * snd p) - g * (a * fst p + b * snd p))) (p :: xy)) as T.
  rewrite (rsum_ext _ (fun q => (a * d - b * c) * (fst (fst q) * snd (snd q) - snd (fst q) * fst (snd q)) +
     - ((e * (c * fst (fst q) + d * snd (fst q)) - g * (a * fst (fst q) + b * snd (fst q))) - (e * (c * fst (snd q) + d * snd (snd q)) - g * (a * fst (snd q) + b * snd (snd q)))))).
  2:{ intros q _. ring. }
  rewrite rsum_plus, rsum_scal. rewrite (rsum_ext (fun q => - _) (fun q => -1 * ((e * (c * fst (fst q) + d * snd (fst q)) - g * (a * fst (fst q) + b * snd (fst q))) - (e * (c * fst (snd q) + d * snd (snd q)) - g * (a * fst (snd q) + b * snd (snd q)))))) by (intros q _; ring).
  rewrite rsum_scal, T. ring.
Qed.

(** ** Pixels outside of the bounds *)
Lemma minval_le l x : In x l -> minval l <= x.
Proof.
  destruct l as [|a l]; [intros []|]. cbn [minval].
  assert (H : forall l a, fold_left Rmin l a <= a /\ forall x, In x l -> fold_left Rmin l a <= x).
  { clear. induction l as [|b l IH]; intros a; cbn; [split; [lra | intros ? []]|]. destruct (IH (Rmin a b)) as [H1 H2]. split.
    - eapply Rle_trans; [exact H1 | apply Rmin_l].
    - intros x [->|Hx]; [eapply Rle_trans; [exact H1 | apply Rmin_r] | auto]. }
  intros [->|Hx]; [destruct (H l x) as [Q _]; exact Q | destruct (H l a) as [_ Q]; now apply Q].
Qed.
Lemma maxval_ge l x : In x l -> x <= maxval l.
Proof.
  destruct l as [|a l]; [intros []|]. cbn [maxval].
  assert (H : forall l a, a <= fold_left Rmax l a /\ forall x, In x l -> x <= fold_left Rmax l a).
  { clear. induction l as [|b l IH]; intros a; cbn; [split; [lra | intros ? []]|]. destruct (IH (Rmax a b)) as [H1 H2]. split.
    - eapply Rle_trans; [apply Rmax_l | exact H1].
    - intros x [->|Hx]; [eapply Rle_trans; [apply Rmax_r | exact H1] | auto]. }
  intros [->|Hx]; [destruct (H l x) as [Q _]; exact Q | destruct (H l a) as [_ Q]; now apply Q].
Qed.
Lemma round_htpi_le x i : (i < round_htpi x)%Z -> IZR i + / 2 <= x.
Proof.
  unfold round_htpi, floor. intros H. destruct (base_Int_part (x + / 2)) as [B _]. assert (IZR (i + 1) <= IZR (Int_part (x + / 2))) by (apply IZR_le; lia).
  rewrite plus_IZR in *. lra.
Qed.
Lemma round_htmi_ge x i : (round_htmi x < i)%Z -> x <= IZR i - / 2.
Proof.
  unfold round_htmi, ceiling. intros H. destruct (base_Int_part (- (x - / 2))) as [B _]. assert (IZR (- Int_part (- (x - / 2)) + 1) <= IZR i) by (apply IZR_le; lia).
  rewrite plus_IZR, opp_IZR in *. lra.
Qed.
Lemma line_between p q x : Rmin (fst p) (fst q) < x < Rmax (fst p) (fst q) -> Rmin (snd p) (snd q) <= line p q x <= Rmax (snd p) (snd q).
Proof.
  intros H. assert (N : fst q - fst p <> 0) by (mm; lra). rewrite line_lin. set (a := (snd q - snd p) / (fst q - fst p)).
  apply (between_lin a (snd p - fst p * a)) in H.
  replace (a * fst p + (snd p - fst p * a)) with (snd p) in H by ring. replace (a * fst q + (snd p - fst p * a)) with (snd q) in H by (unfold a; field; exact N). exact H.
Qed.
Lemma under_left x0 y0 e : x0 + 1 <= fst (fst e) -> x0 + 1 <= fst (snd e) -> under x0 y0 e = 0.
Proof. intros A B. unfold under. replace (clamp x0 (x0 + 1) (fst (snd e))) with (clamp x0 (x0 + 1) (fst (fst e))) by (mm; lra). apply (RInt_point _ (fun x => clamp 0 1 (line (snd e) (fst e) x - y0))). Qed.
Lemma under_right x0 y0 e : fst (fst e) <= x0 -> fst (snd e) <= x0 -> under x0 y0 e = 0.
Proof. intros A B. unfold under. replace (clamp x0 (x0 + 1) (fst (snd e))) with (clamp x0 (x0 + 1) (fst (fst e))) by (mm; lra). apply (RInt_point _ (fun x => clamp 0 1 (line (snd e) (fst e) x - y0))). Qed.
Lemma under_above x0 y0 e : snd (fst e) <= y0 -> snd (snd e) <= y0 -> under x0 y0 e = 0.
Proof.
  intros A B. unfold under. rewrite (RInt_ext _ (fun _ => 0)).
  - rewrite RInt_const. unfold scal; cbn. unfold mult; cbn. match goal with |- @eq _ ?a ?b => change (@eq R a b) end. ring.
  - intros x Hx. assert (H : Rmin (fst (snd e)) (fst (fst e)) < x < Rmax (fst (snd e)) (fst (fst e))) by (mm; lra). apply line_between in H. mm; lra.
Qed.
Lemma under_below x0 y0 e : y0 + 1 <= snd (fst e) -> y0 + 1 <= snd (snd e) -> under x0 y0 e = clamp x0 (x0 + 1) (fst (fst e)) - clamp x0 (x0 + 1) (fst (snd e)).
Proof.
  intros A B. unfold under. rewrite (RInt_ext _ (fun _ => 1)).
  - rewrite RInt_const. unfold scal; cbn. unfold mult; cbn. match goal with |- @eq _ ?a ?b => change (@eq R a b) end. ring.
  - intros x Hx. assert (H : Rmin (fst (snd e)) (fst (fst e)) < x < Rmax (fst (snd e)) (fst (fst e))) by (mm; lra). apply line_between in H. mm; lra.
Qed.
Definition within (r : roi) (ix iy : Z) : bool := ((fst (fst r) <=? ix) && (ix <=? snd (fst r)) && (fst (snd r) <=? iy) && (iy <=? snd (snd r)))%Z.
Lemma outside_zero v ix iy : within (bounds v) ix iy = false -> cell_value v ix iy = 0.
Proof.
  unfold within, bounds, cell_value. cbn [fst snd]. rewrite intersection_ok. intros H.
  assert (D : ((ix < round_htpi (minval (map fst v))) \/ (round_htmi (maxval (map fst v)) < ix) \/ (iy < round_htpi (minval (map snd v))) \/ (round_htmi (maxval (map snd v)) < iy))%Z) by lia.
  clear H. destruct D as [D|[D|[D|D]]].
  - apply round_htpi_le in D. apply rsum_0. intros e He. apply edges_in in He as [H1 H2].
    pose proof (minval_le _ _ (in_map fst _ _ H1)). pose proof (minval_le _ _ (in_map fst _ _ H2)). apply under_left; lra.
  - apply round_htmi_ge in D. apply rsum_0. intros e He. apply edges_in in He as [H1 H2].
    pose proof (maxval_ge _ _ (in_map fst _ _ H1)). pose proof (maxval_ge _ _ (in_map fst _ _ H2)). apply under_right; lra.
  - apply round_htpi_le in D. set (x0 := IZR ix - / 2). rewrite <- (edges_telescope (fun p => clamp x0 (x0 + 1) (fst p)) v). apply rsum_ext. intros e He. apply edges_in in He as [H1 H2].
    pose proof (minval_le _ _ (in_map snd _ _ H1)). pose proof (minval_le _ _ (in_map snd _ _ H2)). apply under_below; lra.
  - apply round_htmi_ge in D. apply rsum_0. intros e He. apply edges_in in He as [H1 H2].
    pose proof (maxval_ge _ _ (in_map snd _ _ H1)). pose proof (maxval_ge _ _ (in_map snd _ _ H2)). apply under_above; lra.
Qed.
Lemma cell_overlap v ix iy : cell_value v (Z.of_nat ix) (Z.of_nat iy) = overlap v ix iy.
Proof. unfold cell_value, overlap. rewrite intersection_ok. now rewrite !INR_IZR_INZ. Qed.

(** ** Rows *)
Definition rzero (x : R) : bool := eqb x 0.
Lemma integration_loop_roi nx v pixels : forall ncols row,
  integration_loop nx v pixels ncols row = do nr <- roi_loop rzero nx Rabs (cell_value v) pixels (ncols + 1) row; Ok ((fst nr - 1)%Z, snd nr).
Proof.
  induction pixels as [|[ix iy] r IH]; intros ncols row; cbn [integration_loop roi_loop].
  - cbn [bind fst snd]. do 2 f_equal. lia.
  - cbv zeta. unfold rzero at 1. destruct (eqb (cell_value v ix iy) 0); [apply IH|].
    destruct (if (ncols + 1 <=? zlen row)%Z then _ else _) as [row'|e]; cbn [bind]; [apply IH | reflexivity].
Qed.
Lemma integration_row_roi nx ny v row : integration_row nx ny v row = roi2row r_ops rzero nx ny Rabs (bounds v) (cell_value v) row.
Proof.
  unfold integration_row, roi2row. rewrite integration_loop_roi. change (0 + 1)%Z with 1%Z. destruct (roi_loop _ _ _ _ _ _ _) as [[k r]|e]; [|reflexivity].
  cbn [bind fst snd]. reflexivity.
Qed.
Lemma is_outside_roi nx ny r : is_outside nx ny r = roi_out nx ny r.
Proof. unfold is_outside, roi_out. lia. Qed.
Lemma integration_rows_roi nx ny vs : forall m new out,
  integration_rows nx ny vs m new out = roi2pmatrix r_ops rzero nx ny Rabs (map (fun v => (bounds v, cell_value v)) vs) m new out.
Proof.
  induction vs as [|v vs IH]; intros [|row m] new out; try reflexivity. cbn [integration_rows roi2pmatrix map]. rewrite integration_row_roi, is_outside_roi.
  destruct (roi2row _ _ _ _ _ _ _ _) as [nr|]; [|reflexivity]. cbn [bind]. now rewrite IH.
Qed.
Lemma intersected_footprint v nx ny (r : roi) : r = bounds v ->
  intersected rzero Rabs (fst (fst r)) (snd (fst r)) (fst (snd r)) (snd (snd r)) (cell_value v) nx ny = footprint nx ny v.
Proof.
  intros ->. unfold intersected, footprint.
  rewrite (filter_ext _ (fun p => if Req_EM_T (overlap v (fst p) (snd p)) 0 then false else true)).
  - apply map_ext. intros p. now rewrite cell_overlap.
  - intros p. pose proof (outside_zero v (Z.of_nat (fst p)) (Z.of_nat (snd p))) as O. unfold within in O. rewrite cell_overlap in *. unfold rzero.
    destruct (Req_EM_T (overlap v (fst p) (snd p)) 0) as [E|N].
    + rewrite E. destruct (eqb_spec 0 0); [|lra]. cbn. now rewrite andb_false_r.
    + destruct (eqb_spec (overlap v (fst p) (snd p)) 0); [lra|]. cbn [negb]. rewrite andb_true_r.
      match type of O with ?b = false -> _ => destruct b; [reflexivity | exfalso; apply N; auto] end.
Qed.
Definition padded {A} (d : A) (w : nat) (l : list A) : list A := firstn w l ++ repeat d (w - length l).
Lemma integration_row_ok nx ny v row :
  integration_row (Z.of_nat nx) (Z.of_nat ny) v row = Ok (zlen (footprint nx ny v), padded ((-1)%Z, 0) (length row) (footprint nx ny v)).
Proof.
  rewrite integration_row_roi. pose proof (roi2row_ok r_ops rzero (Z.of_nat nx) (Z.of_nat ny) Rabs (bounds v) (cell_value v) row) as E. cbv zeta in E.
  rewrite E, hit_list_intersected, intersected_footprint by reflexivity. reflexivity.
Qed.
Lemma integration_ok nx ny vs m out : length m = length vs ->
  matrix_polygon_integration (Z.of_nat nx) (Z.of_nat ny) vs m out =
    Ok (fold_right Z.max 0%Z (map (fun v => zlen (footprint nx ny v)) vs),
        existsb (fun v => is_outside (Z.of_nat nx) (Z.of_nat ny) (bounds v)) vs || out,
        map (fun vr => padded ((-1)%Z, 0) (length (snd vr)) (footprint nx ny (fst vr))) (combine vs m)).
Proof.
  intros L. unfold matrix_polygon_integration. rewrite integration_rows_roi.
  pose proof (roi2pmatrix_ok r_ops rzero nx ny Rabs (map (fun v => (bounds v, cell_value v)) vs) m 0 out) as E. cbv zeta in E. rewrite E by now rewrite map_length. clear E.
  rewrite map_map. f_equal. f_equal; [f_equal|].
  - f_equal. apply map_ext. intros v. cbn [fst snd]. f_equal. now apply intersected_footprint.
  - f_equal. clear. induction vs as [|v vs IH]; [reflexivity|]. cbn [map existsb fst]. rewrite IH. f_equal. symmetry. apply is_outside_roi.
  - clear L. revert m. induction vs as [|v vs IH]; intros [|r m]; try reflexivity. cbn [map combine fst snd]. rewrite IH. f_equal.
    rewrite intersected_footprint by reflexivity. reflexivity.
Qed.

(** ** Outside of the map *)
Lemma minval_in l : l <> [] -> In (minval l) l.
Proof.
  destruct l as [|a l]; [contradiction|]. intros _. cbn [minval]. assert (H : forall l a, In (fold_left Rmin l a) (a :: l)).
  { clear. induction l as [|b l IH]; intros a; cbn [fold_left]; [now left|]. destruct (IH (Rmin a b)) as [E|I].
    - rewrite <- E. unfold Rmin. destruct (Rle_dec a b); [now left | right; now left].
    - right. now right. }
  apply H.
Qed.
Lemma maxval_in l : l <> [] -> In (maxval l) l.
Proof.
  destruct l as [|a l]; [contradiction|]. intros _. cbn [maxval]. assert (H : forall l a, In (fold_left Rmax l a) (a :: l)).
  { clear. induction l as [|b l IH]; intros a; cbn [fold_left]; [now left|]. destruct (IH (Rmax a b)) as [E|I].
    - rewrite <- E. unfold Rmax. destruct (Rle_dec a b); [right; now left | now left].
    - right. now right. }
  apply H.
Qed.
Lemma round_htpi_lt x i : (round_htpi x < i)%Z <-> x < IZR i - / 2.
Proof.
  unfold round_htpi, floor. destruct (base_Int_part (x + / 2)) as [B1 B2]. split; intros H.
  - assert (IZR (Int_part (x + / 2) + 1) <= IZR i) by (apply IZR_le; lia). rewrite plus_IZR in *. lra.
  - apply lt_IZR. lra.
Qed.
Lemma round_htmi_gt x i : (i < round_htmi x)%Z <-> IZR i + / 2 < x.
Proof.
  unfold round_htmi, ceiling. destruct (base_Int_part (- (x - / 2))) as [B1 B2]. split; intros H.
  - assert (IZR (Int_part (- (x - / 2)) + 1) <= IZR (- i)) by (apply IZR_le; lia). rewrite plus_IZR, opp_IZR in *. lra.
  - apply lt_IZR. rewrite opp_IZR. lra.
Qed.
Lemma is_outside_ok nx ny v : v <> [] -> is_outside (Z.of_nat nx) (Z.of_nat ny) (bounds v) = true <-> ~ on_map nx ny v.
Proof.
  intros Nv. unfold is_outside, bounds. cbn [fst snd]. rewrite !orb_true_iff, !Z.ltb_lt, !Z.leb_le.
  assert (Nx : map fst v <> []) by (destruct v; [contradiction | discriminate]). assert (Ny : map snd v <> []) by (destruct v; [contradiction | discriminate]).
  assert (G : forall n x, (Z.of_nat n <= round_htmi x)%Z <-> INR n - / 2 < x).
  { intros n x. assert ((Z.of_nat n <= round_htmi x)%Z <-> (Z.of_nat n - 1 < round_htmi x)%Z) as -> by lia. rewrite round_htmi_gt, minus_IZR, <- INR_IZR_INZ. lra. }
  rewrite !round_htpi_lt, !G. split.
  - intros H M. pose proof (minval_in _ Nx) as I1. pose proof (maxval_in _ Nx) as I2. pose proof (minval_in _ Ny) as I3. pose proof (maxval_in _ Ny) as I4.
    apply in_map_iff in I1 as [p1 [E1 I1]]. apply in_map_iff in I2 as [p2 [E2 I2]]. apply in_map_iff in I3 as [p3 [E3 I3]]. apply in_map_iff in I4 as [p4 [E4 I4]].
    apply M in I1, I2, I3, I4. lra.
  - intros H. destruct (Rlt_dec (minval (map fst v)) (0 - / 2)) as [|A]; [tauto|]. destruct (Rlt_dec (INR nx - / 2) (maxval (map fst v))) as [|B]; [tauto|].
    destruct (Rlt_dec (minval (map snd v)) (0 - / 2)) as [|C]; [tauto|]. destruct (Rlt_dec (INR ny - / 2) (maxval (map snd v))) as [|D]; [tauto|].
    exfalso. apply H. intros p Hp. pose proof (minval_le _ _ (in_map fst _ _ Hp)). pose proof (maxval_ge _ _ (in_map fst _ _ Hp)). pose proof (minval_le _ _ (in_map snd _ _ Hp)). pose proof (maxval_ge _ _ (in_map snd _ _ Hp)). lra.
Qed.

(** ** Flux of a row *)
Lemma footprint_sum nx ny v : rsum (map snd (footprint nx ny v)) = rsum (map (fun p => Rabs (overlap v (fst p) (snd p))) (map_pixels nx ny)).
Proof.
  unfold footprint. rewrite map_map. cbn [snd]. induction (map_pixels nx ny) as [|p l IH]; [reflexivity|]. cbn [filter].
  unfold rsum in *. destruct (Req_EM_T (overlap v (fst p) (snd p)) 0) as [E|N]; cbn [map fold_right]; rewrite IH; [rewrite E, Rabs_R0; ring | reflexivity].
Qed.
Lemma pixels_sum nx ny (f : nat -> nat -> R) : rsum (map (fun p => f (fst p) (snd p)) (map_pixels nx ny)) = grid_sum nx ny f.
Proof.
  unfold grid_sum, map_pixels. rewrite rsum_swap. induction (seq 0 ny) as [|j l IH]; [reflexivity|]. cbn [flat_map map]. rewrite map_app, rsum_app, IH, map_map. reflexivity.
Qed.
Lemma overlap_flux nx ny v : on_map nx ny v -> grid_sum nx ny (overlap v) = shoelace v.
Proof.
  intros H. rewrite <- (flux (- / 2) (- / 2) nx ny v).
  - unfold grid_sum. apply rsum_ext. intros i _. apply rsum_ext. intros j _. rewrite intersection_ok. unfold overlap. rewrite !(Rplus_comm (- / 2)). reflexivity.
  - intros p Hp. apply H in Hp. lra.
Qed.
Lemma row_flux s nx ny v : on_map nx ny v -> s * s = 1 -> (forall i j, 0 <= s * overlap v i j) -> rsum (map snd (footprint nx ny v)) = Rabs (shoelace v).
Proof.
  intros M S P. rewrite footprint_sum, (pixels_sum nx ny (fun i j => Rabs (overlap v i j))).
  assert (D : s = 1 \/ s = -1) by (assert ((s - 1) * (s + 1) = 0) as Z by lra; apply Rmult_integral in Z as [Z|Z]; lra).
  assert (E : grid_sum nx ny (fun i j => Rabs (overlap v i j)) = s * shoelace v).
  { rewrite <- (overlap_flux nx ny v M). unfold grid_sum. rewrite <- rsum_scal. apply rsum_ext. intros i _. rewrite <- rsum_scal. apply rsum_ext. intros j _.
    specialize (P i j). unfold Rabs. destruct (Rcase_abs _); destruct D; subst s; lra. }
  rewrite E. symmetry. rewrite <- (overlap_flux nx ny v M) in *. assert (0 <= s * grid_sum nx ny (overlap v)).
  { rewrite <- E. unfold grid_sum. apply rsum_ge_0. apply Forall_forall. intros x Hx. apply in_map_iff in Hx as [i [<- _]]. apply rsum_ge_0. apply Forall_forall. intros y Hy. apply in_map_iff in Hy as [j [<- _]]. apply Rabs_pos. }
  unfold Rabs. destruct (Rcase_abs _); destruct D; subst s; lra.
Qed.
