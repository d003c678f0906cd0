(** C123: scene grids, and the integration of maps over polygons. *)
From Coq Require Import Reals Lra Lia.
From Verif Require Import Base BaseFacts SparseModel SparseSpec SparseFacts SparseProps PmSpec GeoModel GeoSpec GeoFacts GeoFacts3 GeoProps ClipFacts SgModel.
Open Scope R_scope.

(** The rows of an image of ny lines and nx columns. *)
Definition image (nx ny : nat) (img : list (list R)) : Prop := length img = ny /\ forall l, In l img -> length l = nx.
Definition pixel (img : list (list R)) (x y : nat) : R := nth x (nth y img []) 0.
Lemma pixel_flat {A} (d : A) nx x : (x < nx)%nat -> forall img y, (forall l, In l img -> length l = nx) -> (y < length img)%nat -> nth (x + y * nx) (concat img) d = nth x (nth y img []) d.
Proof.
  intros Hx img. induction img as [|l img IH]; intros y H Hy; [cbn in Hy; lia|]. cbn [concat]. assert (L : length l = nx) by (apply H; now left).
  destruct y as [|y]; cbn [nth].
  - rewrite app_nth1 by lia. f_equal. lia.
  - rewrite app_nth2 by (cbn; lia). cbn [length] in Hy. rewrite <- IH by (try (intros l' I; apply H; now right); lia). f_equal. rewrite L. cbn. lia.
Qed.

(** ** From FITS headers *)
(** A header of two axes gives a scene of ny rows and nx columns, and the number of the pixel
    (x, y) is its position in the flattened array; the transforms are the inverse of one another,
    and the column and the row of the element are x and y. *)
Theorem C123_fromfits : forall nx ny, (0 < nx)%Z -> (0 < ny)%Z ->
  exists s t, fromfits [nx; ny] None false = Ok s /\ s_shape s = [ny; nx] /\ s_origin s = Lower /\ s_to1d s = Some t /\
  forall x y, (0 <= x < nx)%Z -> (0 <= y < ny)%Z ->
    let i := apply_to1d t [x; y] in
    (0 <= i < nx * ny)%Z /\ apply_toNd_f (t_shape t) i = [x; y] /\ s_column s i = Ok x /\ s_row s i = Ok y /\
    forall A (d : A) img, length img = Z.to_nat ny -> (forall l, In l img -> length l = Z.to_nat nx) -> nth (Z.to_nat i) (concat img) d = nth (Z.to_nat x) (nth (Z.to_nat y) img []) d.
Proof.
  intros nx ny Hx Hy. exists (Scene [ny; nx] 2 Lower 0 (Some (to1d_f [nx; ny]))), (to1d_f [nx; ny]). do 4 (split; [reflexivity|]).
  intros x y X Y. cbn zeta. assert (E : apply_to1d (to1d_f [nx; ny]) [x; y] = (x + y * nx)%Z).
  { unfold apply_to1d, to1d_f. cbn [fstrides t_coefs]. cbn [zdot]. lia. }
  rewrite E. assert (M : ((x + y * nx) mod nx = x)%Z) by (rewrite Z.mod_add, Z.mod_small by lia; lia). assert (D : ((x + y * nx) / nx = y)%Z) by (rewrite Z.div_add, Z.div_small by lia; lia).
  split; [nia|]. split; [cbn [t_shape to1d_f apply_toNd_f]; now rewrite M, D|].
  split; [unfold s_column; cbn [s_shape s_start]; change (get [ny; nx] 1) with (Ok nx); cbn [bind]; rewrite M; f_equal; lia|].
  split; [unfold s_row; cbn [s_shape s_start]; change (get [ny; nx] 1) with (Ok nx); cbn [bind]; rewrite D; f_equal; lia|].
  intros A d img L1 L2. rewrite <- (pixel_flat d (Z.to_nat nx)) by (auto; lia). f_equal. nia.
Qed.
Print Assumptions C123_fromfits.
Example C123_fromfits_case : exists s t, fromfits [4; 3]%Z None false = Ok s /\ s_to1d s = Some t /\ apply_to1d t [3; 2]%Z = 11%Z /\ s_row s 11 = Ok 2%Z.
Proof. do 2 eexists. repeat split. Qed.
(** Other headers are refused, unless the number of axes is given; then the first two axes of the
    array, which are the last two of the header, are those of the pixels. *)
Theorem C123_axes : forall naxis o sw t ndim, (scene_grid naxis ndim o sw t = Err ValueError <-> match ndim with None => length naxis <> 2%nat | Some n => n <> 2%nat \/ (length naxis < 2)%nat end).
Proof.
  intros naxis o sw t [n|]; unfold scene_grid.
  - destruct (Nat.ltb_spec n 1); cbn [orb bind].
    + split; [intros _; left; lia|reflexivity].
    + destruct (Nat.ltb_spec (length naxis) n); cbn [bind].
      * split; [intros _; lia|reflexivity].
      * destruct (Nat.eqb_spec n 2); cbn [negb]; split; try discriminate; try lia; reflexivity.
  - cbn [bind]. destruct (Nat.eqb_spec (length naxis) 2); cbn [negb]; split; try discriminate; try lia; reflexivity.
Qed.
Print Assumptions C123_axes.

(** FINDING 204.  With startswith1=True the columns and rows start at 1, but not the pixels of the
    transform: the number of the pixel at the column and the row of an element is not the index
    of the element, and is not in the map for the last one. *)
Theorem C123_startswith1_refuted : forall nx ny, (0 < nx)%Z -> (0 < ny)%Z ->
  exists s t, fromfits [nx; ny] None true = Ok s /\ s_to1d s = Some t /\
  forall i, (0 <= i < nx * ny)%Z -> exists c r, s_column s i = Ok c /\ s_row s i = Ok r /\ (i < apply_to1d t [c; r])%Z /\ (i = nx * ny - 1 -> nx * ny <= apply_to1d t [c; r])%Z.
Proof.
  intros nx ny Hx Hy. exists (Scene [ny; nx] 2 Lower 1 (Some (to1d_f [nx; ny]))), (to1d_f [nx; ny]). do 2 (split; [reflexivity|]).
  intros i Hi. unfold s_column, s_row. cbn [s_shape s_start]. change (get [ny; nx] 1) with (Ok nx). cbn [bind]. do 2 eexists. split; [reflexivity|]. split; [reflexivity|].
  unfold apply_to1d, to1d_f. cbn [fstrides t_coefs]. cbn [zdot]. pose proof (Z.div_mod i nx ltac:(lia)). split; nia.
Qed.
Print Assumptions C123_startswith1_refuted.

(** ** Integration over polygons *)
Lemma bigsum_ext n f g : (forall c, (c < n)%nat -> f c = g c) -> bigsum r_ops n f = bigsum r_ops n g.
Proof. induction n as [|n IH]; intros H; [reflexivity|]. cbn. rewrite IH, H by (try (intros; apply H); lia). reflexivity. Qed.
Lemma bigsum_one n k w (m : nat -> R) : bigsum r_ops n (fun c => (if (k =? Z.of_nat c)%Z then w else 0) * m c) = if ((0 <=? k) && (k <? Z.of_nat n))%Z then w * m (Z.to_nat k) else 0.
Proof.
  induction n as [|n IH]; [cbn [bigsum]; destruct (Z.leb_spec 0 k); cbn [andb]; [destruct (Z.ltb_spec k (Z.of_nat 0)); [lia|reflexivity]|reflexivity]|].
  cbn [bigsum]. rewrite IH. cbn [kadd r_ops].
  destruct (Z.leb_spec 0 k); cbn [andb]; [|destruct (Z.eqb_spec k (Z.of_nat n)); [lia|ring]].
  destruct (Z.ltb_spec k (Z.of_nat n)); destruct (Z.ltb_spec k (Z.of_nat (S n))); try lia; destruct (Z.eqb_spec k (Z.of_nat n)); try lia; try ring.
  subst k. rewrite Nat2Z.id. ring.
Qed.
Lemma bigsum_plus n f g : bigsum r_ops n (fun c => f c + g c) = bigsum r_ops n f + bigsum r_ops n g.
Proof. induction n as [|n IH]; [cbn; ring|]. cbn in *. rewrite IH. ring. Qed.
Lemma bigsum_zero n : bigsum r_ops n (fun _ => 0) = 0.
Proof. induction n as [|n IH]; [reflexivity|]. cbn in *. rewrite IH. ring. Qed.
Lemma row_product (l : list (Z * R)) n m :
  bigsum r_ops n (fun c => sum_over r_ops l (fun e => if (fst e =? Z.of_nat c)%Z then snd e else 0) * m c) =
  rsum (map (fun e => if ((0 <=? fst e) && (fst e <? Z.of_nat n))%Z then snd e * m (Z.to_nat (fst e)) else 0) l).
Proof.
  induction l as [|e l IH].
  - cbn. rewrite (bigsum_ext _ _ (fun _ => 0)) by (intros; ring). apply bigsum_zero.
  - cbn [map]. unfold rsum in *. cbn [fold_right]. rewrite <- IH, <- bigsum_one, <- bigsum_plus. apply bigsum_ext. intros c _. cbn. ring.
Qed.

(** Whatever the width first given for the matrix, what it contained and the schedule of the
    threads, the operator gives for each polygon the sum of the pixels, each with the area that
    the polygon covers. *)
Theorem C123_integration : forall flib sched s nx ny polygons ncolmax garbage flag img,
  s_shape s = [Z.of_nat ny; Z.of_nat nx] -> (0 < nx)%nat -> (0 < ny)%nat -> (0 <= ncolmax)%Z -> scheduler sched -> image nx ny img ->
  exists r, integrate flib sched s (Z.of_nat ny * Z.of_nat nx) polygons ncolmax garbage flag (concat img) = Ok (Some r) /\ length r = length polygons /\
    forall i v, nth_error polygons i = Some v -> nth i r 0 = grid_sum nx ny (fun x y => Rabs (overlap v x y) * pixel img x y).
Proof.
  intros flib sched s nx ny polygons ncolmax garbage flag img Hs Hx Hy Hn S [I1 I2].
  unfold integrate, scene_matrix, scene_removed. rewrite Hs. change (get [Z.of_nat ny; Z.of_nat nx] 0) with (Ok (Z.of_nat ny)). change (get [Z.of_nat ny; Z.of_nat nx] 1) with (Ok (Z.of_nat nx)). cbn [bind].
  assert (Z1 : zproduct [Z.of_nat ny; Z.of_nat nx] = Z.of_nat (ny * nx)) by (cbn; lia). rewrite Z1. replace (Z.of_nat ny * Z.of_nat nx =? Z.of_nat (ny * nx))%Z with true by lia. cbn [negb].
  destruct (C34_operator nx ny polygons ncolmax garbage flag 1 Hn) as [need [outside [k [N0 [_ [_ [E _]]]]]]]. rewrite E. cbn [bind fst]. clear E k outside. rewrite Nat2Z.id.
  set (row := fun v => footprint nx ny v ++ repeat ((-1)%Z, 0) (Z.to_nat (Z.max ncolmax need) - length (footprint nx ny v))).
  set (M := Matrix _ _ _ _ _ _).
  assert (Lc : length (concat img) = (ny * nx)%nat).
  { subst ny. revert I2. clear. induction img as [|l img IH]; intros H; [reflexivity|]. cbn [concat length]. rewrite app_length, IH by (intros l' I; apply H; now right). rewrite (H l (or_introl eq_refl)). lia. }
  assert (W : well_formed M).
  { split; [reflexivity|]. exists (length polygons), (ny * nx)%nat. cbn [mx_rows mx_cols mx_bs mx_axis mx_data M fst snd]. split; [lia|]. split; [lia|]. split; [now rewrite !map_length|].
    unfold in_range. rewrite Forall_map, Forall_map. apply Forall_forall. intros v _. rewrite Forall_map. apply Forall_forall. intros e He. cbn [e_idx]. unfold row in He. apply in_app_or in He. destruct He as [He|He].
    - unfold footprint in He. apply in_map_iff in He. destruct He as [p [<- Hp]]. apply filter_In in Hp. destruct Hp as [Hp _]. unfold map_pixels in Hp. apply in_flat_map in Hp. destruct Hp as [y [Y Hp]]. apply in_map_iff in Hp. destruct Hp as [x [<- X]].
      apply in_seq in X, Y. cbn [fst snd]. nia.
    - apply repeat_spec in He. subst e. cbn [fst]. lia. }
  destruct (C16_product_new_output R r_ops r_ring flib sched M 1 (concat img) W S (Nat.le_refl 1)) as [r [-> [Lr P]]]; [cbn [M mx_cols]; nia|cbn [M mx_cols]; lia|].
  exists r. split; [reflexivity|]. cbn [M mx_rows mx_cols] in Lr, P. rewrite Nat.mul_1_l in Lr, P. split; [exact Lr|].
  intros i v Hi. assert (Li : (i < length polygons)%nat) by (apply nth_error_Some; congruence). specialize (P i Li). unfold at_ in P at 1. cbn [k0 r_ops] in P. rewrite P. clear P.
  unfold at_ at 1. rewrite nth_repeat. cbn [kadd r_ops]. rewrite Rplus_0_l. unfold mat_vec. rewrite Nat.mul_1_l.
  transitivity (bigsum r_ops (ny * nx) (fun c => sum_over r_ops (row v) (fun e => if (fst e =? Z.of_nat c)%Z then snd e else 0) * nth c (concat img) 0)).
  { apply bigsum_ext. intros c Hc. unfold dense_of, dense. cbn [M mx_axis fmt_of mx_kind mx_data]. unfold dense_row, frow, fcol. rewrite !Nat.div_1_r. cbn [kmul r_ops]. unfold at_ at 1. f_equal.
    rewrite (nth_indep _ [] (map (fun e => Elt (fst e) [snd e]) (row []))) by (rewrite !map_length; exact Li). rewrite map_nth, map_nth. erewrite (nth_error_nth polygons) by exact Hi.
    induction (row v) as [|e l IH]; [reflexivity|]. cbn [map sum_over]. rewrite IH. reflexivity. }
  rewrite row_product. unfold row. rewrite map_app, rsum_app.
  assert (Z0 : forall q, rsum (map (fun e : Z * R => if ((0 <=? fst e) && (fst e <? Z.of_nat (ny * nx)))%Z then snd e * nth (Z.to_nat (fst e)) (concat img) 0 else 0) (repeat ((-1)%Z, 0) q)) = 0)
    by (unfold rsum; induction q as [|q IH]; cbn in *; [reflexivity|rewrite IH; ring]).
  rewrite Z0, Rplus_0_r. rewrite <- pixels_sum. unfold footprint. rewrite map_map. cbn [fst snd].
  assert (In_p : forall p, In p (map_pixels nx ny) -> (fst p < nx /\ snd p < ny)%nat).
  { intros p Hp. unfold map_pixels in Hp. apply in_flat_map in Hp. destruct Hp as [y [Y Hp]]. apply in_map_iff in Hp. destruct Hp as [x [<- X]]. apply in_seq in X, Y. cbn. lia. }
  induction (map_pixels nx ny) as [|p l IH]; [reflexivity|]. cbn [filter map]. assert (B := In_p p (or_introl eq_refl)).
  assert (IH' := IH (fun q Hq => In_p q (or_intror Hq))). unfold rsum in *. cbn [fold_right]. rewrite <- IH'. clear IH IH'.
  destruct (Req_EM_T (overlap v (fst p) (snd p)) 0) as [E|E]; cbn [map fold_right fst snd].
  - rewrite E, Rabs_R0. ring.
  - rewrite Nat2Z.id. replace ((0 <=? Z.of_nat (fst p + snd p * nx)) && (Z.of_nat (fst p + snd p * nx) <? Z.of_nat (ny * nx)))%Z with true by nia.
    rewrite (pixel_flat 0 nx) by (auto; lia). reflexivity.
Qed.
Print Assumptions C123_integration.
Example C123_integration_case : forall flib sched, scheduler sched -> exists r,
  integrate flib sched (Scene [3; 2]%Z 2 Lower 0 None) 6 [[(0, 0); (3 / 2, 1); (1, 5 / 2)]] 0 (fun _ _ _ => (0%Z, 0)) (fun _ => false) (concat [[1; 1]; [1; 1]; [1; 1]]) = Ok (Some r) /\ length r = 1%nat /\ nth 0 r 0 = 11 / 8.
Proof.
  intros flib sched S.
  destruct (C123_integration flib sched (Scene [3; 2]%Z 2 Lower 0 None) 2 3 [[(0, 0); (3 / 2, 1); (1, 5 / 2)]] 0 (fun _ _ _ => (0%Z, 0)) (fun _ => false) [[1; 1]; [1; 1]; [1; 1]]) as [r [E [L P]]]; try lia; auto.
  { split; [reflexivity|]. intros l [<-|[<-|[<-|[]]]]; reflexivity. }
  exists r. split; [exact E|]. split; [exact L|]. rewrite (P 0%nat _ eq_refl). clear - P.
  destruct C33_flux_example as [M F]. destruct (C33_flux 2 3 _ M) as [_ G].
  transitivity (rsum (map snd (footprint 2 3 [(0, 0); (3 / 2, 1); (1, 5 / 2)]))).
  - rewrite footprint_sum. rewrite (pixels_sum 2 3 (fun i j => Rabs (overlap [(0, 0); (3 / 2, 1); (1, 5 / 2)] i j))). unfold grid_sum. apply rsum_ext. intros i Hi. apply rsum_ext. intros j Hj. apply in_seq in Hi, Hj.
    assert (Q : pixel [[1; 1]; [1; 1]; [1; 1]] i j = 1) by (destruct i as [|[|i]]; [| |lia]; destruct j as [|[|[|j]]]; try lia; reflexivity). rewrite Q. ring.
  - assert (W : convex [(0, 0); (3 / 2, 1); (1, 5 / 2)]).
    { intros i j k O K. cbn in K. assert (i = 0 /\ j = 1 /\ k = 2)%nat as [-> [-> ->]] by lia. unfold turn. cbn. lra. }
    assert (Rw := C33_row 2 3 [(0, 0); (3 / 2, 1); (1, 5 / 2)] (repeat (0%Z, 0) (length (footprint 2 3 [(0, 0); (3 / 2, 1); (1, 5 / 2)]))) (or_introl W) M).
    rewrite integration_row_ok in Rw. specialize (Rw _ _ eq_refl). unfold zlen in Rw. rewrite repeat_length in Rw. specialize (Rw (Z.le_refl _)). unfold padded in Rw. rewrite firstn_all, Nat.sub_diag, app_nil_r in Rw. rewrite Rw, F. apply Rabs_right. lra.
Qed.

(** FINDING 205.  A scene with other axes (the elements being the pixels of the first two) is
    refused as if some of its elements were removed. *)
Theorem C123_extra_refuted : forall flib sched s nx ny extra polygons ncolmax garbage flag map_, s_shape s = ny :: nx :: extra -> (0 < nx * ny)%Z -> zproduct extra <> 1%Z ->
  integrate flib sched s (ny * nx) polygons ncolmax garbage flag map_ = Err NotImplementedError.
Proof.
  intros flib sched s nx ny extra polygons ncolmax garbage flag map_ Hs Hn Hp. unfold integrate, scene_matrix, scene_removed. rewrite Hs. change (get (ny :: nx :: extra) 0) with (Ok ny).
  assert (G : get (ny :: nx :: extra) 1 = Ok nx) by (unfold get; reflexivity). rewrite G. cbn [bind].
  replace (ny * nx =? zproduct (ny :: nx :: extra))%Z with false; [reflexivity|]. symmetry. apply Z.eqb_neq. cbn [zproduct fold_right]. fold (zproduct extra). nia.
Qed.
Print Assumptions C123_extra_refuted.
