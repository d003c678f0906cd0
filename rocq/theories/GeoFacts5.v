(** Lemmas for geometry: rotations, shapes and segments. *)
From Coq Require Import Reals List ZArith Lia Lra Bool.
From Coquelicot Require Import Coquelicot.
From Verif Require Import Base BaseFacts SparseModel PmModel GeoModel GeoSpec GeoFacts GeoFacts2 GeoFacts3.
Open Scope R_scope.

Lemma deg_rad angle : cos (angle * DEG2RAD) * cos (angle * DEG2RAD) + sin (angle * DEG2RAD) * sin (angle * DEG2RAD) = 1.
Proof. pose proof (sin2_cos2 (angle * DEG2RAD)) as H. unfold Rsqr in H. lra. Qed.
Lemma inplace_same angle xy : rotate_2d_inplace angle xy = rotate_2d angle xy.
Proof. reflexivity. Qed.
Lemma dot_same angle xy : rotate_dot angle xy = rotate_2d angle xy.
Proof. unfold rotate_dot, rotate_2d. apply map_ext. intros v. f_equal; ring. Qed.
Lemma rotate_same d c a angle xy : rotate d c a angle xy = rotate_2d angle xy.
Proof. unfold rotate. destruct (d && c), a; auto using inplace_same, dot_same. Qed.
Lemma rotate_compose a b xy : rotate_2d a (rotate_2d b xy) = rotate_2d (a + b) xy.
Proof.
  unfold rotate_2d. rewrite map_map. apply map_ext. intros v. cbn [fst snd]. rewrite Rmult_plus_distr_r, cos_plus, sin_plus. f_equal; ring.
Qed.
Lemma rotate_0 xy : rotate_2d 0 xy = xy.
Proof. unfold rotate_2d. rewrite Rmult_0_l, cos_0, sin_0. rewrite <- (map_id xy) at 2. apply map_ext. intros [x y]. cbn [fst snd]. f_equal; ring. Qed.
Lemma shoelace_rotate angle xy : shoelace (rotate_2d angle xy) = shoelace xy.
Proof.
  unfold rotate_2d. set (c := cos (angle * DEG2RAD)). set (s := sin (angle * DEG2RAD)).
  rewrite (map_ext _ (fun p => (c * fst p + - s * snd p + 0, s * fst p + c * snd p + 0))) by (intros p; f_equal; ring).
  rewrite (shoelace_affine c (- s) s c 0 0). replace (c * c - - s * s) with 1 by (rewrite <- (deg_rad angle); unfold c, s; ring). ring.
Qed.
Lemma shoelace_translate c xy : shoelace (translate c xy) = shoelace xy.
Proof.
  unfold translate. rewrite (map_ext _ (fun p => (1 * fst p + 0 * snd p + fst c, 0 * fst p + 1 * snd p + snd c))) by (intros p; f_equal; ring).
  rewrite (shoelace_affine 1 0 0 1). ring.
Qed.
Lemma shoelace_scale k xy : shoelace (map (fun p => (k * fst p, k * snd p)) xy) = k * k * shoelace xy.
Proof.
  rewrite (map_ext _ (fun p => (k * fst p + 0 * snd p + 0, 0 * fst p + k * snd p + 0))) by (intros p; f_equal; ring). rewrite (shoelace_affine k 0 0 k 0 0). ring.
Qed.
Lemma dist_rotate angle p q : dist (hd (0, 0) (rotate_2d angle [p])) (hd (0, 0) (rotate_2d angle [q])) = dist p q.
Proof.
  unfold dist. cbn [rotate_2d map hd fst snd]. f_equal. set (c := cos (angle * DEG2RAD)). set (s := sin (angle * DEG2RAD)).
  assert (H : c * c + s * s = 1) by apply deg_rad.
  replace ((fst q - fst p) * (fst q - fst p) + (snd q - snd p) * (snd q - snd p)) with ((c * c + s * s) * ((fst q - fst p) * (fst q - fst p) + (snd q - snd p) * (snd q - snd p))) by (rewrite H; ring). ring.
Qed.
(** Convexity is kept by rotations and translations. *)
Lemma convex_map (g : R * R -> R * R) (d : R) xy : 0 < d -> (forall p q r, turn (g p) (g q) (g r) = d * turn p q r) -> convex xy -> convex (map g xy).
Proof.
  intros Hd G C i j k H Hk. rewrite map_length in Hk.
  assert (N : forall m, (m < length xy)%nat -> nth m (map g xy) (0, 0) = g (nth m xy (0, 0))) by (intros m Hm; rewrite (nth_indep _ (0, 0) (g (0, 0))) by (now rewrite map_length); apply map_nth).
  rewrite !N by lia. rewrite G. apply Rmult_lt_0_compat; [exact Hd | apply C; assumption].
Qed.
Lemma convex_rotate angle xy : convex xy -> convex (rotate_2d angle xy).
Proof.
  apply (convex_map _ 1); [lra|]. intros p q r. unfold turn. cbn [fst snd]. set (c := cos (angle * DEG2RAD)). set (s := sin (angle * DEG2RAD)).
  assert (H : c * c + s * s = 1) by apply deg_rad. rewrite <- H. ring.
Qed.
Lemma convex_translate c xy : convex xy -> convex (translate c xy).
Proof. apply (convex_map _ 1); [lra|]. intros p q r. unfold turn. cbn [fst snd]. ring. Qed.

(** ** Rectangles and regular polygons *)
Lemma corners_area sx sy : shoelace (corners sx sy) = sx * sy.
Proof. unfold shoelace, corners, edges, rsum. cbn [last combine map fold_right fst snd]. field. Qed.
Lemma corners_convex sx sy : 0 < sx -> 0 < sy -> convex (corners sx sy).
Proof.
  intros Hx Hy i j k H Hk. cbn [corners length] in Hk. assert (0 < sx * sy) by now apply Rmult_lt_0_compat.
  assert (D : ((i = 0 /\ j = 1 /\ k = 2) \/ (i = 0 /\ j = 1 /\ k = 3) \/ (i = 0 /\ j = 2 /\ k = 3) \/ (i = 1 /\ j = 2 /\ k = 3))%nat) by lia.
  destruct D as [D|[D|[D|D]]]; destruct D as [-> [-> ->]]; unfold turn; cbn [nth corners fst snd]; nra.
Qed.
Lemma rectangle_forms d c sx sy center angle : create_rectangle d c sx sy center angle = translate center (rotate_2d angle (corners sx sy)).
Proof. unfold create_rectangle. rewrite rotate_same. destruct (eqb_spec angle 0) as [->|]; [now rewrite rotate_0 | reflexivity]. Qed.

Lemma four_atan : 4 * atan 1 = PI.
Proof. rewrite atan_1. field. Qed.
Definition theta (n : nat) (angle : R) (k : nat) : R := 2 * PI / INR n * INR k + angle * DEG2RAD.
Lemma regular_nth n radius center angle k : (k < n)%nat ->
  nth k (create_regular_polygon n radius center angle) (0, 0) = (radius * cos (theta n angle k) + fst center, radius * sin (theta n angle k) + snd center).
Proof.
  intros H. unfold create_regular_polygon. cbv zeta. rewrite four_atan.
  set (g := fun k => (radius * cos (2 * PI / INR n * INR k + angle * DEG2RAD) + fst center, radius * sin (2 * PI / INR n * INR k + angle * DEG2RAD) + snd center)).
  rewrite (nth_indep _ (0, 0) (g O)) by now rewrite map_length, seq_length. rewrite (map_nth g). rewrite seq_nth by exact H. reflexivity.
Qed.
Lemma circle_turn r cx cy a b c :
  turn (r * cos a + cx, r * sin a + cy) (r * cos b + cx, r * sin b + cy) (r * cos c + cx, r * sin c + cy) =
  4 * (r * r) * sin ((b - a) / 2) * sin ((c - b) / 2) * sin ((c - a) / 2).
Proof.
  assert (L : turn (r * cos a + cx, r * sin a + cy) (r * cos b + cx, r * sin b + cy) (r * cos c + cx, r * sin c + cy) = r * r * (sin (b - a) + sin (c - b) - sin (c - a))).
  { unfold turn. cbn [fst snd]. rewrite !sin_minus. ring. }
  rewrite L. set (u := (b - a) / 2). set (v := (c - b) / 2). replace ((c - a) / 2) with (u + v) by (unfold u, v; field).
  replace (b - a) with (u + u) by (unfold u; field). replace (c - b) with (v + v) by (unfold v; field). replace (c - a) with ((u + v) + (u + v)) by (unfold u, v; field).
  rewrite !sin_plus, cos_plus. pose proof (sin2_cos2 u) as U. pose proof (sin2_cos2 v) as V. unfold Rsqr in U, V.
  assert (U' : cos u * cos u = 1 - sin u * sin u) by lra. assert (V' : cos v * cos v = 1 - sin v * sin v) by lra.
  replace (sin u * cos u + cos u * sin u + (sin v * cos v + cos v * sin v) - ((sin u * cos v + cos u * sin v) * (cos u * cos v - sin u * sin v) + (cos u * cos v - sin u * sin v) * (sin u * cos v + cos u * sin v)))
    with (2 * sin u * cos u * (1 - (cos v * cos v - sin v * sin v)) + 2 * sin v * cos v * (1 - (cos u * cos u - sin u * sin u))) by ring.
  rewrite U', V'. ring.
Qed.
Lemma regular_convex n radius center angle : radius <> 0 -> convex (create_regular_polygon n radius center angle).
Proof.
  intros Hr i j k H Hk. assert (L : @length (R * R) (create_regular_polygon n radius center angle) = n) by (unfold create_regular_polygon; cbv zeta; now rewrite map_length, seq_length).
  rewrite L in Hk. rewrite !regular_nth by lia. rewrite circle_turn.
  assert (Hn : 0 < INR n) by (apply lt_0_INR; lia). pose proof PI_RGT_0 as Hpi.
  assert (D : forall a b, (a < b)%nat -> (b < n)%nat -> 0 < sin ((theta n angle b - theta n angle a) / 2)).
  { intros a b Hab Hb. replace ((theta n angle b - theta n angle a) / 2) with (PI * (INR (b - a) / INR n)) by (unfold theta; rewrite minus_INR by lia; field; lra).
    assert (0 < INR (b - a) / INR n < 1).
    { assert (0 < INR (b - a)) by (apply lt_0_INR; lia). assert (INR (b - a) < INR n) by (apply lt_INR; lia). split; [apply Rdiv_lt_0_compat; lra|].
      apply Rmult_lt_reg_r with (INR n); [exact Hn|]. unfold Rdiv. rewrite Rmult_assoc, Rinv_l by lra. lra. }
    apply sin_gt_0; nra. }
  assert (0 < radius * radius) by (destruct (Rtotal_order radius 0) as [|[|]]; try contradiction; nra).
  apply Rmult_lt_0_compat; [apply Rmult_lt_0_compat; [apply Rmult_lt_0_compat; [lra|]|]|]; apply D; lia.
Qed.
Lemma regular_area n radius center angle : (0 < n)%nat -> shoelace (create_regular_polygon n radius center angle) = INR n / 2 * (radius * radius) * sin (2 * PI / INR n).
Proof.
  intros Hn. assert (HI : 0 < INR n) by (apply lt_0_INR; lia).
  assert (T : create_regular_polygon n radius center angle = translate center (create_regular_polygon n radius (0, 0) angle)).
  { unfold create_regular_polygon, translate. cbv zeta. rewrite map_map. apply map_ext. intros k. cbn [fst snd]. f_equal; ring. }
  rewrite T, shoelace_translate. unfold shoelace. rewrite edges_nth, map_map.
  assert (L : @length (R * R) (create_regular_polygon n radius (0, 0) angle) = n) by (unfold create_regular_polygon; cbv zeta; now rewrite map_length, seq_length). rewrite L.
  rewrite (rsum_ext _ (fun _ => radius * radius * sin (2 * PI / INR n))).
  - assert (K : forall c m, rsum (map (fun _ : nat => c) (seq 0 m)) = INR m * c).
    { intros c m. unfold rsum. generalize O. induction m as [|m IH]; intros z; [cbn; ring|]. cbn [seq map fold_right]. rewrite IH, S_INR. ring. }
    rewrite K. field.
  - intros k Hk. apply in_seq in Hk. cbn [E fst snd]. unfold P. rewrite !regular_nth by (unfold pre; rewrite ?L; destruct k; lia). cbn [fst snd].
    set (b := theta n angle k). set (a := theta n angle (pre (create_regular_polygon n radius (0, 0) angle) k)).
    replace ((radius * cos a + 0) * (radius * sin b + 0) - (radius * sin a + 0) * (radius * cos b + 0)) with (radius * radius * sin (b - a)) by (rewrite sin_minus; ring).
    f_equal. unfold a, b, theta, pre. rewrite L. destruct k as [|k].
    + rewrite <- (sin_period _ 1). f_equal. cbn [INR]. replace (INR (pred n)) with (INR n - 1) by (destruct n; [lia|]; cbn [pred]; rewrite S_INR; ring). field. lra.
    + f_equal. rewrite S_INR. field. lra.
Qed.

(** ** Grids *)
Definition signed (r : bool) : R := if r then -1 else 1.
Lemma grid_node m n spacing xr yr angle center i j :
  create_grid m n spacing xr yr angle center i j =
  hd (0, 0) (translate center (rotate_2d angle [(signed xr * (spacing * (IZR i - (IZR n + 1) / 2)), signed yr * (spacing * ((IZR m + 1) / 2 - IZR j)))])).
Proof.
  unfold create_grid, grid_matrix, translate, rotate_2d, signed. rewrite !plus_IZR. rewrite (Rmult_comm angle).
  destruct xr, yr; cbn [map hd fst snd negb]; f_equal; field.
Qed.
Definition centroid4 (xy : list (R * R)) : R * R := (rsum (map fst xy) / 4, rsum (map snd xy) / 4).
Lemma square_center m n spacing ff xr yr angle center i j :
  centroid4 (create_grid_squares m n spacing ff xr yr angle center i j) = create_grid m n spacing xr yr angle center i j.
Proof.
  rewrite grid_node. unfold centroid4, create_grid_squares, grid_matrix, translate, rotate_2d, signed, rsum. rewrite !plus_IZR. rewrite (Rmult_comm angle).
  destruct xr, yr; cbn [map hd fold_right fst snd]; f_equal; field.
Qed.
Lemma square_area m n spacing ff xr yr angle center i j : 0 <= ff ->
  shoelace (create_grid_squares m n spacing ff xr yr angle center i j) = signed (xorb xr yr) * (ff * (spacing * spacing)).
Proof.
  intros H. pose proof (sqrt_sqrt ff H) as Q. set (c := cos (DEG2RAD * angle)). set (s := sin (DEG2RAD * angle)).
  assert (U : c * c + s * s = 1) by (pose proof (sin2_cos2 (DEG2RAD * angle)) as U; unfold Rsqr in U; unfold c, s; lra).
  assert (G : create_grid_squares m n spacing ff xr yr angle center i j =
    map (fun p => ((signed xr * c) * fst p + (- signed yr * s) * snd p + fst center, (signed xr * s) * fst p + (signed yr * c) * snd p + snd center))
      (translate (/ 2 * (spacing * sqrt ff) + (- / 2 * (IZR (n + 1) * spacing + spacing * sqrt ff) + spacing * IZR i), / 2 * (spacing * sqrt ff) + (/ 2 * (IZR (m + 1) * spacing - spacing * sqrt ff) - spacing * IZR j))
         (corners (spacing * sqrt ff) (spacing * sqrt ff)))).
  { unfold create_grid_squares, grid_matrix, translate, signed, corners. fold c s. destruct xr, yr; cbn [map fst snd]; repeat (f_equal; try field). }
  rewrite G, shoelace_affine, shoelace_translate, corners_area.
  replace (signed xr * c * (signed yr * c) - - signed yr * s * (signed xr * s)) with (signed xr * signed yr * (c * c + s * s)) by ring. rewrite U.
  replace (spacing * sqrt ff * (spacing * sqrt ff)) with (sqrt ff * sqrt ff * (spacing * spacing)) by ring. rewrite Q. unfold signed. destruct xr, yr; cbn [xorb]; ring.
Qed.

(** ** Segments *)
Lemma ceiling_ge x : x <= IZR (ceiling x).
Proof. unfold ceiling. destruct (base_Int_part (- x)) as [B _]. rewrite opp_IZR. lra. Qed.
Lemma ceiling_nonneg x : 0 <= x -> (0 <= ceiling x)%Z.
Proof. intros H. pose proof (ceiling_ge x). apply le_IZR. lra. Qed.
Definition pieces_of (m : R) (v w : R * R) : nat := Z.to_nat (ceiling (hypot (fst w - fst v) (snd w - snd v) / m)).
Definition at_part (v w : R * R) (n k : nat) : R * R := ((1 - INR k / INR n) * fst v + INR k / INR n * fst w, (1 - INR k / INR n) * snd v + INR k / INR n * snd w).
Lemma segment_edge_eq m v w : segment_edge m v w = map (at_part v w (pieces_of m v w)) (seq 0 (pieces_of m v w)).
Proof. reflexivity. Qed.
Lemma at_part_0 v w n : at_part v w n 0 = v.
Proof. unfold at_part. cbn [INR]. destruct v. cbn [fst snd]. f_equal; unfold Rdiv; rewrite Rmult_0_l; ring. Qed.
Lemma at_part_n v w n : (0 < n)%nat -> at_part v w n n = w.
Proof. intros H. assert (0 < INR n) by (apply lt_0_INR; lia). unfold at_part. destruct w. cbn [fst snd]. f_equal; field; lra. Qed.
Lemma dist_hypot v w : hypot (fst w - fst v) (snd w - snd v) = dist v w.
Proof. reflexivity. Qed.
Lemma dist_nonneg v w : 0 <= dist v w.
Proof. apply sqrt_pos. Qed.
Lemma no_piece m v w : 0 < m -> pieces_of m v w = O -> v = w.
Proof.
  intros Hm H. unfold pieces_of in H. rewrite dist_hypot in H. assert (P0 : 0 <= dist v w / m) by (apply Rmult_le_pos; [apply dist_nonneg | apply Rlt_le, Rinv_0_lt_compat, Hm]).
  pose proof (ceiling_nonneg _ P0). assert (Z : ceiling (dist v w / m) = 0%Z) by lia. pose proof (ceiling_ge (dist v w / m)) as G. rewrite Z in G.
  assert (D : dist v w = 0). { assert (M : dist v w / m * m = dist v w) by (field; lra). replace (dist v w / m) with 0 in M by lra. lra. }
  unfold dist in D. destruct v as [a b], w as [c d]. cbn [fst snd] in D.
  pose proof (Rle_0_sqr (c - a)) as S1. pose proof (Rle_0_sqr (d - b)) as S2. unfold Rsqr in *. apply sqrt_eq_0 in D; [|lra].
  assert (E1 : (c - a) * (c - a) = 0) by lra. assert (E2 : (d - b) * (d - b) = 0) by lra. apply Rmult_integral in E1, E2. f_equal; lra.
Qed.
Lemma dist_part m v w k : 0 < m -> (k < pieces_of m v w)%nat -> dist (at_part v w (pieces_of m v w) k) (at_part v w (pieces_of m v w) (S k)) <= m.
Proof.
  intros Hm Hk. set (n := pieces_of m v w) in *. assert (Hn : 0 < INR n) by (apply lt_0_INR; lia).
  assert (E : dist (at_part v w n k) (at_part v w n (S k)) = dist v w / INR n).
  { unfold dist, at_part. cbn [fst snd]. rewrite S_INR.
    replace (_ + _) with ((/ INR n * / INR n) * ((fst w - fst v) * (fst w - fst v) + (snd w - snd v) * (snd w - snd v))) by (field; lra).
    assert (0 < / INR n) by (apply Rinv_0_lt_compat, Hn). rewrite sqrt_mult; [|apply Rmult_le_pos; lra | pose proof (Rle_0_sqr (fst w - fst v)); pose proof (Rle_0_sqr (snd w - snd v)); unfold Rsqr in *; lra]. rewrite sqrt_square by lra. unfold Rdiv. ring. }
  rewrite E. assert (B : dist v w / m <= INR n).
  { unfold n, pieces_of. rewrite dist_hypot. rewrite INR_IZR_INZ, Z2Nat.id; [apply ceiling_ge|]. apply ceiling_nonneg. apply Rmult_le_pos; [apply dist_nonneg | apply Rlt_le, Rinv_0_lt_compat, Hm]. }
  apply Rmult_le_reg_r with (INR n); [exact Hn|]. unfold Rdiv at 1. rewrite Rmult_assoc, Rinv_l by lra. replace (dist v w * 1) with (dist v w / m * m) by (field; lra). rewrite (Rmult_comm m). apply Rmult_le_compat_r; lra.
Qed.
(** The consecutive points of a list. *)
Fixpoint chain (Q : R * R -> R * R -> Prop) (l : list (R * R)) : Prop := match l with a :: ((b :: _) as t) => Q a b /\ chain Q t | _ => True end.
Section Seg.
Variable f : (R * R) * (R * R) -> R.
Hypothesis f_line : forall v w s t, f (((1 - s) * fst v + s * fst w, (1 - s) * snd v + s * snd w), ((1 - t) * fst v + t * fst w, (1 - t) * snd v + t * snd w)) = (t - s) * f (v, w).
Variable m : R.
Hypothesis Hm : 0 < m.
Lemma seg_parts (v w : R * R) (r : list (R * R)) : hd_error r = Some w -> let o := segment_edge m v w ++ r in
  hd_error o = Some v /\ walk f o = f (v, w) + walk f r /\ (chain (fun a b => dist a b <= m) r -> chain (fun a b => dist a b <= m) o).
Proof.
  intros Hr. cbv zeta. rewrite segment_edge_eq. unfold pt in *. destruct r as [|w' r]; [discriminate|]. cbn in Hr. injection Hr as ->.
  set (n := pieces_of m v w). destruct (Nat.eq_dec n 0) as [Z|N].
  - rewrite Z. cbn [seq map app]. pose proof (no_piece m v w Hm Z) as ->. split; [reflexivity|]. split; [|tauto].
    assert (F0 : forall u, f (u, u) = 0) by (intros [a b]; pose proof (f_line (a, b) (a, b) 0 0) as F; cbn [fst snd] in F; replace ((1 - 0) * a + 0 * a) with a in F by ring; replace ((1 - 0) * b + 0 * b) with b in F by ring; lra).
    rewrite F0. ring.
  - assert (Hn : 0 < INR n) by (apply lt_0_INR; lia). split; [destruct n; [lia|]; cbn [seq map app hd_error]; now rewrite at_part_0|].
    assert (FL : forall a b, f (at_part v w n a, at_part v w n b) = (INR b / INR n - INR a / INR n) * f (v, w)) by (intros; unfold at_part; apply f_line).
    assert (Q : forall d k, (k + S d = n)%nat ->
       walk f (map (at_part v w n) (seq k (S d)) ++ w :: r) = (1 - INR k / INR n) * f (v, w) + walk f (w :: r) /\
       (chain (fun a b => dist a b <= m) (w :: r) -> chain (fun a b => dist a b <= m) (map (at_part v w n) (seq k (S d)) ++ w :: r))).
    { induction d as [|d IH]; intros k Hk.
      - cbn [seq map app walk chain]. split.
        + f_equal. transitivity (f (at_part v w n k, at_part v w n n)); [rewrite at_part_n by lia; reflexivity|]. etransitivity; [apply FL|]. f_equal. replace k with (n - 1)%nat by lia. rewrite minus_INR by lia. cbn [INR]. field. lra.
        + intros H. split; [|exact H]. replace w with (at_part v w n (S k)) at 2 by (replace (S k) with n by lia; apply at_part_n; lia). apply dist_part; [exact Hm | unfold n in *; lia].
      - destruct (IH (S k)) as [I1 I2]; [lia|]. change (seq k (S (S d))) with (k :: seq (S k) (S d)). cbn [map app].
        assert (Hd : map (at_part v w n) (seq (S k) (S d)) ++ w :: r = at_part v w n (S k) :: (map (at_part v w n) (seq (S (S k)) d) ++ w :: r)) by reflexivity.
        split.
        + rewrite Hd in *. match goal with |- walk f (?a :: ?b :: ?t) = _ => change (walk f (a :: b :: t)) with (f (a, b) + walk f (b :: t)) end. rewrite I1. transitivity ((INR (S k) / INR n - INR k / INR n) * f (v, w) + ((1 - INR (S k) / INR n) * f (v, w) + walk f (w :: r))); [f_equal; apply FL|]. rewrite S_INR. field. lra.
        + intros H. specialize (I2 H). rewrite Hd in *. split; [|exact I2]. apply dist_part; [exact Hm | unfold n in *; lia]. }
    destruct n as [|d]; [lia|]. destruct (Q d O) as [Q1 Q2]; [lia|]. split; [|exact Q2]. rewrite Q1. cbn [INR]. unfold Rdiv. ring.
Qed.
Lemma seg_loop first : forall l v, let o := segment_loop m first (v :: l) ++ [first] in
  hd_error o = Some v /\ walk f o = walk f ((v :: l) ++ [first]) /\ chain (fun a b => dist a b <= m) o.
Proof.
  induction l as [|w l IH]; intros v; cbv zeta.
  - cbn [segment_loop]. destruct (seg_parts v first [first] eq_refl) as [A [B D]]. split; [exact A|]. split; [exact B|]. apply D. exact I.
  - change (segment_loop m first (v :: w :: l)) with (segment_edge m v w ++ segment_loop m first (w :: l)). rewrite <- app_assoc.
    destruct (IH w) as [A [B D]]. destruct (seg_parts v w (segment_loop m first (w :: l) ++ [first]) A) as [A' [B' D']]. split; [exact A'|]. split; [|now apply D'].
    rewrite B', B. reflexivity.
Qed.
Lemma seg_closed xy : rsum (map f (edges (segment_polygon xy m))) = rsum (map f (edges xy)).
Proof.
  destruct xy as [|v l]; [reflexivity|]. rewrite closed_walk. unfold segment_polygon. destruct (seg_loop v l v) as [A [B _]]. etransitivity; [|exact B]. clear B.
  destruct (segment_loop m v (v :: l)) as [|a t] eqn:S; [reflexivity|]. cbn in A. injection A as ->. now rewrite closed_walk.
Qed.
End Seg.
Lemma chain_edges (Q : R * R -> R * R -> Prop) a l : chain Q ((a :: l) ++ [a]) -> forall e, In e (edges (a :: l)) -> Q (fst e) (snd e).
Proof.
  intros C. assert (H : forall (l : list (R * R)) b, chain Q (b :: l) -> forall e, In e (combine (b :: l) l) -> Q (fst e) (snd e)).
  { clear. induction l as [|c l IH]; intros b C e He; [destruct He|]. rewrite combine_cons in He. destruct C as [C1 C2]. destruct He as [<-|He]; [exact C1 | now apply (IH c)]. }
  intros e He. unfold edges in He.
  assert (A : forall (l : list (R * R)) d, combine (d :: l) l = combine (d :: l) l) by reflexivity.
  destruct (exists_last (l := a :: l) ltac:(discriminate)) as [t [z Z]].
  assert (Ce : chain Q (z :: a :: l)).
  { rewrite Z in C. clear H He A. destruct t as [|b t]; cbn [app] in *.
    - injection Z as -> ->. exact C.
    - injection Z as <- ->. rewrite <- app_assoc in C. cbn [app] in C. change (a :: t ++ [z; a]) with ((a :: t) ++ [z; a]) in C.
      assert (G : forall u, chain Q (u ++ [z; a]) -> chain Q (u ++ [z]) /\ Q z a).
      { clear. induction u as [|x u IH]; cbn [app]; [cbn; tauto|]. destruct u as [|y u]; cbn [app chain] in *; tauto. }
      apply G in C as [C1 C2]. split; [exact C2 | exact C1]. }
  rewrite Z in He at 1. rewrite last_last in He. exact (H (a :: l) z Ce e He).
Qed.
Lemma segments_short xy m e : 0 < m -> In e (edges (segment_polygon xy m)) -> dist (fst e) (snd e) <= m.
Proof.
  intros Hm. destruct xy as [|v l]; [intros []|]. unfold segment_polygon.
  destruct (seg_loop (fun _ => 0) ltac:(intros; cbv beta; ring) m Hm v l v) as [A [_ C]]. destruct (segment_loop m v (v :: l)) as [|a t]; [intros []|]. cbn in A. injection A as ->.
  now apply (chain_edges (fun a b => dist a b <= m)).
Qed.
Lemma shoelace_line v w s t :
  (fun e => fst (fst e) * snd (snd e) - snd (fst e) * fst (snd e)) (((1 - s) * fst v + s * fst w, (1 - s) * snd v + s * snd w), ((1 - t) * fst v + t * fst w, (1 - t) * snd v + t * snd w)) =
  (t - s) * (fun e => fst (fst e) * snd (snd e) - snd (fst e) * fst (snd e)) (v, w).
Proof. cbn [fst snd]. ring. Qed.
Lemma segments_area xy m : 0 < m -> shoelace (segment_polygon xy m) = shoelace xy.
Proof. intros Hm. unfold shoelace. f_equal. apply (seg_closed (fun e : (R * R) * (R * R) => fst (fst e) * snd (snd e) - snd (fst e) * fst (snd e))); [|exact Hm]. intros v w s t. apply shoelace_line. Qed.
Lemma segments_on xy m p : 0 < m -> In p (segment_polygon xy m) -> on_boundary xy p.
Proof.
  intros Hm. destruct xy as [|v l]; [intros []|]. unfold segment_polygon.
  assert (S : forall a b, In p (segment_edge m a b) -> on_segment a b p).
  { intros a b H. rewrite segment_edge_eq in H. apply in_map_iff in H as [k [<- Hk]]. apply in_seq in Hk. set (n := pieces_of m a b) in *. assert (0 < INR n) by (apply lt_0_INR; lia).
    exists (INR k / INR n). split; [|reflexivity]. assert (INR k <= INR n) by (apply le_INR; lia). pose proof (pos_INR k). split; [apply Rmult_le_pos; [lra | apply Rlt_le, Rinv_0_lt_compat; lra]|].
    apply Rmult_le_reg_r with (INR n); [lra|]. unfold Rdiv. rewrite Rmult_assoc, Rinv_l by lra. lra. }
  assert (G : forall l a, In p (segment_loop m v (a :: l)) -> (exists e, In e (combine (a :: l) l) /\ on_segment (fst e) (snd e) p) \/ on_segment (last (a :: l) (0, 0)) v p).
  { clear l. induction l as [|b t IH]; intros a H.
    - right. apply S, H.
    - change (segment_loop m v (a :: b :: t)) with (segment_edge m a b ++ segment_loop m v (b :: t)) in H. apply in_app_iff in H as [H|H].
      + left. exists (a, b). split; [rewrite combine_cons; now left | apply S, H].
      + apply IH in H as [[e [E1 E2]]|H]; [left; exists e; split; [rewrite combine_cons; now right | exact E2] | right; exact H]. }
  intros H. apply G in H as [[e [E1 E2]]|H]; unfold on_boundary, edges; rewrite combine_cons.
  - exists e. split; [now right | exact E2].
  - exists (last (v :: l) (0, 0), v). split; [now left | exact H].
Qed.
