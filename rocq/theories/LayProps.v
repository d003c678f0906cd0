(** C86: grids of components. *)
From Coq Require Import Reals ZArith List Lia Lra.
From Verif Require Import Base BaseFacts GeoModel GeoFacts5 LayModel LaySpec.
Open Scope R_scope.

Lemma deg angle : angle * PI / 180 = angle * DEG2RAD.
Proof. unfold DEG2RAD. field. Qed.
Lemma grid_is_node m n s xr yr angle o r c : create_grid m n s xr yr angle o (c + 1) (r + 1) = node m n s xr yr angle o r c.
Proof.
  rewrite grid_node. unfold node, place, cell, translate, rotate_2d, signed. cbn [map hd fst snd]. rewrite deg, !plus_IZR. destruct xr, yr; f_equal; field.
Qed.
Lemma squares_are_corners m n s ff xr yr angle o r c : create_grid_squares m n s ff xr yr angle o (c + 1) (r + 1) = corners m n s ff xr yr angle o r c.
Proof.
  unfold create_grid_squares, corners, place, cell, grid_matrix. rewrite deg, !plus_IZR, (Rmult_comm angle). cbn [map fst snd].
  destruct xr, yr; repeat (apply (f_equal2 cons); [apply (f_equal2 pair); cbn [fst snd]; field|]); reflexivity.
Qed.
Lemma corners_mean m n s ff xr yr angle o r c : mean_pt (corners m n s ff xr yr angle o r c) = node m n s xr yr angle o r c.
Proof. unfold mean_pt, corners, node, place. cbn [map fst snd fold_right length INR]. destruct xr, yr; f_equal; field. Qed.
Lemma place_scale k xr yr angle o p : scale_pt k (place xr yr angle o p) = place xr yr angle (scale_pt k o) (scale_pt k p).
Proof. unfold scale_pt, place. cbn [fst snd]. destruct xr, yr; f_equal; ring. Qed.
Lemma cell_scale k m n s r c : scale_pt k (cell m n s r c) = cell m n (k * s) r c.
Proof. unfold scale_pt, cell. cbn [fst snd]. f_equal; ring. Qed.
Lemma node_scale k m n s xr yr angle o r c : scale_pt k (node m n s xr yr angle o r c) = node m n (k * s) xr yr angle (scale_pt k o) r c.
Proof. unfold node. now rewrite place_scale, cell_scale. Qed.
Lemma corners_scale k m n s ff xr yr angle o r c : map (scale_pt k) (corners m n s ff xr yr angle o r c) = corners m n (k * s) ff xr yr angle (scale_pt k o) r c.
Proof.
  unfold corners. cbv zeta. rewrite map_map. rewrite (map_ext _ _ (fun p => place_scale k xr yr angle o p)). rewrite <- (map_map (scale_pt k)). f_equal. rewrite <- cell_scale. unfold scale_pt. cbn [map fst snd].
  repeat (apply (f_equal2 cons); [apply (f_equal2 pair); cbn [fst snd]; field|]); reflexivity.
Qed.

Lemma tabulate_get {A} m n (f : Z -> Z -> A) k : (0 <= m)%Z -> (0 <= n)%Z -> (0 <= k < m * n)%Z -> get (tabulate m n f) k = Ok (f (k mod n + 1)%Z (k / n + 1)%Z).
Proof.
  intros Hm Hn Hk. assert (0 < n)%Z by (destruct (Z.eq_dec n 0); [subst; lia|lia]). unfold tabulate.
  assert (L : forall a q, (0 <= q)%Z -> forall j, (a <= j < a + q)%Z -> forall i, (0 <= i < n)%Z ->
     get (concat (map (fun j => map (fun i => f (i + 1)%Z (j + 1)%Z) (iota n)) (progression a 1 (Z.to_nat q)))) ((j - a) * n + i) = Ok (f (i + 1)%Z (j + 1)%Z)).
  { intros a q Hq. revert a. pattern q. apply natlike_ind; [|clear q Hq; intros q Hq IH|exact Hq]; intros a j Hj i Hi; [lia|].
    rewrite Z2Nat.inj_succ by assumption. rewrite progression_S. cbn [map concat].
    assert (Lr : zlen (map (fun i => f (i + 1)%Z (a + 1)%Z) (iota n)) = n) by (rewrite zlen_map; apply zlen_iota; lia).
    assert (Hg : forall (l r : list A) x, (0 <= x)%Z -> get (l ++ r) x = if (x <? zlen l)%Z then get l x else get r (x - zlen l)).
    { intros l r x Hx. unfold get, zlen. destruct (Z.ltb_spec x 0); [lia|]. destruct (Z.ltb_spec x (Z.of_nat (length l))).
      - rewrite nth_error_app1 by lia. reflexivity.
      - destruct (Z.ltb_spec (x - Z.of_nat (length l)) 0); [lia|]. rewrite nth_error_app2 by lia. replace (Z.to_nat x - length l)%nat with (Z.to_nat (x - Z.of_nat (length l))) by lia. reflexivity. }
    rewrite Hg, Lr by (nia || (apply Z.add_nonneg_nonneg; [apply Z.mul_nonneg_nonneg|]; lia)). destruct (Z.eq_dec j a) as [->|Hne].
    - rewrite Z.sub_diag, Z.mul_0_l, Z.add_0_l. destruct (Z.ltb_spec i n); [|lia]. unfold get. destruct (Z.ltb_spec i 0); [lia|]. rewrite (map_nth_error (fun i => f (i + 1)%Z (a + 1)%Z) (Z.to_nat i) (iota n) (d := i)); [reflexivity|].
      rewrite iota_nth_error by lia. now rewrite Z2Nat.id by lia.
    - assert (Hge : (n <= (j - a) * n + i)%Z). { replace ((j - a) * n)%Z with (n + (j - a - 1) * n)%Z by ring. assert (0 <= (j - a - 1) * n)%Z by (apply Z.mul_nonneg_nonneg; lia). lia. }
      destruct (Z.ltb_spec ((j - a) * n + i) n); [lia|]. rewrite <- (IH (a + 1)%Z j) with (i := i) by lia. f_equal. ring. }
  specialize (L 0%Z m Hm (k / n)%Z). specialize (L ltac:(split; [apply Z.div_pos; lia|apply Z.div_lt_upper_bound; lia]) (k mod n)%Z ltac:(apply Z.mod_pos_bound; lia)).
  unfold iota at 2. rewrite <- L. f_equal. rewrite Z.sub_0_r, Z.mul_comm. now apply Z.div_mod; lia.
Qed.
Lemma pack_tabulate {A} m n (f : Z -> Z -> A) index : (0 <= m)%Z -> (0 <= n)%Z -> Forall (fun k => (0 <= k < m * n)%Z) index ->
  pack index (tabulate m n f) = Ok (map (fun k => f (k mod n + 1)%Z (k / n + 1)%Z) index).
Proof. intros Hm Hn F. unfold pack. apply map_res_pure. intros k Hk. rewrite Forall_forall in F. now apply tabulate_get; auto. Qed.

(** ** Units *)
Definition common (s : qty R) (o : qty pt) (r : option (qty R)) : option unit_ := hd None (map Some (units_of s o r)).
Lemma common_or s o r : or_unit (snd s) (or_unit (snd o) (match r with Some r => snd r | None => None end)) = common s o r.
Proof. unfold common, units_of. destruct s as [s [us|]], o as [o [uo|]], r as [[r [ur|]]|]; reflexivity. Qed.
Definition unit_si (u : option unit_) : R := match u with Some u => si u | None => 1 end.
Lemma tounit_ok {A} (sc : R -> A -> A) (q : qty A) u : (forall v, snd q = Some v -> dimension v = dimension u) ->
  tounit sc q u = Ok (match snd q with None => fst q | Some v => sc (si v / si u) (fst q) end, Some u).
Proof. unfold tounit. intros H. destruct (snd q) as [v|]; [|reflexivity]. rewrite (H v eq_refl), Z.eqb_refl. reflexivity. Qed.
Lemma tounit_bad {A} (sc : R -> A -> A) (q : qty A) u v : snd q = Some v -> dimension v <> dimension u -> tounit sc q u = Err UnitError.
Proof. unfold tounit. intros -> H. destruct (Z.eqb_spec (dimension v) (dimension u)); [easy|reflexivity]. Qed.

(** Values of the arguments in the common unit. *)
Definition in_common {A} (sc : R -> A -> A) (u : option unit_) (q : qty A) : A := match u, snd q with Some u, Some v => sc (si v / si u) (fst q) | _, _ => fst q end.
Lemma common_in s o r u : common s o r = Some u -> In u (units_of s o r).
Proof. unfold common. destruct (units_of s o r); cbn; [discriminate|]. intros H. injection H as ->. now left. Qed.
Lemma common_none s o r : common s o r = None -> snd s = None /\ snd o = None /\ match r with Some q => snd q = None | None => True end.
Proof. unfold common, units_of. destruct s as [s [us|]], o as [o [uo|]], r as [[r [ur|]]|]; cbn; try discriminate; auto. Qed.
Lemma convert_ok (s : qty R) (o : qty pt) (r : option (qty R)) (P : compatible (units_of s o r)) : let u := common s o r in
  (match u with Some u => tounit Rmult s u | None => Ok s end = Ok (in_common Rmult u s, match u with Some _ => u | None => None end)) /\
  (match u with Some u => tounit scale_pt o u | None => Ok o end = Ok (in_common scale_pt u o, match u with Some _ => u | None => None end)) /\
  (match u, r with Some u, Some q => do q <- tounit Rmult q u; Ok (Some q) | _, q => Ok q end =
     Ok (match r with Some q => Some (in_common Rmult u q, match u with Some _ => u | None => None end) | None => None end)).
Proof.
  cbv zeta. destruct P as [_ P]. destruct (common s o r) as [u|] eqn:E.
  - apply common_in in E. unfold in_common. split; [|split].
    + apply tounit_ok. intros v Hv. apply P; [|assumption]. unfold units_of. rewrite Hv. now left.
    + apply tounit_ok. intros v Hv. apply P; [|assumption]. unfold units_of. destruct o as [o uo]. cbn in Hv. subst uo. apply in_or_app. right. now left.
    + destruct r as [q|]; [|reflexivity]. rewrite tounit_ok; [reflexivity|]. intros v Hv. apply P; [|assumption]. unfold units_of. destruct q as [q uq]. cbn in Hv. subst uq. apply in_or_app. right. apply in_or_app. right. now left.
  - apply common_none in E. destruct s as [s us], o as [o uo]. cbn in E. destruct E as (-> & -> & E). split; [reflexivity|split; [reflexivity|]]. destruct r as [[q uq]|]; [|reflexivity]. cbn in E. now subst uq.
Qed.
Lemma physical_common u q (Hu : match u with Some u => 0 < si u | None => snd q = None end) : unit_si u * in_common Rmult u q = physical u q.
Proof. unfold physical, in_common, unit_si, factor. destruct u as [u|]; destruct q as [q [v|]]; cbn in *; try discriminate; field; lra. Qed.
Lemma physical_common_pt u q (Hu : match u with Some u => 0 < si u | None => snd q = None end) : scale_pt (unit_si u) (in_common scale_pt u q) = physical_pt u q.
Proof. unfold physical_pt, in_common, unit_si, factor, scale_pt. destruct u as [u|]; destruct q as [q [v|]]; cbn in *; try discriminate; f_equal; field; lra. Qed.
Lemma common_hyp {A} s o r (q : qty A) : compatible (units_of s o r) -> (forall v, snd q = Some v -> In v (units_of s o r)) -> match common s o r with Some u => 0 < si u | None => snd q = None end.
Proof.
  intros [P _] H. destruct (common s o r) as [u|] eqn:E.
  - apply common_in in E. rewrite Forall_forall in P. now apply P.
  - destruct (snd q) as [v|]; [|reflexivity]. specialize (H v eq_refl). unfold common in E. destruct (units_of s o r); [easy|discriminate].
Qed.
Lemma in_units_s s o r v : snd s = Some v -> In v (units_of s o r).
Proof. intros H. unfold units_of. rewrite H. now left. Qed.
Lemma in_units_o s o r v : snd o = Some v -> In v (units_of s o r).
Proof. destruct o as [o uo]. cbn. intros ->. unfold units_of. apply in_or_app. right. now left. Qed.
Lemma in_units_r s o q v : snd q = Some v -> In v (units_of s o (Some q)).
Proof. destruct q as [q uq]. cbn. intros ->. unfold units_of. apply in_or_app. right. apply in_or_app. right. now left. Qed.

(** The centre of each component is the node of its row and of its column, for the spacing and the origin asked for, in the
    unit of the layout, and its radius too. *)
Theorem C86_grid m n (spacing : qty R) xr yr angle (origin : qty pt) sw (radius : option (qty R)) index :
  (0 <= m)%Z -> (0 <= n)%Z -> Forall (fun k => (0 <= k < m * n)%Z) index -> compatible (units_of spacing origin radius) ->
  exists l, layout_grid (Tuple [m; n]) spacing xr yr angle origin sw radius None index = Ok l /\
    l_unit l = common spacing origin radius /\ length (l_center l) = length index /\
    forall k p r c, nth_error (l_center l) k = Some p -> nth_error (row l) k = Some r -> nth_error (column l) k = Some c ->
      scale_pt (unit_si (l_unit l)) p =
      node m n (physical (common spacing origin radius) spacing) xr yr angle (physical_pt (common spacing origin radius) origin) (r - sw) (c - sw) /\
      (r - sw = nth k index 0 / n)%Z /\ (c - sw = nth k index 0 mod n)%Z /\
      match radius, l_radius l with Some q, Some v => unit_si (l_unit l) * v = physical (common spacing origin radius) q | None, None => True | _, _ => False end.
Proof.
  intros Hm Hn F P. destruct (convert_ok spacing origin radius P) as (E1 & E2 & E3). unfold layout_grid. cbv zeta. rewrite common_or. rewrite E1. cbn [bind]. rewrite E2. cbn [bind]. rewrite E3. cbn [bind fst].
  unfold grid. destruct (Z.ltb_spec m 0); [lia|]. destruct (Z.ltb_spec n 0); [lia|]. cbn [orb bind]. rewrite pack_tabulate by assumption. cbn [bind].
  eexists. split; [reflexivity|]. cbn [l_unit l_center l_radius]. split; [reflexivity|]. split; [apply map_length|]. intros k p r c. unfold row, column. cbn [l_index l_ncolumns l_startswith1].
  intros Hp Hr Hc. destruct (nth_error index k) as [i|] eqn:Ei.
  2:{ apply nth_error_None in Ei. assert (Some p = None) by (rewrite <- Hp; apply nth_error_None; now rewrite map_length). discriminate. }
  rewrite (map_nth_error _ _ _ Ei) in Hp. rewrite (map_nth_error _ _ _ Ei) in Hr. rewrite (map_nth_error _ _ _ Ei) in Hc. injection Hp as <-. injection Hr as <-. injection Hc as <-. rewrite (nth_error_nth _ _ 0%Z Ei).
  replace (i / n + sw - sw)%Z with (i / n)%Z by lia. replace (i mod n + sw - sw)%Z with (i mod n)%Z by lia. split; [|split; [reflexivity|split; [reflexivity|]]].
  - rewrite grid_is_node, node_scale. f_equal.
    + apply physical_common, (common_hyp spacing origin radius spacing P). apply in_units_s.
    + apply physical_common_pt, (common_hyp spacing origin radius origin P). apply in_units_o.
  - destruct radius as [q|]; [|exact I]. cbn [option_map fst]. apply physical_common, (common_hyp spacing origin (Some q) q P). apply in_units_r.
Qed.
Print Assumptions C86_grid.

(** Squares: the vertices are the corners of the square around the node, the centre is the node. *)
Theorem C86_squares m n (spacing : qty R) ff xr yr angle (origin : qty pt) sw index :
  (0 <= m)%Z -> (0 <= n)%Z -> Forall (fun k => (0 <= k < m * n)%Z) index -> compatible (units_of spacing origin None) ->
  exists l v, layout_squares (Tuple [m; n]) spacing ff xr yr angle origin sw None index = Ok l /\ l_vertex l = Some v /\
    l_unit l = common spacing origin None /\ length (l_center l) = length index /\ length v = length index /\
    forall k p q i, nth_error (l_center l) k = Some p -> nth_error v k = Some q -> nth_error index k = Some i ->
      let u := common spacing origin None in
      scale_pt (unit_si (l_unit l)) p = node m n (physical u spacing) xr yr angle (physical_pt u origin) (i / n) (i mod n) /\
      map (scale_pt (unit_si (l_unit l))) q = corners m n (physical u spacing) ff xr yr angle (physical_pt u origin) (i / n) (i mod n).
Proof.
  intros Hm Hn F P. destruct (convert_ok spacing origin None P) as (E1 & E2 & _). unfold layout_squares. cbv zeta.
  replace (or_unit (snd spacing) (snd origin)) with (common spacing origin None) by (clear; destruct spacing as [? [|]], origin as [? [|]]; reflexivity).
  rewrite E1. cbn [bind]. rewrite E2. cbn [bind fst]. unfold grid_squares. destruct (Z.ltb_spec m 0); [lia|]. destruct (Z.ltb_spec n 0); [lia|]. cbn [orb bind].
  set (u := common spacing origin None) in *. set (s' := in_common Rmult u spacing). set (o' := in_common scale_pt u origin). set (w := match u with Some _ => u | None => None end).
  assert (Ew : w = u) by (unfold w; now destruct u). assert (Ec : common (s', w) (o', w) None = u) by (rewrite Ew; unfold common, units_of; cbn; now destruct u).
  unfold layout_grid. cbv zeta. replace (or_unit (snd (s', w)) (or_unit (snd (o', w)) None)) with u by (rewrite Ew; cbn; now destruct u).
  assert (T1 : match u with Some u => tounit Rmult (s', w) u | None => Ok (s', w) end = Ok (s', w)).
  { rewrite Ew. destruct u as [x|] eqn:Eu; [|reflexivity]. unfold tounit. cbn [snd fst]. rewrite Z.eqb_refl. do 2 f_equal. assert (0 < si x). { apply common_in in Eu. destruct P as [P _]. rewrite Forall_forall in P. now apply P. } field. lra. }
  assert (T2 : match u with Some u => tounit scale_pt (o', w) u | None => Ok (o', w) end = Ok (o', w)).
  { rewrite Ew. destruct u as [x|] eqn:Eu; [|reflexivity]. unfold tounit. cbn [snd fst]. rewrite Z.eqb_refl. do 2 f_equal. assert (0 < si x). { apply common_in in Eu. destruct P as [P _]. rewrite Forall_forall in P. now apply P. } unfold scale_pt. destruct o' as [a b]. cbn [fst snd]. f_equal; field; lra. }
  match goal with |- context [bind ?x _] => replace x with (@Ok (qty R) (s', w)) by (symmetry; exact T1) end. cbn [bind].
  match goal with |- context [bind ?x _] => replace x with (@Ok (qty pt) (o', w)) by (symmetry; exact T2) end. cbn [bind].
  match goal with |- context [bind ?x _] => replace x with (@Ok (option (qty R)) None) by (clear; now destruct u) end. cbn [bind fst].
  rewrite pack_tabulate by assumption. cbn [bind]. eexists; eexists. split; [reflexivity|]. cbn [l_vertex l_unit l_center]. split; [reflexivity|]. split; [reflexivity|]. split; [now rewrite !map_length|]. split; [apply map_length|].
  intros k p q i Hp Hq Hi. rewrite map_map in Hp. rewrite (map_nth_error _ _ _ Hi) in Hp. rewrite (map_nth_error _ _ _ Hi) in Hq. injection Hp as <-. injection Hq as <-. cbv zeta.
  assert (A : unit_si u * s' = physical u spacing) by (apply physical_common, (common_hyp spacing origin None spacing P), in_units_s).
  assert (B : scale_pt (unit_si u) o' = physical_pt u origin) by (apply physical_common_pt, (common_hyp spacing origin None origin P), in_units_o).
  rewrite squares_are_corners, corners_mean, node_scale, corners_scale, A, B. now split.
Qed.
Print Assumptions C86_squares.

(** Units of different dimensions are refused. *)
Theorem C86_incompatible s u spacing xr yr angle origin sw index : length (match s with Tuple l | ListOf l => l | Integer _ => [] end) = 2%nat ->
  snd spacing = Some u -> (exists v, snd origin = Some v /\ dimension v <> dimension u) ->
  (forall vertex, layout_grid s spacing xr yr angle origin sw None vertex index = Err UnitError) /\
  forall ff, layout_squares s spacing ff xr yr angle origin sw None index = Err UnitError.
Proof.
  intros Hl Hs (v & Hv & D). split.
  - intros vertex. unfold layout_grid. destruct s as [l|l|]; try discriminate; destruct l as [|m [|n [|]]]; try discriminate; cbv zeta; rewrite Hs; cbn [or_unit]; rewrite tounit_ok by congruence; cbn [bind]; rewrite (tounit_bad scale_pt origin u v Hv D); reflexivity.
  - intros ff. unfold layout_squares. cbv zeta. rewrite Hs. cbn [or_unit]. rewrite tounit_ok by congruence. cbn [bind]. rewrite (tounit_bad scale_pt origin u v Hv D). reflexivity.
Qed.
Print Assumptions C86_incompatible.

(** A shape that is a list is accepted by the test of its type and refused afterwards. *)
Theorem C86_list_refuted : forall m n spacing ff xr yr angle origin sw index,
  snd spacing = None -> snd origin = None ->
  layout_grid (ListOf [m; n]) spacing xr yr angle origin sw None None index = Err TypeError /\
  layout_squares (ListOf [m; n]) spacing ff xr yr angle origin sw None index = Err TypeError.
Proof. intros m n [s us] ff xr yr angle [o uo] sw index Hs Ho. cbn in Hs, Ho. subst. split; reflexivity. Qed.
Print Assumptions C86_list_refuted.

Definition metre := Unit 1 1.
Definition millimetre := Unit 1 (/ 1000).
Definition one_square : list (list pt) := [[(1, 1); (-1, 1); (-1, -1); (1, -1)]].
(** Vertices in another unit than the spacing are not converted: 1 mm is 1 m. *)
Theorem C86_vertex_refuted : exists l, layout_grid (Tuple [1; 1]%Z) (1, Some metre) false false 0 ((0, 0), None) 0 None (Some (one_square, Some millimetre)) [0%Z] = Ok l /\
  l_unit l = Some metre /\ l_vertex l = Some one_square /\ si metre <> si millimetre.
Proof. eexists. split; [reflexivity|]. split; [reflexivity|]. split; [reflexivity|]. cbn. lra. Qed.
Print Assumptions C86_vertex_refuted.

Lemma corners_area m n s ff xr yr angle o r c : 0 <= ff -> area4 (corners m n s ff xr yr angle o r c) = (if xorb xr yr then -1 else 1) * (s * s * ff).
Proof.
  intros Hf. rewrite <- (sqrt_sqrt ff Hf) at 2. unfold corners, place, area4. cbn [map fst snd]. set (a := angle * PI / 180). pose proof (sin2_cos2 a) as U. unfold Rsqr in U.
  set (h := sqrt ff). replace (s * s * (h * h)) with ((sin a * sin a + cos a * cos a) * (s * s * (h * h))) by (rewrite U; ring). destruct xr, yr; cbn [xorb fst snd]; field.
Qed.
(** The corners are counted counter-clockwise if there is no reflection, or both... *)
Theorem C86_orientation m n s ff xr yr angle o r c : s <> 0 -> 0 < ff -> xorb xr yr = false -> 0 < area4 (corners m n s ff xr yr angle o r c).
Proof. intros Hs Hf Hx. rewrite corners_area, Hx by lra. rewrite Rmult_1_l. apply Rmult_lt_0_compat; [|assumption]. now apply Rsqr_pos_lt. Qed.
(** ... and clockwise with one of them, contrary to the documentation. *)
Theorem C86_orientation_refuted m n s ff xr yr angle o r c : s <> 0 -> 0 < ff -> xorb xr yr = true -> area4 (corners m n s ff xr yr angle o r c) < 0.
Proof. intros Hs Hf Hx. rewrite corners_area, Hx by lra. assert (0 < s * s * ff) by (apply Rmult_lt_0_compat; [|assumption]; now apply Rsqr_pos_lt). lra. Qed.
Print Assumptions C86_orientation.
Print Assumptions C86_orientation_refuted.

(** Two rows of three, spacing 2 mm, origin at 1 m: the first selected is the second of the second row. *)
Example C86_case : exists l, layout_grid (Tuple [2; 3]%Z) (2, Some millimetre) false true 90 ((1, 0), Some metre) 1 (Some (5, None)) None [4; 0]%Z = Ok l /\
  nth_error (row l) 0 = Some 2%Z /\ nth_error (column l) 0 = Some 2%Z /\ (exists p, nth_error (l_center l) 0 = Some p /\ scale_pt (si millimetre) p = (1 - 2 / 1000 / 2, 0)).
Proof.
  destruct (C86_grid 2 3 (2, Some millimetre) false true 90 ((1, 0), Some metre) 1 (Some (5, None)) [4; 0]%Z) as (l & E & U & L & H); [lia|lia|repeat constructor; lia| |].
  { split; [repeat constructor; cbn; lra|]. intros u v [<-|[<-|[]]] [<-|[<-|[]]]; reflexivity. }
  exists l. split; [exact E|]. assert (R0 : row l = [2; 1]%Z /\ column l = [2; 1]%Z).
  { unfold layout_grid in E. cbn -[grid tounit] in E. unfold tounit in E. cbn in E. injection E as <-. split; reflexivity. }
  destruct R0 as [R0 C0]. rewrite R0, C0 in *. split; [reflexivity|split; [reflexivity|]].
  destruct (nth_error (l_center l) 0) as [p|] eqn:Ep; [|apply nth_error_None in Ep; rewrite L in Ep; cbn in Ep; lia]. exists p. split; [reflexivity|].
  destruct (H 0%nat p 2%Z 2%Z Ep eq_refl eq_refl) as (N & _). rewrite U in N. change (unit_si (common _ _ _)) with (si millimetre) in N. rewrite N.
  unfold node, place, cell, physical, physical_pt, common, factor. cbn [fst snd units_of app hd map si millimetre metre]. replace (90 * PI / 180) with (PI / 2) by field. rewrite cos_PI2, sin_PI2. f_equal; [|cbn; lra].
  replace (IZR (2 - 1)) with 1 by (cbn; lra). cbn; lra.
Qed.
Example C86_squares_case : exists l v, layout_squares (Tuple [1; 1]%Z) (2, None) 1 false false 0 ((0, 0), Some metre) 0 None [0%Z] = Ok l /\ l_vertex l = Some v /\ length v = 1%nat /\ l_unit l = Some metre.
Proof.
  destruct (C86_squares 1 1 (2, None) 1 false false 0 ((0, 0), Some metre) 0 [0%Z]) as (l & v & E & V & U & _ & L & _); [lia|lia|repeat constructor; lia| |].
  { split; [repeat constructor; cbn; lra|]. intros u w [<-|[]] [<-|[]]; reflexivity. }
  exists l, v. auto.
Qed.
