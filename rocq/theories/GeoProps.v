(** Properties C33, C34, C35, C59, C60, C61: geometry, with exact real numbers. *)
From Coq Require Import Reals List ZArith Lia Lra Bool.
From Coquelicot Require Import Coquelicot.
From Verif Require Import Base BaseFacts SparseModel PmModel PmSpec GeoModel GeoSpec GeoFacts GeoFacts2 GeoFacts3 GeoFacts4 GeoFacts5.
Open Scope R_scope.

Lemma triangle_convex : convex [(0, 0); (1, 0); (0, 1)].
Proof.
  intros i j k H Hk. cbn [length] in Hk. assert (i = 0 /\ j = 1 /\ k = 2)%nat as [-> [-> ->]] by lia. unfold turn. cbn [nth fst snd]. lra.
Qed.
Lemma cell_1_1 v : on_map 1 1 v -> cell_value v 0 0 = shoelace v.
Proof. intros M. rewrite <- (overlap_flux 1 1 v M). change 0%Z with (Z.of_nat 0). rewrite cell_overlap. unfold grid_sum, rsum. cbn [seq map fold_right]. ring. Qed.

(** ** C33: flux *)
(** The values of all pixels of a map that contains the polygon add up to its surface: for
    every polygon, with signs. *)
Theorem C33_flux : forall nx ny xy, on_map nx ny xy ->
  grid_sum nx ny (fun i j => cell_value xy (Z.of_nat i) (Z.of_nat j)) = surface_simple_polygon xy /\ surface_simple_polygon xy = shoelace xy.
Proof.
  intros nx ny xy M. rewrite surface_ok. split; [|reflexivity]. rewrite <- (overlap_flux nx ny xy M). unfold grid_sum.
  apply rsum_ext. intros i _. apply rsum_ext. intros j _. apply cell_overlap.
Qed.
Print Assumptions C33_flux.
Example C33_flux_example : on_map 2 3 [(0, 0); (3 / 2, 1); (1, 5 / 2)] /\ surface_simple_polygon [(0, 0); (3 / 2, 1); (1, 5 / 2)] = 11 / 8.
Proof.
  split.
  - intros p [<-|[<-|[<-|[]]]]; cbn; lra.
  - unfold surface_simple_polygon. cbn. field.
Qed.

(** For a convex polygon, the value of any unit cell is the area of the polygon inside of
    the cell (the integral of the lengths of its vertical sections), between 0 and 1. *)
Theorem C33_cell : forall xy x0 y0, convex xy -> (3 <= length xy)%nat ->
  0 <= intersection_polygon (shifted (x0, y0) xy) <= 1 /\
  exists len, is_RInt len x0 (x0 + 1) (intersection_polygon (shifted (x0, y0) xy)) /\
    forall x, (forall p, In p xy -> fst p <> x) ->
      (exists lo hi, lo <= hi /\ (forall y, inside xy (x, y) <-> lo <= y <= hi) /\ len x = clamp y0 (y0 + 1) hi - clamp y0 (y0 + 1) lo) \/
      ((forall y, ~ inside xy (x, y)) /\ len x = 0).
Proof.
  intros xy x0 y0 C N3. split; [now apply cell_bounds|]. exists (len xy y0). split; [now apply cell_is_area|]. intros x V.
  unfold len. destruct (section_of xy x) as [[l h]|] eqn:S.
  - left. exists l, h. destruct (section_inside xy C x l h S) as [A B]. split; [exact A|]. split; [exact B|]. mm; lra.
  - right. split; [now apply no_section | reflexivity].
Qed.
Print Assumptions C33_cell.
Example C33_cell_example : convex [(0, 0); (1, 0); (0, 1)] /\ intersection_polygon (shifted (0, 0) [(0, 0); (1, 0); (0, 1)]) = / 2 /\
  inside [(0, 0); (1, 0); (0, 1)] (/ 4, / 4) /\ ~ inside [(0, 0); (1, 0); (0, 1)] (1, / 4).
Proof.
  split; [apply triangle_convex|]. split; [|split].
  - pose proof (flux 0 0 1 1 [(0, 0); (1, 0); (0, 1)]) as F. unfold grid_sum in F. cbn [seq map INR] in F. rewrite !Rplus_0_r in F. unfold rsum in F at 1 2. cbn [fold_right] in F. rewrite !Rplus_0_r in F.
    rewrite F; [unfold shoelace, edges, rsum; cbn [last combine map fold_right fst snd]; field|]. intros p [<-|[<-|[<-|[]]]]; cbn; lra.
  - intros e [<-|[<-|[<-|[]]]]; unfold turn; cbn [fst snd last]; lra.
  - intros H. specialize (H ((1, 0), (0, 1))). unfold turn in H. cbn [fst snd] in H. assert (K : In ((1, 0), (0, 1)) (edges [(0, 0); (1, 0); (0, 1)])) by (right; right; left; reflexivity). specialize (H K). lra.
Qed.

(** The row of a convex polygon, of either orientation, that lies on the map: its values
    add up to the surface. *)
Theorem C33_row : forall nx ny xy row, convex xy \/ convex (rev xy) -> on_map nx ny xy ->
  forall n row', integration_row (Z.of_nat nx) (Z.of_nat ny) xy row = Ok (n, row') -> (n <= zlen row)%Z ->
  rsum (map snd row') = Rabs (surface_simple_polygon xy).
Proof.
  intros nx ny xy row O M n row' E L. rewrite surface_ok.
  rewrite integration_row_ok in E. injection E as <- <-. assert (Ln : (length (footprint nx ny xy) <= length row)%nat) by (unfold zlen in L; lia).
  unfold padded. rewrite firstn_all2 by exact Ln. rewrite map_app, rsum_app.
  assert (Z : forall k, rsum (map snd (repeat ((-1)%Z, 0) k)) = 0) by (unfold rsum; induction k as [|k IH]; cbn; [reflexivity | rewrite IH; ring]). rewrite Z, Rplus_0_r.
  destruct O as [C|C].
  - apply (row_flux 1); [exact M | lra|]. intros i j. rewrite Rmult_1_l. unfold overlap. rewrite <- intersection_ok. now apply cell_bounds.
  - apply (row_flux (-1)); [exact M | lra|]. intros i j. replace (-1 * overlap xy i j) with (overlap (rev xy) i j) by (rewrite overlap_rev; ring). unfold overlap. rewrite <- intersection_ok. now apply cell_bounds.
Qed.
Print Assumptions C33_row.
Example C33_row_example : convex (rev (rev [(0, 0); (/ 4, 0); (0, / 4)])) /\ on_map 1 1 (rev [(0, 0); (/ 4, 0); (0, / 4)]).
Proof.
  split.
  - intros i j k H Hk. cbn [length rev app] in Hk. assert (i = 0 /\ j = 1 /\ k = 2)%nat as [-> [-> ->]] by lia. unfold turn. cbn [nth fst snd rev app]. lra.
  - intros p [<-|[<-|[<-|[]]]]; cbn; lra.
Qed.
(** A polygon that crosses itself can cancel: both halves of this one, of area 1/4 each, are
    inside of the pixel, whose value is 0, and the row is left empty. *)
Theorem C33_crossing_refuted : exists xy, on_map 1 1 xy /\ strictly_inside [(- / 2, - / 2); (0, 0); (- / 2, / 2)] (- / 4, 0) /\
  (exists a b c d, xy = [a; b; c; d] /\ on_segment a b (0, 0) /\ on_segment c d (0, 0) /\ shoelace [a; (0, 0); d] = / 4 /\ shoelace [b; (0, 0); c] = / 4) /\
  integration_row 1 1 xy [(5%Z, 5)] = Ok (0%Z, [((-1)%Z, 0)]).
Proof.
  exists [(- / 2, - / 2); (/ 2, / 2); (/ 2, - / 2); (- / 2, / 2)].
  assert (M : on_map 1 1 [(- / 2, - / 2); (/ 2, / 2); (/ 2, - / 2); (- / 2, / 2)]) by (intros p [<-|[<-|[<-|[<-|[]]]]]; cbn; lra).
  split; [exact M|]. split; [|split].
  - intros e [<-|[<-|[<-|[]]]]; unfold turn; cbn [fst snd last]; lra.
  - do 4 eexists. split; [reflexivity|]. split; [|split; [|split]].
    + exists (/ 2). split; [lra|]. cbn [fst snd]. f_equal; field.
    + exists (/ 2). split; [lra|]. cbn [fst snd]. f_equal; field.
    + unfold shoelace, edges, rsum. cbn [last combine map fold_right fst snd]. field.
    + unfold shoelace, edges, rsum. cbn [last combine map fold_right fst snd]. field.
  - set (xy := [(- / 2, - / 2); (/ 2, / 2); (/ 2, - / 2); (- / 2, / 2)]) in *.
    assert (F : footprint 1 1 xy = []).
    { unfold footprint, map_pixels. cbn [seq flat_map map app filter fst snd].
      assert (Z : overlap xy 0 0 = 0). { rewrite <- cell_overlap. change (Z.of_nat 0) with 0%Z. rewrite cell_1_1 by exact M. unfold xy, shoelace, edges, rsum. cbn [last combine map fold_right fst snd]. field. }
      destruct (Req_EM_T (overlap xy 0 0) 0); [reflexivity | contradiction]. }
    change 1%Z with (Z.of_nat 1). rewrite integration_row_ok, F. reflexivity.
Qed.
Print Assumptions C33_crossing_refuted.

(** ** C34: rows of the integration matrix *)
Lemma max_list (l : list Z) : (forall x, In x l -> (x <= fold_right Z.max 0 l)%Z) /\ (0 <= fold_right Z.max 0 l)%Z /\ (fold_right Z.max 0%Z l = 0%Z \/ In (fold_right Z.max 0%Z l) l).
Proof.
  induction l as [|a l [I1 [I2 I3]]]; cbn [fold_right In]; [split; [intros ? []|]; lia|]. split; [|split].
  - intros x [->|H]; [lia | specialize (I1 x H); lia].
  - lia.
  - destruct (Z.max_spec a (fold_right Z.max 0 l)%Z) as [[_ ->]|[_ ->]]; [destruct I3; auto | auto].
Qed.
(** Any pass: the width that is needed, and rows that hold the pixels of the whole map with
    a non-zero value, in order, cut to the width or completed by (-1, 0). *)
Theorem C34_rows : forall nx ny vs m out, length m = length vs -> (forall v, In v vs -> v <> []) ->
  exists need out' m', matrix_polygon_integration (Z.of_nat nx) (Z.of_nat ny) vs m out = Ok (need, out', m') /\
    (0 <= need)%Z /\ (forall v, In v vs -> (zlen (footprint nx ny v) <= need)%Z) /\ (need = 0%Z \/ exists v, In v vs /\ need = zlen (footprint nx ny v)) /\
    length m' = length vs /\
    (forall i v row, nth_error vs i = Some v -> nth_error m i = Some row ->
       nth_error m' i = Some (firstn (length row) (footprint nx ny v) ++ repeat ((-1)%Z, 0) (length row - length (footprint nx ny v)))) /\
    (out' = true <-> out = true \/ exists v, In v vs /\ ~ on_map nx ny v).
Proof.
  intros nx ny vs m out L Ne. rewrite integration_ok by exact L. do 3 eexists. split; [reflexivity|].
  destruct (max_list (map (fun v => zlen (footprint nx ny v)) vs)) as [M1 [M2 M3]]. split; [exact M2|]. split; [|split; [|split; [|split]]].
  - intros v Hv. apply M1. apply in_map_iff. now exists v.
  - destruct M3 as [M3|M3]; [now left | right]. apply in_map_iff in M3 as [v [E Hv]]. exists v. split; [exact Hv | now symmetry].
  - rewrite map_length, combine_length, L. apply Nat.min_id.
  - intros i v row Hv Hr. rewrite nth_error_map.
    assert (E : nth_error (combine vs m) i = Some (v, row)).
    { revert vs m L Ne M1 M2 M3 Hv Hr. induction i as [|i IH]; intros [|v' vs] [|r m] L Ne M1 M2 M3 Hv Hr; try discriminate; cbn in *.
      - injection Hv as ->. now injection Hr as ->.
      - clear M1 M2 M3. destruct (max_list (map (fun v => zlen (footprint nx ny v)) vs)) as [M1 [M2 M3]]. apply (IH vs m); auto. }
    refine (eq_trans (f_equal (option_map _) E) _). reflexivity.
  - rewrite orb_true_iff, existsb_exists. split.
    + intros [[v [Hv O]]|O]; [right | now left]. exists v. split; [exact Hv|]. apply is_outside_ok in O; auto.
    + intros [O|[v [Hv O]]]; [now right | left]. exists v. split; [exact Hv|]. apply is_outside_ok; auto.
Qed.
Print Assumptions C34_rows.

(** The operator: whatever the width that is given, two passes are enough and the rows hold
    all pixels; the width is the given one, or the one that is needed if it is larger. *)
Theorem C34_operator : forall nx ny polygons ncolmax garbage flag fuel, (0 <= ncolmax)%Z ->
  exists need outside k, (0 <= need)%Z /\ (forall v, In v polygons -> (zlen (footprint nx ny v) <= need)%Z) /\
    (need = 0%Z \/ exists v, In v polygons /\ need = zlen (footprint nx ny v)) /\
    integration_operator (S (S fuel)) false (Z.of_nat nx) (Z.of_nat ny) polygons ncolmax garbage flag =
      Ok (map (fun v => footprint nx ny v ++ repeat ((-1)%Z, 0) (Z.to_nat (Z.max ncolmax need) - length (footprint nx ny v))) polygons, need, outside) /\
    ((forall v, In v polygons -> v <> []) -> outside = true <-> flag k = true \/ exists v, In v polygons /\ ~ on_map nx ny v).
Proof.
  intros nx ny polygons ncolmax garbage flag fuel H. set (need := fold_right Z.max 0%Z (map (fun v => zlen (footprint nx ny v)) polygons)).
  destruct (max_list (map (fun v => zlen (footprint nx ny v)) polygons)) as [M1 [M2 M3]]. fold need in M1, M2, M3.
  assert (W : forall w k, (need <= w)%Z -> (0 <= w)%Z ->
    map (fun vr => padded ((-1)%Z, 0) (length (snd vr)) (footprint nx ny (fst vr))) (combine polygons (map (fun i => map (garbage k i) (seq 0 (Z.to_nat w))) (seq 0 (length polygons)))) =
    map (fun v => footprint nx ny v ++ repeat ((-1)%Z, 0) (Z.to_nat w - length (footprint nx ny v))) polygons).
  { intros w k Hw Hw0.
    assert (G : forall ps z, (forall v, In v ps -> In v polygons) -> map (fun vr => padded ((-1)%Z, 0) (length (snd vr)) (footprint nx ny (fst vr))) (combine ps (map (fun i => map (garbage k i) (seq 0 (Z.to_nat w))) (seq z (length ps)))) =
       map (fun v => footprint nx ny v ++ repeat ((-1)%Z, 0) (Z.to_nat w - length (footprint nx ny v))) ps).
    { induction ps as [|v ps IH]; intros z Hin; [reflexivity|]. cbn [length seq map combine fst snd]. rewrite IH by (intros; apply Hin; now right). f_equal.
      unfold padded. rewrite map_length, seq_length. rewrite firstn_all2; [reflexivity|]. assert (zlen (footprint nx ny v) <= need)%Z by (apply M1, in_map_iff; exists v; split; [reflexivity | apply Hin; now left]). unfold zlen in *. lia. }
    apply G. auto. }
  assert (L : forall k w, length (map (fun i => map (garbage k i) (seq 0 (Z.to_nat w))) (seq 0 (length polygons))) = length polygons) by (intros; now rewrite map_length, seq_length).
  set (k := if (ncolmax <? need)%Z then fuel else S fuel).
  exists need, (existsb (fun v => is_outside (Z.of_nat nx) (Z.of_nat ny) (bounds v)) polygons || flag k), k. split; [exact M2|]. split; [intros v Hv; apply M1, in_map_iff; now exists v|]. split.
  { destruct M3 as [M3|M3]; [now left | right]. apply in_map_iff in M3 as [v [E Hv]]. exists v. split; [exact Hv | now symmetry]. }
  split.
  2:{ intros Ne. rewrite orb_true_iff, existsb_exists. split.
      - intros [[v [Hv O]]|O]; [right | now left]. exists v. split; [exact Hv|]. apply is_outside_ok in O; auto.
      - intros [O|[v [Hv O]]]; [now right | left]. exists v. split; [exact Hv|]. apply is_outside_ok; auto. }
  cbn [integration_operator]. replace (ncolmax <? 0)%Z with false by lia. rewrite integration_ok by apply L. cbn [bind]. fold need.
  unfold k. destruct (ncolmax <? need)%Z eqn:Q.
  - replace (need <? 0)%Z with false by lia. rewrite integration_ok by apply L. cbn [bind]. fold need. replace (need <? need)%Z with false by lia.
    rewrite W by lia. replace (Z.max ncolmax need) with need by lia. reflexivity.
  - rewrite W by lia. replace (Z.max ncolmax need) with ncolmax by lia. reflexivity.
Qed.
Print Assumptions C34_operator.
(** The square of one pixel, in the pixel (1, 0): with a width of 0, and of 2. *)
Definition one_pixel : list pt := [(/ 2, - / 2); (3 / 2, - / 2); (3 / 2, / 2); (/ 2, / 2)].
Example C34_example : footprint 2 1 one_pixel = [(1%Z, 1)] /\ on_map 2 1 one_pixel /\
  (exists o, integration_operator 2 false 2 1 [one_pixel] 0 (fun _ _ _ => (7%Z, 7)) (fun _ => false) = Ok ([[(1%Z, 1)]], 1%Z, o)) /\
  (exists o, integration_operator 2 false 2 1 [one_pixel] 2 (fun _ _ _ => (7%Z, 7)) (fun _ => false) = Ok ([[(1%Z, 1); ((-1)%Z, 0)]], 1%Z, o)).
Proof.
  assert (M : on_map 2 1 one_pixel) by (intros p [<-|[<-|[<-|[<-|[]]]]]; cbn; lra).
  assert (Z0 : overlap one_pixel 0 0 = 0).
  { unfold overlap. apply rsum_0. intros e He. apply edges_in in He as [H1 H2]. apply under_left; [apply (fun v : In (fst e) one_pixel => v) in H1 | apply (fun v : In (snd e) one_pixel => v) in H2].
    - destruct H1 as [<-|[<-|[<-|[<-|[]]]]]; cbn; lra.
    - destruct H2 as [<-|[<-|[<-|[<-|[]]]]]; cbn; lra. }
  assert (Z1 : overlap one_pixel 1 0 = 1).
  { pose proof (overlap_flux 2 1 one_pixel M) as F. unfold grid_sum, rsum in F. cbn [seq map fold_right] in F. rewrite Z0 in F.
    assert (S : shoelace one_pixel = 1) by (unfold one_pixel, shoelace, edges, rsum; cbn [last combine map fold_right fst snd]; field). rewrite S in F. lra. }
  assert (Fp : footprint 2 1 one_pixel = [(1%Z, 1)]).
  { unfold footprint, map_pixels. cbn [seq flat_map map app filter fst snd]. rewrite Z0, Z1. destruct (Req_EM_T 0 0); [|contradiction]. destruct (Req_EM_T 1 0); [lra|].
    cbn [map fst snd]. rewrite Z1, Rabs_R1. reflexivity. }
  split; [exact Fp|]. split; [exact M|].
  assert (G : forall w, (0 <= w)%Z -> exists need o, (1 <= need)%Z /\ (need = 0%Z \/ need = 1%Z) /\ integration_operator 2 false 2 1 [one_pixel] w (fun _ _ _ => (7%Z, 7)) (fun _ => false) = Ok ([(1%Z, 1) :: repeat ((-1)%Z, 0) (Z.to_nat (Z.max w need) - 1)], need, o)).
  { intros w Hw. destruct (C34_operator 2 1 [one_pixel] w (fun _ _ _ => (7%Z, 7)) (fun _ => false) 0 Hw) as [need [o [k [A [B [D [E _]]]]]]].
    exists need, o. specialize (B one_pixel (or_introl eq_refl)). rewrite Fp in B. split; [exact B|]. split; [|refine (eq_trans E _); cbn [map]; rewrite Fp; reflexivity].
    destruct D as [D|[v [[<-|[]] D]]]; [now left | right]. rewrite Fp in D. exact D. }
  split.
  - destruct (G 0%Z ltac:(lia)) as [need [o [A [[D|D] E]]]]; [lia|]. subst need. exists o. exact E.
  - destruct (G 2%Z ltac:(lia)) as [need [o [A [[D|D] E]]]]; [lia|]. subst need. exists o. exact E.
Qed.
(** The flag outside is not initialised: a polygon inside of the map can be reported outside. *)
Theorem C34_outside_refuted : exists polygons flag rows need, (forall v, In v polygons -> v <> [] /\ on_map 2 1 v) /\
  integration_operator 2 false 2 1 polygons 1 (fun _ _ _ => (7%Z, 7)) flag = Ok (rows, need, true).
Proof.
  destruct (C34_operator 2 1 [one_pixel] 1 (fun _ _ _ => (7%Z, 7)) (fun _ => true) 0 ltac:(lia)) as [need [o [k [A [B [D [E O]]]]]]].
  exists [one_pixel], (fun _ => true). do 2 eexists. split.
  - intros v [<-|[]]. split; [discriminate | apply C34_example].
  - refine (eq_trans E _). assert (o = true) as ->; [|reflexivity]. apply O; [intros v [<-|[]]; discriminate | now left].
Qed.
Print Assumptions C34_outside_refuted.

(** ** C35: areas *)
(** Translation, first vertex, orientation and scale; and any rotation about any centre, by
    each of the three ways that [rotate] has. *)
Theorem C35_area : forall xy,
  (forall c, surface_simple_polygon (translate c xy) = surface_simple_polygon xy) /\
  (forall double contiguous alias angle, surface_simple_polygon (rotate double contiguous alias angle xy) = surface_simple_polygon xy) /\
  (forall l r, xy = l ++ r -> surface_simple_polygon (r ++ l) = surface_simple_polygon xy) /\
  surface_simple_polygon (rev xy) = - surface_simple_polygon xy /\
  (forall k, surface_simple_polygon (map (fun p => (k * fst p, k * snd p)) xy) = k * k * surface_simple_polygon xy).
Proof.
  intros xy. split; [|split; [|split; [|split]]].
  - intros c. rewrite !surface_ok. apply shoelace_translate.
  - intros d c a angle. rewrite rotate_same, !surface_ok. apply shoelace_rotate.
  - intros l r ->. rewrite !surface_ok. apply shoelace_start.
  - rewrite !surface_ok. apply shoelace_rev.
  - intros k. rewrite !surface_ok. apply shoelace_scale.
Qed.
Print Assumptions C35_area.
(** The area of a triangle is half of the determinant, and areas are additive: a chord cuts
    a polygon in two whose areas add up. *)
Theorem C35_determined : (forall p q r, surface_simple_polygon [p; q; r] = / 2 * turn p q r) /\
  (forall a b l r, surface_simple_polygon (a :: l ++ b :: r) = surface_simple_polygon (a :: l ++ [b]) + surface_simple_polygon (a :: b :: r)).
Proof.
  split.
  - intros p q r. unfold surface_simple_polygon, turn. cbn. ring.
  - intros a b l r. rewrite !surface_ok. unfold shoelace. unfold pt in *. set (f := fun e : (R * R) * (R * R) => fst (fst e) * snd (snd e) - snd (fst e) * fst (snd e)).
    rewrite !closed_walk. rewrite <- Rmult_plus_distr_l. f_equal.
    assert (W : forall u (c : R * R) t, walk f (u ++ c :: t) = walk f (u ++ [c]) + walk f (c :: t)).
    { intros u c t. destruct t as [|d t]; [cbn [walk]; ring|]. rewrite walk_app. change (walk f (c :: d :: t)) with (f (c, d) + walk f (d :: t)). ring. }
    replace ((a :: l ++ b :: r) ++ [a]) with ((a :: l) ++ b :: (r ++ [a])) by (cbn [app]; rewrite <- app_assoc; reflexivity). rewrite W.
    replace ((a :: l ++ [b]) ++ [a]) with ((a :: l) ++ b :: [a]) by (cbn [app]; rewrite <- app_assoc; reflexivity). rewrite (W (a :: l) b [a]).
    change ((a :: b :: r) ++ [a]) with (a :: b :: (r ++ [a])). change (walk f (a :: b :: (r ++ [a]))) with (f (a, b) + walk f (b :: (r ++ [a]))).
    change (walk f [b; a]) with (f (b, a) + 0). assert (E : f (b, a) = - f (a, b)) by (unfold f; cbn [fst snd]; ring). rewrite E. ring.
Qed.
Print Assumptions C35_determined.
Example C35_example : surface_simple_polygon [(0, 0); (2, 0); (2, 1)] = 1 /\ surface_simple_polygon (rotate false true true 90 [(0, 0); (2, 0); (2, 1)]) = 1 /\
  surface_simple_polygon (rev [(0, 0); (2, 0); (2, 1)]) = -1.
Proof.
  assert (E : surface_simple_polygon [(0, 0); (2, 0); (2, 1)] = 1) by (unfold surface_simple_polygon; cbn; field).
  destruct (C35_area [(0, 0); (2, 0); (2, 1)]) as [_ [R [_ [V _]]]]. split; [exact E|]. split; [rewrite R; exact E|].
  etransitivity; [exact V|]. rewrite E. reflexivity.
Qed.

(** ** C59: points and polygons *)
Theorem C59_point : forall xy p,
  (point_in_polygon p xy = 0%Z <-> on_boundary xy p) /\
  (convex xy -> (3 <= length xy)%nat -> strictly_inside xy p -> point_in_polygon p xy = 1%Z) /\
  (convex xy -> ~ inside xy p -> point_in_polygon p xy = (-1)%Z).
Proof. intros xy p. split; [apply boundary_zero|]. split; intros; [now apply strictly_inside_one | now apply outside_minus_one]. Qed.
Print Assumptions C59_point.
(** Conversely: the three answers are the only ones, so that for a convex polygon the answer
    tells on which side the point is. *)
Theorem C59_converse : forall xy p, convex xy -> (3 <= length xy)%nat ->
  (point_in_polygon p xy = 1%Z -> inside xy p /\ ~ on_boundary xy p) /\ (point_in_polygon p xy = (-1)%Z -> ~ strictly_inside xy p /\ ~ on_boundary xy p).
Proof.
  intros xy p C N3. destruct (C59_point xy p) as [B [S O]]. assert (Dec : inside xy p \/ ~ inside xy p).
  { unfold inside. induction (edges xy) as [|e l IH]; [left; intros ? []|]. destruct (Rle_dec 0 (turn (fst e) (snd e) p)) as [H|H].
    - destruct IH as [IH|IH]; [left; intros e' [<-|He]; auto | right; intros Q; apply IH; intros e' He; apply Q; now right].
    - right. intros Q. apply H, Q. now left. }
  split; intros E.
  - split; [destruct Dec as [|D]; [assumption | rewrite (O C D) in E; discriminate] | rewrite <- B, E; discriminate].
  - split; [intros D; rewrite (S C N3 D) in E; discriminate | rewrite <- B, E; discriminate].
Qed.
Print Assumptions C59_converse.
Example C59_example : point_in_polygon (/ 4, / 4) [(0, 0); (1, 0); (0, 1)] = 1%Z /\ point_in_polygon (1, / 4) [(0, 0); (1, 0); (0, 1)] = (-1)%Z /\ point_in_polygon (/ 2, / 2) [(0, 0); (1, 0); (0, 1)] = 0%Z.
Proof.
  destruct (C59_point [(0, 0); (1, 0); (0, 1)] (/ 4, / 4)) as [_ [H _]]. destruct (C59_point [(0, 0); (1, 0); (0, 1)] (1, / 4)) as [_ [_ H']]. destruct (C59_point [(0, 0); (1, 0); (0, 1)] (/ 2, / 2)) as [H'' _].
  split; [|split].
  - apply H; [apply triangle_convex | cbn; lia|]. intros e [<-|[<-|[<-|[]]]]; unfold turn; cbn [fst snd last]; lra.
  - apply H'; [apply triangle_convex | apply C33_cell_example].
  - apply H''. exists ((1, 0), (0, 1)). split; [right; right; left; reflexivity|]. exists (/ 2). split; [lra|]. cbn [fst snd]. f_equal; field.
Qed.

(** ** C60: shapes *)
(** Rectangles: area, convexity and centre. *)
Theorem C60_rectangle : forall double contiguous sx sy center angle, let r := create_rectangle double contiguous sx sy center angle in
  length r = 4%nat /\ surface_simple_polygon r = sx * sy /\ (0 < sx -> 0 < sy -> convex r) /\ centroid4 r = center.
Proof.
  intros d c sx sy center angle. cbv zeta. rewrite rectangle_forms, surface_ok. split; [reflexivity|]. split; [|split].
  - rewrite shoelace_translate, shoelace_rotate. apply corners_area.
  - intros Hx Hy. apply convex_translate, convex_rotate. now apply corners_convex.
  - unfold centroid4, translate, rotate_2d, corners, rsum. cbn [map fold_right fst snd]. destruct center. cbn [fst snd]. f_equal; field.
Qed.
Print Assumptions C60_rectangle.
(** Squares have equal sides. *)
Theorem C60_square : forall double contiguous s center angle e, 0 <= s -> In e (edges (create_square double contiguous s center angle)) -> dist (fst e) (snd e) = s.
Proof.
  intros d c s center angle e Hs. unfold create_square. rewrite rectangle_forms. unfold translate. rewrite edges_map by discriminate. rewrite in_map_iff. intros [e1 [<- H]]. cbn [fst snd].
  unfold rotate_2d in H. rewrite edges_map in H by discriminate. apply in_map_iff in H as [e2 [<- H]]. cbn [fst snd].
  assert (T : forall p q : R * R, dist (fst p + fst center, snd p + snd center) (fst q + fst center, snd q + snd center) = dist p q) by (intros p q; unfold dist; cbn [fst snd]; f_equal; ring).
  etransitivity; [exact (T (_, _) (_, _))|]. etransitivity; [exact (dist_rotate angle (fst e2) (snd e2))|].
  unfold edges, corners in H. cbn [last combine] in H. unfold dist. destruct H as [<-|[<-|[<-|[<-|[]]]]]; cbn [fst snd];
  match goal with |- sqrt ?x = s => replace x with (s * s) by field; now apply sqrt_square end.
Qed.
Print Assumptions C60_square.
(** Regular polygons: on a circle, convex, area. *)
Theorem C60_regular : forall n radius center angle, (0 < n)%nat -> let r := create_regular_polygon n radius center angle in
  length r = n /\ (forall p, In p r -> dist center p = Rabs radius) /\ (radius <> 0 -> convex r) /\ surface_simple_polygon r = INR n / 2 * (radius * radius) * sin (2 * PI / INR n).
Proof.
  intros n radius center angle Hn. cbv zeta. split; [unfold create_regular_polygon; cbv zeta; now rewrite map_length, seq_length|]. split; [|split].
  - intros p Hp. unfold create_regular_polygon in Hp. apply in_map_iff in Hp as [k [<- _]]. unfold dist. cbn [fst snd]. set (a := 2 * (4 * atan 1) / INR n * INR k + angle * DEG2RAD).
    replace ((radius * cos a + fst center - fst center) * (radius * cos a + fst center - fst center) + (radius * sin a + snd center - snd center) * (radius * sin a + snd center - snd center)) with (Rsqr radius * (Rsqr (sin a) + Rsqr (cos a))) by (unfold Rsqr; ring).
    rewrite sin2_cos2, Rmult_1_r. apply sqrt_Rsqr_abs.
  - apply regular_convex.
  - rewrite surface_ok. now apply regular_area.
Qed.
Print Assumptions C60_regular.
(** Grids: the nodes are those of a regular grid centred, reflected and rotated as asked, each
    is the centre of its square, and squares fill the asked part of the cells. *)
Theorem C60_grid : forall m n spacing ff xr yr angle center i j, 0 <= ff ->
  create_grid m n spacing xr yr angle center i j =
    hd (0, 0) (translate center (rotate_2d angle [(signed xr * (spacing * (IZR i - (IZR n + 1) / 2)), signed yr * (spacing * ((IZR m + 1) / 2 - IZR j)))])) /\
  centroid4 (create_grid_squares m n spacing ff xr yr angle center i j) = create_grid m n spacing xr yr angle center i j /\
  Rabs (surface_simple_polygon (create_grid_squares m n spacing ff xr yr angle center i j)) = ff * (spacing * spacing) /\
  (fst (create_grid m n spacing xr yr angle center i j) + fst (create_grid m n spacing xr yr angle center (n + 1 - i) (m + 1 - j)) = 2 * fst center /\
   snd (create_grid m n spacing xr yr angle center i j) + snd (create_grid m n spacing xr yr angle center (n + 1 - i) (m + 1 - j)) = 2 * snd center) /\
  dist (create_grid m n spacing xr yr angle center i j) (create_grid m n spacing xr yr angle center (i + 1) j) = Rabs spacing /\
  dist (create_grid m n spacing xr yr angle center i j) (create_grid m n spacing xr yr angle center i (j + 1)) = Rabs spacing.
Proof.
  intros m n spacing ff xr yr angle center i j Hf. split; [apply grid_node|]. split; [apply square_center|]. split; [|split; [|split]].
  - rewrite surface_ok, square_area by exact Hf. rewrite Rabs_mult. replace (Rabs (signed (xorb xr yr))) with 1 by (destruct xr, yr; cbn; rewrite ?Rabs_R1; try reflexivity; unfold signed, Rabs; destruct (Rcase_abs (-1)); lra).
    rewrite Rmult_1_l. apply Rabs_pos_eq. apply Rmult_le_pos; [exact Hf | apply Rle_0_sqr].
  - rewrite !grid_node. cbn [rotate_2d translate map hd fst snd]. rewrite !minus_IZR, !plus_IZR. split; field.
  - rewrite !grid_node. cbn [rotate_2d translate map hd fst snd]. rewrite plus_IZR. unfold dist. cbn [fst snd]. set (c := cos (angle * DEG2RAD)). set (s := sin (angle * DEG2RAD)).
    assert (U : c * c + s * s = 1) by apply deg_rad. match goal with |- sqrt ?x = _ => replace x with (Rsqr spacing) end; [apply sqrt_Rsqr_abs|].
    unfold Rsqr. transitivity ((c * c + s * s) * (spacing * spacing)); [rewrite U; ring|]. unfold signed. destruct xr, yr; field.
  - rewrite !grid_node. cbn [rotate_2d translate map hd fst snd]. rewrite plus_IZR. unfold dist. cbn [fst snd]. set (c := cos (angle * DEG2RAD)). set (s := sin (angle * DEG2RAD)).
    assert (U : c * c + s * s = 1) by apply deg_rad. match goal with |- sqrt ?x = _ => replace x with (Rsqr spacing) end; [apply sqrt_Rsqr_abs|].
    unfold Rsqr. transitivity ((c * c + s * s) * (spacing * spacing)); [rewrite U; ring|]. unfold signed. destruct xr, yr; field.
Qed.
Print Assumptions C60_grid.
Example C60_example : create_grid 1 2 1 false false 0 (0, 0) 1 1 = (- / 2, 0) /\ create_grid_squares 1 1 2 (1 / 4) true false 0 (5, 5) 1 1 = [(9 / 2, 11 / 2); (11 / 2, 11 / 2); (11 / 2, 9 / 2); (9 / 2, 9 / 2)].
Proof.
  split.
  - destruct (C60_grid 1 2 1 1 false false 0 (0, 0) 1 1 ltac:(lra)) as [-> _]. rewrite rotate_0. cbn. f_equal; field.
  - unfold create_grid_squares, grid_matrix. rewrite Rmult_0_r, cos_0, sin_0. replace (sqrt (1 / 4)) with (/ 2) by (replace (1 / 4) with (/ 2 * / 2) by field; symmetry; apply sqrt_square; lra).
    cbn [map fst snd Z.add Pos.add]. repeat (apply (f_equal2 cons); [apply (f_equal2 pair); field|]). reflexivity.
Qed.

(** ** C61: segmented polygons *)
Theorem C61_segments : forall xy max_distance, 0 < max_distance -> let s := segment_polygon xy max_distance in
  (forall e, In e (edges s) -> dist (fst e) (snd e) <= max_distance) /\ (forall p, In p s -> on_boundary xy p) /\
  surface_simple_polygon s = surface_simple_polygon xy.
Proof.
  intros xy m Hm. cbv zeta. split; [intros e; now apply segments_short|]. split; [intros p; now apply segments_on|].
  rewrite !surface_ok. now apply segments_area.
Qed.
Print Assumptions C61_segments.
Example C61_example : segment_polygon [(0, 0); (2, 0)] 1 = [(0, 0); (1, 0); (2, 0); (1, 0)].
Proof.
  assert (I : ceiling 2 = 2%Z).
  { unfold ceiling, Int_part. replace (up (- (2))) with (-1)%Z; [reflexivity|]. apply tech_up; lra. }
  assert (H : forall x, x * x = 4 -> ceiling (hypot x (0 - 0) / 1) = 2%Z).
  { intros x Hx. unfold hypot. replace (x * x + (0 - 0) * (0 - 0)) with (2 * 2) by (rewrite Hx; ring). rewrite sqrt_square by lra. replace (2 / 1) with 2 by field. exact I. }
  unfold segment_polygon, segment_loop, segment_edge. cbn [fst snd]. rewrite !H by ring. change (Z.to_nat 2) with 2%nat. cbn [seq map app INR].
  repeat (apply (f_equal2 cons); [apply (f_equal2 pair); field|]). reflexivity.
Qed.
(** Any way of [rotate] is the rotation: angles add up, distances are kept, a turn of 90
    degrees is counter-clockwise. *)
Theorem C60_rotate : forall double contiguous alias,
  (forall xy, rotate double contiguous alias 0 xy = xy) /\
  (forall d c a x y xy, rotate double contiguous alias x (rotate d c a y xy) = rotate double contiguous alias (x + y) xy) /\
  (forall angle xy i j p q p' q', nth_error xy i = Some p -> nth_error xy j = Some q ->
     nth_error (rotate double contiguous alias angle xy) i = Some p' -> nth_error (rotate double contiguous alias angle xy) j = Some q' -> dist p' q' = dist p q) /\
  (forall x y, rotate double contiguous alias 90 [(x, y)] = [(- y, x)]).
Proof.
  intros d c a. split; [|split; [|split]].
  - intros xy. rewrite rotate_same. apply rotate_0.
  - intros d' c' a' x y xy. rewrite !rotate_same. apply rotate_compose.
  - intros angle xy i j p q p' q' Hp Hq Hp' Hq'. rewrite rotate_same in Hp', Hq'. unfold rotate_2d in *.
    pose proof (map_nth_error (fun v : pt => (cos (angle * DEG2RAD) * fst v - sin (angle * DEG2RAD) * snd v, sin (angle * DEG2RAD) * fst v + cos (angle * DEG2RAD) * snd v)) i xy Hp) as Ep.
    pose proof (map_nth_error (fun v : pt => (cos (angle * DEG2RAD) * fst v - sin (angle * DEG2RAD) * snd v, sin (angle * DEG2RAD) * fst v + cos (angle * DEG2RAD) * snd v)) j xy Hq) as Eq.
    assert (Some p' = Some _) as Fp by exact (eq_trans (eq_sym Hp') Ep). assert (Some q' = Some _) as Fq by exact (eq_trans (eq_sym Hq') Eq). injection Fp as ->. injection Fq as ->.
    exact (dist_rotate angle p q).
  - intros x y. rewrite rotate_same. unfold rotate_2d, DEG2RAD. cbn [map fst snd]. replace (90 * (PI / 180)) with (PI / 2) by field. rewrite cos_PI2, sin_PI2. repeat f_equal; ring.
Qed.
Print Assumptions C60_rotate.
Example C60_shapes_example : create_rectangle true true 4 2 (1, 1) 90 = [(0, 3); (0, -1); (2, -1); (2, 3)].
Proof.
  destruct (C60_rotate true true true) as [_ [_ [_ R]]]. rewrite rectangle_forms. rewrite <- (rotate_same true true true).
  assert (Q : forall p l, rotate true true true 90 (p :: l) = (- snd p, fst p) :: rotate true true true 90 l).
  { intros [x y] l. specialize (R x y). rewrite rotate_same in *. cbn [rotate_2d map fst snd] in *. injection R as R1 R2. f_equal. now f_equal. }
  unfold corners. rewrite !Q. cbn [fst snd]. rewrite rotate_same. cbn [rotate_2d translate map fst snd].
  repeat (apply (f_equal2 cons); [apply (f_equal2 pair); field|]). reflexivity.
Qed.
