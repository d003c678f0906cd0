(** C138: drawings of layouts. *)
From Coq Require Import Reals Lra String Ascii.
From Verif Require Import Base BaseFacts TemplateModel GeoModel GeoSpec HullModel HullProps PlotModel PlotSpec.
Open Scope R_scope.

(** ** The choice of the coordinates *)
Theorem C138_vertices l v : l_vertex l = Some v -> exists cs, coords_of l = Ok (Polygons cs) /\ length cs = length v /\
  forall i p, nth_error v i = Some p -> exists q, nth_error cs i = Some q /\ length q = length p /\
  forall j a, nth_error p j = Some a -> exists b, nth_error q j = Some b /\ b = firstn 2 a.
Proof.
  intros Hv. unfold coords_of. rewrite Hv. eexists. split; [reflexivity|]. split; [apply map_length|]. intros i p Hp. exists (map xy p). rewrite nth_error_map, Hp. split; [reflexivity|]. split; [apply map_length|].
  intros j a Ha. exists (xy a). rewrite nth_error_map, Ha. now split.
Qed.
Print Assumptions C138_vertices.

Lemma map_res_all {A B} (f : A -> res B) (P : A -> B -> Prop) l : (forall a, In a l -> exists b, f a = Ok b /\ P a b) -> exists r, map_res f l = Ok r /\ length r = length l /\
  forall i a, nth_error l i = Some a -> exists b, nth_error r i = Some b /\ P a b.
Proof.
  induction l as [|a l IH]; intros H.
  - exists []. repeat split. intros [|i] a E; discriminate E.
  - destruct (H a (or_introl eq_refl)) as (b & Eb & Pb). destruct IH as (r & Er & Lr & Hr); [intros; apply H; now right|].
    exists (b :: r). cbn [map_res]. rewrite Eb. cbn [bind]. rewrite Er. cbn [bind]. split; [reflexivity|]. split; [cbn; lia|].
    intros [|i] a' E; cbn [nth_error] in *; [injection E as <-; eauto|eauto].
Qed.

(** A polygon around a point. *)
Definition around (x y r : R) (q : list (list R)) : Prop := length q = 72%nat /\ (forall v, In v q -> exists a b, v = [a; b] /\ dist (x, y) (a, b) = Rabs r) /\ nth 0 q [] = [r + x; y].

Lemma circle_around r x y z : exists q, circle r (xy (x :: y :: z)) = Ok q /\ around x y r q.
Proof.
  destruct (C96_circle r (x, y) 72 ltac:(lia)) as (L & D & F & _). exists (map (fun q : pt => [fst q; snd q]) (create_circle r (x, y) 72)).
  split; [reflexivity|]. split; [rewrite map_length; exact L|]. split.
  - intros v Hv. apply in_map_iff in Hv. destruct Hv as (p & <- & Hp). exists (fst p), (snd p). split; [reflexivity|]. rewrite <- (surjective_pairing p). now apply D.
  - rewrite (nth_indep _ [] ((fun q : pt => [fst q; snd q]) (0, 0))) by (rewrite map_length, L; lia). rewrite (map_nth (fun q : pt => [fst q; snd q])). rewrite F. reflexivity.
Qed.

(** Circles: for each component, 72 vertices at the distance of its radius from its centre. *)
Theorem C138_circles l rs u : l_vertex l = None -> l_radius l = Some (rs, u) -> (forall c, In c (l_center l) -> exists x y z, c = x :: y :: z) ->
  match rs with Each r => length r = length (l_center l) | Same _ => True end ->
  exists cs, coords_of l = Ok (Polygons cs) /\ length cs = length (l_center l) /\
  forall i x y z, nth_error (l_center l) i = Some (x :: y :: z) -> exists q r, nth_error cs i = Some q /\ around x y r q /\
    match rs with Each l => nth_error l i = Some r | Same s => r = s end.
Proof.
  intros Hv Hr Hc Hl. unfold coords_of. rewrite Hv, Hr. destruct rs as [r|rs]; cbn [circles].
  - destruct (map_res_all (circle r) (fun c q => forall x y, c = [x; y] -> around x y r q) (map xy (l_center l))) as (cs & E & L & H).
    { intros a Ha. apply in_map_iff in Ha. destruct Ha as (c & <- & Hin). destruct (Hc c Hin) as (x & y & z & ->). destruct (circle_around r x y z) as (q & E & A). exists q. split; [exact E|]. cbn. intros x' y' [= <- <-]. exact A. }
    exists cs. rewrite E. cbn [bind]. split; [reflexivity|]. rewrite map_length in L. split; [exact L|]. intros i x y z Hi. destruct (H i [x; y]) as (q & Eq & Aq); [rewrite nth_error_map, Hi; reflexivity|].
    exists q, r. split; [exact Eq|]. split; [now apply Aq|reflexivity].
  - rewrite map_length. rewrite Hl, Nat.eqb_refl.
    destruct (map_res_all (fun rc => circle (fst rc) (snd rc)) (fun rc q => forall x y, snd rc = [x; y] -> around x y (fst rc) q) (combine rs (map xy (l_center l)))) as (cs & E & L & H).
    { intros [r a] Ha. apply in_combine_r in Ha. apply in_map_iff in Ha. destruct Ha as (c & <- & Hin). destruct (Hc c Hin) as (x & y & z & ->). destruct (circle_around r x y z) as (q & E & A). exists q. split; [exact E|]. cbn. intros x' y' [= <- <-]. exact A. }
    exists cs. rewrite E. cbn [bind]. split; [reflexivity|]. rewrite combine_length, map_length, Hl, Nat.min_id in L. split; [exact L|]. intros i x y z Hi.
    assert (Hil : (i < length rs)%nat) by (rewrite Hl; apply nth_error_Some; congruence).
    destruct (nth_error rs i) as [r|] eqn:Er; [|apply nth_error_None in Er; lia].
    destruct (H i (r, [x; y])) as (q & Eq & Aq).
    { assert (G : forall (a : list R) (b : list (list R)) j s t, nth_error a j = Some s -> nth_error b j = Some t -> nth_error (combine a b) j = Some (s, t)).
      { induction a as [|a0 a IH]; intros [|b0 b] [|j] s t; cbn; try discriminate; [intros [= ->] [= ->]; reflexivity|apply IH]. }
      apply G; [exact Er|]. rewrite nth_error_map, Hi. reflexivity. }
    exists q, r. split; [exact Eq|]. split; [now apply Aq|reflexivity].
Qed.
Print Assumptions C138_circles.

(** The units of the radius and of the centres are not compared: a radius of 1 mm at centres in metres gives circles of 1 m. *)
Theorem C138_units_refuted : let l := Layout None (Some (Same 1, / 1000)) [[0; 0]] 1 in
  exists q, coords_of l = Ok (Polygons [q]) /\ forall v, In v q -> exists a b, v = [a; b] /\ l_center_unit l * dist (0, 0) (a, b) <> 1 * / 1000.
Proof.
  destruct (circle_around 1 0 0 []) as (q & E & A & D & _). exists q. split.
  { unfold coords_of. cbn [l_vertex l_radius l_center map circles map_res]. rewrite E. reflexivity. }
  intros v Hv. destruct (D v Hv) as (a & b & -> & Hd). exists a, b. split; [reflexivity|]. cbn [l_center_unit]. rewrite Hd, Rabs_R1. lra.
Qed.
Print Assumptions C138_units_refuted.

(** ** The drawing *)
Section S.
Variable float_ok : text -> bool.
Variable zip : list (list (list R)) -> colour -> colour -> res (list (list (list R) * colour * colour)).

(** The given colours that the code does not take for others: a tuple for the components is not made of numbers. *)
Definition safe (c : colour) : Prop := match c with TupleOf l => is_colour c \/ exists s, In (Name s) l /\ float_ok s = false | _ => True end.

Lemma levels_numbers l : Forall (fun x => match x with Level _ => True | _ => False end) l -> forallb (isnumber float_ok) l = true.
Proof. intros H. apply forallb_forall. intros x Hx. rewrite Forall_forall in H. specialize (H x Hx). now destruct x. Qed.

Lemma not_numbers l s : In (Name s) l -> float_ok s = false -> forallb (isnumber float_ok) l = false.
Proof. intros Hi Hs. apply Bool.not_true_iff_false. intros H. rewrite forallb_forall in H. specialize (H _ Hi). cbn in H. congruence. Qed.

Lemma one_of (l : list colour) i : length l = 1%nat -> (i < 1)%nat -> exists c, l = [c] /\ i = O.
Proof. destruct l as [|c [|? ?]]; cbn; intros H Hi; try lia. exists c. split; [reflexivity|lia]. Qed.

Lemma entry_nth l i n : length l = n -> (i < n)%nat -> forall c, nth_error l i = Some c -> entry (ListOf l) i = c /\ entry (TupleOf l) i = c.
Proof.
  intros Hl Hi c E. pose proof (nth_error_nth l i NoColour E) as N. cbn [entry].
  destruct l as [|a [|b l]]; cbn [length] in *; [lia|assert (i = O) by lia; subst i; cbn in *; injection E as ->; now split|now split].
Qed.

Lemma rgb_paints n c i d : (0 < n)%nat -> (i < n)%nat -> safe c -> paints n c i d -> fits n (rgb float_ok c) /\ entry (rgb float_ok c) i = d.
Proof.
  intros Hn Hi Hs H. destruct H as [i|c i Hc|l i c Hl Hf E|l i c Hl Hf E|i c Hc].
  - now split.
  - destruct c as [|s|x|l|l]; try contradiction; cbn [rgb]; [now split|]. destruct Hc as [_ Hc]. rewrite (levels_numbers l Hc). split; [right; reflexivity|reflexivity].
  - cbn [rgb]. split; [left; exact Hl|]. exact (proj1 (entry_nth l i n Hl Hi c E)).
  - cbn [rgb]. assert (F : forallb (isnumber float_ok) l = false).
    { destruct Hs as [[Hlen Hlev]|(s & Hs & Hk)]; [|now apply (not_numbers l s)].
      destruct l as [|a r]; [cbn in Hlen; lia|]. inversion Hlev as [|? ? Ha _]. inversion Hf as [|? ? Hb _]. subst. destruct a; contradiction. }
    rewrite F. split; [left; exact Hl|]. exact (proj2 (entry_nth l i n Hl Hi c E)).
  - cbn [rgb fits entry length]. split; [right|]; reflexivity.
Qed.

Lemma fits_all n c : (0 < n)%nat -> safe c -> colours_for n c -> fits n (rgb float_ok c).
Proof. intros Hn Hs H. destruct (H O Hn) as [d Hd]. exact (proj1 (rgb_paints n c O d Hn Hn Hs Hd)). Qed.

(** One polygon for each component, in the order of the components, with the colours of the component; it is filled if a face
    colour is given, unless told otherwise. *)
Theorem C138_polygons_partial autoscale transform edge face fill keywords l cs :
  zips zip -> (do c <- coords_of l; match transform with Some f => f c | None => Ok c end) = Ok (Polygons cs) -> cs <> [] ->
  colours_for (length cs) edge -> colours_for (length cs) face -> safe edge -> safe face ->
  exists ps, plot float_ok (Some zip) autoscale transform edge face fill keywords l = Ok (Patches ps autoscale) /\ length ps = length cs /\
  forall i p, nth_error ps i = Some p ->
    nth_error cs i = Some (p_vertices p) /\ paints (length cs) edge i (p_edge p) /\ paints (length cs) face i (p_face p) /\ p_keywords p = keywords /\
    (forall b, fill = Some b -> p_fill p = Some b) /\ (fill = None -> face <> NoColour -> p_fill p = Some true) /\ (fill = None -> face = NoColour -> p_fill p = None).
Proof.
  intros Hz Hc Hne He Hf Se Sf. assert (Hn : (0 < length cs)%nat) by (destruct cs; [easy|cbn; lia]).
  unfold plot. destruct (coords_of l) as [c|x]; [|discriminate Hc]. cbn [bind] in *. rewrite Hc. cbn [bind].
  rewrite (Hz cs (rgb float_ok edge) (rgb float_ok face) Hne (fits_all _ _ Hn Se He) (fits_all _ _ Hn Sf Hf)). cbn [bind].
  eexists. split; [reflexivity|]. split; [now rewrite !map_length, seq_length|].
  intros i p E. assert (Hi : (i < length cs)%nat).
  { assert (Hx : nth_error (map (fun r => Patch (fst (fst r)) (snd (fst r)) (snd r) (match fill with None => if is_none face then None else Some true | Some _ => fill end) keywords) (map (fun j => (nth j cs [], entry (rgb float_ok edge) j, entry (rgb float_ok face) j)) (seq 0 (length cs)))) i <> None) by congruence.
    apply nth_error_Some in Hx. now rewrite !map_length, seq_length in Hx. }
  rewrite map_map in E. rewrite nth_error_map in E. rewrite (nth_error_nth' _ O) in E by (now rewrite seq_length). rewrite seq_nth in E by exact Hi. cbn [option_map Nat.add] in E. injection E as <-.
  cbn [p_vertices p_edge p_face p_fill p_keywords fst snd]. rewrite (nth_error_nth' cs [] Hi).
  destruct (He i Hi) as [de Hde]. destruct (Hf i Hi) as [df Hdf]. destruct (rgb_paints _ _ _ _ Hn Hi Se Hde) as [_ ->]. destruct (rgb_paints _ _ _ _ Hn Hi Sf Hdf) as [_ ->].
  split; [reflexivity|]. split; [exact Hde|]. split; [exact Hdf|]. split; [reflexivity|]. split; [intros b ->; reflexivity|]. split; intros -> H; [destruct face; [now elim H|reflexivity..]|now rewrite H].
Qed.

(** Texts of grey levels given for the components are taken for one colour. *)
Theorem C138_grey_refuted cs l : zips zip -> (forall s, In s [lit "0.1"; lit "0.5"; lit "0.9"] -> float_ok s = true) -> l_vertex l = Some cs -> length cs = 3%nat ->
  let edge := TupleOf [Name (lit "0.1"); Name (lit "0.5"); Name (lit "0.9")] in
  paints 3 edge 0 (Name (lit "0.1")) /\
  exists ps p, plot float_ok (Some zip) true None edge NoColour None [] l = Ok (Patches ps true) /\ nth_error ps 0 = Some p /\ p_edge p = edge /\ ~ is_colour (p_edge p).
Proof.
  intros Hz Hf Hv Hl edge. split.
  { apply paint_tuple; [reflexivity|repeat constructor|reflexivity]. }
  assert (R1 : rgb float_ok edge = ListOf [edge]). { cbn [rgb edge forallb isnumber]. rewrite !Hf by (cbn [In]; tauto). reflexivity. }
  assert (H : map (map xy) cs <> []) by (destruct cs; [discriminate Hl|discriminate]).
  assert (Z := Hz (map (map xy) cs) (ListOf [edge]) NoColour H (or_intror eq_refl) I). rewrite map_length, Hl in Z.
  unfold plot, coords_of. rewrite Hv. cbn [bind]. rewrite R1. change (rgb float_ok NoColour) with NoColour. rewrite Z. cbn [bind is_none seq map nth_error fst snd].
  eexists. eexists. split; [reflexivity|]. split; [reflexivity|]. cbn [p_edge entry]. split; [reflexivity|].
  intros [_ F]. inversion F. contradiction.
Qed.

(** Without vertices nor radius: a marker at each centre; keywords are only completed. *)
Theorem C138_markers zb autoscale edge face fill keywords l : l_vertex l = None -> l_radius l = None -> (forall c, In c (l_center l) -> exists x y z, c = x :: y :: z) ->
  exists xs ys k, plot float_ok zb autoscale None edge face fill keywords l = Ok (Markers xs ys autoscale k) /\ length xs = length (l_center l) /\ length ys = length (l_center l) /\
  (forall i x y z, nth_error (l_center l) i = Some (x :: y :: z) -> nth_error xs i = Some x /\ nth_error ys i = Some y) /\
  exists extra, k = keywords ++ extra /\ forall e, In e extra <-> In e [(lit "color", lit "black"); (lit "marker", lit "o"); (lit "linestyle", lit "")] /\ ~ In (fst e) (map fst keywords).
Proof.
  intros Hv Hr Hc. unfold plot, coords_of. rewrite Hv, Hr. cbn [bind].
  destruct (map_res_all (fun p : list R => get p 0) (fun p a => exists y, p = [a; y]) (map xy (l_center l))) as (xs & Ex & Lx & Hx).
  { intros a Ha. apply in_map_iff in Ha. destruct Ha as (c & <- & Hin). destruct (Hc c Hin) as (x & y & z & ->). exists x. split; [reflexivity|]. now exists y. }
  destruct (map_res_all (fun p : list R => get p 1) (fun p a => exists x, p = [x; a]) (map xy (l_center l))) as (ys & Ey & Ly & Hy).
  { intros a Ha. apply in_map_iff in Ha. destruct Ha as (c & <- & Hin). destruct (Hc c Hin) as (x & y & z & ->). exists y. split; [reflexivity|]. now exists x. }
  rewrite Ex. cbn [bind]. rewrite Ey. cbn [bind]. do 3 eexists. split; [reflexivity|]. rewrite map_length in Lx, Ly. split; [exact Lx|]. split; [exact Ly|]. split.
  { intros i x y z Hi. destruct (Hx i [x; y]) as (a & Ea & y' & [= <- <-]); [rewrite nth_error_map, Hi; reflexivity|]. destruct (Hy i [x; y]) as (b & Eb & x' & [= <- <-]); [rewrite nth_error_map, Hi; reflexivity|]. now split. }
  assert (S : forall key value k, (In key (map fst k) /\ setdefault key value k = k) \/ (~ In key (map fst k) /\ setdefault key value k = k ++ [(key, value)])).
  { intros key value k. unfold setdefault. destruct (existsb _ k) eqn:B.
    - left. split; [|reflexivity]. apply existsb_exists in B. destruct B as (e & He & Hk). unfold text_eqb in Hk. destruct (list_eq_dec ascii_dec (fst e) key) as [<-|]; [|discriminate Hk]. now apply List.in_map.
    - right. split; [|reflexivity]. intros Hin. apply in_map_iff in Hin. destruct Hin as (e & He & Hi). rewrite <- Bool.not_true_iff_false in B. apply B. apply existsb_exists. exists e. split; [exact Hi|]. unfold text_eqb. now destruct (list_eq_dec ascii_dec (fst e) key). }
  set (c := lit "color"). set (m := lit "marker"). set (li := lit "linestyle").
  assert (Ncm : c <> m) by discriminate. assert (Ncl : c <> li) by discriminate. assert (Nml : m <> li) by discriminate. clearbody c m li.
  destruct (S c (lit "black") keywords) as [[H1 ->]|[H1 ->]].
  - destruct (S m (lit "o") keywords) as [[H2 ->]|[H2 ->]].
    + destruct (S li (lit "") keywords) as [[H3 ->]|[H3 ->]].
      * exists []. split; [now rewrite app_nil_r|]. intros e. cbn [In]. split; [easy|]. intros [[<-|[<-|[<-|[]]]] N]; cbn [fst] in N; now elim N.
      * eexists. split; [reflexivity|]. intros e. cbn [In]. split; [intros [<-|[]]; cbn [fst]; tauto|]. intros [[<-|[<-|[<-|[]]]] N]; cbn [fst] in N; tauto.
    + destruct (S li (lit "") (keywords ++ [(m, lit "o")])) as [[H3 ->]|[H3 ->]]; rewrite map_app, in_app_iff in H3; cbn [map fst In] in H3.
      * destruct H3 as [H3|[H3|[]]]; [|now elim Nml]. eexists. split; [reflexivity|]. intros e. cbn [In]. split; [intros [<-|[]]; cbn [fst]; tauto|]. intros [[<-|[<-|[<-|[]]]] N]; cbn [fst] in N; tauto.
      * rewrite <- app_assoc. eexists. split; [reflexivity|]. intros e. cbn [In app]. split; [intros [<-|[<-|[]]]; cbn [fst]; tauto|]. intros [[<-|[<-|[<-|[]]]] N]; cbn [fst] in N; tauto.
  - destruct (S m (lit "o") (keywords ++ [(c, lit "black")])) as [[H2 ->]|[H2 ->]]; rewrite map_app, in_app_iff in H2; cbn [map fst In] in H2.
    + destruct H2 as [H2|[H2|[]]]; [|now elim Ncm].
      destruct (S li (lit "") (keywords ++ [(c, lit "black")])) as [[H3 ->]|[H3 ->]]; rewrite map_app, in_app_iff in H3; cbn [map fst In] in H3.
      * destruct H3 as [H3|[H3|[]]]; [|now elim Ncl]. eexists. split; [reflexivity|]. intros e. cbn [In]. split; [intros [<-|[]]; cbn [fst]; tauto|]. intros [[<-|[<-|[<-|[]]]] N]; cbn [fst] in N; tauto.
      * rewrite <- app_assoc. eexists. split; [reflexivity|]. intros e. cbn [In app]. split; [intros [<-|[<-|[]]]; cbn [fst]; tauto|]. intros [[<-|[<-|[<-|[]]]] N]; cbn [fst] in N; tauto.
    + rewrite <- app_assoc. cbn [app].
      destruct (S li (lit "") (keywords ++ [(c, lit "black"); (m, lit "o")])) as [[H3 ->]|[H3 ->]]; rewrite map_app, in_app_iff in H3; cbn [map fst In] in H3.
      * destruct H3 as [H3|[H3|[H3|[]]]]; [|now elim Ncl|now elim Nml]. eexists. split; [reflexivity|]. intros e. cbn [In]. split; [intros [<-|[<-|[]]]; cbn [fst]; tauto|]. intros [[<-|[<-|[<-|[]]]] N]; cbn [fst] in N; tauto.
      * rewrite <- app_assoc. eexists. split; [reflexivity|]. intros e. cbn [In app]. split; [intros [<-|[<-|[<-|[]]]]; cbn [fst]; tauto|]. intros [[<-|[<-|[<-|[]]]] N]; cbn [fst] in N; tauto.
Qed.

(** The colours given for the components are then without effect. *)
Theorem C138_markers_refuted zb autoscale edge face fill keywords l : l_vertex l = None -> l_radius l = None ->
  plot float_ok zb autoscale None edge face fill keywords l = plot float_ok zb autoscale None NoColour NoColour None keywords l.
Proof. intros Hv Hr. unfold plot, coords_of. rewrite Hv, Hr. reflexivity. Qed.

(** A transform is applied once, before drawing; what it raises is raised, other dimensions are refused. *)
Theorem C138_transform zb autoscale f edge face fill keywords l c : coords_of l = Ok c ->
  (forall e, f c = Err e -> plot float_ok zb autoscale (Some f) edge face fill keywords l = Err e) /\
  (f c = Ok OtherDimensions -> plot float_ok zb autoscale (Some f) edge face fill keywords l = Err ValueError) /\
  (forall l' d, f c = Ok d -> coords_of l' = Ok d -> plot float_ok zb autoscale (Some f) edge face fill keywords l = plot float_ok zb autoscale None edge face fill keywords l').
Proof.
  intros E. unfold plot. rewrite E. cbn [bind]. split; [intros e ->; reflexivity|]. split; [intros ->; reflexivity|]. intros l' d -> ->. reflexivity.
Qed.
End S.
Print Assumptions C138_polygons_partial.
Print Assumptions C138_grey_refuted.
Print Assumptions C138_markers.
Print Assumptions C138_markers_refuted.
Print Assumptions C138_transform.

(** ** Cases *)
Definition zip_of (cs : list (list (list R))) (e f : colour) : res (list (list (list R) * colour * colour)) :=
  Ok (map (fun i => (nth i cs [], entry e i, entry f i)) (seq 0 (length cs))).
Example zip_of_zips : zips zip_of.
Proof. intros cs e f _ _ _. reflexivity. Qed.

Definition case_layout : layout := Layout (Some [[[0; 0; 5]; [1; 0; 5]; [1; 1; 5]]; [[2; 0; 5]; [3; 0; 5]; [3; 1; 5]]]) (Some (Same 1, 1)) [[0; 0; 5]; [2; 0; 5]] 1.
Example C138_polygons_case : exists ps, plot (fun _ => false) (Some zip_of) true None (ListOf [Name (lit "red"); Name (lit "blue")]) (TupleOf [Level 1; Level 0; Level 0]) None [] case_layout = Ok (Patches ps true) /\
  map p_vertices ps = [[[0; 0]; [1; 0]; [1; 1]]; [[2; 0]; [3; 0]; [3; 1]]] /\ map p_edge ps = [Name (lit "red"); Name (lit "blue")] /\ map p_fill ps = [Some true; Some true].
Proof.
  destruct (C138_polygons_partial (fun _ => false) zip_of true None (ListOf [Name (lit "red"); Name (lit "blue")]) (TupleOf [Level 1; Level 0; Level 0]) None [] case_layout
    [[[0; 0]; [1; 0]; [1; 1]]; [[2; 0]; [3; 0]; [3; 1]]]) as (ps & E & L & H).
  - exact zip_of_zips.
  - reflexivity.
  - discriminate.
  - intros [|[|i]] Hi; [exists (Name (lit "red"))|exists (Name (lit "blue"))|cbn in Hi; lia]; apply paint_list; try reflexivity; repeat constructor.
  - intros i _. eexists. apply paint_one. split; [now left|repeat constructor].
  - exact I.
  - left. split; [now left|repeat constructor].
  - exists ps. split; [exact E|]. destruct ps as [|p [|q [|? ?]]]; try discriminate L.
    destruct (H 0%nat p eq_refl) as (V0 & E0 & _ & _ & _ & F0 & _). destruct (H 1%nat q eq_refl) as (V1 & E1 & _ & _ & _ & F1 & _). cbn [nth_error] in V0, V1. injection V0 as V0. injection V1 as V1.
    cbn [map]. rewrite <- V0, <- V1, F0, F1 by (reflexivity || discriminate). split; [reflexivity|]. split; [|reflexivity].
    inversion E0; subst; [contradiction|]. match goal with h : nth_error _ 0 = Some _ |- _ => injection h as <- end. inversion E1; subst; [contradiction|]. match goal with h : nth_error _ 1 = Some _ |- _ => injection h as <- end. reflexivity.
Qed.
Example C138_circles_case : exists cs q, coords_of (Layout None (Some (Each [1; 2], 1)) [[0; 0]; [5; 6]] 1) = Ok (Polygons cs) /\ nth_error cs 1 = Some q /\ nth 0 q [] = [2 + 5; 6].
Proof.
  destruct (C138_circles (Layout None (Some (Each [1; 2], 1)) [[0; 0]; [5; 6]] 1) (Each [1; 2]) 1) as (cs & E & _ & H); [reflexivity..| |reflexivity|].
  - cbn [l_center In]. intros c [<-|[<-|[]]]; repeat eexists.
  - destruct (H 1%nat 5 6 [] eq_refl) as (q & r & Eq & (_ & _ & A) & [= <-]). exists cs, q. now repeat split.
Qed.
