(** C128: what is displayed. *)
From Coq Require Import Reals ZArith Bool String Lra Lia List.
From Verif Require Import Base BaseFacts DispModel DispSpec DispFacts.
Import ListNotations.
Open Scope R_scope.

(** The mask of a request, or else that of the time-ordered data, or the pixels of a map that
    are not covered. *)
Definition mask_or (own : option (list bool)) (m : option (list bool)) : option (list bool) := match m with None => own | m => m end.
Definition not_covered (coverage : option (list R)) : option (list bool) := option_map (map (fun x => if Rle_dec x 0 then true else false)) coverage.
Definition fitting (data : list (option R)) (mask : option (list bool)) (p : R + R * R) : Prop :=
  (forall m, mask = Some m -> length m = length data) /\ 0 <= fst (percentiles p) /\ fst (percentiles p) <= snd (percentiles p) /\ snd (percentiles p) <= 100.

Theorem C128_array : forall data r, fitting data (r_mask r) (r_percentile r) ->
  exists pic, fits_imshow data r = Ok pic /\ shows data (r_mask r) (percentiles (r_percentile r)) (p_data pic) (p_range pic) /\
  p_interpolation pic = r_interpolation r /\ p_origin pic = r_origin r /\ p_colorbar pic = r_colorbar r /\ p_new pic = r_new r.
Proof.
  intros data r (H1 & H2 & H3 & H4). destruct (prepare_ok data (r_mask r) (r_percentile r) H1 H2 H3 H4) as (image & range & E & S). unfold fits_imshow. rewrite E. cbn [bind fst snd].
  eexists. split; [reflexivity|]. cbn. auto.
Qed.
Print Assumptions C128_array.
(** With no percentage nothing is changed, and in general the order is kept. *)
Theorem C128_unchanged : forall data mask p image range, shows data mask p image range -> fst p <= 0 -> 100 <= snd p -> forall i, nth i image None = valid_value data mask i.
Proof.
  intros data mask p image range (L & H) P0 P1 i. cbv zeta in H. set (vs := valid_values data mask) in *.
  assert (Iv : forall v, valid_value data mask i = Some v -> In v vs).
  { intros v Evi. unfold vs, valid_values. apply in_flat_map. exists i. split; [|rewrite Evi; now left]. apply in_seq. split; [lia|]. cbn. unfold valid_value in Evi. destruct (masked_at mask i); [discriminate|]. destruct (le_lt_dec (length data) i) as [K|K]; [rewrite nth_overflow in Evi by exact K; discriminate | exact K]. }
  destruct vs as [|v0 vs'] eqn:Ev.
  - destruct H as [_ H]. rewrite H. destruct (valid_value data mask i) as [v|]; [destruct (Iv v eq_refl) | reflexivity].
  - rewrite <- Ev in *. destruct H as (lo & hi & _ & LH & H & CB & CA). rewrite H.
    assert (N1 : 0 <= INR (length vs) - 1) by (rewrite Ev; cbn [length]; rewrite S_INR; pose proof (pos_INR (length vs')); lra).
    assert (B0 : fst p / 100 * (INR (length vs) - 1) <= 0) by (rewrite <- (Rmult_0_l (INR (length vs) - 1)); apply Rmult_le_compat_r; lra). assert (B1 : (100 - snd p) / 100 * (INR (length vs) - 1) <= 0) by (rewrite <- (Rmult_0_l (INR (length vs) - 1)); apply Rmult_le_compat_r; lra).
    destruct (valid_value data mask i) as [v|]; [|reflexivity]. specialize (Iv v eq_refl). cbn [option_map]. f_equal.
    assert (Z : forall f dec, INR (count f dec vs) < 1 -> ~ f v). { intros f dec C F. assert (C0 : (count f dec vs < 1)%nat) by (apply INR_lt; exact C). unfold count in C0. assert (In v (filter (fun x => if dec x then true else false) vs)) by (apply filter_In; split; [exact Iv | destruct (dec v); [reflexivity | contradiction]]). destruct (filter _ vs); [contradiction | cbn in C0; lia]. }
    assert (lo <= v) by (apply Rnot_lt_le; apply (Z (fun x => x < lo) (fun x => Rlt_dec x lo)); unfold count_below in CB; lra). assert (v <= hi) by (apply Rnot_lt_le; apply (Z (fun x => hi < x) (fun x => Rlt_dec hi x)); unfold count_above in CA; lra).
    unfold within_range. rewrite Rmax_right, Rmin_right by lra. reflexivity.
Qed.
Print Assumptions C128_unchanged.
Theorem C128_order : forall data mask p image range i j u v, shows data mask p image range -> valid_value data mask i = Some u -> valid_value data mask j = Some v -> u <= v ->
  exists u' v', nth i image None = Some u' /\ nth j image None = Some v' /\ u' <= v'.
Proof.
  intros data mask p image range i j u v (L & H) Hu Hv Le. cbv zeta in H. destruct (valid_values data mask) as [|v0 vs'] eqn:Ev.
  - exfalso. assert (In u (valid_values data mask)); [|rewrite Ev in *; contradiction]. unfold valid_values. apply in_flat_map. exists i. split; [|rewrite Hu; now left]. apply in_seq. split; [lia|]. cbn. unfold valid_value in Hu. destruct (masked_at mask i); [discriminate|]. destruct (le_lt_dec (length data) i) as [K|K]; [rewrite nth_overflow in Hu by exact K; discriminate | exact K].
  - destruct H as (lo & hi & _ & LH & H & _). exists (within_range lo hi u), (within_range lo hi v). rewrite !H, Hu, Hv. split; [reflexivity|]. split; [reflexivity|]. unfold within_range. apply Rmin_glb; [apply Rmin_l|]. apply Rle_trans with (1 := Rmin_r _ _). apply Rmax_lub; [apply Rmax_l|]. apply Rle_trans with (1 := Le), Rmax_r.
Qed.
Print Assumptions C128_order.
Theorem C128_tod : forall own data r, let m := mask_or own (r_mask r) in fitting data m (r_percentile r) ->
  exists pic, tod_imshow own data r = Ok pic /\ shows data m (percentiles (r_percentile r)) (p_data pic) (p_range pic) /\ p_interpolation pic = r_interpolation r.
Proof.
  intros own data r m F. destruct (C128_array data (Request m (r_new r) (r_interpolation r) (r_origin r) (r_colorbar r) (r_percentile r)) F) as (pic & E & S & I & _). exists pic. split; [|split; [exact S | exact I]].
  unfold tod_imshow. unfold m, mask_or in E. destruct (r_mask r); exact E.
Qed.
Print Assumptions C128_tod.
Theorem C128_map_partial : forall has_wcs km coverage own data r, let m := mask_or (not_covered coverage) (r_mask r) in fitting data m (r_percentile r) ->
  (has_wcs = true -> km = true -> r_new r = true) ->
  exists pic, map_imshow has_wcs km coverage own data r = Ok pic /\ shows data m (percentiles (r_percentile r)) (p_data pic) (p_range pic) /\
  p_new pic = r_new r /\ (has_wcs && km = true \/ r_interpolation r = "nearest"%string -> p_interpolation pic = r_interpolation r) /\
  (has_wcs && km = false -> p_origin pic = match r_origin r with None => own | o => o end /\ p_colorbar pic = r_colorbar r).
Proof.
  intros has_wcs km coverage own data r m F N. unfold map_imshow. assert (Em : match r_mask r, coverage with None, Some c => Some (map (fun x : R => if Rle_dec x 0 then true else false) c) | m0, _ => m0 end = m) by (unfold m, mask_or, not_covered; destruct (r_mask r), coverage; reflexivity).
  rewrite Em. destruct (negb has_wcs || negb km) eqn:C.
  - destruct (C128_array data (Request m (r_new r) "nearest" (match r_origin r with None => own | Some o => Some o end) (r_colorbar r) (r_percentile r)) F) as (pic & E & S & I & O & B & W). exists pic. split; [exact E|]. split; [exact S|]. split; [exact W|]. split; [intros [K | ->]; [destruct has_wcs, km; discriminate | exact I]|]. intros _. split; [rewrite O; cbn; destruct (r_origin r); reflexivity | exact B].
  - destruct F as (H1 & H2 & H3 & H4). destruct (prepare_ok data m (r_percentile r) H1 H2 H3 H4) as (image & range & E & S). rewrite E. cbn [bind fst snd]. assert (Rn : r_new r = true) by (apply N; destruct has_wcs, km; auto; discriminate). rewrite Rn. eexists. split; [reflexivity|]. cbn. split; [exact S|]. split; [reflexivity|]. split; [reflexivity|]. destruct has_wcs, km; discriminate.
Qed.
Print Assumptions C128_map_partial.
(** Refuted: the interpolation of a map without astrometry, or without kapteyn, is ignored. *)
Theorem C128_interpolation_refuted : forall has_wcs km coverage own data r pic, has_wcs && km = false -> r_interpolation r <> "nearest"%string ->
  map_imshow has_wcs km coverage own data r = Ok pic -> p_interpolation pic <> r_interpolation r.
Proof.
  intros has_wcs km coverage own data r pic C N E. unfold map_imshow, fits_imshow in E. replace (negb has_wcs || negb km) with true in E by (destruct has_wcs, km; [discriminate | reflexivity..]).
  destruct (prepare _ _ _) as [d|]; [|discriminate]. cbn [bind] in E. injection E as <-. cbn. congruence.
Qed.
Print Assumptions C128_interpolation_refuted.
(** Refuted: with both, nothing can be displayed in the current figure. *)
Theorem C128_figure_refuted : forall coverage own data r, r_new r = false -> forall pic, map_imshow true true coverage own data r <> Ok pic.
Proof. intros coverage own data r N pic E. unfold map_imshow in E. cbn [negb orb] in E. destruct (prepare _ _ _) as [d|]; [|discriminate]. cbn [bind] in E. rewrite N in E. discriminate. Qed.
Print Assumptions C128_figure_refuted.
(** Refuted: with both, there is never a color bar. *)
Theorem C128_colorbar_refuted : forall coverage own data r pic, map_imshow true true coverage own data r = Ok pic -> p_colorbar pic = false.
Proof. intros coverage own data r pic E. unfold map_imshow in E. cbn [negb orb] in E. destruct (prepare _ _ _) as [d|]; [|discriminate]. cbn [bind] in E. destruct (r_new r); [injection E as <-; reflexivity | discriminate]. Qed.
Print Assumptions C128_colorbar_refuted.
Lemma example_prepare m : m = Some [false; true; false; false; false] -> prepare [Some 1; Some 5; None; Some 3; Some 2] m (inl 100) = Ok ([Some 2; None; None; Some 2; Some 2], (Some 2, Some 2)).
Proof.
  intros ->. unfold prepare. cbn [map combine fst snd orb length Nat.eqb bind flat_map app].
  assert (S : forall q, q = 50 -> scoreatpercentile [1; 3; 2] q = Ok (Some 2)).
  { intros q ->. rewrite score_between by (try discriminate; lra). do 2 f_equal. assert (Ss : sort_r [1; 3; 2] = [1; 2; 3]) by (cbn; destruct (Rle_dec 3 2); [lra|]; cbn; destruct (Rle_dec 1 2); [reflexivity | lra]). rewrite Ss. cbn [length INR].
    replace (50 / 100 * (1 + 1 + 1 - 1)) with 1 by field. unfold between. assert (I : Int_part 1 = 1%Z) by (destruct (base_Int_part 1) as [A B]; assert (Int_part 1 <= 1)%Z by (apply le_IZR; lra); assert (0 < Int_part 1)%Z by (apply lt_IZR; lra); lia). rewrite I. change (Z.to_nat 1) with 1%nat. cbn [nth INR]. lra. }
  rewrite (S (100 / 2)) by field. cbn [bind]. rewrite (S (100 - 100 / 2)) by field. cbn [bind below map combine fst snd].
  repeat match goal with |- context [Rlt_dec ?x ?y] => destruct (Rlt_dec x y); try lra end. cbn [below map combine fst snd]. repeat match goal with |- context [Rlt_dec ?x ?y] => destruct (Rlt_dec x y); try lra end. reflexivity.
Qed.
Example C128_example : let data := [Some 1; Some 5; None; Some 3; Some 2] in let r := Request (Some [false; true; false; false; false]) true "bilinear" None true (inl 100) in
  fitting data (r_mask r) (r_percentile r) /\ valid_values data (r_mask r) = [1; 3; 2] /\
  exists pic, fits_imshow data r = Ok pic /\ p_data pic = [Some 2; None; None; Some 2; Some 2] /\ p_range pic = (Some 2, Some 2) /\
  map_imshow false true (Some [1; 0; 1; 1; 1]) None data (Request None true "bilinear" None true (inl 100)) = Ok (Picture (p_data pic) (Some 2, Some 2) "nearest" None true true) /\
  map_imshow true true (Some [1; 0; 1; 1; 1]) None data (Request None false "bilinear" None true (inl 100)) = Err UnboundLocalError.
Proof.
  cbv zeta. split; [|split].
  - unfold fitting. cbn. split; [intros m E; injection E as <-; reflexivity | lra].
  - reflexivity.
  - eexists. split; [unfold fits_imshow; cbn [r_mask r_percentile]; rewrite example_prepare by reflexivity; reflexivity|]. cbn [fst snd p_data p_range]. split; [reflexivity|]. split; [reflexivity|].
    assert (M : map (fun x : R => if Rle_dec x 0 then true else false) [1; 0; 1; 1; 1] = [false; true; false; false; false]) by (cbn; destruct (Rle_dec 1 0), (Rle_dec 0 0); (lra || reflexivity)).
    split.
    + unfold map_imshow, fits_imshow. cbn [negb orb r_mask r_percentile]. rewrite example_prepare by (rewrite M; reflexivity). reflexivity.
    + unfold map_imshow. cbn [negb orb r_mask r_percentile]. rewrite example_prepare by (rewrite M; reflexivity). reflexivity.
Qed.

(** ** ds9 *)
Lemma values_app k a b : option_values k (a ++ b) = (option_values k a ++ option_values k b)%list.
Proof. unfold option_values. now rewrite filter_app, map_app. Qed.
Lemma values_one k k' l : option_values k (map (fun v => (k', v)) l) = if String.eqb k' k then l else [].
Proof. unfold option_values. induction l as [|v l IH]; cbn; [destruct (String.eqb k' k); reflexivity|]. destruct (String.eqb k' k); cbn; congruence. Qed.
Definition flat (kw : list (string * list string)) : list (string * string) := flat_map (fun e => map (fun v => (fst e, v)) (snd e)) kw.
Lemma flat_app a b : flat (a ++ b) = (flat a ++ flat b)%list.
Proof. unfold flat. now rewrite !flat_map_concat_map, map_app, concat_app. Qed.
Lemma values_flat k kw : NoDup (map fst kw) -> option_values k (flat kw) = match lookup k kw with Some v => v | None => [] end.
Proof.
  intros N. induction kw as [|[k' v] kw IH]; [reflexivity|]. inversion N as [|x l H1 H2]; subst. unfold flat. cbn [flat_map fst snd]. fold (flat kw). rewrite values_app, values_one, (IH H2). unfold lookup. cbn [find fst]. destruct (String.eqb_spec k' k) as [-> |]; cbn [option_map snd].
  - fold (lookup k kw). assert (E : lookup k kw = None). { unfold lookup. destruct (find _ kw) as [[a b]|] eqn:F; [|reflexivity]. apply find_some in F as [F1 F2]. cbn in F2. apply String.eqb_eq in F2. subst. exfalso. apply H1. cbn. apply in_map_iff. now exists (k, b). }
    rewrite E. apply app_nil_r.
  - reflexivity.
Qed.
Lemma lookup_app k k' v kw : lookup k (kw ++ [(k', v)]) = match lookup k kw with Some w => Some w | None => if String.eqb k' k then Some v else None end.
Proof. unfold lookup. induction kw as [|[a b] kw IH]; cbn; [destruct (String.eqb k' k); reflexivity|]. destruct (String.eqb a k); [reflexivity | exact IH]. Qed.
Lemma lookup_none k kw : lookup k kw = None -> ~ In k (map fst kw).
Proof. unfold lookup. intros E H. apply in_map_iff in H as ([a b] & Ea & H). cbn in Ea. subst a. destruct (find _ kw) eqn:F; [discriminate|]. apply (find_none _ _ F) in H. cbn in H. now rewrite String.eqb_refl in H. Qed.
Definition with_default (k : string) (v : list string) (kw : list (string * list string)) := if given k kw then kw else app kw [(k, v)].
Lemma default_ok k v kw : NoDup (map fst kw) -> NoDup (map fst (with_default k v kw)) /\ forall k', lookup k' (with_default k v kw) = match lookup k' kw with Some w => Some w | None => if String.eqb k k' then Some v else None end.
Proof.
  intros N. unfold with_default, given. destruct (lookup k kw) as [w|] eqn:E.
  - split; [exact N|]. intros k'. destruct (lookup k' kw) eqn:E'; [reflexivity|]. destruct (String.eqb_spec k k') as [-> |]; congruence.
  - split; [|intros k'; apply lookup_app]. rewrite map_app. cbn. apply (Permutation.Permutation_NoDup (l := k :: map fst kw)); [apply Permutation.Permutation_cons_append | constructor; [now apply lookup_none | exact N]].
Qed.
Lemma orient_ok o kw : (if String.eqb o "upper" && negb (given "orient" kw) then app kw [("orient", ["y"])] else kw)%string = if String.eqb o "upper" then with_default "orient" ["y"%string] kw else kw.
Proof. unfold with_default. destruct (String.eqb o "upper"), (given "orient" kw); reflexivity. Qed.
(** A new instance has the options of the call, and those by default that the call does not give. *)
Theorem C128_ds9_new : forall targets id own origin new kw, new = true \/ targets = None -> NoDup (map fst kw) -> exists options, ds9 targets id own origin new kw = Ok (id, Some options) /\
  forall k, k <> "title"%string -> option_values k options = match lookup k kw with
    | Some v => v
    | None => if String.eqb k "cmap" then ["heat"%string]
              else if String.eqb k "scale" then ["scope local"; "mode 99.5"]%string
              else if String.eqb k "orient" && String.eqb (match origin with Some o => o | None => match own with Some o => o | None => "lower"%string end end) "upper" then ["y"%string]
              else [] end.
Proof.
  intros targets id own origin new kw T N. unfold ds9. replace (if new then None else _) with (@None string) by (destruct new; [reflexivity|]; destruct T as [T|T]; [discriminate | now rewrite T]).
  eexists. split; [reflexivity|]. intros k Hk. change (("title"%string, id) :: ?l) with ([("title"%string, id)] ++ l)%list. rewrite values_app. replace (option_values k [("title"%string, id)]) with (@nil string) by (unfold option_values; cbn [filter map fst]; destruct (String.eqb_spec "title" k); [congruence | reflexivity]). cbn [app].
  fold (with_default "cmap" ["heat"%string] kw). destruct (default_ok "cmap" ["heat"%string] kw N) as [N1 L1]. set (kw1 := with_default "cmap" ["heat"%string] kw) in *.
  fold (with_default "scale" ["scope local"; "mode 99.5"]%string kw1). destruct (default_ok "scale" ["scope local"; "mode 99.5"]%string kw1 N1) as [N2 L2]. set (kw2 := with_default "scale" ["scope local"; "mode 99.5"]%string kw1) in *.
  replace (match origin with Some o => o | None => match own with Some o => o | None => "lower"%string end end) with (match origin with None => match own with Some o => o | None => "lower"%string end | Some o => o end) by reflexivity.
  set (o := match origin with Some o => o | None => _ end). rewrite orient_ok.
  assert (Q : forall a b : string, String.eqb a b = String.eqb b a) by apply String.eqb_sym. rewrite (Q k "cmap"%string), (Q k "scale"%string), (Q k "orient"%string).
  destruct (String.eqb o "upper") eqn:Eo.
  - destruct (default_ok "orient" ["y"%string] kw2 N2) as [N3 L3]. fold (flat (with_default "orient" ["y"%string] kw2)). rewrite values_flat, L3, L2, L1 by exact N3. destruct (lookup k kw); [reflexivity|]. destruct (String.eqb "cmap" k); [reflexivity|]. destruct (String.eqb "scale" k); [reflexivity|]. destruct (String.eqb "orient" k); reflexivity.
  - fold (flat kw2). rewrite values_flat, L2, L1 by exact N2. destruct (lookup k kw); [reflexivity|]. destruct (String.eqb "cmap" k); [reflexivity|]. destruct (String.eqb "scale" k); [reflexivity|]. destruct (String.eqb "orient" k); reflexivity.
Qed.
Print Assumptions C128_ds9_new.
Example C128_ds9_example : (NoDup (map fst [("cmap", ["invert yes"]); ("height", ["400"])]) /\
  ds9 (Some ["old"]) "new" None (Some "upper") true [("cmap", ["invert yes"]); ("height", ["400"])] = Ok ("new", Some [("title", "new"); ("cmap", "invert yes"); ("height", "400"); ("scale", "scope local"); ("scale", "mode 99.5"); ("orient", "y")]))%string.
Proof. split; [|reflexivity]. cbn. repeat constructor; cbn; intuition discriminate. Qed.
(** Refuted: the running instance cannot be used. *)
Theorem C128_current_refuted : forall l id own origin kw, ds9 (Some l) id own origin false kw = Err UnboundLocalError.
Proof. reflexivity. Qed.
Print Assumptions C128_current_refuted.

