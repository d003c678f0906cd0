(** C130: saved displays, ds9 and plots of time-ordered data. *)
From Coq Require Import Reals List ZArith Bool String Ascii Lia Lra.
From Verif Require Import Base BaseFacts DispModel DispSpec DispFacts DispProps ShowModel.
Import ListNotations.

(** ** imsave *)
Open Scope R_scope.
(** The side of the figure: that of the larger side of the image at 80 dots per inch, brought
    between 8 and 50 inches. *)
Definition figure_side (shape : list R) (s : R) : Prop := 8 <= s <= 50 /\ (forall d, In d shape -> d / 80 <= s \/ s = 50) /\ (s = 8 \/ exists d, In d shape /\ s <= d / 80).
Lemma fold_max : forall l x, x <= fold_left Rmax l x /\ (forall y, In y l -> y <= fold_left Rmax l x) /\ (fold_left Rmax l x = x \/ In (fold_left Rmax l x) l).
Proof.
  induction l as [|a l IH]; intros x; cbn; [split; [lra | split; [tauto | now left]]|]. destruct (IH (Rmax x a)) as (H1 & H2 & H3). pose proof (Rmax_l x a) as L. pose proof (Rmax_r x a) as R.
  split; [lra|]. split; [intros y [<- | I]; [lra | now apply H2]|]. destruct H3 as [E | I]; [|tauto]. rewrite E. unfold Rmax. destruct (Rle_dec x a); tauto.
Qed.
Lemma side_ok shape m : max_list (map (fun d => d / 80) (rev shape)) = Ok m -> figure_side shape (clip 8 50 m).
Proof.
  unfold max_list. destruct (map _ (rev shape)) as [|x r] eqn:E; [discriminate|]. intros K. injection K as <-. destruct (fold_max r x) as (H1 & H2 & H3). set (m := fold_left Rmax r x) in *.
  assert (All : forall d, In d shape -> d / 80 <= m). { intros d I. assert (In (d / 80) (x :: r)) as [<- | J] by (rewrite <- E; apply in_map_iff; exists d; split; [reflexivity | now apply in_rev in I]); [exact H1 | now apply H2]. }
  assert (Is : exists d, In d shape /\ d / 80 = m). { assert (In m (x :: r)) as J by (destruct H3 as [-> |]; cbn; tauto). rewrite <- E in J. apply in_map_iff in J. destruct J as (d & <- & J). exists d. split; [now apply in_rev | reflexivity]. }
  unfold figure_side, clip. unfold Rmin, Rmax. destruct (Rle_dec 8 m); destruct (Rle_dec 50 _); repeat split; try lra; try (intros d I; pose proof (All d I); lra); destruct Is as (d & I & Ed); (left; lra) || (right; exists d; split; [exact I | lra]).
Qed.
(** What is saved is what imshow displays in the current figure, and the mode is restored. *)
Theorem C130_imsave : forall shape data r mode, shape <> [] -> fitting data (r_mask r) (r_percentile r) ->
  exists s pic, fits_imsave shape data r mode = (mode, Ok ((if r_colorbar r then s + 2 else s, s), pic)) /\ figure_side shape s /\
    shows data (r_mask r) (percentiles (r_percentile r)) (p_data pic) (p_range pic) /\ p_colorbar pic = r_colorbar r /\ p_new pic = false /\ p_interpolation pic = r_interpolation r.
Proof.
  intros shape data r mode N F. unfold fits_imsave, imsave. destruct (max_list _) as [m|e] eqn:E.
  2: { exfalso. unfold max_list in E. destruct (map _ (rev shape)) eqn:E'; [|discriminate]. apply map_eq_nil in E'. apply (f_equal (@rev R)) in E'. rewrite rev_involutive in E'. contradiction. }
  destruct (C128_array data (with_figure r (r_colorbar r) false) F) as (pic & Ep & S & I & _ & C & W). rewrite Ep. exists (clip 8 50 m), pic. split; [destruct (r_colorbar r); [reflexivity | rewrite Rplus_0_r; reflexivity]|].
  split; [now apply side_ok|]. split; [exact S|]. split; [exact C|]. split; [exact W | exact I].
Qed.
Print Assumptions C130_imsave.
(** Refuted: a map with astrometry cannot be saved when kapteyn is installed, and matplotlib is
    then left in the mode that is not interactive. *)
Theorem C130_imsave_refuted : forall coverage own shape data r mode, fst (map_imsave true true coverage own shape data r mode) = false /\ forall v, snd (map_imsave true true coverage own shape data r mode) <> Ok v.
Proof.
  intros coverage own shape data r mode. unfold map_imsave, imsave. destruct (max_list _) as [m|e]; [|split; [reflexivity | discriminate]].
  destruct (map_imshow true true coverage own data (with_figure r (r_colorbar r) false)) as [p|e] eqn:E; [|split; [reflexivity | discriminate]].
  exfalso. exact (C128_figure_refuted coverage own data (with_figure r (r_colorbar r) false) eq_refl p E).
Qed.
Print Assumptions C130_imsave_refuted.
Example C130_imsave_example : [320; 800] <> [] /\ fitting [Some 1; Some 5; None; Some 3; Some 2] (Some [false; true; false; false; false]) (inl 100) /\ figure_side [320; 800] 10.
Proof.
  split; [discriminate|]. split; [exact (proj1 C128_example)|]. unfold figure_side. split; [lra|]. split; [intros d [<- | [<- | []]]; lra|]. right. exists 800. split; [cbn; tauto | lra].
Qed.

(** ** ds9 *)
Open Scope Z_scope.
Theorem C130_integers_partial : forall v, - 2 ^ 31 <= v < 2 ^ 31 <-> to_int32 v = v.
Proof. intros v. unfold to_int32. change (2 ^ 31) with 2147483648. change (2 ^ 32) with 4294967296. split; intros H; lia. Qed.
Print Assumptions C130_integers_partial.
(** Refuted: larger integers are displayed as others. *)
Theorem C130_integers_refuted : to_int32 (2 ^ 31) = - 2 ^ 31 /\ to_int32 (2 ^ 32) = 0.
Proof. split; reflexivity. Qed.
Print Assumptions C130_integers_refuted.
(** [s] spells the word [w], up to spaces around it and to capitals: the characters that
    str.strip removes and str.lower changes, for characters below 128. *)
Definition space_codes : list nat := [9; 10; 11; 12; 13; 28; 29; 30; 31; 32]%nat.
Definition is_space (c : ascii) : Prop := In (nat_of_ascii c) space_codes.
Definition capitals : list ascii := list_ascii_of_string "ABCDEFGHIJKLMNOPQRSTUVWXYZ".
Definition smalls : list ascii := list_ascii_of_string "abcdefghijklmnopqrstuvwxyz".
Definition small_of (c d : ascii) : Prop := In (c, d) (combine capitals smalls) \/ ~ In c capitals /\ d = c.
Definition spells (s w : string) : Prop := exists b m b', list_ascii_of_string s = b ++ m ++ b' /\ Forall is_space b /\ Forall is_space b' /\ Forall2 small_of m (list_ascii_of_string w).
Lemma blank_ok c : blank c = true <-> is_space c.
Proof.
  unfold blank, is_space, space_codes. set (n := nat_of_ascii c). rewrite orb_true_iff, !andb_true_iff, !Nat.leb_le. cbn [In]. split; lia.
Qed.
Lemma small_lower c d : small_of c d <-> lower_char c = d.
Proof.
  split.
  - intros [I | [N ->]].
    + cbv in I. repeat (destruct I as [I | I]; [injection I as <- <-; reflexivity|]). destruct I.
    + destruct c as [[|] [|] [|] [|] [|] [|] [|] [|]]; try reflexivity; exfalso; apply N; cbv; tauto.
  - intros <-. destruct (in_dec ascii_dec c capitals) as [I | N].
    + left. cbv in I. repeat (destruct I as [<- | I]; [cbv; tauto|]). destruct I.
    + right. split; [exact N|]. destruct c as [[|] [|] [|] [|] [|] [|] [|] [|]]; try reflexivity; exfalso; apply N; cbv; tauto.
Qed.
Lemma small_list m w : Forall2 small_of m w <-> map lower_char m = w.
Proof.
  split; [induction 1 as [|c d m w H _ IH]; cbn; [reflexivity | apply small_lower in H; congruence]|]. intros <-. induction m; cbn; constructor; [now apply small_lower | exact IHm].
Qed.
Lemma drop_ok l : exists b, l = b ++ drop_blanks l /\ Forall is_space b /\ match drop_blanks l with [] => True | c :: _ => blank c = false end.
Proof.
  induction l as [|c l (b & E & F & N)]; [exists []; repeat constructor|]. cbn [drop_blanks]. destruct (blank c) eqn:B; [|exists []; repeat split; [constructor | exact B]]. exists (c :: b). cbn [app]. rewrite <- E. split; [reflexivity|]. split; [constructor; [now apply blank_ok | exact F] | exact N].
Qed.
Lemma drop_spaces b l : Forall is_space b -> drop_blanks (b ++ l) = drop_blanks l.
Proof. induction 1 as [|c b H _ IH]; [reflexivity|]. cbn. apply blank_ok in H. now rewrite H. Qed.
Lemma drop_none l : match l with [] => True | c :: _ => blank c = false end -> drop_blanks l = l.
Proof. destruct l as [|c l]; [reflexivity|]. intros H. cbn. now rewrite H. Qed.
(** A word of small letters. *)
Definition word (w : string) : Prop := w <> ""%string /\ forall c, In c (list_ascii_of_string w) -> In c smalls.
Lemma spells_ok s w : word w -> strip_lower s = w <-> spells s w.
Proof.
  intros [Nw Hw]. unfold strip_lower, spells. set (l := list_ascii_of_string s). set (v := list_ascii_of_string w) in *.
  assert (Ew : w = string_of_list_ascii v) by (symmetry; apply string_of_list_ascii_of_string).
  assert (Sp : forall c, In (lower_char c) v -> blank c = false). { intros c I. apply Hw in I. destruct (blank c) eqn:B; [|reflexivity]. exfalso. apply blank_ok in B. rewrite <- (ascii_nat_embedding c) in I. unfold is_space, space_codes in B. cbn [In] in B. repeat (destruct B as [B | B]; [rewrite <- B in I; cbv in I; repeat (destruct I as [I | I]; [discriminate I|]); exact I|]). exact B. }
  split.
  - intros E. destruct (drop_ok l) as (b & E1 & F1 & N1). set (l1 := drop_blanks l) in *. destruct (drop_ok (rev l1)) as (b' & E2 & F2 & N2). set (l2 := drop_blanks (rev l1)) in *. exists b, (rev l2), (rev b'). split; [|split; [exact F1|split]].
    + rewrite E1. f_equal. rewrite <- rev_app_distr, <- E2. now rewrite rev_involutive.
    + now apply Forall_rev.
    + apply small_list. unfold v. rewrite <- E. symmetry. apply list_ascii_of_string_of_list_ascii.
  - intros (b & m & b' & E & Fb & Fb' & F). apply small_list in F. rewrite Ew. f_equal. rewrite <- F. f_equal. rewrite E, drop_spaces by exact Fb.
    assert (All : forall c, In c m -> blank c = false) by (intros c I; apply Sp; rewrite <- F; now apply List.in_map).
    assert (m <> []) by (intros ->; cbn in F; apply Nw; rewrite Ew, <- F; reflexivity).
    rewrite (drop_none (m ++ b')) by (destruct m; [contradiction | apply All; now left]). rewrite rev_app_distr, drop_spaces by now apply Forall_rev. rewrite drop_none; [now rewrite rev_involutive|]. destruct (rev m) as [|c r] eqn:Er; [exact I|]. apply All, in_rev. rewrite Er. now left.
Qed.
Lemma word_lower : word "lower". Proof. split; [discriminate|]. intros c H. cbv in H |- *. intuition congruence. Qed.
Lemma word_upper : word "upper". Proof. split; [discriminate|]. intros c H. cbv in H |- *. intuition congruence. Qed.
Lemma replace_nth_same {A} : forall (l : list A) i x, (i < length l)%nat -> nth_error (replace_nth l i x) i = Some x.
Proof. induction l as [|y l IH]; intros [|i] x H; cbn in *; try lia; [reflexivity | apply IH; lia]. Qed.
Lemma replace_nth_other {A} : forall (l : list A) i j x, i <> j -> nth_error (replace_nth l i x) j = nth_error l j.
Proof. induction l as [|y l IH]; intros [|i] [|j] x H; cbn; try reflexivity; try congruence. apply IH. congruence. Qed.
(** The array is displayed with the given origin, otherwise with its own, and nothing changes if no
    origin is given or if the array is not a map. *)
Theorem C130_ds9_partial : forall h i o origin, nth_error h i = Some o -> o_contiguous o = true ->
  (origin = None -> ds9_call h i origin = Ok (h, if o_map o then o_origin o else "lower"%string)) /\
  (forall s w, origin = Some s -> w = "lower"%string \/ w = "upper"%string -> spells s w -> exists h', ds9_call h i origin = Ok (h', w) /\ (o_map o = false -> h' = h)) /\
  (forall s, origin = Some s -> ~ spells s "lower" -> ~ spells s "upper" -> ds9_call h i origin = Err ValueError).
Proof.
  intros h i o origin E C. unfold ds9_call. rewrite E, C. cbn [negb]. split; [intros ->; reflexivity|]. split.
  - intros s w -> Hw H. assert (S : strip_lower s = w) by (destruct Hw as [-> | ->]; apply spells_ok; auto using word_lower, word_upper). rewrite S. assert (B : (String.eqb w "lower" || String.eqb w "upper")%bool = true) by (destruct Hw as [-> | ->]; reflexivity). rewrite B. eexists. split; [reflexivity|]. intros ->. reflexivity.
  - intros s -> N1 N2. rewrite <- (spells_ok _ _ word_lower) in N1. rewrite <- (spells_ok _ _ word_upper) in N2. apply String.eqb_neq in N1, N2. rewrite N1, N2. reflexivity.
Qed.
Print Assumptions C130_ds9_partial.
(** Refuted: displaying a map with another origin changes the origin of that map, and only it. *)
Theorem C130_origin_refuted : forall h i o s w h' d, nth_error h i = Some o -> o_map o = true -> w = "lower"%string \/ w = "upper"%string -> spells s w -> w <> o_origin o -> ds9_call h i (Some s) = Ok (h', d) ->
  nth_error h' i = Some (Object (o_map o) (o_contiguous o) w) /\ nth_error h' i <> nth_error h i /\ forall j, j <> i -> nth_error h' j = nth_error h j.
Proof.
  intros h i o s w h' d E M Hw H N. assert (S : strip_lower s = w) by (destruct Hw as [-> | ->]; apply spells_ok; auto using word_lower, word_upper). unfold ds9_call. rewrite E, M, S. destruct (o_contiguous o) eqn:C; [|discriminate]. cbn [negb]. destruct (_ || _)%bool; [|discriminate]. intros K. injection K as <- _.
  rewrite replace_nth_same by (apply nth_error_Some; congruence). split; [reflexivity|]. split; [intros K; injection K as K; rewrite <- K in N; now apply N | intros j Hj; apply replace_nth_other; congruence].
Qed.
Print Assumptions C130_origin_refuted.
(** Refuted: arrays in another order, such as transposed ones, are not displayed. *)
Theorem C130_order_refuted : forall h i o origin, nth_error h i = Some o -> o_contiguous o = false -> ds9_call h i origin = Err ValueError.
Proof. intros h i o origin E C. unfold ds9_call. rewrite E, C. reflexivity. Qed.
Print Assumptions C130_order_refuted.
Example C130_ds9_example : let h := [Object true true "lower"; Object false true "lower"]%string in
  (ds9_call h 0 (Some " Upper ") = Ok ([Object true true "upper"; Object false true "lower"], "upper") /\ ds9_call h 1 (Some "upper") = Ok (h, "upper") /\ ds9_call h 0 (Some "left") = Err ValueError)%string.
Proof. repeat split. Qed.

(** ** plot_tod *)
(** The samples of a detector, numbered, and those that a mask selects. *)
Definition sample {A} (ns : Z) (tod : list A) (d k : Z) : res A := get tod (d * ns + k).
Definition drawn {A} (ns : Z) (tod : list A) (mask : option (list bool)) (d : Z) (p : list A * option (list (Z * A))) : Prop :=
  zlen (fst p) = ns /\ (forall k, 0 <= k < ns -> get (fst p) k = sample ns tod d k) /\
  match mask, snd p with
  | None, None => True
  | Some m, Some pts => Sorted.StronglySorted Z.lt (map fst pts) /\ forall k x, In (k, x) pts <-> 0 <= k < ns /\ get m (d * ns + k) = Ok true /\ sample ns tod d k = Ok x
  | _, _ => False
  end.
Lemma skip_nth {B} : forall a (l : list B) j, nth_error (skipn a l) j = nth_error l (a + j).
Proof. induction a as [|a IH]; intros [|x l] j; cbn; try reflexivity; [destruct j; reflexivity | apply IH]. Qed.
Lemma first_nth {B} : forall k (l : list B) j, (j < k)%nat -> nth_error (firstn k l) j = nth_error l j.
Proof. induction k as [|k IH]; intros [|x l] [|j] H; cbn; try lia; try reflexivity. apply IH. lia. Qed.
Lemma get_row {B} (l : list B) nd ns d k : zlen l = nd * ns -> 0 <= d < nd -> 0 <= k < ns -> get (firstn (Z.to_nat ns) (skipn (Z.to_nat (d * ns)) l)) k = get l (d * ns + k).
Proof.
  intros L Hd Hk. assert (0 <= d * ns) by nia. unfold get. destruct (Z.ltb_spec k 0); [lia|]. destruct (Z.ltb_spec (d * ns + k) 0); [lia|]. rewrite first_nth, skip_nth by lia. replace (Z.to_nat (d * ns) + Z.to_nat k)%nat with (Z.to_nat (d * ns + k)) by lia. reflexivity.
Qed.
Lemma row_len {B} (l : list B) nd ns d : zlen l = nd * ns -> 0 <= d < nd -> 0 <= ns -> zlen (firstn (Z.to_nat ns) (skipn (Z.to_nat (d * ns)) l)) = ns.
Proof. intros L Hd Hs. unfold zlen in *. rewrite firstn_length, skipn_length. assert (d * ns + ns <= nd * ns) by nia. assert (0 <= d * ns) by nia. lia. Qed.
Lemma where_in : forall m i k, In k (where_ m i) <-> i <= k /\ get m (k - i) = Ok true.
Proof.
  induction m as [|b m IH]; intros i k.
  - cbn. split; [tauto|]. intros [H E]. apply get_ok in E. destruct E as [_ E]. destruct (Z.to_nat (k - i)); discriminate.
  - assert (G : forall j, 0 < j -> get (b :: m) j = get m (j - 1)). { intros j Hj. unfold get. destruct (Z.ltb_spec j 0); [lia|]. destruct (Z.ltb_spec (j - 1) 0); [lia|]. replace (Z.to_nat j) with (S (Z.to_nat (j - 1))) by lia. reflexivity. }
    assert (Z0 : get (b :: m) 0 = Ok b) by reflexivity.
    assert (T : In k (where_ m (i + 1)) <-> i < k /\ get (b :: m) (k - i) = Ok true). { rewrite IH. split; intros [H E]; (split; [lia|]). - rewrite G by lia. replace (k - i - 1) with (k - (i + 1)) by lia. exact E. - rewrite G in E by lia. replace (k - i - 1) with (k - (i + 1)) in E by lia. exact E. }
    destruct b; cbn [where_].
    + cbn [In]. rewrite T. split; [intros [<- | [H E]]; [split; [lia | rewrite Z.sub_diag; exact Z0] | split; [lia | exact E]]|]. intros [H E]. destruct (Z.eq_dec i k); [now left | right; split; [lia | exact E]].
    + rewrite T. split; intros [H E]; (split; [|exact E]); [lia|]. destruct (Z.eq_dec i k) as [-> |]; [|lia]. rewrite Z.sub_diag, Z0 in E. discriminate.
Qed.
Lemma where_sorted : forall m i, Sorted.StronglySorted Z.lt (where_ m i).
Proof. induction m as [|b m IH]; intros i; cbn; [constructor|]. destruct b; [|apply IH]. constructor; [apply IH|]. apply Forall_forall. intros k H. apply where_in in H. lia. Qed.
Lemma prod_fold : forall l x, fold_left Z.mul l x = x * fold_right Z.mul 1 l.
Proof. induction l as [|a l IH]; intros x; cbn; [lia|]. rewrite IH. lia. Qed.
Lemma reshape_ok {B} (l : list B) nd ns : 0 < nd -> zlen l = nd * ns -> reshape2 nd l = Ok (ns, fun d => firstn (Z.to_nat ns) (skipn (Z.to_nat (d * ns)) l)).
Proof.
  intros Hn L. unfold reshape2. destruct (Z.eqb_spec nd 0); [lia|]. rewrite L, (Z.mul_comm nd), Z.mod_mul, Z.div_mul by lia. reflexivity.
Qed.
Definition label_of (unit : string) : string := if String.eqb unit "" then "Signal"%string else append "Signal [" (append unit "]").
(** Each detector has its line, and its masked samples, and only them, are shown. *)
Theorem C130_plot : forall (A : Type) shape (tod : list A) own mask unit nd ns, let m := match mask with None => own | m => m end in
  nd = fold_right Z.mul 1 (removelast shape) -> 0 < nd -> 0 <= ns -> zlen tod = nd * ns -> (forall b, m = Some b -> zlen b = nd * ns) ->
  ((exists b, m = Some b /\ ~ In false b) /\ plot_tod shape tod own mask unit = Ok ([], ""%string) \/
   ~ (exists b, m = Some b /\ ~ In false b) /\ exists lines, plot_tod shape tod own mask unit = Ok (lines, label_of unit) /\ Forall2 (drawn ns tod m) (iota nd) lines).
Proof.
  intros A shape tod own mask unit nd ns m En Hn Hs Lt Lm. unfold plot_tod. fold m. unfold prod. rewrite prod_fold, Z.mul_1_l, <- En. rewrite (reshape_ok tod nd ns Hn Lt). cbn [bind snd].
  fold (label_of unit). destruct m as [b|] eqn:Em.
  - rewrite (reshape_ok b nd ns Hn (Lm b eq_refl)). cbn [bind snd]. destruct (forallb (fun b0 => b0) b) eqn:Eb.
    + left. split; [|reflexivity]. exists b. split; [reflexivity|]. intros I. rewrite forallb_forall in Eb. specialize (Eb false I). discriminate.
    + right. split. { intros (b' & Eb' & N). injection Eb' as <-. assert (forallb (fun b0 => b0) b = true); [|congruence]. apply forallb_forall. intros [|] I; [reflexivity | contradiction]. }
      match goal with |- context [map_res ?f (iota nd)] => assert (K : exists lines, map_res f (iota nd) = Ok lines /\ Forall2 (drawn ns tod (Some b)) (iota nd) lines) end.
      { assert (Hi : forall d, In d (iota nd) -> 0 <= d < nd) by (intros d; apply In_iota). revert Hi. generalize (iota nd). induction l as [|d l IH]; intros Hi; [exists []; split; [reflexivity | constructor]|].
        destruct IH as (lines & E & F); [intros; apply Hi; now right|]. pose proof (Hi d (or_introl eq_refl)) as Hd. set (row := firstn (Z.to_nat ns) (skipn (Z.to_nat (d * ns)) tod)) in *. set (mrow := firstn (Z.to_nat ns) (skipn (Z.to_nat (d * ns)) b)) in *.
        assert (Lr : zlen row = ns) by (unfold row; apply (row_len tod nd); lia). assert (Lmr : zlen mrow = ns) by (unfold mrow; apply (row_len b nd); [exact (Lm b eq_refl) | lia..]).
        assert (Gr : forall k, 0 <= k < ns -> get row k = get tod (d * ns + k)) by (intros; unfold row; apply (get_row tod nd); lia).
        assert (Gm : forall k, 0 <= k < ns -> get mrow k = get b (d * ns + k)) by (intros; unfold mrow; apply (get_row b nd); [exact (Lm b eq_refl) | lia..]).
        assert (W : forall k, In k (where_ mrow 0) <-> 0 <= k < ns /\ get b (d * ns + k) = Ok true).
        { intros k. rewrite where_in, Z.sub_0_r. split; [intros [H G] | intros [H G]]; [|split; [lia | rewrite Gm by lia; exact G]]. assert (k < ns) by (apply get_ok in G; destruct G as [_ G]; assert (Z.to_nat k < length mrow)%nat by (apply nth_error_Some; congruence); unfold zlen in Lmr; lia). split; [lia|]. rewrite <- Gm by lia. exact G. }
        assert (Pt : exists pts, map_res (fun k => do x <- get row k; Ok (k, x)) (where_ mrow 0) = Ok pts /\ map fst pts = where_ mrow 0 /\ forall k x, In (k, x) pts -> get row k = Ok x).
        { assert (Wi : forall k, In k (where_ mrow 0) -> 0 <= k < ns) by (intros k I; apply W in I; tauto). revert Wi. generalize (where_ mrow 0). induction l0 as [|k l0 IH0]; intros Wi; [exists []; repeat split; intros ? ? []|].
          destruct IH0 as (pts & E0 & M0 & P0); [intros; apply Wi; now right|]. destruct (get_total row k ltac:(rewrite Lr; apply Wi; now left)) as (x & Ex). exists ((k, x) :: pts). cbn [map_res]. rewrite Ex. cbn [bind]. rewrite E0. split; [reflexivity|]. split; [cbn; now rewrite M0|]. intros k' x' [I | I]; [|now apply P0]. injection I as <- <-. exact Ex. }
        destruct Pt as (pts & Ep & Mp & Pp). cbn [map_res]. fold row mrow. rewrite Ep. cbn [bind]. rewrite E. cbn [bind]. eexists. split; [reflexivity|]. constructor; [|exact F].
        unfold drawn. cbn [fst snd]. split; [exact Lr|]. split; [exact Gr|]. split; [rewrite Mp; apply where_sorted|]. intros k x. split.
        - intros I. assert (Ik : In k (where_ mrow 0)) by (rewrite <- Mp; apply (in_map fst) in I; exact I). apply W in Ik. destruct Ik as [Hk Gk]. split; [exact Hk|]. split; [exact Gk|]. unfold sample. rewrite <- Gr by lia. now apply Pp.
        - intros (Hk & Gk & Sx). assert (Ik : In k (map fst pts)) by (rewrite Mp; apply W; tauto). apply in_map_iff in Ik. destruct Ik as ((k' & x') & <- & I). cbn [fst] in *. pose proof (Pp _ _ I) as E'. rewrite Gr in E' by lia. unfold sample in Sx. rewrite E' in Sx. injection Sx as <-. exact I. }
      destruct K as (lines & E & F). rewrite E. cbn [bind]. exists lines. split; [reflexivity | exact F].
  - right. cbn [bind]. split; [intros (b & Eb & _); discriminate|]. eexists. split; [reflexivity|].
    assert (Hi : forall d, In d (iota nd) -> 0 <= d < nd) by (intros d; apply In_iota). revert Hi. generalize (iota nd). induction l as [|d l IH]; intros Hi; cbn; constructor; [|apply IH; intros; apply Hi; now right].
    pose proof (Hi d (or_introl eq_refl)) as Hd. unfold drawn, sample. cbn [fst snd]. split; [apply (row_len tod nd); lia|]. split; [intros; apply (get_row tod nd); lia | exact I].
Qed.
Print Assumptions C130_plot.
(** Refuted: nothing can be plotted for no detector. *)
Theorem C130_no_detector_refuted : forall (A : Type) n own mask unit, plot_tod [0; n] (@nil A) own mask unit = Err ValueError.
Proof. reflexivity. Qed.
Print Assumptions C130_no_detector_refuted.
Example C130_plot_example : plot_tod [2; 3] [10; 11; 12; 20; 21; 22] (Some [true; false; false; false; true; true]) None "Jy" = Ok ([([10; 11; 12], Some [(0, 10)]); ([20; 21; 22], Some [(1, 21); (2, 22)])], "Signal [Jy]"%string).
Proof. reflexivity. Qed.
