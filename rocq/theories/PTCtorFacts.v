(** Construction of a table's index: lemmas. *)
From Coq Require Import String Sorted Permutation.
From Verif Require Import Base BaseFacts PTModel PTSpec PTSliceFacts PTIndexFacts PTGetFacts.

(** ** Row-major positions of products of positions *)
Lemma prodZ_cons d ds : prodZ (d :: ds) = d * prodZ ds.
Proof. reflexivity. Qed.

Definition nonneg_shape (shape : list Z) : Prop := Forall (fun d => 0 <= d) shape.

(** coords selected axis by axis *)
Fixpoint coords_in (dims : list (list Z)) (coords : list Z) : Prop :=
  match dims, coords with
  | d :: ds, c :: cs => In c d /\ coords_in ds cs
  | [], [] => True
  | _, _ => False
  end.

Lemma In_flat_positions dims shape i :
  nonneg_shape shape -> Forall2 (fun d n => in_range n d) dims shape ->
  (In i (flat_positions dims shape) <-> 0 <= i < prodZ shape /\ coords_in dims (unravel shape i)).
Proof.
  intros HS HF; revert HS i. induction HF as [|d n ds ss Hd HF IH]; intros HS i.
  - cbn. split; [intros [<-|[]]; lia|intros [H _]; left; lia].
  - inversion HS as [|? ? Hn HS']; subst. specialize (IH HS').
    pose proof (prodZ_nonneg ss HS') as HP.
    cbn [flat_positions unravel coords_in]. rewrite prodZ_cons.
    rewrite in_flat_map. split.
    + intros (c & Hc & Hi). apply in_map_iff in Hi as (r & <- & Hr).
      apply IH in Hr as [Hr Hrc]. unfold in_range in Hd; rewrite Forall_forall in Hd; specialize (Hd c Hc).
      assert (E1 : (c * prodZ ss + r) / prodZ ss = c).
      { rewrite Z.add_comm, Z.div_add by lia. rewrite Z.div_small by lia. lia. }
      assert (E2 : (c * prodZ ss + r) mod prodZ ss = r).
      { rewrite Z.add_comm, Z.mod_add by lia. apply Z.mod_small; lia. }
      rewrite E1, E2. repeat split; auto; nia.
    + intros (Hi & Hc & Hcs).
      assert (HP0 : 0 < prodZ ss) by (destruct (Z.eq_dec (prodZ ss) 0) as [E|]; [rewrite E in Hi; lia|lia]).
      exists (i / prodZ ss). split; [exact Hc|]. apply in_map_iff. exists (i mod prodZ ss).
      split; [pose proof (Z.div_mod i (prodZ ss) ltac:(lia)); lia|].
      apply IH. split; [apply Z.mod_pos_bound; lia|exact Hcs].
Qed.

(** ** Tuple items *)
Definition item_rel (u : uitem) (n : Z) (x : nitem) (d : list Z) : Prop :=
  item_positions x n = Ok d /\ (x = NIEll -> full_item u n = true /\ d = iota n) /\
  in_range n d /\ (forall c, 0 <= c < n -> (In c d <-> item_selects u n c)).

Lemma iota_range n : in_range n (iota n).
Proof. apply Forall_forall; intros x Hx; apply In_iota; exact Hx. Qed.

Lemma normalize_item_rel u n :
  0 <= n -> item_safe u n ->
  exists x d,
    match u with
    | USlice s => do r <- normalize_slice s n;
                  Ok (match r with NSEll => NIEll | NS a b c => NISlice a b c end)
    | UInt i => Ok (NIInt i)
    | UEll => Ok NIEll
    end = Ok x /\ item_rel u n x d /\
    (forall a b c, x = NISlice a b c -> exists k, 0 < c /\ b = a + Z.of_nat k * c /\ d = progression a c k
        /\ (k = 0%nat -> 0 < n -> 0 <= a)).
Proof.
  intros Hn; destruct u as [s|i|]; cbn [item_safe]; intros Hs.
  - destruct (forward_cases s n Hn Hs) as [(E & Ep)|(a & k & E & Ep & Er & Ha & _)]; rewrite E; cbn [bind].
    + exists NIEll, (iota n). split; [reflexivity|]. split; [|discriminate].
      split; [reflexivity|]. split.
      * intros _. split; [|reflexivity]. cbn [full_item].
        destruct (normalize_slice_spec s n Hn (or_introl Hs)) as [(_ & -> & -> & _)|(a & E' & _)].
        -- rewrite !Z.eqb_refl; reflexivity.
        -- rewrite E in E'; discriminate.
      * split; [apply iota_range|]. intros c Hc. cbn [item_selects]. rewrite Ep.
        split; [intros H; exists (iota n); auto|intros (l & El & H); injection El as <-; exact H].
    + exists (NISlice a (a + Z.of_nat k * py_step s) (py_step s)), (progression a (py_step s) k).
      split; [reflexivity|]. split.
      * split; [exact Er|]. split; [discriminate|]. split.
        -- eapply py_slice_positions_range; eauto.
        -- intros c Hc. cbn [item_selects]. rewrite Ep.
           split; [intros H; eexists; split; [reflexivity|exact H]|intros (l & El & H); injection El as <-; exact H].
      * intros a' b' c' E'; injection E' as <- <- <-. exists k. repeat split; auto. intros; apply Ha; auto.
  - destruct Hs as [c Hc]. exists (NIInt i), [c]. split; [reflexivity|]. split; [|discriminate].
    split; [cbn; rewrite Hc; reflexivity|]. split; [discriminate|]. split.
    + constructor; [|constructor]. unfold np_wrap in Hc.
      destruct ((0 <=? i) && (i <? n)) eqn:E1; [injection Hc as <-; lia|].
      destruct ((- n <=? i) && (i <? 0)) eqn:E2; [injection Hc as <-; lia|discriminate].
    + intros c' Hc'. cbn [item_selects In]. rewrite Hc. split; [intros [<-|[]]; reflexivity|intros H; left; congruence].
  - contradiction.
Qed.

(** dims and items of the axes covered by the tuple *)
Fixpoint items_rel (us : list uitem) (shape : list Z) (xs : list nitem) (ds : list (list Z)) : Prop :=
  match us, shape, xs, ds with
  | [], _, [], [] => True
  | u :: us', n :: shape', x :: xs', d :: ds' =>
      item_rel u n x d /\
      (forall a b c, x = NISlice a b c -> exists k, 0 < c /\ b = a + Z.of_nat k * c /\ d = progression a c k
        /\ (k = 0%nat -> 0 < n -> 0 <= a)) /\ items_rel us' shape' xs' ds'
  | _, _, _, _ => False
  end.

Lemma normalize_items_rel us shape :
  nonneg_shape shape -> items_safe us shape ->
  exists xs ds, normalize_items us shape = Ok xs /\ items_rel us shape xs ds.
Proof.
  revert shape; induction us as [|u us IH]; intros shape HS Hs.
  - exists [], []. destruct shape; split; try reflexivity; exact I.
  - destruct shape as [|n shape]; cbn in Hs; [contradiction|]. destruct Hs as [Hu Hs].
    inversion HS as [|? ? Hn HS']; subst.
    destruct (normalize_item_rel u n Hn Hu) as (x & d & Ex & Hx & Hsl).
    destruct (IH shape HS' Hs) as (xs & ds & E & Hr).
    exists (x :: xs), (d :: ds). cbn [normalize_items]. rewrite Ex; cbn [bind]. rewrite E; cbn [bind].
    split; [reflexivity|]. cbn. auto.
Qed.

Lemma items_rel_length us shape xs ds :
  items_rel us shape xs ds -> length xs = length us /\ length ds = length us /\ (length us <= length shape)%nat.
Proof.
  revert shape xs ds; induction us as [|u us IH]; intros [|n shape] [|x xs] [|d ds]; cbn; try contradiction; try lia.
  intros (_ & _ & H). apply IH in H. lia.
Qed.

Lemma items_rel_nell us shape xs ds :
  items_rel us shape xs ds -> (length (filter is_ell xs) <= count_full us shape)%nat.
Proof.
  revert shape xs ds; induction us as [|u us IH]; intros [|n shape] [|x xs] [|d ds]; cbn; try contradiction; try lia.
  intros ((_ & He & _) & _ & H). apply IH in H.
  destruct x; cbn; try (clear He; destruct (full_item u n); lia); destruct (He eq_refl) as [-> _]; lia.
Qed.

Lemma items_rel_axes us shape xs ds :
  items_rel us shape xs ds ->
  axes_positions (xs ++ repeat NIEll (length shape - length xs)) shape
  = Ok (ds ++ map iota (skipn (length us) shape)).
Proof.
  revert shape xs ds; induction us as [|u us IH]; intros shape [|x xs] [|d ds]; try (destruct shape; cbn; contradiction).
  - intros _. cbn [app length]. rewrite Nat.sub_0_r. cbn [skipn].
    induction shape as [|n shape IHs]; [reflexivity|]. cbn [length repeat axes_positions item_positions bind].
    rewrite IHs. reflexivity.
  - destruct shape as [|n shape]; [cbn; contradiction|].
    intros ((Ep & _) & _ & H). cbn [app length Nat.sub axes_positions]. rewrite Ep; cbn [bind].
    rewrite (IH _ _ _ H); reflexivity.
Qed.

Lemma unravel_range shape i :
  nonneg_shape shape -> 0 <= i < prodZ shape -> Forall2 (fun c n => 0 <= c < n) (unravel shape i) shape.
Proof.
  intros HS; revert i; induction HS as [|n ss Hn HS IH]; intros i Hi; [constructor|].
  cbn [unravel]. rewrite prodZ_cons in Hi. pose proof (prodZ_nonneg ss HS).
  assert (0 < prodZ ss) by (destruct (Z.eq_dec (prodZ ss) 0) as [E|]; [rewrite E in Hi; lia|lia]).
  constructor.
  - split; [apply Z.div_pos; lia|apply Z.div_lt_upper_bound; lia].
  - apply IH. apply Z.mod_pos_bound; lia.
Qed.

Lemma items_rel_coords us shape xs ds coords :
  items_rel us shape xs ds -> Forall2 (fun c n => 0 <= c < n) coords shape ->
  (coords_in (ds ++ map iota (skipn (length us) shape)) coords <-> tuple_selects us shape coords).
Proof.
  revert shape xs ds coords; induction us as [|u us IH]; intros shape xs ds coords HR HC.
  - destruct xs, ds; try (destruct shape; cbn in HR; contradiction). cbn [app length skipn].
    split; [intros _; destruct shape, coords; exact I|intros _].
    induction HC as [|c n cs ss Hc HC IHc]; [exact I|]. split; [apply In_iota; exact Hc|].
    apply IHc. destruct ss; exact I.
  - destruct shape as [|n shape], xs as [|x xs], ds as [|d ds]; cbn in HR; try contradiction.
    destruct HR as ((_ & _ & _ & Hd) & _ & HR). inversion HC as [|c ? cs ? Hc HC']; subst.
    cbn [app length skipn coords_in tuple_selects]. rewrite (Hd c Hc). rewrite (IH _ _ _ _ HR HC'). reflexivity.
Qed.

Lemma items_rel_ranges us shape xs ds :
  nonneg_shape shape -> items_rel us shape xs ds ->
  Forall2 (fun d n => in_range n d) (ds ++ map iota (skipn (length us) shape)) shape.
Proof.
  revert shape xs ds; induction us as [|u us IH]; intros shape xs ds HS HR.
  - destruct xs, ds; try (destruct shape; cbn in HR; contradiction). cbn [app length skipn].
    clear. induction shape; cbn; constructor; auto. apply iota_range.
  - destruct shape as [|n shape], xs as [|x xs], ds as [|d ds]; cbn in HR; try contradiction.
    destruct HR as ((_ & _ & Hd & _) & _ & HR). inversion HS; subst. cbn [app length skipn map].
    constructor; [exact Hd|]. eapply IH; eauto.
Qed.

(** ** Ellipsis handling *)
Lemma strip_ell_none l : length (filter is_ell l) = 0%nat -> strip_ell l = l.
Proof.
  induction l as [|x l IH]; [reflexivity|]. cbn [filter strip_ell].
  destruct (is_ell x) eqn:E; cbn [length]; [discriminate|]. intros H; rewrite IH by exact H.
  destruct l; reflexivity.
Qed.

Lemma expand_ell_one l : expand_ell l 1 = l.
Proof. induction l as [|x l IH]; [reflexivity|]. destruct x; cbn; congruence. Qed.

Lemma filter_le {B} (f : B -> bool) l : (length (filter f l) <= length l)%nat.
Proof. induction l as [|x l IH]; cbn; [lia|]. destruct (f x); cbn; lia. Qed.

Lemma axes_of_no_ell l ndim :
  length (filter is_ell l) = 0%nat -> (length l <= ndim)%nat ->
  axes_of l ndim = Ok (l ++ repeat NIEll (ndim - length l)).
Proof.
  intros H HL; unfold axes_of; rewrite H, Nat.sub_0_r.
  destruct (Nat.ltb_spec ndim (length l)); [lia|reflexivity].
Qed.

Lemma axes_of_one_ell l :
  length (filter is_ell l) = 1%nat -> axes_of l (length l) = Ok l.
Proof.
  intros H; unfold axes_of; rewrite H.
  pose proof (filter_le is_ell l) as HL.
  change (1 <? 1)%nat with false. change (1 =? 0)%nat with false. cbv iota.
  destruct (Nat.ltb_spec (length l) (length l - 1)); [lia|].
  replace (length l - (length l - 1))%nat with 1%nat by lia.
  rewrite expand_ell_one, Nat.sub_diag. cbn. rewrite app_nil_r. reflexivity.
Qed.

(** Stripping a list with at most one Ellipsis. *)
Lemma strip_ell_one l :
  length (filter is_ell l) = 1%nat ->
  strip_ell l = l \/ (exists r, l = r ++ [NIEll] /\ strip_ell l = r /\ length (filter is_ell r) = 0%nat).
Proof.
  induction l as [|x l IH]; [discriminate|]. cbn [filter strip_ell].
  destruct (is_ell x) eqn:E; cbn [length]; intros H.
  - rewrite strip_ell_none by lia. destruct l as [|y l]; [|left; reflexivity].
    right. exists []. destruct x; try discriminate. auto.
  - destruct (IH H) as [Es|(r & -> & Es & Hr)].
    + rewrite Es. destruct l; [discriminate|]. left; reflexivity.
    + rewrite Es. destruct r as [|y r].
      * right. exists [x]. cbn. rewrite E. auto.
      * right. exists (x :: y :: r). cbn [filter app] in *. rewrite E. auto.
Qed.

Lemma strip_axes l ndim :
  (length l <= ndim)%nat ->
  (length (filter is_ell l) = 0%nat \/ (length (filter is_ell l) = 1%nat /\ length l = ndim)) ->
  axes_of (strip_ell l) ndim = Ok (l ++ repeat NIEll (ndim - length l)).
Proof.
  intros HL [H|[H HN]].
  - rewrite strip_ell_none by exact H. apply axes_of_no_ell; assumption.
  - destruct (strip_ell_one l H) as [->|(r & -> & -> & Hr)].
    + rewrite <- HN, axes_of_one_ell by exact H. rewrite Nat.sub_diag. cbn. rewrite app_nil_r. reflexivity.
    + rewrite app_length in *; cbn [length] in *. rewrite axes_of_no_ell by (auto; lia).
      f_equal. rewrite <- HN. replace (length r + 1 - length r)%nat with 1%nat by lia.
      rewrite Nat.sub_diag. cbn [repeat]. rewrite app_nil_r. reflexivity.
Qed.

Lemma strip_nil l : strip_ell l = [] -> Forall (eq NIEll) l.
Proof.
  induction l as [|x l IH]; [constructor|]. cbn [strip_ell].
  destruct (strip_ell l) eqn:E; [|discriminate].
  destruct x; cbn; try discriminate. intros _. constructor; auto.
Qed.

(** All about a safe tuple *)
Record tuple_facts (us : list uitem) (shape : list Z) (xs : list nitem) (ds : list (list Z)) : Prop := {
  tf_norm : normalize_items us shape = Ok xs;
  tf_rel : items_rel us shape xs ds;
  tf_len : (length us <= length shape)%nat;
  tf_axes : axes_of (strip_ell xs) (length shape) = Ok (xs ++ repeat NIEll (length shape - length xs))
}.

Lemma tuple_safe_facts us shape :
  nonneg_shape shape -> tuple_safe us shape -> exists xs ds, tuple_facts us shape xs ds.
Proof.
  intros HS (Hne & Hs & Hc). destruct (normalize_items_rel us shape HS Hs) as (xs & ds & E & HR).
  destruct (items_rel_length _ _ _ _ HR) as (L1 & L2 & L3).
  pose proof (items_rel_nell _ _ _ _ HR) as HE.
  exists xs, ds. split; auto. apply strip_axes; [lia|].
  destruct (Nat.eq_dec (length (filter is_ell xs)) 0) as [?|?]; [auto|right].
  destruct Hc as [Hc|[Hc HL]]; lia.
Qed.

Lemma tuple_bool us shape xs ds :
  nonneg_shape shape -> tuple_facts us shape xs ds ->
  exists m, selection2bool (NTuple (strip_ell xs)) shape = Ok m /\ zlen m = prodZ shape /\
    (forall i, 0 <= i < prodZ shape ->
       (nth_error m (Z.to_nat i) = Some true <-> tuple_selects us shape (unravel shape i))).
Proof.
  intros HS [E HR HL HA]. pose proof (prodZ_nonneg _ HS) as HP.
  destruct (items_rel_length _ _ _ _ HR) as (L1 & L2 & L3).
  cbn [selection2bool]. unfold tuple_positions. rewrite HA; cbn [bind].
  rewrite (items_rel_axes _ _ _ _ HR); cbn [bind].
  eexists; split; [reflexivity|]. split; [apply bool_at_length; exact HP|].
  intros i Hi. rewrite bool_at_nth by exact Hi.
  rewrite <- (items_rel_coords _ _ _ _ _ HR (unravel_range shape i HS Hi)).
  assert (X : In i (flat_positions (ds ++ map iota (skipn (length us) shape)) shape)
    <-> coords_in (ds ++ map iota (skipn (length us) shape)) (unravel shape i)).
  { rewrite In_flat_positions; [tauto|exact HS|]. eapply items_rel_ranges; eauto. }
  rewrite <- X. split.
  - intros H; injection H as H. apply existsb_exists in H as (x & Hx & Ex). apply Z.eqb_eq in Ex; subst; exact Hx.
  - intros H; f_equal. apply existsb_exists; exists i; split; [exact H|apply Z.eqb_refl].
Qed.

Lemma items_all_ell us shape xs ds coords :
  Forall (eq NIEll) xs -> items_rel us shape xs ds -> Forall2 (fun c n => 0 <= c < n) coords shape ->
  tuple_selects us shape coords.
Proof.
  revert shape xs ds coords; induction us as [|u us IH]; intros shape xs ds coords Hn HR HC;
    [destruct shape, coords; exact I|].
  destruct shape as [|n shape], xs as [|x xs], ds as [|d ds]; cbn in HR; try contradiction.
  destruct HR as ((_ & He & _ & Hd) & _ & HR). inversion Hn as [|? ? Hx Hn']; subst.
  inversion HC as [|c ? cs ? Hc HC']; subst. cbn [tuple_selects].
  split; [|eapply IH; eauto].
  destruct (He eq_refl) as [_ ->]. apply Hd; [exact Hc|apply In_iota; exact Hc].
Qed.

Lemma tuple_all us shape xs ds i :
  nonneg_shape shape -> tuple_facts us shape xs ds -> strip_ell xs = [] -> 0 <= i < prodZ shape ->
  tuple_selects us shape (unravel shape i).
Proof.
  intros HS [E HR HL HA] Hn Hi. apply strip_nil in Hn.
  eapply items_all_ell; eauto. apply unravel_range; assumption.
Qed.

(** ** get_index without ordering *)
Definition index_spec (size : Z) (ix : pindex) (l : list Z) : Prop :=
  ix_rep size ix l /\ ix_indexable size ix /\ in_range size l /\ NoDup l.

Lemma normalize_int_spec l size :
  in_range size l -> NoDup l -> index_spec size (normalize_int_selection l size) l.
Proof.
  intros HR ND. destruct (normalize_int_rep l size HR (repeated_only_NoDup _ ND)). repeat split; auto.
Qed.

Lemma where_spec m size :
  zlen m = size -> index_spec size (normalize_int_selection (np_where m) size) (np_where m).
Proof. intros <-; apply normalize_int_spec; [apply np_where_range|apply np_where_NoDup]. Qed.

Lemma progression_sorted a c k : 0 < c -> StronglySorted Z.lt (progression a c k).
Proof.
  intros Hc; revert a; induction k as [|k IH]; intros a; [constructor|].
  rewrite progression_S; constructor; [apply IH|].
  apply Forall_forall; intros x Hx; apply progression_In in Hx as (j & _ & ->); nia.
Qed.

Lemma get_index_tuple us shape :
  nonneg_shape shape -> tuple_safe us shape ->
  exists ix l, get_index shape (SelTuple us) None = Ok ix /\ index_spec (prodZ shape) ix l /\
    (forall i, In i l <-> 0 <= i < prodZ shape /\ selects (SelTuple us) shape i) /\
    StronglySorted Z.lt l.
Proof.
  intros HS Ht. pose proof (prodZ_nonneg _ HS) as HP.
  destruct (tuple_safe_facts us shape HS Ht) as (xs & ds & TF).
  unfold get_index. cbn [normalize_selection selects].
  destruct (Z.ltb_spec (zlen shape) (zlen us)) as [HL|_]; [pose proof (tf_len _ _ _ _ TF); unfold zlen in HL; lia|].
  rewrite (tf_norm _ _ _ _ TF); cbn [bind].
  destruct (strip_ell xs) as [|y ys] eqn:Es; cbn [bind].
  - exists IAll, (iota (prodZ shape)). split; [reflexivity|].
    split; [split; [reflexivity|]; split; [exact I|]; split; [apply iota_range|apply NoDup_iota]|].
    split; [|apply iota_sorted].
    intros i. rewrite In_iota. split; [|tauto]. intros Hi; split; [exact Hi|].
    eapply tuple_all; eauto.
  - destruct (tuple_bool us shape xs ds HS TF) as (m & Em & Lm & Hm). rewrite Es in Em.
    assert (BYBOOL : exists ix l, (do m <- selection2bool (NTuple (y :: ys)) shape;
         Ok (normalize_int_selection (np_where m) (prodZ shape))) = Ok ix /\ index_spec (prodZ shape) ix l /\
      (forall i, In i l <-> 0 <= i < prodZ shape /\ tuple_selects us shape (unravel shape i)) /\
      StronglySorted Z.lt l).
    { rewrite Em; cbn [bind]. do 2 eexists. split; [reflexivity|]. split; [apply where_spec; exact Lm|].
      split; [|apply np_where_sorted]. intros i. rewrite In_np_where. split.
      - intros [H0 Hn]. assert (Hi : 0 <= i < prodZ shape).
        { assert (Z.to_nat i < length m)%nat by (apply nth_error_Some; congruence). unfold zlen in Lm; lia. }
        split; [exact Hi|]. apply Hm; assumption.
      - intros [Hi Hsel]. split; [lia|]. apply Hm; assumption. }
    destruct y as [a b c|i|]; try exact BYBOOL.
    destruct ((length shape =? 1)%nat || ((length (NISlice a b c :: ys) =? 1)%nat && (c =? 1))) eqn:Esh; [|exact BYBOOL].
    (* a progression *)
    destruct TF as [E HR HLen HA].
    destruct us as [|u us]; [destruct shape, xs, ds; cbn in HR; try contradiction; discriminate|].
    destruct shape as [|n shape], xs as [|x xs], ds as [|d ds]; cbn in HR; try contradiction.
    destruct HR as (Hx & Hsl & HR).
    assert (x = NISlice a b c).
    { cbn [strip_ell] in Es. destruct (strip_ell xs) in Es; [destruct (is_ell x) in Es; [discriminate|]|]; injection Es as -> _; reflexivity. }
    subst x. destruct (Hsl a b c eq_refl) as (k & Hc & -> & -> & Ha).
    destruct Hx as (_ & _ & Hd & Hdc). inversion HS as [|? ? Hn HS']; subst.
    pose proof (prodZ_nonneg _ HS') as HP'. cbn [tl]. rewrite prodZ_cons in *.
    set (w := prodZ shape) in *.
    assert (CASE : (c = 1 \/ w = 1) /\
       (forall i, 0 <= i < n * w -> (tuple_selects (u :: us) (n :: shape) (unravel (n :: shape) i) <-> item_selects u n (i / w)))).
    { apply orb_true_iff in Esh as [E1|E1].
      - apply Nat.eqb_eq in E1. cbn [length] in E1. destruct shape as [|? ?]; [|cbn in E1; lia]. split; [right; reflexivity|].
        intros i Hi. cbn [unravel tuple_selects]. change (prodZ []) with w. destruct us; cbn [tuple_selects]; tauto.
      - apply andb_true_iff in E1 as [E1 E2]. apply Nat.eqb_eq in E1. apply Z.eqb_eq in E2. split; [left; exact E2|].
        assert (ys = []) by (destruct ys; [reflexivity|cbn in E1; lia]). subst ys.
        cbn [strip_ell] in Es. destruct (strip_ell xs) eqn:Exs; [|discriminate].
        intros i Hi. cbn [unravel tuple_selects]. fold w. split; [tauto|]. intros H; split; [exact H|].
        assert (Hw : 0 < w) by (destruct (Z.eq_dec w 0) as [Ew|]; [rewrite Ew in Hi; lia|lia]).
        pose proof (unravel_range shape (i mod w) HS' (Z.mod_pos_bound i w Hw)) as HC.
        apply strip_nil in Exs. eapply items_all_ell; eauto. }
    destruct CASE as [Hcw Hsel].
    assert (Hr : forall j, (j < k)%nat -> 0 <= a + Z.of_nat j * c < n).
    { intros j Hj. unfold in_range in Hd; rewrite Forall_forall in Hd. apply Hd. apply progression_In; exists j; auto. }
    assert (LIST : exists K l, a * w + Z.of_nat K * c = (a + Z.of_nat k * c) * w /\ l = progression (a * w) c K /\
       (forall i, In i l <-> 0 <= i < n * w /\ In (i / w) (progression a c k)) /\
       (K = 0%nat -> k = 0%nat \/ w = 0)).
    { exists (Z.to_nat (Z.of_nat k * w)), (progression (a * w) c (Z.to_nat (Z.of_nat k * w))).
      rewrite Z2Nat.id by nia. split; [nia|]. split; [reflexivity|]. split; [|nia].
      intros i. rewrite !progression_In. split.
      - intros (j & Hj & ->). destruct Hcw as [-> | Hw].
        + assert (Hw : 0 < w) by nia.
          assert (Hq : (a * w + Z.of_nat j * 1) / w = a + Z.of_nat j / w).
          { replace (a * w + Z.of_nat j * 1) with (Z.of_nat j + a * w) by lia. rewrite Z.div_add by lia. lia. }
          assert (Hjk : 0 <= Z.of_nat j / w < Z.of_nat k).
          { split; [apply Z.div_pos; lia|apply Z.div_lt_upper_bound; lia]. }
          pose proof (Hr (Z.to_nat (Z.of_nat j / w)) ltac:(lia)) as Hb. rewrite Z2Nat.id in Hb by lia.
          split.
          * pose proof (Z.div_mod (Z.of_nat j) w ltac:(lia)). pose proof (Z.mod_pos_bound (Z.of_nat j) w Hw). nia.
          * exists (Z.to_nat (Z.of_nat j / w)). split; [lia|]. rewrite Hq. lia.
        + rewrite Hw in *. pose proof (Hr j ltac:(lia)) as Hb. split; [lia|].
          exists j. rewrite Z.div_1_r. split; lia.
      - intros (Hi & j & Hj & Eq). destruct Hcw as [-> | Hw].
        + assert (Hw : 0 < w) by nia.
          pose proof (Z.div_mod i w ltac:(lia)) as Hdm. pose proof (Z.mod_pos_bound i w Hw) as Hmb.
          exists (Z.to_nat (i - a * w)). rewrite Eq in Hdm. split; nia.
        + rewrite Hw in *. rewrite Z.div_1_r in Eq. exists j. split; [lia|]. lia. }
    destruct LIST as (K & l & EK & El & Hl & HK).
    exists (ISlice (a * w) ((a + Z.of_nat k * c) * w) c), l.
    split; [reflexivity|].
    assert (HRl : in_range (n * w) l) by (apply Forall_forall; intros i Hi; apply Hl in Hi; tauto).
    split; [split; [cbn; split; [lia|]; exists K; split; [lia|exact El]|]; split; [|split; [exact HRl|subst l; apply NoDup_progression; lia]]|].
    + cbn [ix_indexable]. destruct K as [|K]; [|left; nia].
      destruct (HK eq_refl) as [-> | ->]; [|right; right; lia].
      destruct (Z.eq_dec n 0) as [->|Hn0]; [right; right; lia|]. right; left. assert (0 <= a) by (apply Ha; [reflexivity|lia]). nia.
    + split; [|subst l; apply progression_sorted; exact Hc].
      intros i. rewrite Hl. split; intros [Hi Hx]; (split; [exact Hi|]).
      * apply Hsel; [exact Hi|]. apply Hdc; [|exact Hx].
        assert (Hw : 0 < w) by nia. split; [apply Z.div_pos; lia|apply Z.div_lt_upper_bound; lia].
      * apply Hsel in Hx; [|exact Hi]. apply Hdc in Hx; [exact Hx|].
        assert (Hw : 0 < w) by nia. split; [apply Z.div_pos; lia|apply Z.div_lt_upper_bound; lia].
Qed.

Lemma get_index_spec s shape :
  nonneg_shape shape -> ctor_safe s shape ->
  exists ix l, get_index shape s None = Ok ix /\ index_spec (prodZ shape) ix l /\
    (forall i, In i l <-> 0 <= i < prodZ shape /\ selects s shape i) /\ natural_order s shape l.
Proof.
  intros HS Hs. pose proof (prodZ_nonneg _ HS) as HP.
  destruct s as [|i|sl|r|sh m|us]; cbn [ctor_safe] in Hs.
  - exists IAll, (iota (prodZ shape)). split; [reflexivity|].
    split; [split; [reflexivity|]; split; [exact I|]; split; [apply iota_range|apply NoDup_iota]|].
    split; [|apply iota_sorted]. intros i; rewrite In_iota; cbn; tauto.
  - exists (IArr [i]), [i]. split; [reflexivity|].
    split; [split; [reflexivity|]; split; [exact I|]; split; [constructor; [exact Hs|constructor]|constructor; [intros []|constructor]]|].
    split; [|reflexivity]. intros j; cbn. split; [intros [<-|[]]; auto|intros [_ ->]; auto].
  - destruct Hs as [Hk Hok].
    assert (Hsok : slice_ok sl (prodZ shape)) by (unfold slice_ok; destruct (Z.lt_ge_cases 0 (py_step sl)); [left; assumption|right; split; [lia|]; destruct Hok; [lia|assumption]]).
    pose proof (slice_positions_ok sl (prodZ shape) Hk) as Ep.
    pose proof (py_slice_length_nonneg sl (prodZ shape) Hk) as HL.
    unfold get_index; cbn [normalize_selection].
    destruct (normalize_slice_spec sl _ HP Hsok) as [(E & E1 & E2 & E3)|(a & E & H1 & H2)]; rewrite E; cbn [bind].
    + exists IAll, (iota (prodZ shape)). split; [reflexivity|].
      assert (Ep' : py_slice_positions sl (prodZ shape) = Ok (iota (prodZ shape))) by (rewrite Ep, E1, E2, E3; reflexivity).
      split; [split; [reflexivity|]; split; [exact I|]; split; [apply iota_range|apply NoDup_iota]|].
      split; [|exact Ep']. intros i; cbn [selects]; rewrite Ep'. rewrite In_iota. split.
      * intros Hi; split; [exact Hi|]; exists (iota (prodZ shape)); split; [reflexivity|apply In_iota; exact Hi].
      * tauto.
    + rewrite (progression_from_start sl _ a H1) in Ep.
      pose proof (py_slice_positions_range _ _ _ HP Ep) as HR.
      exists (ISlice a (a + py_slice_length sl (prodZ shape) * py_step sl) (py_step sl)),
        (progression a (py_step sl) (Z.to_nat (py_slice_length sl (prodZ shape)))).
      split; [reflexivity|]. split; [split; [|split; [|split; [exact HR|apply NoDup_progression; exact Hk]]]|].
      * cbn. split; [exact Hk|]. eexists; split; [|reflexivity]. lia.
      * cbn. destruct (Z.eq_dec (py_slice_length sl (prodZ shape)) 0) as [E0|E0]; [|left; nia].
        destruct (Z.eq_dec (prodZ shape) 0); [auto|]. right; left. apply H2; lia.
      * split; [|exact Ep]. intros i. cbn [selects]. rewrite Ep. split.
        -- intros Hi. split; [rewrite Forall_forall in HR; auto|]. eexists; split; [reflexivity|exact Hi].
        -- intros (_ & l & El & Hi). injection El as <-. exact Hi.
  - destruct Hs as [HR ND]. unfold get_index; cbn [normalize_selection bind].
    exists (normalize_int_selection r (prodZ shape)), r. split; [reflexivity|].
    split; [apply normalize_int_spec; assumption|]. split; [|reflexivity].
    intros i; cbn. unfold in_range in HR; rewrite Forall_forall in HR. split; [auto|tauto].
  - destruct Hs as [-> Hm]. unfold get_index; cbn [normalize_selection]. rewrite list_eqb_refl; cbn [bind].
    do 2 eexists. split; [reflexivity|]. split; [apply where_spec; exact Hm|].
    split; [|apply np_where_sorted]. intros i; rewrite In_np_where; cbn [selects]. split.
    + intros [H0 H]. split; [|exact H].
      assert (Z.to_nat i < length m)%nat by (apply nth_error_Some; congruence). unfold zlen in Hm; lia.
    + intros [H0 H]; split; [lia|exact H].
  - apply get_index_tuple; assumption.
Qed.

(** ** Orderings *)
Lemma insert_by_perm key p l : Permutation (insert_by key p l) (p :: l).
Proof.
  induction l as [|q l IH]; cbn; [apply Permutation_refl|].
  destruct (key p <=? key q); [apply Permutation_refl|].
  eapply Permutation_trans; [apply perm_skip; exact IH|apply perm_swap].
Qed.

Lemma insert_by_sorted (key : Z -> Z) p l :
  (forall q, In q l -> p < q) ->
  StronglySorted (fun i j => key i < key j \/ (key i = key j /\ i < j)) l ->
  StronglySorted (fun i j => key i < key j \/ (key i = key j /\ i < j)) (insert_by key p l).
Proof.
  intros Hp HS; induction HS as [|q l HS IH Hq]; cbn; [constructor; constructor|].
  destruct (Z.leb_spec (key p) (key q)) as [H|H].
  - constructor; [constructor; assumption|].
    pose proof (Hp q (or_introl eq_refl)).
    constructor; [lia|]. rewrite Forall_forall in *. intros x Hx. specialize (Hq x Hx).
    pose proof (Hp x (or_intror Hx)). lia.
  - constructor; [apply IH; intros x Hx; apply Hp; right; exact Hx|].
    rewrite Forall_forall in *. intros x Hx.
    apply (Permutation_in _ (insert_by_perm key p l)) in Hx as [<-|Hx]; [left; lia|auto].
Qed.

Lemma argsort_perm keys : Permutation (argsort keys) (iota (zlen keys)).
Proof.
  unfold argsort. induction (iota (zlen keys)) as [|x l IH]; cbn; [constructor|].
  eapply Permutation_trans; [apply insert_by_perm|]. apply perm_skip; exact IH.
Qed.

Lemma argsort_sorted keys :
  StronglySorted (fun i j => nth (Z.to_nat i) keys 0 < nth (Z.to_nat j) keys 0 \/
     (nth (Z.to_nat i) keys 0 = nth (Z.to_nat j) keys 0 /\ i < j)) (argsort keys).
Proof.
  unfold argsort. pose proof (iota_sorted (zlen keys)) as HS.
  induction HS as [|x l HS IH Hx]; cbn; [constructor|].
  apply (insert_by_sorted (fun p => nth (Z.to_nat p) keys 0)); [|exact IH].
  intros q Hq. rewrite Forall_forall in Hx. apply Hx.
  clear -Hq. revert q Hq. induction l as [|y l IH]; intros q Hq; cbn in Hq; [destruct Hq|].
  apply (Permutation_in _ (insert_by_perm _ y _)) in Hq as [<-|Hq]; [left; reflexivity|right; auto].
Qed.

Lemma last_k_filter {B} (R : B -> B -> Prop) (P : B -> bool) l :
  (forall x y, R x y -> P x = true -> P y = true) -> StronglySorted R l ->
  last_k l (length (filter P l)) = filter P l.
Proof.
  intros HP HS; induction HS as [|x l HS IH Hx]; [reflexivity|]. cbn [filter].
  destruct (P x) eqn:E.
  - assert (F : filter P l = l).
    { clear -HP Hx E. induction l as [|y l IH]; [reflexivity|]. inversion Hx; subst. cbn.
      rewrite (HP x y) by assumption. f_equal; auto. }
    rewrite F. unfold last_k. cbn [length]. rewrite Nat.sub_diag. reflexivity.
  - unfold last_k in *. cbn [length]. pose proof (filter_le P l).
    replace (S (length l) - length (filter P l))%nat with (S (length l - length (filter P l))) by lia.
    cbn [skipn]. exact IH.
Qed.

Lemma filter_map_length {B C} (f : C -> bool) (g : B -> C) l :
  length (filter f (map g l)) = length (filter (fun x => f (g x)) l).
Proof. induction l as [|x l IH]; cbn; [reflexivity|]. destruct (f (g x)); cbn; congruence. Qed.

Lemma filter_perm {B} (f : B -> bool) l r : Permutation l r -> Permutation (filter f l) (filter f r).
Proof.
  induction 1 as [|x l r P IH|x y l|l r s P1 IH1 P2 IH2]; cbn.
  - constructor.
  - destruct (f x); [apply perm_skip|]; exact IH.
  - destruct (f x), (f y); try apply Permutation_refl. apply perm_swap.
  - eapply Permutation_trans; eauto.
Qed.

Lemma map_nth_iota (keys : list Z) :
  map (fun i => nth (Z.to_nat i) keys 0) (iota (zlen keys)) = keys.
Proof.
  unfold iota, progression. rewrite map_map, to_nat_zlen.
  transitivity (map (fun k => nth k keys 0) (seq 0 (length keys))).
  - apply map_ext. intros k. f_equal. lia.
  - induction keys as [|x keys IH]; [reflexivity|]. cbn [length seq map nth]. f_equal.
    rewrite <- seq_shift, map_map. exact IH.
Qed.

Lemma key_of_nth keys i : 0 <= i < zlen keys -> key_of keys i = nth (Z.to_nat i) keys 0.
Proof. intros H; unfold key_of; apply nth_indep; unfold zlen in H; lia. Qed.

Lemma sorted_weaken {B} (R R' : B -> B -> Prop) (P : B -> Prop) l :
  (forall x y, P x -> P y -> R x y -> R' x y) -> Forall P l -> StronglySorted R l -> StronglySorted R' l.
Proof.
  intros HR HF HS; induction HS as [|x l HS IH Hx]; [constructor|].
  inversion HF as [|? ? Px HF']; subst. constructor; [apply IH; exact HF'|].
  rewrite Forall_forall in *. intros y Hy. apply HR; auto.
Qed.

(** Sorting then keeping the last ones keeps the non-negative keys, in order. *)
Lemma ordering_list keys :
  let l := last_k (argsort keys) (length (filter (Z.leb 0) keys)) in
  (forall i, In i l <-> 0 <= i < zlen keys /\ 0 <= key_of keys i) /\
  StronglySorted (key_lt keys) l /\ NoDup l.
Proof.
  cbv zeta.
  set (P := fun i => 0 <=? nth (Z.to_nat i) keys 0).
  assert (EL : length (filter (Z.leb 0) keys) = length (filter P (argsort keys))).
  { rewrite (Permutation_length (filter_perm P _ _ (argsort_perm keys))).
    rewrite <- (filter_map_length (Z.leb 0) (fun i => nth (Z.to_nat i) keys 0)), map_nth_iota. reflexivity. }
  rewrite EL.
  rewrite (last_k_filter _ P (argsort keys)) with (2 := argsort_sorted keys).
  2:{ unfold P; intros x y H Hx. lia. }
  assert (HIn : forall i, In i (filter P (argsort keys)) <-> 0 <= i < zlen keys /\ 0 <= key_of keys i).
  { intros i. rewrite filter_In. unfold P.
    split.
    - intros [Hi H]. apply (Permutation_in _ (argsort_perm keys)) in Hi. apply In_iota in Hi.
      split; [exact Hi|]. rewrite key_of_nth by exact Hi. lia.
    - intros [Hi H]. rewrite key_of_nth in H by exact Hi. split; [|lia].
      apply (Permutation_in _ (Permutation_sym (argsort_perm keys))). apply In_iota; exact Hi. }
  split; [exact HIn|]. split.
  - assert (HS : StronglySorted (fun i j => nth (Z.to_nat i) keys 0 < nth (Z.to_nat j) keys 0 \/
     (nth (Z.to_nat i) keys 0 = nth (Z.to_nat j) keys 0 /\ i < j)) (filter P (argsort keys))).
    { pose proof (argsort_sorted keys) as HS. clear HIn EL. induction HS as [|x l HS IH Hx]; cbn; [constructor|].
      destruct (P x); [|exact IH]. constructor; [exact IH|].
      apply Forall_forall; intros y Hy; apply filter_In in Hy as [Hy _]. rewrite Forall_forall in Hx; auto. }
    assert (HF : Forall (fun i => 0 <= i < zlen keys) (filter P (argsort keys))) by (apply Forall_forall; intros i Hi; apply HIn in Hi; tauto).
    eapply sorted_weaken; [|exact HF|exact HS].
    intros x y Hx Hy H. unfold key_lt. rewrite !key_of_nth by assumption. exact H.
  - apply NoDup_filter. apply (Permutation_NoDup (Permutation_sym (argsort_perm keys))). apply NoDup_iota.
Qed.

Lemma mask_keys_nth keys m i :
  length keys = length m -> (i < length keys)%nat ->
  nth i (mask_keys keys m) (-1) = if nth i m false then nth i keys (-1) else -1.
Proof.
  revert m i; induction keys as [|x keys IH]; intros [|b m] i HL Hi; cbn in *; try lia.
  destruct i as [|i]; [destruct b; reflexivity|]. apply IH; lia.
Qed.

Lemma mask_keys_length keys m : length keys = length m -> length (mask_keys keys m) = length keys.
Proof. revert m; induction keys as [|x keys IH]; intros [|b m] H; cbn in *; try lia. rewrite IH; lia. Qed.

Lemma key_of_mask keys m i :
  zlen keys = zlen m -> 0 <= i < zlen keys ->
  key_of (mask_keys keys m) i = if nth (Z.to_nat i) m false then key_of keys i else -1.
Proof. intros HL Hi; unfold key_of; unfold zlen in *; apply mask_keys_nth; lia. Qed.

Lemma nth_error_true m i : nth_error m i = Some true <-> nth i m false = true.
Proof.
  revert i; induction m as [|b m IH]; intros [|i]; cbn; try (split; discriminate).
  - split; congruence.
  - apply IH.
Qed.

(** The boolean mask a safe selection is turned into. *)
Lemma ordering_mask s shape :
  nonneg_shape shape -> ordering_sel_safe s shape ->
  exists ns, normalize_selection s shape = Ok ns /\
    ((ns = NEll /\ forall i, 0 <= i < prodZ shape -> selects s shape i) \/
     (ns <> NEll /\ exists m, selection2bool ns shape = Ok m /\ zlen m = prodZ shape /\
    forall i, 0 <= i < prodZ shape -> (nth_error m (Z.to_nat i) = Some true <-> selects s shape i))).
Proof.
  intros HS; destruct s as [|i|sl|r|sh m|us]; cbn [ordering_sel_safe]; try contradiction.
  - intros _; exists NEll; split; [reflexivity|left]; split; [reflexivity|intros; exact I].
  - intros [-> Hm]. exists (NBool m). cbn [normalize_selection]. rewrite list_eqb_refl. split; [reflexivity|].
    right. split; [discriminate|]. exists m. split; [reflexivity|]. split; [exact Hm|]. intros i Hi; reflexivity.
  - intros Ht. destruct (tuple_safe_facts us shape HS Ht) as (xs & ds & TF).
    cbn [normalize_selection].
    destruct (Z.ltb_spec (zlen shape) (zlen us)) as [HL|_]; [pose proof (tf_len _ _ _ _ TF); unfold zlen in HL; lia|].
    rewrite (tf_norm _ _ _ _ TF); cbn [bind].
    destruct (tuple_bool us shape xs ds HS TF) as (m & Em & Lm & Hm).
    destruct (strip_ell xs) as [|y ys] eqn:Es.
    + exists NEll; split; [reflexivity|left]. split; [reflexivity|]. intros i Hi. cbn [selects]. eapply tuple_all; eauto.
    + exists (NTuple (y :: ys)). split; [reflexivity|right]. split; [discriminate|]. exists m. auto.
Qed.

Lemma get_index_ordering s shape keys :
  nonneg_shape shape -> ordering_sel_safe s shape -> zlen keys = prodZ shape ->
  exists ix l, get_index shape s (Some (shape, keys)) = Ok ix /\ index_spec (prodZ shape) ix l /\
    (forall i, In i l <-> 0 <= i < prodZ shape /\ selects s shape i /\ 0 <= key_of keys i) /\
    StronglySorted (key_lt keys) l.
Proof.
  intros HS Hs HK. pose proof (prodZ_nonneg _ HS) as HP.
  destruct (ordering_mask s shape HS Hs) as (ns & En & Hm).
  unfold get_index. rewrite En; cbn [bind]. rewrite list_eqb_refl; cbn [negb].
  assert (MAIN : exists keys', match ns with NEll => Ok keys | _ => do m <- selection2bool ns shape; Ok (mask_keys keys m) end = Ok keys'
     /\ zlen keys' = prodZ shape /\
    forall i, 0 <= i < prodZ shape -> (0 <= key_of keys' i <-> selects s shape i /\ 0 <= key_of keys i) /\
    (0 <= key_of keys' i -> key_of keys' i = key_of keys i)).
  { destruct Hm as [[-> Hall]|[Hne (m & Em & Lm & Hm)]].
    - exists keys. split; [reflexivity|]. split; [exact HK|]. intros i Hi. pose proof (Hall i Hi). tauto.
    - exists (mask_keys keys m). split; [destruct ns; try congruence; rewrite Em; reflexivity|].
      assert (HLen : length keys = length m) by (unfold zlen in *; lia).
      split; [unfold zlen; rewrite mask_keys_length by exact HLen; exact HK|].
      intros i Hi. rewrite key_of_mask by (rewrite ?HK; lia). rewrite <- Hm by exact Hi.
      rewrite nth_error_true. destruct (nth (Z.to_nat i) m false); split; try tauto; try lia. }
  destruct MAIN as (keys' & -> & HL' & Hk). cbn [bind].
  destruct (ordering_list keys') as (HIn & HSort & ND). rewrite HL' in HIn.
  set (np := length (filter (Z.leb 0) keys')) in *.
  assert (HR : in_range (prodZ shape) (last_k (argsort keys') np)) by (apply Forall_forall; intros i Hi; apply HIn in Hi; tauto).
  assert (HIn' : forall i, In i (last_k (argsort keys') np) <-> 0 <= i < prodZ shape /\ selects s shape i /\ 0 <= key_of keys i).
  { intros i. rewrite HIn. split; intros [Hi H]; (split; [exact Hi|]); apply Hk; auto. }
  assert (HS' : StronglySorted (key_lt keys) (last_k (argsort keys') np)).
  { apply (sorted_weaken (key_lt keys') _ (fun i => key_of keys' i = key_of keys i)); [| |exact HSort].
    - unfold key_lt; intros x y -> ->; auto.
    - apply Forall_forall; intros i Hi. apply HIn in Hi as [Hi H]. apply Hk; auto. }
  destruct (np =? 0)%nat eqn:E0.
  - apply Nat.eqb_eq in E0. exists (IArr []), []. split; [reflexivity|].
    assert (EM : last_k (argsort keys') np = []).
    { rewrite E0. unfold last_k. rewrite Nat.sub_0_r. apply skipn_all. }
    rewrite EM in *. split; [repeat split; auto|]. auto.
  - exists (normalize_int_selection (last_k (argsort keys') np) (prodZ shape)), (last_k (argsort keys') np).
    split; [reflexivity|]. split; [apply normalize_int_spec; assumption|]. auto.
Qed.
