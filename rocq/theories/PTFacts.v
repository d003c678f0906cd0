(** Tables: invariant, packing, unpacking, histories, splitting. *)
From Coq Require Import String Sorted Permutation.
From Verif Require Import Base BaseFacts PTModel PTSpec PTSliceFacts PTIndexFacts PTGetFacts PTCtorFacts.

Section Facts.
Context {A : Type}.
Implicit Types (t : table A).

Definition table_inv t (l : list Z) : Prop :=
  0 <= t_size t /\ index_spec (t_size t) (t_index t) l /\ rows_len (zlen l) (t_attrs t).

Lemma table_inv_indices t l : table_inv t l -> t_indices t = Ok l.
Proof. intros (Hs & (HR & _) & _); unfold t_indices; apply ix_rep_list; exact HR. Qed.

Lemma table_inv_len t l : table_inv t l -> t_len t = Ok (zlen l).
Proof. intros (Hs & (HR & _) & _); unfold t_len; apply ix_rep_len; assumption. Qed.

Lemma ix_length_le t l : table_inv t l -> zlen l <= t_size t.
Proof.
  intros (Hs & (_ & _ & HR & ND) & _).
  assert (H : (length l <= length (iota (t_size t)))%nat).
  { apply NoDup_incl_length; [exact ND|]. intros i Hi. apply In_iota.
    unfold in_range in HR; rewrite Forall_forall in HR; auto. }
  pose proof (zlen_iota (t_size t) Hs). unfold zlen in *. lia.
Qed.

(** ** Packing *)
Lemma pack_view_spec t l x :
  table_inv t l -> zlen x = t_size t -> pack_view t (t_shape t) x = map_res (get x) l.
Proof.
  intros (Hs & (HR & HX & HI & _) & _) Hx. unfold pack_view. rewrite list_eqb_refl; cbn [negb].
  destruct (t_index t) as [|a b c|r] eqn:E.
  - cbn in HR; subst l. rewrite <- Hx. symmetry; apply map_res_get_all.
  - unfold np_slice. rewrite Hx. rewrite (indexable_positions _ _ _ _ l) by assumption. reflexivity.
  - cbn in HR; subst r. apply np_take_in. rewrite Hx. exact HI.
Qed.

Lemma pack_view_total t l x :
  table_inv t l -> zlen x = t_size t -> exists y, pack_view t (t_shape t) x = Ok y /\ zlen y = zlen l.
Proof.
  intros HT Hx. rewrite (pack_view_spec t l x HT Hx).
  destruct (map_res_get_total x l) as [y Hy].
  - rewrite Hx. destruct HT as (_ & (_ & _ & HI & _) & _). exact HI.
  - exists y; split; [exact Hy|]. unfold zlen; rewrite (map_res_length _ _ _ Hy); reflexivity.
Qed.

Lemma pack_copy_spec t l x :
  table_inv t l -> zlen x = t_size t -> pack_copy t (t_shape t) x = pack_view t (t_shape t) x.
Proof.
  intros HT Hx. unfold pack_copy. rewrite list_eqb_refl; cbn [negb].
  rewrite (table_inv_len t l HT); cbn [bind].
  destruct (pack_view_total t l x HT Hx) as (y & -> & Hy). cbn [bind].
  unfold broadcast; rewrite Hy, Z.eqb_refl. destruct (t_index t); reflexivity.
Qed.

Lemma pack_out_spec t l x olen :
  table_inv t l -> zlen x = t_size t ->
  pack_out t (t_shape t) x olen = if olen =? zlen l then pack_view t (t_shape t) x else Err ValueError.
Proof.
  intros HT Hx. unfold pack_out. rewrite list_eqb_refl; cbn [negb].
  rewrite (table_inv_len t l HT); cbn [bind]. destruct (olen =? zlen l); cbn [negb]; [|reflexivity].
  eapply pack_copy_spec; eauto.
Qed.

Lemma pack_mismatch t sh x :
  sh <> t_shape t -> pack_view t sh x = Err ValueError /\ pack_copy t sh x = Err ValueError.
Proof.
  intros H. assert (E : list_eqb sh (t_shape t) = false).
  { destruct (list_eqb sh (t_shape t)) eqn:E; [|reflexivity]. apply list_eqb_eq in E; congruence. }
  unfold pack_copy, pack_view. rewrite E. auto.
Qed.

(** ** Unpacking *)
Lemma unpack_positions_spec t l : table_inv t l -> unpack_positions t = Ok l.
Proof.
  intros (Hs & (HR & HX & HI & _) & _). unfold unpack_positions.
  destruct (t_index t) as [|a b c|r] eqn:E.
  - cbn in HR; subst; reflexivity.
  - apply indexable_positions; assumption.
  - cbn in HR; subst. apply map_res_wrap_id; exact HI.
Qed.

(** y is the unpacked version of x. *)
Definition unpacked (l : list Z) (size : Z) (x : list A) (missing : A) (y : list A) : Prop :=
  zlen y = size /\
  (forall k i, nth_error l k = Some i -> exists a, nth_error x k = Some a /\ get y i = Ok a) /\
  (forall i, 0 <= i < size -> ~ In i l -> get y i = Ok missing).

Lemma combine_nth {B C} (l : list B) (r : list C) k a b :
  nth_error l k = Some a -> nth_error r k = Some b -> In (a, b) (combine l r).
Proof.
  revert r k; induction l as [|x l IH]; intros [|y r] [|k]; cbn; try discriminate.
  - intros H1 H2; left; congruence.
  - intros H1 H2; right; eauto.
Qed.

Lemma map_fst_combine {B C} (l : list B) (r : list C) : length l = length r -> map fst (combine l r) = l.
Proof. revert r; induction l as [|x l IH]; intros [|y r] H; cbn in *; try lia; [reflexivity|]. f_equal. apply IH; lia. Qed.

Lemma unpacked_unique l size x missing y y' :
  in_range size l ->
  unpacked l size x missing y -> unpacked l size x missing y' -> y = y'.
Proof.
  intros HI (H1 & H2 & H3) (H1' & H2' & H3'). apply list_ext_get; [lia|]. intros i Hi. rewrite H1 in Hi.
  destruct (in_dec Z.eq_dec i l) as [Hin|Hn].
  - apply In_nth_error in Hin as [k Hk]. destruct (H2 _ _ Hk) as (a & Ea & ->).
    destruct (H2' _ _ Hk) as (b & Eb & ->). congruence.
  - rewrite H3, H3' by assumption. reflexivity.
Qed.

Lemma set_all_unpacked l size x missing out :
  zlen x = zlen l -> NoDup l -> in_range size l -> zlen out = size ->
  (forall i, 0 <= i < size -> ~ In i l -> get out i = Ok missing) ->
  unpacked l size x missing (set_all out (combine l x)).
Proof.
  intros Hx ND HI Ho Hm.
  assert (HLen : length l = length x) by (unfold zlen in Hx; lia).
  split; [rewrite zlen_set_all; exact Ho|]. split.
  - intros k i Hk. destruct (nth_error x k) as [a|] eqn:Ea.
    + exists a; split; [reflexivity|]. apply get_set_all_in.
      * rewrite map_fst_combine by exact HLen. exact ND.
      * eapply combine_nth; eauto.
      * rewrite Ho. unfold in_range in HI; rewrite Forall_forall in HI. apply HI. eapply nth_error_In; eauto.
    + apply nth_error_None in Ea. assert (k < length l)%nat by (apply nth_error_Some; congruence). lia.
  - intros i Hi Hn. rewrite get_set_all_notin; [apply Hm; assumption|].
    rewrite map_fst_combine by exact HLen. exact Hn.
Qed.

Lemma get_repeat (a : A) n i : 0 <= i < Z.of_nat n -> get (repeat a n) i = Ok a.
Proof.
  intros H; apply get_ok; split; [lia|].
  assert (Hl : (Z.to_nat i < length (repeat a n))%nat) by (rewrite repeat_length; lia).
  destruct (nth_error (repeat a n) (Z.to_nat i)) as [b|] eqn:E; [|apply nth_error_None in E; lia].
  apply nth_error_In, repeat_spec in E; congruence.
Qed.

Lemma unpack_spec t l x missing garbage :
  table_inv t l -> zlen garbage = t_size t -> zlen x = zlen l ->
  exists y, unpack t x missing garbage = Ok y /\ unpacked l (t_size t) x missing y.
Proof.
  intros HT Hg Hx. unfold unpack. rewrite (table_inv_len t l HT); cbn [bind].
  rewrite Hx, Z.eqb_refl, orb_true_r; cbn [negb].
  pose proof (unpack_positions_spec t l HT) as EP.
  pose proof (ix_length_le t l HT) as HLe.
  destruct HT as (Hs & (HR & HX & HI & ND) & _).
  assert (WH : exists y,
    (do pos <- unpack_positions t;
     np_assign (if zlen l <? t_size t then repeat missing (Z.to_nat (t_size t)) else garbage) pos x) = Ok y
     /\ unpacked l (t_size t) x missing y).
  { rewrite EP; cbn [bind]. unfold np_assign, broadcast. rewrite Hx, Z.eqb_refl; cbn [bind].
    eexists; split; [reflexivity|]. apply set_all_unpacked; auto.
    - destruct (zlen l <? t_size t); [rewrite zlen_repeat; lia|exact Hg].
    - intros i Hi Hn. destruct (Z.ltb_spec (zlen l) (t_size t)); [apply get_repeat; lia|].
      exfalso. apply Hn. apply (NoDup_length_incl ND (l' := iota (t_size t))).
      + pose proof (zlen_iota (t_size t) Hs) as HZ. unfold zlen in *; lia.
      + intros j Hj. apply In_iota. unfold in_range in HI; rewrite Forall_forall in HI; auto.
      + apply In_iota; exact Hi. }
  destruct (t_index t) as [|a b c|r] eqn:E; try exact WH.
  exists x; split; [reflexivity|]. cbn in HR; subst l.
  rewrite zlen_iota in * by exact Hs. split; [exact Hx|]. split.
  - intros k i Hk. assert (k < length (iota (t_size t)))%nat by (apply nth_error_Some; congruence).
    pose proof (zlen_iota (t_size t) Hs) as HZ. unfold zlen in HZ.
    rewrite iota_nth_error in Hk by lia. injection Hk as <-.
    destruct (get_total x (Z.of_nat k)) as [v Hv]; [rewrite Hx; lia|].
    exists v; split; [|exact Hv]. apply get_ok in Hv as [_ Hv]. rewrite Nat2Z.id in Hv. exact Hv.
  - intros i Hi Hn. exfalso; apply Hn; apply In_iota; exact Hi.
Qed.

Lemma unpack_scalar_spec t l a missing garbage :
  table_inv t l -> zlen garbage = t_size t -> zlen l <> 1 ->
  exists y, unpack t [a] missing garbage = Ok y /\ unpacked l (t_size t) (repeat a (length l)) missing y.
Proof.
  intros HT Hg Hx. unfold unpack. rewrite (table_inv_len t l HT); cbn [bind].
  change (zlen [a]) with 1. rewrite Z.eqb_refl; cbn [orb negb].
  replace (1 =? zlen l) with false by (symmetry; apply Z.eqb_neq; lia).
  rewrite (unpack_positions_spec t l HT). pose proof (ix_length_le t l HT) as HLe.
  destruct HT as (Hs & (HR & HX & HI & ND) & _).
  match goal with |- context [if ?b then Ok _ else _] => replace b with false by (destruct (t_index t); reflexivity) end.
  cbn [bind]. unfold np_assign, broadcast. change (zlen [a]) with 1.
  replace (1 =? zlen l) with false by (symmetry; apply Z.eqb_neq; lia). cbn [bind].
  rewrite to_nat_zlen.
  eexists; split; [reflexivity|]. apply set_all_unpacked; auto.
  - rewrite zlen_repeat; reflexivity.
  - destruct (zlen l <? t_size t); [rewrite zlen_repeat; lia|exact Hg].
  - intros i Hi Hn. destruct (Z.ltb_spec (zlen l) (t_size t)); [apply get_repeat; lia|].
    exfalso. apply Hn. apply (NoDup_length_incl ND (l' := iota (t_size t))).
    + pose proof (zlen_iota (t_size t) Hs) as HZ. unfold zlen in *; lia.
    + intros j Hj. apply In_iota. unfold in_range in HI; rewrite Forall_forall in HI; auto.
    + apply In_iota; exact Hi.
Qed.

Lemma unpack_bad_length t l x missing garbage :
  table_inv t l -> zlen x <> 1 -> zlen x <> zlen l -> unpack t x missing garbage = Err ValueError.
Proof.
  intros HT H1 H2. unfold unpack. rewrite (table_inv_len t l HT); cbn [bind].
  replace ((zlen x =? 1) || (zlen x =? zlen l)) with false by lia. reflexivity.
Qed.

(** ** Assignment *)
Lemma assoc_update k k' v (l : list (string * attr A)) :
  assoc k (update k' v l) = if String.eqb k k' then Some v else assoc k l.
Proof.
  induction l as [|(k0 & v0) l IH]; cbn [update assoc].
  - reflexivity.
  - destruct (String.eqb_spec k' k0) as [->|Hn]; cbn [assoc].
    + destruct (String.eqb k k0); reflexivity.
    + rewrite IH. destruct (String.eqb_spec k k0) as [->|]; [|reflexivity].
      destruct (String.eqb_spec k0 k'); [congruence|reflexivity].
Qed.

Lemma In_update k v (l : list (string * attr A)) k' v' :
  In (k', v') (update k v l) -> (k' = k /\ v' = v) \/ In (k', v') l.
Proof.
  induction l as [|(k0 & v0) l IH]; cbn [update].
  - intros [E|[]]; injection E as <- <-; auto.
  - destruct (String.eqb k k0); cbn [In].
    + intros [E|H]; [injection E as <- <-; auto|auto].
    + intros [E|H]; [auto|]. destruct (IH H) as [?|?]; auto.
Qed.

Lemma rows_len_update n k v (l : list (string * attr A)) :
  rows_len n l -> (forall rows, v = AtArr rows -> zlen rows = n) -> rows_len n (update k v l).
Proof.
  intros H Hv k' rows Hin. apply In_update in Hin as [[_ E]|Hin]; [apply Hv; auto|eapply H; exact Hin].
Qed.

Lemma assoc_In k (l : list (string * attr A)) v : assoc k l = Some v -> In (k, v) l.
Proof.
  induction l as [|(k0 & v0) l IH]; cbn; [discriminate|].
  destruct (String.eqb_spec k k0) as [->|]; [intros E; injection E as <-; left; reflexivity|auto].
Qed.

Lemma setattr_inv t l k v t' :
  table_inv t l -> setattr t k v = Ok t' -> table_inv t' l.
Proof.
  intros HT. unfold setattr. destruct (existsb (String.eqb k) reserved); [discriminate|].
  pose proof (table_inv_len t l HT) as HL. destruct HT as (Hs & HI & Hr).
  intros H. apply bind_ok in H as (w & Hw & E). injection E as <-.
  split; [exact Hs|]. split; [exact HI|]. apply rows_len_update; [exact Hr|].
  intros rows ->. destruct v as [r|a| |]; cbn in Hw.
  - unfold setattr_arr in Hw. rewrite HL in Hw; cbn [bind] in Hw.
    destruct (Z.eqb_spec (zlen r) (zlen l)); cbn [negb] in Hw; [|discriminate]. injection Hw as <-. assumption.
  - destruct (assoc k (t_attrs t)) as [[r|?| |]|] eqn:Ea; cbn in Hw; try discriminate.
    injection Hw as <-. rewrite zlen_repeat. apply assoc_In in Ea. apply (Hr k r) in Ea. exact Ea.
  - discriminate.
  - discriminate.
Qed.

Lemma pack_copy_length t l sh x y : table_inv t l -> pack_copy t sh x = Ok y -> zlen y = zlen l.
Proof.
  intros HT. unfold pack_copy. destruct (negb (list_eqb sh (t_shape t))); [discriminate|].
  rewrite (table_inv_len t l HT); cbn [bind].
  intros H. apply bind_ok in H as (z & Hz & E).
  assert (Hb : broadcast z (zlen l) = Ok y -> zlen y = zlen l).
  { unfold broadcast. destruct (Z.eqb_spec (zlen z) (zlen l)); [intros F; injection F as <-; assumption|].
    destruct z as [|b [|? ?]]; try discriminate. intros F; injection F as <-. rewrite zlen_repeat. pose proof (zlen_nonneg l). lia. }
  destruct HT as (Hs & (HR & _) & _).
  destruct (t_index t) as [|a b c|r] eqn:Ei; auto.
  injection E as <-. unfold pack_view in Hz. rewrite Ei in Hz.
  destruct (negb (list_eqb sh (t_shape t))); [discriminate|].
  unfold np_take in Hz. cbn in HR; subst r. unfold zlen; rewrite (map_res_length _ _ _ Hz); reflexivity.
Qed.

Lemma pack_value_rows t l v rows : table_inv t l -> pack_value t v = Ok (AtArr rows) -> zlen rows = zlen l.
Proof.
  intros HT; destruct v as [sh u|a| |]; cbn; try discriminate.
  intros H. apply bind_ok in H as (y & Hy & E). injection E as <-. eapply pack_copy_length; eauto.
Qed.

Lemma setattr_all_inv t l k v t' :
  table_inv t l -> setattr_all t k v = Ok t' -> table_inv t' l.
Proof.
  intros HT. unfold setattr_all. destruct (assoc k (t_attrs t)); [|discriminate].
  destruct (existsb (String.eqb k) reserved); [discriminate|].
  intros H. apply bind_ok in H as (w & Hw & E). injection E as <-.
  pose proof HT as (Hs & HI & Hr).
  split; [exact Hs|]. split; [exact HI|]. apply rows_len_update; [exact Hr|].
  intros rows ->. eapply pack_value_rows; eauto.
Qed.

Lemma init_attrs_inv kw t l t' : table_inv t l -> init_attrs t kw = Ok t' -> table_inv t' l.
Proof.
  revert t; induction kw as [|(k & v) kw IH]; intros t HT; cbn [init_attrs].
  - intros E; injection E as <-; exact HT.
  - intros H. apply bind_ok in H as (pv & _ & H). apply bind_ok in H as (t1 & H1 & H).
    eapply IH; [|exact H]. eapply setattr_inv; eauto.
Qed.

Lemma index_spec_inv shape ix l :
  nonneg_shape shape -> index_spec (prodZ shape) ix l -> table_inv (@Table A shape ix []) l.
Proof.
  intros HS HI. split; [apply prodZ_nonneg; exact HS|]. split; [exact HI|]. intros k rows [].
Qed.

(** ** Sub-selection keeps the invariant *)
Lemma getitem_inv t l s p l' t' :
  table_inv t l -> sel_safe s (zlen l) -> sel_nonempty s (zlen l) ->
  sel_meaning s (zlen l) = Ok p -> map_res (get l) p = Ok l' -> getitem t s = Ok t' ->
  table_inv t' l' /\ t_shape t' = t_shape t /\ attrs_taken p (t_attrs t) (t_attrs t').
Proof.
  intros HT HS HE HM HL HG. pose proof HT as (Hs & (HR & HX & HI & ND) & Hr).
  pose proof (zlen_nonneg l) as Hn.
  assert (NDp : NoDup p) by (eapply sel_safe_NoDup; eauto).
  assert (ND' : NoDup l') by exact (map_res_get_NoDup l p l' ND NDp HL).
  destruct (getitem_spec t l s p l' Hs HR HI (sel_safe_dom _ _ HS) HM HL (repeated_only_NoDup _ ND') Hr)
    as (ix' & attrs' & E & HR' & HT' & HX').
  rewrite HG in E; injection E as ->. split; [|split; [reflexivity|exact HT']].
  split; [exact Hs|]. split; [split; [exact HR'|]; split; [apply HX'; assumption|]; split; [|exact ND']|].
  - eapply getitem_index_range; eauto.
  - pose proof (attrs_taken_rows_len _ _ _ HT') as Hrl.
    replace (zlen l') with (zlen p) by (unfold zlen; rewrite (map_res_length _ _ _ HL); reflexivity).
    exact Hrl.
Qed.

Lemma getitem_total t l s :
  table_inv t l -> sel_safe s (zlen l) ->
  exists p l' t', sel_meaning s (zlen l) = Ok p /\ map_res (get l) p = Ok l' /\ getitem t s = Ok t'.
Proof.
  intros HT HS. pose proof HT as (Hs & (HR & HX & HI & ND) & Hr).
  pose proof (zlen_nonneg l) as Hn.
  destruct (sel_dom_meaning s (zlen l) Hn (sel_safe_dom _ _ HS)) as (p & Ep & Hp).
  destruct (map_res_get_total l p Hp) as [l' El].
  assert (ND' : NoDup l') by (eapply map_res_get_NoDup; [exact ND| |exact El]; eapply sel_safe_NoDup; eauto).
  destruct (getitem_spec t l s p l' Hs HR HI (sel_safe_dom _ _ HS) Ep El (repeated_only_NoDup _ ND') Hr)
    as (ix' & attrs' & E & _). eauto 10.
Qed.

(** ** Every reachable table satisfies the invariant *)
Lemma mk_table_inv shape s ord kw t :
  nonneg_shape shape ->
  match ord with
  | None => ctor_safe s shape
  | Some (osh, keys) => ordering_sel_safe s shape /\ zlen keys = prodZ osh
  end ->
  mk_table shape s ord kw = Ok t -> exists l, table_inv t l.
Proof.
  intros HS Hs. unfold mk_table. intros H. apply bind_ok in H as (ix & Hix & H).
  assert (G : exists l, index_spec (prodZ shape) ix l).
  { destruct ord as [[osh keys]|].
    - destruct Hs as [Hs HK]. destruct (list_eqb osh shape) eqn:E.
      + apply list_eqb_eq in E; subst osh.
        destruct (get_index_ordering s shape keys HS Hs HK) as (ix' & l & E & HI & _).
        rewrite Hix in E; injection E as <-. eauto.
      + unfold get_index in Hix. apply bind_ok in Hix as (ns & _ & Hix). rewrite E in Hix; cbn in Hix. discriminate.
    - destruct (get_index_spec s shape HS Hs) as (ix' & l & E & HI & _).
      rewrite Hix in E; injection E as <-. eauto. }
  destruct G as [l HI]. exists l. eapply init_attrs_inv; [|exact H]. apply index_spec_inv; assumption.
Qed.

Lemma reachable_inv t : reachable t -> exists l, table_inv t l.
Proof.
  induction 1 as [shape s ord kw t HS Hs H|t s n t' HR [l IH] Hn Hs He H|t k v t' HR [l IH] H|t k v t' HR [l IH] H].
  - eapply mk_table_inv; eauto.
  - rewrite (table_inv_len t l IH) in Hn; injection Hn as <-.
    destruct (getitem_total t l s IH Hs) as (p & l' & t'' & Ep & El & E).
    exists l'. eapply getitem_inv; eauto.
  - exists l; eapply setattr_inv; eauto.
  - exists l; eapply setattr_all_inv; eauto.
Qed.

(** ** Histories *)
Lemma map_some_inj (l r : list A) : map Some l = map Some r -> l = r.
Proof. revert r; induction l as [|x l IH]; intros [|y r]; cbn; intros H; try discriminate; [reflexivity|]. injection H as -> H; f_equal; auto. Qed.

Lemma dict_of_map l (v : list A) : NoDup l -> length l = length v -> map (dict_of l v) l = map Some v.
Proof.
  revert v; induction l as [|i l IH]; intros [|a v] ND HL; cbn in *; try lia; [reflexivity|].
  inversion ND as [|? ? Hn ND']; subst. rewrite Z.eqb_refl. f_equal.
  rewrite <- (IH v ND') by lia. apply map_ext_in. intros j Hj.
  destruct (Z.eqb_spec j i); [congruence|reflexivity].
Qed.

Lemma map_get_nth (u : list A) l y :
  map_res (get u) l = Ok y -> map (fun i => nth_error u (Z.to_nat i)) l = map Some y.
Proof.
  intros H; apply map_res_ok in H. induction H as [|i a l y Hi H IH]; [reflexivity|].
  cbn. apply get_ok in Hi as [_ ->]. f_equal; exact IH.
Qed.

Lemma map_res_get_map_some {B} (g : Z -> option B) (l : list Z) rows p l' rows' :
  map g l = map Some rows -> map_res (get l) p = Ok l' -> map_res (get rows) p = Ok rows' ->
  map g l' = map Some rows'.
Proof.
  intros Hg Hl Hr. apply map_res_ok in Hl, Hr. revert rows' Hr.
  induction Hl as [|x i p l' Hx Hl IH]; intros rows' Hr; inversion Hr as [|? a ? rows'' Ha Hr']; subst; [reflexivity|].
  cbn. f_equal; [|apply IH; exact Hr'].
  apply get_ok in Hx as [_ Ex], Ha as [_ Ea].
  assert (E : nth_error (map g l) (Z.to_nat x) = nth_error (map Some rows) (Z.to_nat x)) by (rewrite Hg; reflexivity).
  rewrite !nth_error_map, Ex, Ea in E. cbn in E. congruence.
Qed.

Definition shows_inv t (a : atable A) : Prop := table_inv t (al a) /\ forall k, attr_shows (al a) (assoc k (t_attrs t)) (aenv a k).

Lemma shows_of_inv t a : shows_inv t a -> shows t a.
Proof.
  intros [HT HA]. split; [apply table_inv_indices; exact HT|]. split; [apply table_inv_len; exact HT|exact HA].
Qed.

Lemma env_set_same (e : string -> option (aattr A)) k v k' :
  env_set e k v k' = if String.eqb k' k then Some v else e k'.
Proof. reflexivity. Qed.

Lemma cstep_refines t a o :
  shows_inv t a -> op_safe (t_shape t) a o ->
  (exists t' a', cstep t o = Ok t' /\ astep (t_shape t) a o = Some a' /\ shows_inv t' a' /\ t_shape t' = t_shape t) \/
  (exists e, cstep t o = Err e /\ astep (t_shape t) a o = None).
Proof.
  intros [HT HA] Hs. destruct o as [s|k v|k x|k sh u]; cbn [cstep astep op_safe] in *.
  - destruct Hs as [Hs He].
    destruct (getitem_total t (al a) s HT Hs) as (p & l' & t' & Ep & El & E).
    left. exists t', (ATable l' (aenv a)). rewrite Ep, El. split; [exact E|]. split; [reflexivity|].
    destruct (getitem_inv t (al a) s p l' t' HT Hs He Ep El E) as (HT' & Hsh & Hat).
    split; [|exact Hsh]. split; [exact HT'|]. cbn [al aenv]. intros k. specialize (HA k).
    pose proof (attrs_taken_assoc p _ _ k Hat) as Hk.
    destruct (assoc k (t_attrs t)) as [[r|b| |]|] eqn:E1, (assoc k (t_attrs t')) as [[r'|b'| |]|] eqn:E2;
      try contradiction; try discriminate; destruct (aenv a k) as [[g|c| |]|]; cbn in *; try contradiction; auto; try congruence.
    eapply map_res_get_map_some; eauto.
  - unfold setattr. change reserved with ["all"; "comm"; "index"; "ndim"; "removed"; "shape"]%string.
    unfold is_reserved.
    destruct (existsb (String.eqb k) _) eqn:Er; [right; exists AttributeError; auto|].
    unfold setattr_arr. rewrite (table_inv_len _ _ HT); cbn [bind].
    destruct (Z.eqb_spec (zlen v) (zlen (al a))) as [Ev|Ev]; cbn [negb bind]; [|right; eexists; split; reflexivity].
    left. do 2 eexists. split; [reflexivity|]. split; [reflexivity|]. split; [|reflexivity].
    split.
    + cbn [al]. destruct HT as (Hz & HI & Hr). split; [exact Hz|]. split; [exact HI|].
      apply rows_len_update; [exact Hr|]. intros rows E; injection E as <-; exact Ev.
    + cbn [al aenv t_attrs]. intros k'. rewrite assoc_update. unfold env_set.
      destruct (String.eqb k' k); [|apply HA]. cbn. apply dict_of_map; [|unfold zlen in Ev; lia].
      destruct HT as (_ & (_ & _ & _ & ND) & _); exact ND.
  - unfold setattr. change reserved with ["all"; "comm"; "index"; "ndim"; "removed"; "shape"]%string.
    unfold is_reserved.
    destruct (existsb (String.eqb k) _) eqn:Er; [right; exists AttributeError; auto|].
    cbn [bind]. left. do 2 eexists. split; [reflexivity|]. split; [reflexivity|]. split; [|reflexivity].
    split.
    + cbn [al]. destruct HT as (Hz & HI & Hr). split; [exact Hz|]. split; [exact HI|].
      apply rows_len_update; [exact Hr|]. intros rows E.
      destruct (assoc k (t_attrs t)) as [[r|b| |]|] eqn:Ek; cbn in E; try discriminate. injection E as <-.
      rewrite zlen_repeat. apply assoc_In in Ek. apply (Hr k r Ek).
    + cbn [al aenv t_attrs]. intros k'. rewrite assoc_update. unfold env_set.
      destruct (String.eqb_spec k' k) as [->|]; [|apply HA]. pose proof (HA k) as Hk.
      destruct (assoc k (t_attrs t)) as [[r|b| |]|] eqn:Ek, (aenv a k) as [[g|c| |]|]; cbn in *; try contradiction; auto.
      apply assoc_In in Ek. destruct HT as (_ & _ & Hr). pose proof (Hr k r Ek) as HL.
      replace (length r) with (length (al a)) by (unfold zlen in HL; lia).
      clear. induction (al a) as [|i l IH]; cbn; [reflexivity|]. f_equal. exact IH.
  - unfold setattr_all. pose proof (HA k) as Hk.
    destruct (assoc k (t_attrs t)) as [v|] eqn:Ek.
    2:{ destruct (aenv a k); [destruct Hk|]. right; eexists; split; reflexivity. }
    destruct (aenv a k) as [d|] eqn:Ed; [|destruct v; destruct Hk].
    change reserved with ["all"; "comm"; "index"; "ndim"; "removed"; "shape"]%string.
    unfold is_reserved.
    destruct (existsb (String.eqb k) _) eqn:Er; [right; exists AttributeError; auto|].
    destruct (list_eqb sh (t_shape t)) eqn:Esh.
    + apply list_eqb_eq in Esh; subst sh. cbn [pack_value].
      assert (Hu : zlen u = t_size t) by exact Hs.
      rewrite (pack_copy_spec t (al a) u HT Hu).
      destruct (pack_view_total t (al a) u HT Hu) as (y & Ey & Ly). rewrite Ey; cbn [bind].
      left. do 2 eexists. split; [reflexivity|]. split; [reflexivity|]. split; [|reflexivity].
      rewrite (pack_view_spec t (al a) u HT Hu) in Ey.
      split.
      * cbn [al]. destruct HT as (Hz & HI & Hr). split; [exact Hz|]. split; [exact HI|].
        apply rows_len_update; [exact Hr|]. intros rows E; injection E as <-; exact Ly.
      * cbn [al aenv t_attrs]. intros k'. rewrite assoc_update. unfold env_set.
        destruct (String.eqb k' k); [|apply HA]. cbn. apply map_get_nth; exact Ey.
    + right. cbn [pack_value]. unfold pack_copy. rewrite Esh. cbn. eauto.
Qed.

Lemma cstep'_refines t a o :
  shows_inv t a -> op_safe (t_shape t) a o ->
  shows_inv (cstep' t o) (astep' (t_shape t) a o) /\ t_shape (cstep' t o) = t_shape t.
Proof.
  intros H Hs. unfold cstep', astep'.
  destruct (cstep_refines t a o H Hs) as [(t' & a' & -> & -> & H1 & H2)|(e & -> & ->)]; auto.
Qed.

Lemma history_refines os t a :
  shows_inv t a -> ops_safe (t_shape t) a os ->
  shows_inv (fold_left cstep' os t) (fold_left (astep' (t_shape t)) os a).
Proof.
  revert t a; induction os as [|o os IH]; intros t a H Hs; [exact H|].
  cbn [fold_left ops_safe] in *. destruct Hs as [Ho Hs].
  destruct (cstep'_refines t a o H Ho) as [H1 H2].
  specialize (IH (cstep' t o) (astep' (t_shape t) a o) H1). rewrite H2 in IH. apply IH; exact Hs.
Qed.
End Facts.

(** ** Index of constructed tables *)
Section Ctor.
Context {A : Type}.

Lemma init_attrs_index kw (t t' : table A) :
  init_attrs t kw = Ok t' -> t_shape t' = t_shape t /\ t_index t' = t_index t.
Proof.
  revert t; induction kw as [|(k & v) kw IH]; intros t; cbn [init_attrs].
  - intros E; injection E as <-; auto.
  - intros H. apply bind_ok in H as (pv & _ & H). apply bind_ok in H as (t1 & H1 & H).
    apply IH in H as [-> ->]. unfold setattr in H1. destruct (existsb _ _); [discriminate|].
    apply bind_ok in H1 as (w & _ & E). injection E as <-. auto.
Qed.

Lemma mk_table_index shape s ord kw (t : table A) ix :
  mk_table shape s ord kw = Ok t -> get_index shape s ord = Ok ix -> t_shape t = shape /\ t_index t = ix.
Proof.
  unfold mk_table. intros H E. rewrite E in H; cbn [bind] in H. apply init_attrs_index in H. exact H.
Qed.

Lemma mk_table_spec shape s kw (t : table A) :
  nonneg_shape shape -> ctor_safe s shape -> mk_table shape s None kw = Ok t ->
  exists l, table_inv t l /\ t_shape t = shape /\
    (forall i, In i l <-> 0 <= i < prodZ shape /\ selects s shape i) /\ natural_order s shape l.
Proof.
  intros HS Hs HM. destruct (get_index_spec s shape HS Hs) as (ix & l & E & HI & Hin & Ho).
  destruct (mk_table_index _ _ _ _ _ _ HM E) as [Hsh Hix].
  exists l. split; [|auto]. unfold mk_table in HM. rewrite E in HM; cbn [bind] in HM.
  eapply init_attrs_inv; [|exact HM]. apply index_spec_inv; assumption.
Qed.

Lemma mk_table_ordering_spec shape s kw keys (t : table A) :
  nonneg_shape shape -> ordering_sel_safe s shape -> zlen keys = prodZ shape ->
  mk_table shape s (Some (shape, keys)) kw = Ok t ->
  exists l, table_inv t l /\ t_shape t = shape /\
    (forall i, In i l <-> 0 <= i < prodZ shape /\ selects s shape i /\ 0 <= key_of keys i) /\
    StronglySorted (key_lt keys) l.
Proof.
  intros HS Hs HK HM. destruct (get_index_ordering s shape keys HS Hs HK) as (ix & l & E & HI & Hin & Ho).
  destruct (mk_table_index _ _ _ _ _ _ HM E) as [Hsh Hix].
  exists l. split; [|auto]. unfold mk_table in HM. rewrite E in HM; cbn [bind] in HM.
  eapply init_attrs_inv; [|exact HM]. apply index_spec_inv; assumption.
Qed.

(** Attributes given to the constructor. *)
Lemma init_attrs_shows kw (t t' : table A) a :
  shows_inv t a -> (forall k, In k (map fst kw) -> aenv a k = None) -> NoDup (map fst kw) ->
  kw_wf kw -> init_attrs t kw = Ok t' ->
  shows_inv t' (ATable (al a) (fun k => match kw_env kw k with Some d => Some d | None => aenv a k end)).
Proof.
  revert t a; induction kw as [|(k & v) kw IH]; intros t a HS Hnew ND HW; cbn [init_attrs].
  - intros E; injection E as <-. destruct HS as [HT HA]. split; [exact HT|exact HA].
  - intros H. apply bind_ok in H as (pv & Hpv & H). apply bind_ok in H as (t1 & H1 & H).
    cbn [map fst] in ND. inversion ND as [|? ? Hk ND']; subst.
    inversion HW as [|? ? HWk HW']; subst.
    assert (HS1 : shows_inv t1 (ATable (al a) (env_set (aenv a) k (uv_attr v)))).
    { destruct HS as [HT HA]. split; [cbn [al]; eapply setattr_inv; eauto|].
      cbn [al aenv]. intros k'. unfold setattr in H1. destruct (existsb _ _); [discriminate|].
      apply bind_ok in H1 as (w & Hw & E). injection E as <-. cbn [t_attrs].
      rewrite assoc_update. unfold env_set. destruct (String.eqb_spec k' k) as [->|]; [|apply HA].
      pose proof (HA k) as Hk'. rewrite Hnew in Hk' by (left; reflexivity).
      destruct (assoc k (t_attrs t)) as [[?|?| |]|] eqn:Ek; try contradiction.
      destruct v as [sh u|b| |]; cbn [uv_attr].
      - apply bind_ok in Hpv as (w' & Hpk & E). cbn [pack_value] in Hpk. apply bind_ok in Hpk as (y & Hy & Ew).
        injection Ew as <-. injection E as <-. unfold setattr_arr in Hw. rewrite (table_inv_len _ _ HT) in Hw; cbn [bind] in Hw.
        destruct (negb _) in Hw; [discriminate|]. injection Hw as <-. cbn [attr_shows].
        assert (Esh : sh = t_shape t).
        { destruct (list_eqb sh (t_shape t)) eqn:El; [apply list_eqb_eq; exact El|].
          unfold pack_copy in Hy. rewrite El in Hy. discriminate. }
        subst sh. cbn in HWk. rewrite (pack_copy_spec t (al a) u HT HWk), (pack_view_spec t (al a) u HT HWk) in Hy.
        apply map_get_nth; exact Hy.
      - cbn in Hpv. injection Hpv as <-. cbn in Hw. injection Hw as <-. reflexivity.
      - cbn in Hpv. injection Hpv as <-. cbn in Hw. injection Hw as <-. reflexivity.
      - injection Hpv as <-. cbn in Hw. injection Hw as <-. reflexivity. }
    specialize (IH t1 _ HS1). cbn [al aenv] in IH.
    assert (Hn' : forall k0, In k0 (map fst kw) -> env_set (aenv a) k (uv_attr v) k0 = None).
    { intros k0 Hk0. unfold env_set. destruct (String.eqb_spec k0 k) as [->|]; [contradiction|].
      apply Hnew; right; exact Hk0. }
    specialize (IH Hn' ND' HW' H). destruct IH as [HT' HA']. split; [exact HT'|].
    cbn [al aenv] in *. intros k'. specialize (HA' k'). cbn [kw_env].
    unfold env_set in HA'. destruct (String.eqb_spec k' k) as [Ekk|Ekk]; [subst k'|].
    + assert (Ekw : kw_env kw k = None).
      { clear -Hk. induction kw as [|(k1 & v1) kw IHk]; [reflexivity|]. cbn in *.
        destruct (String.eqb_spec k k1) as [->|]; [exfalso; apply Hk; left; reflexivity|]. apply IHk. intros Hin; apply Hk; right; exact Hin. }
      rewrite Ekw in HA'. exact HA'.
    + exact HA'.
Qed.

Lemma mk_table_shows shape s ord kw (t : table A) :
  nonneg_shape shape ->
  match ord with
  | None => ctor_safe s shape
  | Some (osh, keys) => ordering_sel_safe s shape /\ zlen keys = prodZ osh
  end ->
  NoDup (map fst kw) -> kw_wf kw -> mk_table shape s ord kw = Ok t ->
  exists l, t_shape t = shape /\ shows_inv t (ATable l (kw_env kw)).
Proof.
  intros HS Hs ND HW HM.
  unfold mk_table in HM. apply bind_ok in HM as (ix & Hix & HM).
  assert (HM0 : mk_table shape s ord [] = Ok (@Table A shape ix [])) by (unfold mk_table; rewrite Hix; reflexivity).
  destruct (mk_table_inv shape s ord [] _ HS Hs HM0) as (l & HT).
  exists l. split; [apply (init_attrs_index _ _ _ HM)|].
  assert (HS0 : shows_inv (@Table A shape ix []) (ATable l (fun _ => None))) by (split; [exact HT|intros k; exact I]).
  pose proof (init_attrs_shows kw _ _ _ HS0 (fun _ _ => eq_refl) ND HW HM) as [H1 H2].
  split; [exact H1|]. cbn [al aenv] in *. intros k. specialize (H2 k). destruct (kw_env kw k); exact H2.
Qed.
End Ctor.

(** ** Splitting *)
Lemma split_start_bounds n m r : 0 <= n -> 0 < m -> 0 <= r <= m -> 0 <= split_start n m r <= n.
Proof.
  intros Hn Hm Hr. unfold split_start.
  pose proof (Z.div_mod n m ltac:(lia)) as E. pose proof (Z.mod_pos_bound n m Hm).
  assert (0 <= n / m) by (apply Z.div_pos; lia). nia.
Qed.

Lemma split_slice_meaning n m r :
  0 <= n -> 0 < m -> 0 <= r < m ->
  sel_meaning (SelSlice (split_slice n m r)) n
  = Ok (progression (split_start n m r) 1 (Z.to_nat (split_start n m (r + 1) - split_start n m r))).
Proof.
  intros Hn Hm Hr. cbn [sel_meaning]. rewrite slice_positions_ok by (cbn; lia). f_equal.
  pose proof (split_start_bounds n m r Hn Hm ltac:(lia)) as B1.
  pose proof (split_start_bounds n m (r + 1) Hn Hm ltac:(lia)) as B2.
  pose proof (split_start_mono n m r Hn Hm) as B3.
  set (a := split_start n m r) in *. set (b := split_start n m (r + 1)) in *.
  change (py_step (split_slice n m r)) with 1.
  assert (E1 : py_start (split_slice n m r) n = a).
  { unfold py_start. change (py_step (split_slice n m r)) with 1. cbn [split_slice sl_start]. fold a. cbv zeta. ifs; lia. }
  assert (E2 : py_stop (split_slice n m r) n = b).
  { unfold py_stop. change (py_step (split_slice n m r)) with 1. cbn [split_slice sl_stop]. fold b. cbv zeta. ifs; lia. }
  rewrite E1. f_equal. f_equal. rewrite py_slice_length_cdiv by (cbn; lia). unfold py_extent.
  change (py_step (split_slice n m r)) with 1. rewrite E1, E2. change (1 <? 0) with false. cbv iota.
  change (Z.abs 1) with 1. unfold cdiv. rewrite Z.div_1_r. lia.
Qed.

Definition sublist {B} (l : list B) (a b : Z) : list B := firstn (Z.to_nat (b - a)) (skipn (Z.to_nat a) l).

Lemma skipn_nth_error {B} (l : list B) j x : nth_error l j = Some x -> skipn j l = x :: skipn (S j) l.
Proof.
  revert l; induction j as [|j IH]; intros [|y l] H; try discriminate.
  - injection H as ->; reflexivity.
  - cbn [nth_error] in H. cbn [skipn]. rewrite (IH l H). destruct l; reflexivity.
Qed.

Lemma map_res_get_sublist {B} (l : list B) a k :
  0 <= a -> a + Z.of_nat k <= zlen l ->
  map_res (get l) (progression a 1 k) = Ok (sublist l a (a + Z.of_nat k)).
Proof.
  unfold sublist. intros Ha. replace (Z.to_nat (a + Z.of_nat k - a)) with k by lia.
  revert a Ha; induction k as [|k IH]; intros a Ha Hk; [reflexivity|].
  rewrite progression_S. cbn [map_res].
  destruct (get_total l a) as [x Hx]; [lia|]. rewrite Hx; cbn [bind].
  rewrite IH by lia. cbn [bind]. f_equal.
  apply get_ok in Hx as [_ Hx].
  replace (Z.to_nat (a + 1)) with (S (Z.to_nat a)) by lia.
  rewrite (skipn_nth_error l (Z.to_nat a) x Hx). reflexivity.
Qed.

Lemma sublist_app {B} (l : list B) a b c :
  0 <= a <= b -> b <= c -> c <= zlen l -> sublist l a b ++ sublist l b c = sublist l a c.
Proof.
  unfold sublist, zlen. intros H1 H2 H3.
  replace (Z.to_nat (c - a)) with (Z.to_nat (b - a) + Z.to_nat (c - b))%nat by lia.
  replace (skipn (Z.to_nat b) l) with (skipn (Z.to_nat (b - a)) (skipn (Z.to_nat a) l)).
  2:{ assert (Es : forall i j (r : list B), skipn i (skipn j r) = skipn (i + j) r).
      { clear. intros i j; revert i; induction j as [|j IH]; intros i r; [rewrite Nat.add_0_r; reflexivity|].
        destruct r as [|y r]; [rewrite !skipn_nil; reflexivity|].
        replace (i + S j)%nat with (S (i + j)) by lia. cbn. apply IH. }
      rewrite Es. f_equal. lia. }
  generalize (skipn (Z.to_nat a) l) (Z.to_nat (b - a)) (Z.to_nat (c - b)). clear. intros r i j; revert r.
  induction i as [|i IH]; intros r; [reflexivity|]. destruct r as [|x r]; cbn; [rewrite firstn_nil; reflexivity|].
  f_equal. apply IH.
Qed.

Lemma concat_sublists {B} (l : list B) (f : nat -> Z) m :
  f 0%nat = 0 -> (forall j, (j < m)%nat -> f j <= f (S j)) -> f m <= zlen l ->
  concat (map (fun j => sublist l (f j) (f (S j))) (seq 0 m)) = sublist l 0 (f m).
Proof.
  intros H0. induction m as [|m IH]; intros Hmono Hle.
  - cbn. rewrite H0. reflexivity.
  - assert (Hm : f m <= f (S m)) by (apply Hmono; lia).
    assert (Hpos : 0 <= f m).
    { clear -H0 Hmono. assert (G : forall j, (j <= m)%nat -> 0 <= f j).
      { induction j as [|j IHj]; [lia|]. intros Hj. pose proof (Hmono j ltac:(lia)). specialize (IHj ltac:(lia)). lia. }
      apply G; lia. }
    rewrite seq_S, map_app, concat_app. rewrite IH by (try lia; intros; apply Hmono; lia).
    cbn [map concat Nat.add]. rewrite app_nil_r. apply sublist_app; lia.
Qed.

Lemma sublist_all {B} (l : list B) : sublist l 0 (zlen l) = l.
Proof. unfold sublist. rewrite Z.sub_0_r, to_nat_zlen. cbn. apply firstn_all. Qed.

Lemma zlen_sublist {B} (l : list B) a b : 0 <= a <= b -> b <= zlen l -> zlen (sublist l a b) = b - a.
Proof. unfold sublist, zlen. intros. rewrite firstn_length, skipn_length. lia. Qed.

(** Local table of one rank. *)
Lemma getitem_split {A} (t : table A) l m r :
  table_inv t l -> 0 < m -> 0 <= r < m ->
  exists ix' attrs', getitem t (SelSlice (split_slice (zlen l) m r)) = Ok (Table (t_shape t) ix' attrs') /\
    ix_rep (t_size t) ix' (sublist l (split_start (zlen l) m r) (split_start (zlen l) m (r + 1))) /\
    attrs_taken (progression (split_start (zlen l) m r) 1
                   (Z.to_nat (split_start (zlen l) m (r + 1) - split_start (zlen l) m r)))
                (t_attrs t) attrs' /\
    (0 < zlen l -> ix_indexable (t_size t) ix').
Proof.
  intros HT Hm Hr. pose proof (zlen_nonneg l) as Hn.
  pose proof (split_start_bounds (zlen l) m r Hn Hm ltac:(lia)) as B1.
  pose proof (split_start_bounds (zlen l) m (r + 1) Hn Hm ltac:(lia)) as B2.
  pose proof (split_start_mono (zlen l) m r Hn Hm) as B3.
  pose proof (split_slice_meaning (zlen l) m r Hn Hm Hr) as EM.
  set (a := split_start (zlen l) m r) in *. set (b := split_start (zlen l) m (r + 1)) in *.
  assert (EG : map_res (get l) (progression a 1 (Z.to_nat (b - a))) = Ok (sublist l a b)).
  { rewrite map_res_get_sublist by lia. f_equal. f_equal. lia. }
  pose proof HT as (Hs & (HR & HX & HI & ND) & Hrows).
  assert (HD : sel_dom (SelSlice (split_slice (zlen l) m r)) (zlen l)) by (cbn; unfold forward; cbn; lia).
  assert (ND' : NoDup (sublist l a b)).
  { eapply map_res_get_NoDup; [exact ND|apply NoDup_progression with (c := 1); lia|exact EG]. }
  destruct (getitem_spec t l _ _ _ Hs HR HI HD EM EG (repeated_only_NoDup _ ND') Hrows)
    as (ix' & attrs' & E & HR' & HT' & HX').
  exists ix', attrs'. repeat split; auto. intros H0. apply HX'; [exact HX|]. cbn; lia.
Qed.

Lemma map_res_progression {B C} (f : B -> res C) (g : nat -> B) (h : nat -> C) m :
  (forall j, (j < m)%nat -> f (g j) = Ok (h j)) ->
  map_res f (map g (seq 0 m)) = Ok (map h (seq 0 m)).
Proof.
  intros H. induction m as [|m IH]; [reflexivity|].
  rewrite seq_S, !map_app, map_res_app. rewrite IH by (intros; apply H; lia). cbn [bind map map_res Nat.add].
  rewrite H by lia. reflexivity.
Qed.

Lemma iota_map_seq m : iota m = map Z.of_nat (seq 0 (Z.to_nat m)).
Proof. unfold iota, progression. apply map_ext. intros; lia. Qed.

(** Pieces of a list cut as [split] does. *)
Definition pieces {B} (l : list B) (m : Z) : list (list B) :=
  map (fun j => sublist l (split_start (zlen l) m (Z.of_nat j)) (split_start (zlen l) m (Z.of_nat (S j))))
      (seq 0 (Z.to_nat m)).

Lemma concat_pieces {B} (l : list B) m : 0 < m -> concat (pieces l m) = l.
Proof.
  intros Hm. unfold pieces. pose proof (zlen_nonneg l) as Hn.
  rewrite (concat_sublists l (fun j => split_start (zlen l) m (Z.of_nat j))).
  - rewrite Z2Nat.id by lia. rewrite split_start_m by lia. apply sublist_all.
  - apply split_start_0; exact Hm.
  - intros j Hj. replace (Z.of_nat (S j)) with (Z.of_nat j + 1) by lia. apply split_start_mono; lia.
  - rewrite Z2Nat.id by lia. rewrite split_start_m by lia. lia.
Qed.

Lemma zlen_piece {B} (l : list B) m p :
  0 < m -> In p (pieces l m) -> zlen p = zlen l / m \/ zlen p = zlen l / m + 1.
Proof.
  intros Hm Hp. unfold pieces in Hp. apply in_map_iff in Hp as (j & <- & Hj). apply in_seq in Hj.
  pose proof (zlen_nonneg l) as Hn.
  replace (Z.of_nat (S j)) with (Z.of_nat j + 1) by lia.
  pose proof (split_start_bounds (zlen l) m (Z.of_nat j) Hn Hm ltac:(lia)).
  pose proof (split_start_bounds (zlen l) m (Z.of_nat j + 1) Hn Hm ltac:(lia)).
  pose proof (split_start_mono (zlen l) m (Z.of_nat j) Hn Hm).
  rewrite zlen_sublist by lia. pose proof (split_start_step (zlen l) m (Z.of_nat j)) as E.
  destruct (Z.of_nat j <? zlen l mod m); lia.
Qed.

Lemma t_split_spec {A} (t : table A) l m :
  table_inv t l -> 0 < m ->
  exists ts, t_split t m = Ok ts /\ Forall2 (fun t' l' => t_shape t' = t_shape t /\ ix_rep (t_size t) (t_index t') l' /\ in_range (t_size t) l')
     ts (pieces l m) /\ length ts = Z.to_nat m.
Proof.
  intros HT Hm. unfold t_split. rewrite (table_inv_len t l HT); cbn [bind].
  unfold split_slices. rewrite iota_map_seq, map_map. unfold pieces.
  assert (G : forall j, (j < Z.to_nat m)%nat -> exists t', getitem t (SelSlice (split_slice (zlen l) m (Z.of_nat j))) = Ok t' /\
     t_shape t' = t_shape t /\ ix_rep (t_size t) (t_index t') (sublist l (split_start (zlen l) m (Z.of_nat j)) (split_start (zlen l) m (Z.of_nat (S j))))).
  { intros j Hj. destruct (getitem_split t l m (Z.of_nat j) HT Hm ltac:(lia)) as (ix' & at' & E & HR & _).
    eexists; split; [exact E|]. split; [reflexivity|]. cbn [t_index]. replace (Z.of_nat (S j)) with (Z.of_nat j + 1) by lia. exact HR. }
  induction (Z.to_nat m) as [|k IH].
  - exists []. split; [reflexivity|]. split; [constructor|reflexivity].
  - destruct IH as (ts & E & HF & HL); [intros j Hj; apply G; lia|].
    destruct (G k ltac:(lia)) as (t' & Et & Hsh & HR).
    exists (ts ++ [t']). rewrite seq_S, !map_app, map_res_app, E. cbn [bind map map_res Nat.add].
    rewrite Et. cbn [bind]. split; [reflexivity|]. split.
    + apply Forall2_app; [exact HF|]. constructor; [|constructor]. split; [exact Hsh|]. split; [exact HR|].
      destruct HT as (_ & (_ & _ & HI & _) & _). unfold in_range, sublist in *. rewrite Forall_forall in *.
      intros i Hi. apply HI.
      assert (X1 : forall n (l : list Z) x, In x (firstn n l) -> In x l).
      { clear. induction n; intros [|y l] x H; cbn in *; try contradiction. destruct H; auto. }
      assert (X2 : forall n (l : list Z) x, In x (skipn n l) -> In x l).
      { clear. induction n; intros [|y l] x H; cbn in *; auto. }
      eapply X2, X1; exact Hi.
    + rewrite app_length; cbn; lia.
Qed.

(** ** Slices of tables without array attributes, any direction *)
Definition sliced (ix : pindex) : Prop := match ix with IArr _ => False | _ => True end.

Lemma getitem_slice_bare {A} shape ix l sl p :
  0 <= prodZ shape -> ix_rep (prodZ shape) ix l -> sliced ix -> in_range (prodZ shape) l ->
  slice_ok sl (zlen l) -> py_slice_positions sl (zlen l) = Ok p ->
  exists ix' l', map_res (get l) p = Ok l' /\ getitem (@Table A shape ix []) (SelSlice sl) = Ok (Table shape ix' []) /\
    ix_rep (prodZ shape) ix' l' /\ sliced ix'.
Proof.
  intros Hs HR HSl HI Hok Hp. pose proof (zlen_nonneg l) as Hn.
  assert (Hk : py_step sl <> 0) by (destruct Hok; lia).
  pose proof (py_slice_length_nonneg sl (zlen l) Hk) as HL.
  pose proof (slice_positions_ok sl (zlen l) Hk) as Ep. rewrite Hp in Ep. injection Ep as Ep.
  pose proof (py_slice_positions_range _ _ _ Hn Hp) as Hpr.
  unfold getitem, t_len, t_size. cbn [t_index t_shape t_attrs].
  rewrite (ix_rep_len _ _ _ Hs HR). cbn [bind normalize_selection].
  replace (prodZ [zlen l]) with (zlen l) by (cbn; lia).
  destruct (normalize_slice_spec sl _ Hn Hok) as [(E & E1 & E2 & E3)|(a & E & H1 & H2)]; rewrite E; cbn [bind].
  - exists ix, l. assert (p = iota (zlen l)) by (rewrite Ep, E1, E2, E3; reflexivity). subst p.
    rewrite H. split; [apply map_res_get_all|]. auto.
  - rewrite (progression_from_start sl _ a H1) in Ep.
    set (k := Z.to_nat (py_slice_length sl (zlen l))) in *.
    replace (py_slice_length sl (zlen l)) with (Z.of_nat k) by (unfold k; lia).
    destruct ix as [|ia ib ic|r]; [| |contradiction]; cbn [getitem_index getitem_attrs bind].
    + cbn in HR. subst l. rewrite zlen_iota in * by exact Hs.
      exists (ISlice a (a + Z.of_nat k * py_step sl) (py_step sl)), p. split; [apply map_res_get_iota; exact Hpr|].
      split; [reflexivity|]. split; [|exact I]. cbn. split; [exact Hk|]. exists k; auto.
    + cbn in HR. destruct HR as (Hic & K & -> & ->). rewrite zlen_progression in *.
      destruct (Z.eqb_spec (py_step sl) 0); [lia|]. cbn [bind].
      do 2 eexists. split; [rewrite Ep; apply compose_progression; rewrite <- Ep; exact Hpr|].
      split; [reflexivity|]. split; [|exact I]. cbn. split; [nia|]. exists k.
      replace (a + Z.of_nat k * py_step sl - a) with (Z.of_nat k * py_step sl) by lia. rewrite Z.div_mul by lia. auto.
Qed.
