(** Proofs of the statements collected in PTProps. *)
From Coq Require Import String Sorted Permutation.
From Verif Require Import Base BaseFacts PTModel PTSpec PTSliceFacts PTIndexFacts PTGetFacts PTCtorFacts PTFacts.

Section L.
Context {A : Type}.

Lemma slice_new n (s : pyslice) :
  0 <= n -> slice_ok s n ->
  exists t l, mk_table [n] (SelSlice s) None [] = Ok (t : table A) /\
    py_slice_positions s n = Ok l /\ t_indices t = Ok l /\ t_len t = Ok (zlen l).
Proof.
  intros Hn Hok.
  assert (HS : nonneg_shape [n]) by (constructor; [exact Hn|constructor]).
  assert (EP : prodZ [n] = n) by (cbn; lia).
  assert (Hs : ctor_safe (SelSlice s) [n]).
  { cbn [ctor_safe]. rewrite EP. destruct Hok as [?|[? ?]]; split; auto; lia. }
  destruct (get_index_spec (SelSlice s) [n] HS Hs) as (ix & l & E & HI & _ & Ho).
  exists (Table [n] ix []), l. split; [unfold mk_table; rewrite E; reflexivity|].
  cbn [natural_order] in Ho. rewrite EP in Ho. split; [exact Ho|].
  pose proof (index_spec_inv (A := A) [n] ix l HS HI) as HT.
  split; [apply table_inv_indices; exact HT|apply table_inv_len; exact HT].
Qed.

Lemma slice_chain_ok ss shape ix l :
  0 <= prodZ shape -> ix_rep (prodZ shape) ix l -> sliced ix -> in_range (prodZ shape) l ->
  slices_ok ss l ->
  exists t l', fold_slices (Table shape ix [] : table A) ss = Ok t /\ chain l ss = Ok l' /\
    t_indices t = Ok l' /\ t_len t = Ok (zlen l').
Proof.
  intros Hs; revert ix l; induction ss as [|s ss IH]; intros ix l HR HSl HI Hok.
  - exists (Table shape ix []), l. split; [reflexivity|]. split; [reflexivity|].
    unfold t_indices, t_len, t_size; cbn [t_shape t_index].
    split; [apply ix_rep_list; exact HR|apply ix_rep_len; assumption].
  - cbn [slices_ok] in Hok. destruct Hok as (Hk & Hd & Hrest).
    assert (Hok : slice_ok s (zlen l)) by (unfold slice_ok; destruct (Z.lt_ge_cases 0 (py_step s)); [left; assumption|right; split; [lia|]; destruct Hd; [lia|assumption]]).
    pose proof (slice_positions_ok s (zlen l) Hk) as Ep.
    destruct (getitem_slice_bare (A := A) shape ix l s _ Hs HR HSl HI Hok Ep) as (ix' & l' & El & E & HR' & HSl').
    cbn [fold_slices chain]. rewrite E. cbn [bind]. unfold np_slice. rewrite Ep. cbn [bind]. rewrite El. cbn [bind].
    apply IH; auto.
    + eapply getitem_index_range; eauto.
    + apply Hrest. unfold np_slice. rewrite Ep. exact El.
Qed.

Lemma zero_step shape (t : table A) a b :
  mk_table shape (SelSlice (PySlice a b (Some 0))) None [] = Err (A := table A) ValueError /\
  (forall n, t_len t = Ok n -> getitem t (SelSlice (PySlice a b (Some 0))) = Err ValueError).
Proof.
  split; [reflexivity|]. intros n Hn. unfold getitem. rewrite Hn. reflexivity.
Qed.

Lemma ints_new size l :
  0 <= size -> in_range size l -> ~ repeated_only l ->
  exists t, mk_table [size] (SelInts l) None [] = Ok (t : table A) /\
    t_indices t = Ok l /\ t_len t = Ok (zlen l).
Proof.
  intros Hs HI NR. destruct (normalize_int_rep l size HI NR) as [HR _].
  assert (EP : prodZ [size] = size) by (cbn; lia).
  eexists. split; [unfold mk_table, get_index; cbn [normalize_selection bind init_attrs]; reflexivity|].
  unfold t_indices, t_len, t_size; cbn [t_shape t_index]. rewrite EP.
  split; [apply ix_rep_list; exact HR|apply ix_rep_len; assumption].
Qed.

Lemma ints_repeated size l :
  0 <= size -> in_range size l -> repeated_only l ->
  exists t, mk_table [size] (SelInts l) None [] = Ok (t : table A) /\ t_len t = Err ZeroDivisionError.
Proof.
  intros Hs HI HR. destruct (normalize_int_repeated l size HR) as [a Ea].
  assert (EP : prodZ [size] = size) by (cbn; lia).
  eexists. split; [unfold mk_table, get_index; cbn [normalize_selection bind init_attrs]; reflexivity|].
  unfold t_len, t_size; cbn [t_shape t_index]. rewrite EP, Ea. reflexivity.
Qed.

Lemma pack_reachable (t : table A) x :
  reachable t -> zlen x = prodZ (t_shape t) ->
  exists l y, t_indices t = Ok l /\ zlen y = zlen l /\
    (forall k i, nth_error l k = Some i -> exists a, get x i = Ok a /\ nth_error y k = Some a) /\
    pack_view t (t_shape t) x = Ok y /\ pack_copy t (t_shape t) x = Ok y /\
    (forall olen, pack_out t (t_shape t) x olen = if olen =? zlen l then Ok y else Err ValueError).
Proof.
  intros HR Hx. destruct (reachable_inv t HR) as (l & HT).
  change (prodZ (t_shape t)) with (t_size t) in Hx.
  destruct (pack_view_total t l x HT Hx) as (y & Ey & Hy).
  exists l, y. split; [apply table_inv_indices; exact HT|]. split; [exact Hy|].
  split.
  - rewrite (pack_view_spec t l x HT Hx) in Ey. apply map_res_ok in Ey. clear -Ey.
    induction Ey as [|i a l y Hi H IH]; intros k j Hk; [destruct k; discriminate|].
    destruct k as [|k]; cbn in *; [injection Hk as <-; eauto|eauto].
  - split; [exact Ey|]. split; [rewrite (pack_copy_spec t l x HT Hx); exact Ey|].
    intros olen. rewrite (pack_out_spec t l x olen HT Hx), Ey. reflexivity.
Qed.

Lemma pack_unpack (t : table A) y missing garbage z :
  reachable t -> zlen garbage = prodZ (t_shape t) -> t_len t = Ok (zlen y) ->
  unpack t y missing garbage = Ok z -> pack_view t (t_shape t) z = Ok y.
Proof.
  intros HR Hg HL HU. destruct (reachable_inv t HR) as (l & HT).
  rewrite (table_inv_len t l HT) in HL. injection HL as HL.
  destruct (unpack_spec t l y missing garbage HT Hg ltac:(lia)) as (z' & Ez & (U1 & U2 & U3)).
  rewrite HU in Ez; injection Ez as <-.
  rewrite (pack_view_spec t l z HT U1).
  assert (E : Forall2 (fun i a => get z i = Ok a) l y); [|apply map_res_ok; exact E].
  assert (HLen : length l = length y) by (unfold zlen in HL; lia). clear -U2 HLen.
  revert y HLen U2. induction l as [|i l IH]; intros [|a y] HLen U2; cbn in HLen; try lia; [constructor|].
  constructor.
  - destruct (U2 0%nat i eq_refl) as (b & Eb & Hb). cbn in Eb. injection Eb as <-. exact Hb.
  - apply IH; [lia|]. intros k j Hk. exact (U2 (S k) j Hk).
Qed.

Lemma unpack_pack (t : table A) x y missing garbage l :
  reachable t -> t_indices t = Ok l -> zlen x = prodZ (t_shape t) -> zlen garbage = prodZ (t_shape t) ->
  pack_view t (t_shape t) x = Ok y ->
  exists z, unpack t y missing garbage = Ok z /\ zlen z = zlen x /\
    forall i, 0 <= i < zlen x -> get z i = if existsb (Z.eqb i) l then get x i else Ok missing.
Proof.
  intros HR Hl Hx Hg HP. destruct (reachable_inv t HR) as (l' & HT).
  rewrite (table_inv_indices t l' HT) in Hl. injection Hl as ->.
  change (prodZ (t_shape t)) with (t_size t) in *.
  rewrite (pack_view_spec t l x HT Hx) in HP.
  assert (HL : zlen y = zlen l) by (unfold zlen; rewrite (map_res_length _ _ _ HP); reflexivity).
  destruct (unpack_spec t l y missing garbage HT Hg HL) as (z & Ez & (U1 & U2 & U3)).
  exists z. split; [exact Ez|]. split; [lia|]. intros i Hi.
  destruct (existsb (Z.eqb i) l) eqn:Ei.
  - apply existsb_exists in Ei as (j & Hj & Ej). apply Z.eqb_eq in Ej; subst j.
    apply In_nth_error in Hj as [k Hk]. destruct (U2 k i Hk) as (a & Ea & ->). symmetry.
    apply map_res_ok in HP. clear -HP Hk Ea. revert k Hk Ea.
    induction HP as [|j b l y Hj H IH]; intros [|k] Hk Ea; cbn in *; try discriminate; [congruence|eauto].
  - apply U3; [lia|]. intros Hin. assert (existsb (Z.eqb i) l = true); [|congruence].
    apply existsb_exists; exists i; split; [exact Hin|apply Z.eqb_refl].
Qed.

Lemma unpack_reachable (t : table A) :
  reachable t -> exists l, t_indices t = Ok l /\
   forall x missing garbage, zlen garbage = prodZ (t_shape t) ->
    (zlen x = zlen l -> exists y, unpack t x missing garbage = Ok y /\ zlen y = prodZ (t_shape t) /\
       (forall k i, nth_error l k = Some i -> exists a, nth_error x k = Some a /\ get y i = Ok a) /\
       (forall i, 0 <= i < prodZ (t_shape t) -> ~ In i l -> get y i = Ok missing)) /\
    (forall a, x = [a] -> exists y, unpack t x missing garbage = Ok y /\ zlen y = prodZ (t_shape t) /\
       (forall i, In i l -> get y i = Ok a) /\
       (forall i, 0 <= i < prodZ (t_shape t) -> ~ In i l -> get y i = Ok missing)) /\
    (zlen x <> 1 -> zlen x <> zlen l -> unpack t x missing garbage = Err ValueError).
Proof.
  intros HR. destruct (reachable_inv t HR) as (l & HT). exists l.
  split; [apply table_inv_indices; exact HT|]. intros x missing garbage Hg.
  split; [|split].
  - intros Hx. destruct (unpack_spec t l x missing garbage HT Hg Hx) as (y & Ey & U1 & U2 & U3). eauto 10.
  - intros a ->. destruct (Z.eq_dec (zlen l) 1) as [E1|E1].
    + destruct (unpack_spec t l [a] missing garbage HT Hg ltac:(rewrite E1; reflexivity)) as (y & Ey & U1 & U2 & U3).
      exists y. split; [exact Ey|]. split; [exact U1|]. split; [|exact U3].
      intros i Hi. apply In_nth_error in Hi as [k Hk]. destruct (U2 k i Hk) as (b & Eb & Hb).
      assert (k < length l)%nat by (apply nth_error_Some; congruence). unfold zlen in E1.
      assert (k = 0%nat) by lia. subst k. cbn in Eb. injection Eb as <-. exact Hb.
    + destruct (unpack_scalar_spec t l a missing garbage HT Hg E1) as (y & Ey & U1 & U2 & U3).
      exists y. split; [exact Ey|]. split; [exact U1|]. split; [|exact U3].
      intros i Hi. apply In_nth_error in Hi as [k Hk]. destruct (U2 k i Hk) as (b & Eb & Hb).
      apply nth_error_In, repeat_spec in Eb. congruence.
  - intros H1 H2. eapply unpack_bad_length; eauto.
Qed.
End L.

(** all.removed: the unpacking of False with missing value True. *)
Lemma removed_reachable {A} (t : table A) garbage :
  reachable t -> zlen garbage = prodZ (t_shape t) ->
  exists l y, t_indices t = Ok l /\ removed t garbage = Ok y /\ zlen y = prodZ (t_shape t) /\
    forall i, 0 <= i < prodZ (t_shape t) -> (get y i = Ok true <-> ~ In i l).
Proof.
  intros HR Hg. destruct (reachable_inv t HR) as (l & HT).
  assert (HT' : table_inv (@Table bool (t_shape t) (t_index t) []) l).
  { destruct HT as (H1 & H2 & _). split; [exact H1|]. split; [exact H2|]. intros k rows []. }
  exists l. unfold removed.
  assert (G : exists y, unpack (@Table bool (t_shape t) (t_index t) []) [false] true garbage = Ok y /\
     unpacked l (prodZ (t_shape t)) (repeat false (length l)) true y).
  { destruct (Z.eq_dec (zlen l) 1) as [E1|E1].
    - destruct (unpack_spec _ l [false] true garbage HT' Hg ltac:(rewrite E1; reflexivity)) as (y & Ey & U).
      exists y; split; [exact Ey|]. replace (repeat false (length l)) with [false]; [exact U|].
      unfold zlen in E1. replace (length l) with 1%nat by lia. reflexivity.
    - apply (unpack_scalar_spec _ l false true garbage HT' Hg E1). }
  destruct G as (y & Ey & U1 & U2 & U3). exists y.
  split; [apply table_inv_indices; exact HT|]. split; [exact Ey|]. split; [exact U1|].
  intros i Hi. split.
  - intros Hy Hin. apply In_nth_error in Hin as [k Hk]. destruct (U2 k i Hk) as (b & Eb & Hb).
    apply nth_error_In, repeat_spec in Eb. congruence.
  - intros Hn. apply U3; assumption.
Qed.

(** Composition for any table whose index and length are consistent. *)
Lemma getitem_compose {A} (t : table A) l s :
  0 <= prodZ (t_shape t) -> t_indices t = Ok l -> t_len t = Ok (zlen l) -> in_range (prodZ (t_shape t)) l ->
  (forall k rows, In (k, AtArr rows) (t_attrs t) -> zlen rows = zlen l) ->
  sel_dom s (zlen l) ->
  exists p l', sel_meaning s (zlen l) = Ok p /\ map_res (get l) p = Ok l' /\
    (~ repeated_only l' ->
     exists t', getitem t s = Ok t' /\ t_indices t' = Ok l' /\ t_len t' = Ok (zlen l') /\ t_shape t' = t_shape t /\
       forall k rows, assoc k (t_attrs t) = Some (AtArr rows) ->
         exists rows', assoc k (t_attrs t') = Some (AtArr rows') /\ map_res (get rows) p = Ok rows').
Proof.
  intros Hs Hl HL HI Hrows HD. pose proof (zlen_nonneg l) as Hn.
  destruct (sel_dom_meaning s (zlen l) Hn HD) as (p & Ep & Hp).
  destruct (map_res_get_total l p Hp) as [l' El].
  exists p, l'. split; [exact Ep|]. split; [exact El|]. intros NR.
  pose proof (ix_rep_of _ _ _ Hs Hl HL) as HR.
  destruct (getitem_spec t l s p l' Hs HR HI HD Ep El NR Hrows) as (ix' & attrs' & E & HR' & HT' & _).
  eexists; split; [exact E|].
  split; [unfold t_indices; cbn [t_index]; apply ix_rep_list; exact HR'|].
  split; [unfold t_len; cbn [t_index]; apply ix_rep_len; [exact Hs|exact HR']|].
  split; [reflexivity|]. intros k rows Hk. cbn [t_attrs].
  pose proof (attrs_taken_assoc p _ _ k HT') as Ha. rewrite Hk in Ha.
  destruct (assoc k attrs') as [[r'|?| |]|]; try contradiction. eauto.
Qed.

Lemma split_reachable {A} (t : table A) m :
  reachable t -> 0 < m ->
  exists l ts ls, t_indices t = Ok l /\ t_split t m = Ok ts /\ length ts = Z.to_nat m /\
    Forall2 (fun t' l' => t_shape t' = t_shape t /\ t_indices t' = Ok l' /\ t_len t' = Ok (zlen l')) ts ls /\
    concat ls = l /\ (forall a b, In a ls -> In b ls -> zlen a <= zlen b + 1).
Proof.
  intros HR Hm. destruct (reachable_inv t HR) as (l & HT).
  destruct (t_split_spec t l m HT Hm) as (ts & E & HF & HL).
  exists l, ts, (pieces l m). split; [apply table_inv_indices; exact HT|]. split; [exact E|]. split; [exact HL|].
  split; [|split; [apply concat_pieces; exact Hm|]].
  - destruct HT as (Hs & _). clear -HF Hs. induction HF as [|t' l' ts ls (Hsh & HR & HI) HF IH]; constructor; [|exact IH].
    split; [exact Hsh|]. unfold t_indices, t_len, t_size in *. rewrite Hsh.
    split; [apply ix_rep_list; exact HR|apply ix_rep_len; assumption].
  - intros a b Ha Hb. pose proof (zlen_piece l m a Hm Ha). pose proof (zlen_piece l m b Hm Hb). lia.
Qed.

Lemma history_shows {A} shape s ord kw (t : table A) :
  Forall (fun d => 0 <= d) shape ->
  match ord with
  | None => ctor_safe s shape
  | Some (osh, keys) => ordering_sel_safe s shape /\ zlen keys = prodZ osh
  end ->
  NoDup (map fst kw) -> kw_wf kw -> mk_table shape s ord kw = Ok t ->
  exists l, t_indices t = Ok l /\
    forall os, ops_safe shape (ATable l (kw_env kw)) os ->
      shows (fold_left cstep' os t) (fold_left (astep' shape) os (ATable l (kw_env kw))).
Proof.
  intros HS Hs ND HW HM. destruct (mk_table_shows shape s ord kw t HS Hs ND HW HM) as (l & Hsh & HI).
  exists l. split; [apply table_inv_indices; exact (proj1 HI)|]. intros os Hos. subst shape.
  apply shows_of_inv. apply history_refines; assumption.
Qed.
