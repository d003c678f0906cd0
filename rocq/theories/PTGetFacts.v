(** Sub-selection: lemmas. *)
From Coq Require Import String Sorted Permutation.
From Verif Require Import Base BaseFacts PTModel PTSpec PTSliceFacts PTIndexFacts.

(** The index list and the length determine the representation. *)
Lemma ix_rep_of size ix l :
  0 <= size -> index_list size ix = Ok l -> index_len size ix = Ok (zlen l) -> ix_rep size ix l.
Proof.
  intros Hs; destruct ix as [|a b c|r]; cbn.
  - congruence.
  - unfold arange. destruct (Z.eqb_spec c 0) as [|Hc]; [discriminate|].
    intros HL HN. injection HN as HN. split; [exact Hc|].
    destruct (Z.ltb_spec 0 c) as [Hp|Hp]; injection HL as HL; subst l; rewrite zlen_progression in HN.
    + exists (Z.to_nat (cdiv (b - a) c)). split; [|reflexivity].
      unfold cdiv in *. assert (0 <= (b - a) / c) by lia. nia.
    + exists (Z.to_nat (cdiv (a - b) (- c))). split; [|reflexivity].
      unfold cdiv in *. assert (0 <= (b - a) / c) by lia.
      assert (E1 : (b - a) / c = (- (b - a)) / (- c)) by (rewrite Z.div_opp_opp; [reflexivity|lia]).
      replace (- (b - a)) with (a - b) in E1 by lia.
      replace (- (a - b)) with (b - a) in * by lia.
      assert (E2 : (b - a) / - c = - ((b-a) / c) \/ (b - a) / - c = - ((b-a)/c) - 1).
      { destruct (Z.eq_dec ((b - a) mod c) 0).
        - left. apply Z.div_opp_r_z; lia.
        - right. apply Z.div_opp_r_nz; lia. }
      destruct E2 as [E2|E2].
      * assert (b - a = c * ((b - a) / c)); [|nia].
        destruct (Z.eq_dec ((b - a) mod c) 0) as [E|E].
        -- pose proof (Z.div_mod (b - a) c ltac:(lia)). lia.
        -- rewrite Z.div_opp_r_nz in E2 by lia. lia.
      * lia.
  - congruence.
Qed.

(** ** Raw use of a normalised forward slice *)
Lemma py_slice_positions_empty s : py_step s <> 0 -> py_slice_positions s 0 = Ok [].
Proof.
  intros H. destruct (py_slice_positions s 0) as [l|e] eqn:E.
  - pose proof (py_slice_positions_range _ _ _ (Z.le_refl 0) E) as HF.
    destruct l as [|x l]; [reflexivity|]. inversion HF; lia.
  - unfold py_slice_positions in E. destruct (Z.eqb_spec (py_step s) 0); [lia|discriminate].
Qed.

Lemma progression_from_start s n a :
  (0 < py_slice_length s n -> a = py_start s n) ->
  progression (py_start s n) (py_step s) (Z.to_nat (py_slice_length s n))
  = progression a (py_step s) (Z.to_nat (py_slice_length s n)).
Proof. intros H; apply progression_ext; [intros Hn; symmetry; apply H; lia|reflexivity]. Qed.

Lemma py_slice_length_nonneg s n : py_step s <> 0 -> 0 <= py_slice_length s n.
Proof.
  intros H; rewrite py_slice_length_cdiv by exact H. apply cdiv_nonneg; [|lia].
  unfold py_extent; destruct (py_step s <? 0); lia.
Qed.

Lemma forward_raw s n a :
  0 <= n -> forward s ->
  (0 < py_slice_length s n -> a = py_start s n) ->
  (py_slice_length s n = 0 -> 0 < n -> 0 <= a < n) ->
  py_slice_positions (PySlice (Some a) (Some (a + py_slice_length s n * py_step s)) (Some (py_step s))) n
  = py_slice_positions s n.
Proof.
  unfold forward; intros Hn Hf H1 H2.
  destruct (Z.eq_dec n 0) as [->|Hn0].
  - rewrite !py_slice_positions_empty; [reflexivity| |]; cbn; lia.
  - pose proof (py_slice_length_nonneg s n ltac:(lia)) as HL.
    assert (HR : exists l, py_slice_positions s n = Ok l).
    { unfold py_slice_positions. destruct (Z.eqb_spec (py_step s) 0); [lia|eauto]. }
    destruct HR as [l Hl]. rewrite Hl.
    assert (El : l = progression a (py_step s) (Z.to_nat (py_slice_length s n))).
    { unfold py_slice_positions in Hl. destruct (Z.eqb_spec (py_step s) 0); [lia|].
      injection Hl as <-. apply progression_from_start; exact H1. }
    assert (Ha : 0 <= a).
    { destruct (Z.eq_dec (py_slice_length s n) 0) as [E|E]; [apply H2; lia|].
      pose proof (py_slice_positions_range _ _ _ Hn Hl) as HF. rewrite El in HF.
      rewrite Forall_forall in HF. apply (HF a). apply progression_In. exists 0%nat. split; lia. }
    set (b := a + py_slice_length s n * py_step s).
    assert (Hb : 0 <= b) by (unfold b; nia).
    replace (PySlice (Some a) (Some b) (Some (py_step s))) with (indexable_slice a b (py_step s))
      by (unfold indexable_slice; destruct (Z.ltb_spec b 0); [lia|reflexivity]).
    apply indexable_positions; auto.
    + cbn. split; [lia|]. exists (Z.to_nat (py_slice_length s n)). split; [|exact El].
      rewrite Z2Nat.id by lia. reflexivity.
    + cbn. lia.
    + eapply py_slice_positions_range; eauto.
Qed.

Lemma slice_positions_ok s n :
  py_step s <> 0 ->
  py_slice_positions s n
  = Ok (progression (py_start s n) (py_step s) (Z.to_nat (py_slice_length s n))).
Proof. intros H; unfold py_slice_positions; destruct (Z.eqb_spec (py_step s) 0); [lia|reflexivity]. Qed.

(** A forward slice, normalised: either everything or a progression that can be used
    as it is. *)
Lemma forward_cases s n :
  0 <= n -> forward s ->
  (normalize_slice s n = Ok NSEll /\ py_slice_positions s n = Ok (iota n)) \/
  (exists a k, normalize_slice s n = Ok (NS a (a + Z.of_nat k * py_step s) (py_step s)) /\
     py_slice_positions s n = Ok (progression a (py_step s) k) /\
     py_slice_positions (PySlice (Some a) (Some (a + Z.of_nat k * py_step s)) (Some (py_step s))) n
       = Ok (progression a (py_step s) k) /\
     (k = 0%nat -> 0 < n -> 0 <= a < n) /\ (k = 0%nat -> n = 0 -> sl_start s = None -> a = 0)).
Proof.
  unfold forward; intros Hn Hf.
  assert (Hk : py_step s <> 0) by lia.
  pose proof (py_slice_length_nonneg s n Hk) as HL.
  destruct (normalize_slice_spec s n Hn (or_introl Hf)) as [(E & E1 & E2 & E3)|(a & E & H1 & H2)].
  - left. split; [exact E|]. rewrite slice_positions_ok, E1, E2, E3 by exact Hk. reflexivity.
  - right. exists a, (Z.to_nat (py_slice_length s n)). rewrite Z2Nat.id by exact HL.
    repeat split.
    + exact E.
    + rewrite slice_positions_ok by exact Hk. f_equal. apply progression_from_start; exact H1.
    + rewrite forward_raw by assumption. rewrite slice_positions_ok by exact Hk. f_equal.
      apply progression_from_start; exact H1.
    + apply H2; lia.
    + apply H2; lia.
    + intros Hz Hn0 Hs. unfold normalize_slice in E.
      change (match sl_step s with Some k => k | None => 1 end) with (py_step s) in E.
      rewrite Hs in E. cbv zeta in E.
      destruct (Z.eqb_spec (py_step s) 0); [lia|].
      replace (0 <? py_step s) with true in E by (symmetry; apply Z.ltb_lt; lia).
      destruct ((_ =? n) && (py_step s =? 1)) in E; [discriminate|]. injection E as E0 _. lia.
Qed.

(** ** np_getsel of a normalised selection *)

Lemma sel_safe_dom s n : sel_safe s n -> sel_dom s n.
Proof. destruct s; cbn; tauto. Qed.

Lemma map_res_wrap_id n l : in_range n l -> map_res (np_wrap n) l = Ok l.
Proof.
  intros H; rewrite (map_res_pure _ (fun i => i)); [rewrite map_id; reflexivity|].
  intros x Hx; unfold in_range in H; rewrite Forall_forall in H; apply np_wrap_in; auto.
Qed.

Lemma sel_dom_meaning s n : 0 <= n -> sel_dom s n ->
  exists p, sel_meaning s n = Ok p /\ in_range n p.
Proof.
  intros Hn; destruct s as [|i|sl|l|sh m|us]; cbn [sel_dom sel_meaning].
  - intros _; exists (iota n); split; [reflexivity|].
    apply Forall_forall; intros x Hx; apply In_iota; exact Hx.
  - intros H; exists [i]; rewrite np_wrap_in by exact H; split; [reflexivity|].
    constructor; [exact H|constructor].
  - intros Hf. rewrite slice_positions_ok by (unfold forward in Hf; lia). eexists; split; [reflexivity|].
    eapply py_slice_positions_range; [exact Hn|]. apply slice_positions_ok. unfold forward in Hf; lia.
  - intros H; exists l; split; [apply map_res_wrap_id; exact H|exact H].
  - intros [-> H]. rewrite list_eqb_refl. eexists; split; [reflexivity|].
    rewrite <- H. apply np_where_range.
  - destruct us as [|[sl|i|] [|u us]]; try contradiction.
    + intros Hf. rewrite slice_positions_ok by (unfold forward in Hf; lia). eexists; split; [reflexivity|].
      eapply py_slice_positions_range; [exact Hn|]. apply slice_positions_ok. unfold forward in Hf; lia.
    + intros _; exists (iota n); split; [reflexivity|].
      apply Forall_forall; intros x Hx; apply In_iota; exact Hx.
Qed.

(** What normalisation yields, and that using it on any list of the right length picks
    the positions of the meaning. *)
Lemma normalize_sel_dom s n p :
  0 <= n -> sel_dom s n -> sel_meaning s n = Ok p ->
  exists ns, normalize_selection s [n] = Ok ns /\
    (ns = NEll -> p = iota n) /\
    (forall (B : Type) (v : list B), zlen v = n -> np_getsel v ns = map_res (get v) p) /\
    (forall a b c, ns = NSlice a b c -> exists k, 0 < c /\ b = a + Z.of_nat k * c /\ p = progression a c k /\
        (k = 0%nat -> 0 < n -> 0 <= a < n) /\ (k = 0%nat -> n = 0 -> sel_nonempty s n -> a = 0)) /\
    (forall l, ns = NInts l -> l = p).
Proof.
  assert (HALL : forall (B : Type) (v : list B), zlen v = n -> Ok v = map_res (get v) (iota n)).
  { intros B v <-; symmetry; apply map_res_get_all. }
  intros Hn; destruct s as [|i|sl|l|sh m|us]; cbn [sel_dom sel_meaning normalize_selection].
  - intros _ H; injection H as <-. exists NEll. repeat split; try discriminate. apply HALL.
  - intros Hi. rewrite np_wrap_in by exact Hi. cbn [bind]. intros H; injection H as <-.
    exists (NInts [i]). repeat split; try discriminate.
    + intros B v Hv. cbn [np_getsel]. apply np_take_in. rewrite Hv. constructor; [exact Hi|constructor].
    + intros l E; injection E as <-; reflexivity.
  - intros Hf Hp. replace (prodZ [n]) with n by (cbn; lia).
    destruct (forward_cases sl n Hn Hf) as [(E & Ep)|(a & k & E & Ep & Er & H2 & H3)]; rewrite E; cbn [bind].
    + exists NEll. rewrite Ep in Hp; injection Hp as <-. repeat split; try discriminate. apply HALL.
    + eexists; split; [reflexivity|]. rewrite Ep in Hp; injection Hp as <-. repeat split; try discriminate.
      * intros B v Hv. cbn [np_getsel]. unfold np_slice. rewrite Hv, Er. reflexivity.
      * intros a' b' c' Es; injection Es as <- <- <-. exists k.
        split; [exact Hf|]. split; [reflexivity|]. split; [reflexivity|]. split; [exact H2|].
        intros Hk Hn0 [?|Hs]; [lia|]. apply H3; assumption.
  - intros Hi. rewrite map_res_wrap_id by exact Hi. intros H; injection H as <-.
    exists (NInts l). repeat split; try discriminate.
    + intros B v Hv. cbn [np_getsel]. apply np_take_in. rewrite Hv. exact Hi.
    + intros l' E; injection E as <-; reflexivity.
  - intros [-> Hm]. rewrite list_eqb_refl. intros H; injection H as <-.
    exists (NBool m). repeat split; try discriminate.
    intros B v Hv. cbn [np_getsel]. symmetry. apply np_mask_map_get. unfold zlen in *; lia.
  - destruct us as [|[sl|i|] [|u us]]; try contradiction.
    + intros Hf Hp. cbn [zlen length normalize_items].
      replace (zlen [n] <? zlen [USlice sl]) with false by reflexivity.
      destruct (forward_cases sl n Hn Hf) as [(E & Ep)|(a & k & E & Ep & Er & H2 & H3)]; rewrite E; cbn [bind strip_ell is_ell].
      * exists NEll. rewrite Ep in Hp; injection Hp as <-. repeat split; try discriminate. apply HALL.
      * eexists; split; [reflexivity|]. rewrite Ep in Hp; injection Hp as <-. repeat split; try discriminate.
        intros B v Hv. cbn [np_getsel]. unfold np_slice. rewrite Hv, Er. reflexivity.
    + intros _ H; injection H as <-. cbn. exists NEll. repeat split; try discriminate. apply HALL.
Qed.

(** ** Index of a sub-table *)
Lemma compose_progression ia ic K a c k :
  in_range (Z.of_nat K) (progression a c k) ->
  map_res (get (progression ia ic K)) (progression a c k)
  = Ok (progression (ia + a * ic) (ic * c) k).
Proof.
  intros H. rewrite (map_res_pure _ (fun i => ia + i * ic)).
  - f_equal. unfold progression at 1 2. rewrite map_map. apply map_ext. intros j. lia.
  - intros x Hx. unfold in_range in H; rewrite Forall_forall in H; specialize (H x Hx).
    apply get_ok; split; [lia|]. rewrite progression_nth_error by lia. rewrite Z2Nat.id by lia. reflexivity.
Qed.

Lemma getitem_index_spec size ix l s ns p l' :
  0 <= size -> ix_rep size ix l -> in_range size l ->
  sel_dom s (zlen l) -> sel_meaning s (zlen l) = Ok p -> normalize_selection s [zlen l] = Ok ns ->
  ns <> NEll -> map_res (get l) p = Ok l' -> ~ repeated_only l' ->
  exists ix', getitem_index size ix ns = Ok ix' /\ ix_rep size ix' l' /\
    (ix_indexable size ix -> sel_nonempty s (zlen l) -> ix_indexable size ix').
Proof.
  intros Hs HR HI HD HM HN Hne HL NR.
  pose proof (zlen_nonneg l) as Hn.
  destruct (normalize_sel_dom s (zlen l) p Hn HD HM) as (ns' & En & _ & Hget & Hsl & Hints).
  rewrite HN in En; injection En as <-.
  destruct (sel_dom_meaning s (zlen l) Hn HD) as (p' & Ep & Hp). rewrite HM in Ep; injection Ep as <-.
  assert (HI' : in_range size l').
  { apply map_res_ok in HL. unfold in_range in *. rewrite Forall_forall in *. intros y Hy.
    assert (Hin : forall (p : list Z) l', Forall2 (fun x y => get l x = Ok y) p l' -> forall y, In y l' -> In y l).
    { clear. induction 1 as [|x y p l' Hxy H IH]; intros z Hz; [destruct Hz|].
      destruct Hz as [<-|Hz]; [|auto]. apply get_ok in Hxy as [_ E]. eapply nth_error_In; exact E. }
    apply HI. eapply Hin; eauto. }
  assert (BYLIST : exists ix', bind (index_list size ix) (fun l0 => bind (np_getsel l0 ns) (fun l1 =>
             Ok (normalize_int_selection l1 size))) = Ok ix' /\ ix_rep size ix' l' /\ ix_indexable size ix').
  { rewrite (ix_rep_list _ _ _ HR). cbn [bind]. rewrite Hget by reflexivity. rewrite HL. cbn [bind].
    eexists; split; [reflexivity|]. apply normalize_int_rep; assumption. }
  destruct ix as [|ia ib ic|r]; destruct ns as [|a b c|li|m|tu]; try congruence;
    try (destruct BYLIST as (ix' & E & H1 & H2); exists ix'; cbn [getitem_index]; auto; fail).
  - (* whole table, slice *)
    destruct (Hsl a b c eq_refl) as (k & Hc & -> & -> & Ha & Ha0).
    cbn [getitem_index]. eexists; split; [reflexivity|]. cbn in HR; subst l.
    rewrite zlen_iota in * by exact Hs.
    rewrite map_res_get_iota in HL by exact Hp. injection HL as <-.
    split; [cbn; split; [lia|]; exists k; auto|].
    intros _ Hse. cbn. destruct k as [|k]; [|nia].
    destruct (Z.eq_dec size 0); [auto|]. right; left. apply Ha; lia.
  - (* whole table, integers *)
    rewrite (Hints li eq_refl) in *. cbn [getitem_index]. eexists; split; [reflexivity|].
    cbn in HR; subst l. rewrite zlen_iota in * by exact Hs.
    rewrite map_res_get_iota in HL by exact Hp. injection HL as <-.
    destruct (normalize_int_rep p size HI' NR); auto.
  - (* slice of a slice *)
    destruct (Hsl a b c eq_refl) as (k & Hc & -> & -> & Ha & Ha0).
    cbn in HR. destruct HR as (Hic & K & -> & ->).
    cbn [getitem_index]. destruct (Z.eqb_spec c 0); [lia|].
    eexists; split; [reflexivity|].
    rewrite zlen_progression in *.
    rewrite compose_progression in HL by exact Hp. injection HL as <-.
    replace (a + Z.of_nat k * c - a) with (Z.of_nat k * c) by lia. rewrite Z.div_mul by lia.
    split.
    + cbn. split; [nia|]. exists k. split; [reflexivity|]. reflexivity.
    + intros Hix Hse. cbn in *. destruct k as [|k]; [|left; nia].
      destruct (Z.eq_dec (Z.of_nat K) 0) as [EK|NK].
      * rewrite (Ha0 eq_refl EK Hse). rewrite EK in Hix. replace (ia + 0 * ic) with ia by lia. lia.
      * right; left. assert (0 <= a < Z.of_nat K) by (apply Ha; lia).
        unfold in_range in HI; rewrite Forall_forall in HI.
        assert (HX : In (ia + a * ic) (progression ia ic K)).
        { apply progression_In. exists (Z.to_nat a). split; [lia|]. f_equal. f_equal. lia. }
        specialize (HI _ HX). lia.
Qed.

Lemma getitem_index_range size l p l' :
  in_range size l -> map_res (get l) p = Ok l' -> in_range size l'.
Proof.
  intros HI HL. apply map_res_ok in HL. unfold in_range in *. rewrite Forall_forall in HI.
  induction HL as [|x y p l' Hxy H IH]; constructor; [|exact IH].
  apply get_ok in Hxy as [_ E]. apply HI. eapply nth_error_In; exact E.
Qed.

(** Picking distinct positions from a list without duplicates. *)
Lemma map_res_get_NoDup (l p l' : list Z) :
  NoDup l -> NoDup p -> map_res (get l) p = Ok l' -> NoDup l'.
Proof.
  intros ND NP HL. apply map_res_ok in HL.
  induction HL as [|x y p l' Hxy H IH]; [constructor|].
  inversion NP as [|? ? Hn NP']; subst. constructor; [|apply IH; exact NP'].
  intros Hy. apply Hn.
  apply get_ok in Hxy as [Hx0 Ex].
  assert (G : exists x', In x' p /\ get l x' = Ok y).
  { clear -H Hy. induction H as [|a b p l' Hab H IH]; [destruct Hy|].
    destruct Hy as [<-|Hy]; [exists a; split; [left; reflexivity|exact Hab]|].
    destruct (IH Hy) as (x' & Hi & Hg); exists x'; split; [right; exact Hi|exact Hg]. }
  destruct G as (x' & Hi & Hg). apply get_ok in Hg as [Hx0' Ex'].
  assert (Z.to_nat x = Z.to_nat x').
  { rewrite NoDup_nth_error in ND. apply ND; [apply nth_error_Some; congruence|congruence]. }
  replace x with x' by lia. exact Hi.
Qed.

Lemma sel_safe_NoDup s n p : 0 <= n -> sel_safe s n -> sel_meaning s n = Ok p -> NoDup p.
Proof.
  intros Hn; destruct s as [|i|sl|l|sh m|us]; cbn [sel_safe sel_meaning].
  - intros _ H; injection H as <-; apply NoDup_iota.
  - intros Hi; rewrite np_wrap_in by exact Hi; cbn; intros H; injection H as <-.
    constructor; [intros []|constructor].
  - unfold forward; intros Hf; rewrite slice_positions_ok by lia; intros H; injection H as <-.
    apply NoDup_progression; lia.
  - intros [Hr ND]; rewrite map_res_wrap_id by exact Hr; intros H; injection H as <-; exact ND.
  - intros [-> Hm]; rewrite list_eqb_refl; intros H; injection H as <-; apply np_where_NoDup.
  - destruct us as [|[sl|i|] [|u us]]; try contradiction.
    + unfold forward; intros Hf; rewrite slice_positions_ok by lia; intros H; injection H as <-.
      apply NoDup_progression; lia.
    + intros _ H; injection H as <-; apply NoDup_iota.
Qed.

(** ** Attributes of a sub-table *)
Definition rows_len {A} (n : Z) (attrs : list (string * attr A)) : Prop :=
  forall k rows, In (k, AtArr rows) attrs -> zlen rows = n.

Definition attrs_taken {A} (p : list Z) (l l' : list (string * attr A)) : Prop :=
  Forall2 (fun x y => fst x = fst y /\
    match snd x, snd y with
    | AtArr r, AtArr r' => map_res (get r) p = Ok r'
    | AtArr _, _ | _, AtArr _ => False
    | v, v' => v = v'
    end) l l'.

Lemma getitem_attrs_spec {A} (out : table A) ns n p attrs :
  t_len out = Ok (zlen p) -> rows_len n attrs -> in_range n p ->
  (forall v : list A, zlen v = n -> np_getsel v ns = map_res (get v) p) ->
  exists attrs', getitem_attrs out ns attrs = Ok attrs' /\ attrs_taken p attrs attrs'.
Proof.
  intros HL Hrows Hp Hget; induction attrs as [|(k & v) attrs IH].
  - exists []; split; [reflexivity|constructor].
  - destruct IH as (attrs' & E & HT); [intros k' r Hin; eapply Hrows; right; exact Hin|].
    cbn [getitem_attrs]. destruct v as [rows|a| |].
    + assert (Hr : zlen rows = n) by (eapply Hrows; left; reflexivity).
      rewrite Hget by exact Hr.
      destruct (map_res_get_total rows p) as [rows' Hrows']; [rewrite Hr; exact Hp|].
      rewrite Hrows'; cbn [bind]. unfold setattr_arr. rewrite HL; cbn [bind].
      assert (EL : zlen rows' = zlen p) by (unfold zlen; rewrite (map_res_length _ _ _ Hrows'); reflexivity).
      rewrite EL, Z.eqb_refl; cbn [negb bind]. rewrite E; cbn [bind].
      eexists; split; [reflexivity|]. constructor; [cbn; auto|exact HT].
    + cbn [bind]; rewrite E; cbn [bind]; eexists; split; [reflexivity|]; constructor; [cbn; auto|exact HT].
    + cbn [bind]; rewrite E; cbn [bind]; eexists; split; [reflexivity|]; constructor; [cbn; auto|exact HT].
    + cbn [bind]; rewrite E; cbn [bind]; eexists; split; [reflexivity|]; constructor; [cbn; auto|exact HT].
Qed.

Lemma attrs_taken_all {A} (n : Z) (attrs : list (string * attr A)) :
  rows_len n attrs -> attrs_taken (iota n) attrs attrs.
Proof.
  induction attrs as [|(k & v) attrs IH]; intros Hr; [constructor|].
  constructor; [|apply IH; intros k' r Hin; eapply Hr; right; exact Hin].
  cbn; split; [reflexivity|]. destruct v as [rows|a| |]; auto.
  rewrite <- (Hr k rows (or_introl eq_refl)). apply map_res_get_all.
Qed.

Lemma attrs_taken_rows_len {A} p (l l' : list (string * attr A)) :
  attrs_taken p l l' -> rows_len (zlen p) l'.
Proof.
  induction 1 as [|(k & v) (k' & v') l l' Hx H IH]; intros k0 rows Hin; [destruct Hin|].
  destruct Hin as [E|Hin]; [|eapply IH; exact Hin].
  injection E as -> ->. cbn in Hx. destruct Hx as [_ Hx]. destruct v as [r|a| |]; try contradiction; try discriminate.
  unfold zlen; rewrite (map_res_length _ _ _ Hx); reflexivity.
Qed.

Lemma attrs_taken_assoc {A} p (l l' : list (string * attr A)) k :
  attrs_taken p l l' ->
  match assoc k l, assoc k l' with
  | Some (AtArr r), Some (AtArr r') => map_res (get r) p = Ok r'
  | Some (AtArr _), _ | _, Some (AtArr _) => False
  | v, v' => v = v'
  end.
Proof.
  induction 1 as [|(k1 & v) (k2 & v') l l' Hx H IH]; [exact eq_refl|].
  cbn in Hx; destruct Hx as [<- Hx]. cbn [assoc].
  destruct (String.eqb k k1); [|exact IH].
  destruct v, v'; try contradiction; try discriminate; auto; try congruence.
Qed.

(** ** The main lemma on [getitem] *)
Lemma getitem_spec {A} (t : table A) l s p l' :
  0 <= t_size t -> ix_rep (t_size t) (t_index t) l -> in_range (t_size t) l ->
  sel_dom s (zlen l) -> sel_meaning s (zlen l) = Ok p -> map_res (get l) p = Ok l' ->
  ~ repeated_only l' -> rows_len (zlen l) (t_attrs t) ->
  exists ix' attrs', getitem t s = Ok (Table (t_shape t) ix' attrs') /\
    ix_rep (t_size t) ix' l' /\ attrs_taken p (t_attrs t) attrs' /\
    (ix_indexable (t_size t) (t_index t) -> sel_nonempty s (zlen l) -> ix_indexable (t_size t) ix').
Proof.
  intros Hs HR HI HD HM HL NR Hrows.
  pose proof (zlen_nonneg l) as Hn.
  destruct (normalize_sel_dom s (zlen l) p Hn HD HM) as (ns & En & Hell & Hget & Hsl & Hints).
  destruct (sel_dom_meaning s (zlen l) Hn HD) as (p' & Ep & Hp). rewrite HM in Ep; injection Ep as <-.
  unfold getitem, t_len. rewrite (ix_rep_len _ _ _ Hs HR). cbn [bind]. rewrite En. cbn [bind].
  destruct (match ns with NEll => true | _ => false end) eqn:Ens.
  - destruct ns; try discriminate. rewrite (Hell eq_refl) in *. rewrite map_res_get_all in HL; injection HL as <-.
    destruct t as [sh ix attrs]; cbn in *. exists ix, attrs. repeat split; auto.
    apply attrs_taken_all; exact Hrows.
  - assert (Hne : ns <> NEll) by (intros ->; discriminate).
    destruct (getitem_index_spec _ _ _ _ _ _ _ Hs HR HI HD HM En Hne HL NR) as (ix' & E & HR' & HX).
    destruct (getitem_attrs_spec (Table (t_shape t) ix' (t_attrs t)) ns (zlen l) p (t_attrs t)) as (attrs' & Ea & Ht).
    + unfold t_len. cbn [t_index]. replace (t_size (Table (t_shape t) ix' (t_attrs t))) with (t_size t) by reflexivity.
      rewrite (ix_rep_len _ _ _ Hs HR'). unfold zlen. rewrite (map_res_length _ _ _ HL). reflexivity.
    + exact Hrows.
    + exact Hp.
    + apply Hget.
    + exists ix', attrs'. split; [|auto].
      destruct ns; try congruence; rewrite E; cbn [bind]; rewrite Ea; reflexivity.
Qed.
