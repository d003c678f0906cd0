(** Index representations: lemmas on [pindex]. *)
From Coq Require Import Sorted Permutation.
From Verif Require Import Base BaseFacts PTModel PTSpec PTSliceFacts.

Lemma list_eqb_eq l1 l2 : list_eqb l1 l2 = true <-> l1 = l2.
Proof.
  revert l2; induction l1 as [|x l1 IH]; intros [|y l2]; cbn; split; intros H; try discriminate; auto.
  - apply andb_true_iff in H as [H1 H2]. apply Z.eqb_eq in H1. apply IH in H2. congruence.
  - injection H as -> ->. rewrite Z.eqb_refl; cbn; apply IH; reflexivity.
Qed.

Lemma list_eqb_refl l : list_eqb l l = true.
Proof. apply list_eqb_eq; reflexivity. Qed.

Lemma prodZ_nonneg l : Forall (fun d => 0 <= d) l -> 0 <= prodZ l.
Proof. induction 1; cbn; [lia|]. apply Z.mul_nonneg_nonneg; assumption. Qed.

(** [ix] stands for the list of positions [l]. *)
Definition ix_rep (size : Z) (ix : pindex) (l : list Z) : Prop :=
  match ix with
  | IAll => l = iota size
  | ISlice a b c => c <> 0 /\ exists k, b = a + Z.of_nat k * c /\ l = progression a c k
  | IArr r => l = r
  end.

(** ... and can be used for indexing. *)
Definition ix_indexable (size : Z) (ix : pindex) : Prop :=
  match ix with ISlice a b _ => a <> b \/ 0 <= a \/ size = 0 | _ => True end.

Lemma arange_exact a k c : c <> 0 -> arange a (a + Z.of_nat k * c) c = Ok (progression a c k).
Proof.
  intros Hc; unfold arange; destruct (Z.eqb_spec c 0); [lia|].
  destruct (Z.ltb_spec 0 c).
  - replace (a + Z.of_nat k * c - a) with (Z.of_nat k * c) by lia.
    rewrite cdiv_mul by lia; rewrite Nat2Z.id; reflexivity.
  - replace (a - (a + Z.of_nat k * c)) with (Z.of_nat k * - c) by lia.
    rewrite cdiv_mul by lia; rewrite Nat2Z.id; reflexivity.
Qed.

Lemma ix_rep_list size ix l : ix_rep size ix l -> index_list size ix = Ok l.
Proof.
  destruct ix as [|a b c|r]; cbn; [intros ->; reflexivity| |intros ->; reflexivity].
  intros (Hc & k & -> & ->); apply arange_exact; exact Hc.
Qed.

Lemma ix_rep_len size ix l : 0 <= size -> ix_rep size ix l -> index_len size ix = Ok (zlen l).
Proof.
  intros Hs; destruct ix as [|a b c|r]; cbn.
  - intros ->; rewrite zlen_iota by exact Hs; reflexivity.
  - intros (Hc & k & -> & ->). destruct (Z.eqb_spec c 0); [lia|].
    rewrite zlen_progression. f_equal.
    replace (a + Z.of_nat k * c - a) with (Z.of_nat k * c) by lia. apply Z.div_mul; exact Hc.
  - intros ->; reflexivity.
Qed.

(** The slice used for indexing selects the same positions. *)
Lemma indexable_positions size a b c l :
  0 <= size -> ix_rep size (ISlice a b c) l -> ix_indexable size (ISlice a b c) ->
  in_range size l -> py_slice_positions (indexable_slice a b c) size = Ok l.
Proof.
  intros Hs (Hc & k & -> & ->) Hi HR.
  unfold py_slice_positions, indexable_slice.
  set (b := a + Z.of_nat k * c) in *.
  assert (Est : forall s0, py_step (if s0 : bool then PySlice (Some a) None (Some c) else PySlice (Some a) (Some b) (Some c)) = c)
    by (intros []; reflexivity).
  rewrite Est. destruct (Z.eqb_spec c 0); [lia|]. f_equal.
  destruct k as [|k].
  - assert (b = a) by (unfold b; lia). cbn [ix_indexable] in Hi.
    replace (progression a c 0) with (@nil Z) by reflexivity.
    enough (py_slice_length (if b <? 0 then PySlice (Some a) None (Some c) else PySlice (Some a) (Some b) (Some c)) size <= 0) as E.
    { replace (Z.to_nat _) with 0%nat by lia; reflexivity. }
    unfold py_slice_length, py_start, py_stop, py_step.
    destruct (Z.ltb_spec b 0); cbn [sl_start sl_stop sl_step]; cbv zeta;
    destruct (Z.ltb_spec c 0); ifs; try lia.
  - assert (H0 : 0 <= a < size).
    { unfold in_range in HR; rewrite Forall_forall in HR; apply HR.
      rewrite progression_S; left; reflexivity. }
    assert (H1 : 0 <= a + Z.of_nat k * c < size).
    { unfold in_range in HR; rewrite Forall_forall in HR; apply HR.
      apply progression_In; exists k; split; [lia|reflexivity]. }
    assert (Estart : py_start (if b <? 0 then PySlice (Some a) None (Some c) else PySlice (Some a) (Some b) (Some c)) size = a).
    { unfold py_start; rewrite Est; destruct (b <? 0); cbn [sl_start]; cbv zeta; ifs; lia. }
    rewrite Estart. f_equal.
    enough (py_slice_length (if b <? 0 then PySlice (Some a) None (Some c) else PySlice (Some a) (Some b) (Some c)) size = Z.of_nat (S k)) by lia.
    rewrite py_slice_length_cdiv by (rewrite Est; exact Hc).
    unfold py_extent. rewrite Estart, Est.
    unfold py_stop; rewrite Est. subst b.
    destruct (Z.ltb_spec c 0) as [Hc0|Hc0].
    + destruct (Z.ltb_spec (a + Z.of_nat (S k) * c) 0); cbn [sl_stop].
      * rewrite Z.max_l, cdiv_pos by lia.
        replace (Z.abs c) with (- c) by lia. 
        assert (Z.of_nat k = (a - -1 - 1) / - c); [|lia].
        apply Z.div_unique with (a - -1 - 1 - (- c) * Z.of_nat k); [left; lia|lia].
      * cbv zeta. assert (a + Z.of_nat (S k) * c < size) by lia. ifs; try lia.
        rewrite Z.max_l by lia. replace (Z.abs c) with (- c) by lia.
        replace (a - (a + Z.of_nat (S k) * c)) with (Z.of_nat (S k) * - c) by lia. apply cdiv_mul; lia.
    + destruct (Z.ltb_spec (a + Z.of_nat (S k) * c) 0); [lia|]. cbn [sl_stop]; cbv zeta.
      replace (Z.abs c) with c by lia.
      ifs; try lia.
      * rewrite Z.max_l, cdiv_pos by lia.
        assert (Z.of_nat k = (size - a - 1) / c); [|lia].
        apply Z.div_unique with (size - a - 1 - c * Z.of_nat k); [left; lia|lia].
      * rewrite Z.max_l by lia.
        replace (a + Z.of_nat (S k) * c - a) with (Z.of_nat (S k) * c) by lia. apply cdiv_mul; lia.
Qed.

(** ** _normalize_int_selection *)
Lemma forall_eq_progression x n l :
  list_eqb l (progression x 0 n) = true -> Forall (eq x) l.
Proof.
  intros H; apply list_eqb_eq in H; subst; apply Forall_forall; intros y Hy.
  apply progression_In in Hy as (k & _ & ->); lia.
Qed.

Lemma normalize_int_rep l size :
  in_range size l -> ~ repeated_only l -> ix_rep size (normalize_int_selection l size) l
  /\ ix_indexable size (normalize_int_selection l size).
Proof.
  intros HR NR; unfold normalize_int_selection.
  destruct l as [|x [|y r]]; [split; cbn; auto|split; cbn; auto|].
  set (l := x :: y :: r) in *.
  destruct (list_eqb l (progression x (y - x) (length l))) eqn:E; [|split; cbn; auto].
  destruct (Z.eq_dec (y - x) 0) as [Ez|Nz].
  - exfalso; apply NR. rewrite Ez in E. apply forall_eq_progression in E. exact E.
  - apply list_eqb_eq in E.
    destruct ((zlen l =? size) && (y - x =? 1)) eqn:E2.
    + split; [|exact I]. apply andb_true_iff in E2 as [E3 E4]. apply Z.eqb_eq in E3, E4.
      cbn [ix_rep]. rewrite E4 in E.
      assert (x = 0).
      { unfold in_range in HR; rewrite Forall_forall in HR.
        assert (Hx : In x l) by (left; reflexivity).
        assert (Hl : In (x + Z.of_nat (length l - 1) * 1) l).
        { rewrite E at 2. apply progression_In; exists (length l - 1)%nat; split; [cbn; lia|reflexivity]. }
        pose proof (HR _ Hx); pose proof (HR _ Hl). unfold zlen in E3. unfold l in *; cbn [length] in *. lia. }
      subst x. rewrite E. unfold iota. rewrite <- E3, to_nat_zlen. reflexivity.
    + split.
      * cbn [ix_rep]. split; [exact Nz|]. exists (length l). split; [reflexivity|exact E].
      * cbn [ix_indexable]. left. unfold zlen, l; cbn [length]. nia.
Qed.

Lemma repeated_only_NoDup l : NoDup l -> ~ repeated_only l.
Proof.
  intros ND H; destruct l as [|x [|y r]]; cbn in H; auto.
  inversion ND as [|? ? Hn ND']; subst. inversion H as [|? ? _ H']; subst. inversion H' as [|? ? Hy _]; subst.
  apply Hn; left; reflexivity.
Qed.

(** Repeated positions make the length fail. *)
Lemma normalize_int_repeated l size :
  repeated_only l -> exists a, normalize_int_selection l size = ISlice a a 0.
Proof.
  destruct l as [|x [|y r]]; cbn [repeated_only]; try contradiction; intros H.
  assert (y = x) by (inversion H as [|? ? _ H']; subst; inversion H'; subst; reflexivity). subst y.
  exists x. unfold normalize_int_selection.
  replace (x - x) with 0 by lia.
  assert (E : x :: x :: r = progression x 0 (length (x :: x :: r))).
  { clear -H. remember (x :: x :: r) as l; clear Heql. induction H as [|y l Hy H IH]; [reflexivity|].
    subst y; cbn [length]; rewrite progression_S. f_equal. replace (x + 0) with x by lia. exact IH. }
  rewrite <- E, list_eqb_refl. replace (0 =? 1) with false by reflexivity. rewrite andb_false_r.
  f_equal; lia.
Qed.

(** ** StronglySorted filters *)
Lemma iota_sorted n : StronglySorted Z.lt (iota n).
Proof.
  unfold iota. generalize 0. induction (Z.to_nat n) as [|k IH]; intros a; [constructor|].
  rewrite progression_S; constructor; [apply IH|].
  apply Forall_forall; intros x Hx; apply progression_In in Hx as (j & _ & ->); lia.
Qed.

Lemma filter_sorted (f : Z -> bool) l : StronglySorted Z.lt l -> StronglySorted Z.lt (filter f l).
Proof.
  induction 1 as [|x l Hl IH Hx]; cbn; [constructor|].
  destruct (f x); [|exact IH]. constructor; [exact IH|].
  apply Forall_forall; intros y Hy; apply filter_In in Hy as [Hy _].
  rewrite Forall_forall in Hx; auto.
Qed.

Lemma np_where_filter m :
  np_where m = filter (fun i => nth (Z.to_nat i) m false) (iota (zlen m)).
Proof.
  unfold np_where, iota; rewrite to_nat_zlen.
  enough (H : forall pre, map fst (filter snd (combine (progression (zlen pre) 1 (length m)) m))
     = filter (fun i => nth (Z.to_nat i) (pre ++ m) false) (progression (zlen pre) 1 (length m))) by exact (H []).
  induction m as [|b m IH]; intros pre; [reflexivity|].
  cbn [length]; rewrite progression_S; cbn [combine filter snd].
  specialize (IH (pre ++ [b])). rewrite <- app_assoc in IH; cbn [app] in IH.
  replace (zlen (pre ++ [b])) with (zlen pre + 1) in IH by (rewrite zlen_app; unfold zlen; cbn; lia).
  rewrite to_nat_zlen, app_nth2, Nat.sub_diag by lia. cbn [nth].
  destruct b; cbn [map fst]; rewrite IH; reflexivity.
Qed.

Lemma np_where_sorted m : StronglySorted Z.lt (np_where m).
Proof. rewrite np_where_filter; apply filter_sorted, iota_sorted. Qed.

Lemma sorted_NoDup l : StronglySorted Z.lt l -> NoDup l.
Proof.
  induction 1 as [|x l Hl IH Hx]; constructor; auto.
  intros HI; rewrite Forall_forall in Hx; specialize (Hx _ HI); lia.
Qed.

Lemma np_where_NoDup m : NoDup (np_where m).
Proof. apply sorted_NoDup, np_where_sorted. Qed.

(** np.where of a boolean array built from positions. *)
Lemma bool_at_length pos n : 0 <= n -> zlen (bool_at pos n) = n.
Proof. intros; unfold bool_at; rewrite zlen_map; apply zlen_iota; assumption. Qed.

Lemma bool_at_nth pos n i :
  0 <= i < n -> nth_error (bool_at pos n) (Z.to_nat i) = Some (existsb (Z.eqb i) pos).
Proof.
  intros H; unfold bool_at; rewrite nth_error_map, iota_nth_error by lia.
  cbn. rewrite Z2Nat.id by lia. reflexivity.
Qed.

Lemma In_where_bool_at pos n i :
  0 <= n -> In i (np_where (bool_at pos n)) <-> 0 <= i < n /\ In i pos.
Proof.
  intros Hn; rewrite In_np_where; split.
  - intros [H0 H].
    assert (Hlt : (Z.to_nat i < length (bool_at pos n))%nat) by (apply nth_error_Some; congruence).
    pose proof (bool_at_length pos n Hn) as HL; unfold zlen in HL.
    assert (Hi : 0 <= i < n) by lia.
    rewrite bool_at_nth in H by exact Hi. injection H as H.
    apply existsb_exists in H as (x & Hx & E). apply Z.eqb_eq in E; subst x. auto.
  - intros [Hi HI]. split; [lia|]. rewrite bool_at_nth by exact Hi. f_equal.
    apply existsb_exists; exists i; split; [exact HI|apply Z.eqb_refl].
Qed.
