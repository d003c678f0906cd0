(** Lemmas for the arrays: sorts, unique values, histograms and positions. *)
From Coq Require Import Lia Permutation Sorting.Sorted.
From Verif Require Import Base BaseFacts MedianModel MedianFacts MedianSpec SortModel SortSpec SortFacts.
Open Scope Z_scope.

Lemma positions_eq n : map (fun i => i + 1) (iota n) = positions n.
Proof.
  unfold positions, iota, progression. rewrite <- seq_shift, !map_map. apply map_ext. intros k. lia.
Qed.
Lemma In_positions n i : In i (positions n) <-> 1 <= i <= n.
Proof.
  unfold positions. rewrite in_map_iff. setoid_rewrite in_seq. split.
  - intros [k [<- H]]. lia.
  - intros H. exists (Z.to_nat i). lia.
Qed.

Lemma aget_at {T} (a : list T) i x : aget a i = Ok x <-> at_ a i x.
Proof.
  unfold aget, at_. split.
  - intros H. apply get_ok in H. split; [lia | apply H].
  - intros [H E]. apply get_ok. split; [lia | exact E].
Qed.
Lemma aget_total {T} (a : list T) i : 1 <= i <= zlen a -> exists x, aget a i = Ok x.
Proof. intros H. apply get_total. lia. Qed.
Lemma aget_range {T} (a : list T) i x : aget a i = Ok x -> 1 <= i <= zlen a.
Proof. intros H. apply get_range in H. lia. Qed.

(** ** From the order of the positions to a sorted list *)
Lemma strong_of_B (R : Z -> Z -> Prop) o : (forall i j, 1 <= i -> i < j -> j <= zlen o -> R (B o i) (B o j)) -> StronglySorted R o.
Proof.
  induction o as [|x o IH]; intros H; constructor.
  - apply IH. intros i j I1 I2 I3. specialize (H (i + 1) (j + 1) ltac:(lia) ltac:(lia)). rewrite zlen_cons in H.
    specialize (H ltac:(lia)). unfold B in H |- *.
    replace (Z.to_nat (i + 1 - 1)) with (S (Z.to_nat (i - 1))) in H by lia.
    replace (Z.to_nat (j + 1 - 1)) with (S (Z.to_nat (j - 1))) in H by lia. exact H.
  - apply Forall_forall. intros y Hy. apply In_nth_error in Hy. destruct Hy as [k Ek].
    assert (Lk : (k < length o)%nat) by (apply nth_error_Some; congruence).
    specialize (H 1 (Z.of_nat k + 2) ltac:(lia) ltac:(lia)). rewrite zlen_cons in H. unfold zlen in H. specialize (H ltac:(lia)).
    unfold B in H. replace (Z.to_nat (Z.of_nat k + 2 - 1)) with (S k) in H by lia. cbn [nth] in H.
    rewrite (nth_error_nth _ _ 0 Ek) in H. exact H.
Qed.

Lemma qsort_sorted leb n : (forall x y, leb x y = true \/ leb y x = true) ->
  (forall x y z, leb x y = true -> leb y z = true -> leb x z = true) -> 0 <= n < 2 ^ 1001 ->
  exists o, qsort leb n = Ok o /\ Permutation (positions n) o /\ StronglySorted (fun x y => leb x y = true) o.
Proof.
  intros T R Hn. destruct (qsort_ok leb T R n Hn) as [o [E [P S]]]. exists o. split; [exact E|].
  rewrite positions_eq in P. split; [exact P|]. apply strong_of_B.
  assert (zlen o = n).
  { unfold zlen. rewrite <- (Permutation_length P). unfold positions. rewrite map_length, seq_length. lia. }
  rewrite H. exact S.
Qed.

(** ** Comparison with rejected items *)
Definition leb_rej (rej : Z -> bool) (v : Z -> Z) (i j : Z) : bool :=
  if rej i then rej j else if rej j then true else v i <=? v j.
Lemma leb_rej_total rej v x y : leb_rej rej v x y = true \/ leb_rej rej v y x = true.
Proof. unfold leb_rej. destruct (rej x), (rej y); auto. lia. Qed.
Lemma leb_rej_trans rej v x y z : leb_rej rej v x y = true -> leb_rej rej v y z = true -> leb_rej rej v x z = true.
Proof. unfold leb_rej. destruct (rej x), (rej y), (rej z); auto; try discriminate. lia. Qed.

Lemma sorted_split rej v o : StronglySorted (fun x y => leb_rej rej v x y = true) o ->
  exists o1 o2, o = o1 ++ o2 /\ Forall (fun i => rej i = false) o1 /\ Forall (fun i => rej i = true) o2 /\
                StronglySorted (fun i j => v i <= v j) o1.
Proof.
  induction 1 as [|x o S IH F].
  - exists [], []. repeat constructor.
  - destruct (rej x) eqn:Rx.
    + exists [], (x :: o). split; [reflexivity|]. split; [constructor|]. split; [|constructor].
      constructor; [exact Rx|]. eapply Forall_impl; [|exact F]. intros y Hy. cbn beta in Hy. unfold leb_rej in Hy. now rewrite Rx in Hy.
    + destruct IH as [o1 [o2 [-> [F1 [F2 S1]]]]]. exists (x :: o1), o2. split; [reflexivity|].
      split; [constructor; assumption|]. split; [exact F2|]. constructor; [exact S1|].
      apply Forall_app in F. destruct F as [F _]. rewrite Forall_forall in *. intros y Hy. specialize (F y Hy). specialize (F1 y Hy).
      cbn beta in *. unfold leb_rej in F. rewrite Rx, F1 in F. lia.
Qed.

Definition numv (a : list num) (i : Z) : Z := match item a i with Fin z => z | NaN => 0 end.
Lemma leb_num_rej a i j : leb_num a i j = leb_rej (fun i => is_nan (item a i)) (numv a) i j.
Proof. unfold leb_num, leb_rej, numv. destruct (item a i), (item a j); reflexivity. Qed.
Lemma leb_mask_rej a m i j : leb_mask a m i j = leb_rej (out a m) (numv a) i j.
Proof.
  unfold leb_mask, leb_rej, numv. destruct (out a m i) eqn:Oi, (out a m j) eqn:Oj; auto.
  unfold out in Oi, Oj. apply orb_false_elim in Oi, Oj. destruct (item a i), (item a j); try reflexivity; cbn in *; intuition discriminate.
Qed.

Lemma strong_iff {T} (R R' : T -> T -> Prop) l : (forall x y, R x y -> R' x y) -> StronglySorted R l -> StronglySorted R' l.
Proof. intros H. induction 1 as [|x l S IH F]; constructor; [exact IH|]. eapply Forall_impl; [|exact F]. intros; now apply H. Qed.
Lemma strong_map {T U} (f : T -> U) (R : U -> U -> Prop) l : StronglySorted (fun x y => R (f x) (f y)) l -> StronglySorted R (map f l).
Proof. induction 1 as [|x l S IH F]; cbn; constructor; [exact IH|]. apply Forall_map. exact F. Qed.

Lemma item_at a i x : at_ a i x -> item a i = x.
Proof. intros H. apply aget_at in H. unfold item. now rewrite H. Qed.

(** The array read through an index. *)
Lemma read_items a o : (forall i, In i o -> 1 <= i <= zlen a) -> read a o (map (item a) o).
Proof.
  unfold read. induction o as [|i o IH]; intros H; cbn; constructor.
  - destruct (aget_total a i) as [x E]; [apply H; now left|]. apply aget_at in E. now rewrite (item_at _ _ _ E).
  - apply IH. intros j Hj. apply H. now right.
Qed.
Lemma map_positions {T} (f : Z -> T) (a : list T) : (forall i x, at_ a i x -> f i = x) -> map f (positions (zlen a)) = a.
Proof.
  unfold positions. rewrite to_nat_zlen, map_map.
  assert (G : forall l s, (forall k x, nth_error l k = Some x -> f (Z.of_nat (s + k)) = x) -> map (fun x => f (Z.of_nat x)) (seq s (length l)) = l).
  { induction l as [|y l IH]; intros s H; [reflexivity|]. cbn [length seq map]. f_equal.
    - rewrite <- (H O y eq_refl). f_equal. lia.
    - apply IH. intros k x E. rewrite <- (H (S k) x E). f_equal. lia. }
  intros H. apply G. intros k x E. apply H. split; [lia|]. rewrite <- E. f_equal. lia.
Qed.

Lemma read_perm {T} (f : Z -> T) a o : (forall i x, at_ a i x -> f i = x) -> Permutation (positions (zlen a)) o ->
  read a o (map f o) /\ Permutation a (map f o).
Proof.
  intros Hf P. split.
  - assert (H : forall i, In i o -> 1 <= i <= zlen a).
    { intros i Hi. apply In_positions. apply (Permutation_in i (Permutation_sym P)). exact Hi. }
    clear P. unfold read. induction o as [|i o IH]; cbn; constructor.
    + destruct (aget_total a i) as [x E]; [apply H; now left|]. apply aget_at in E. now rewrite (Hf _ _ E).
    + apply IH. intros j Hj. apply H. now right.
  - apply (Permutation_map f) in P. now rewrite (map_positions f a Hf) in P.
Qed.

(** ** The sorts of arrays *)
Lemma map_item_valid a o : Forall (fun i => is_nan (item a i) = false) o -> map (item a) o = map Fin (map (numv a) o).
Proof.
  intros H. rewrite map_map. apply map_ext_in. intros i Hi. rewrite Forall_forall in H. specialize (H i Hi). cbn beta in H.
  unfold numv. destruct (item a i); [discriminate | reflexivity].
Qed.
Lemma map_item_nan a o : Forall (fun i => is_nan (item a i) = true) o -> map (item a) o = repeat NaN (length o).
Proof.
  induction 1 as [|i o H F IH]; [reflexivity|]. cbn. rewrite IH. f_equal. destruct (item a i); [reflexivity | discriminate].
Qed.
Lemma finite_nan k : finite (repeat NaN k) = [].
Proof. induction k; [reflexivity | exact IHk]. Qed.

Lemma sort_num a : small (zlen a) -> exists o s k, qsort (leb_num a) (zlen a) = Ok o /\ Permutation (positions (zlen a)) o /\
  read a o (map Fin s ++ repeat NaN k) /\ nondecreasing s /\ Permutation (finite a) s.
Proof.
  intros Hn. destruct (qsort_sorted (leb_num a) (zlen a)) as [o [E [P S]]].
  - intros x y. rewrite !leb_num_rej. apply leb_rej_total.
  - intros x y z. rewrite !leb_num_rej. apply leb_rej_trans.
  - split; [apply zlen_nonneg | exact Hn].
  - apply (strong_iff _ (fun x y => leb_rej (fun i => is_nan (item a i)) (numv a) x y = true)) in S;
      [|intros x y H; now rewrite <- leb_num_rej].
    apply sorted_split in S. destruct S as [o1 [o2 [Eo [F1 [F2 S1]]]]].
    destruct (read_perm (item a) a o (item_at a) P) as [Rd Pm].
    assert (Em : map (item a) o = map Fin (map (numv a) o1) ++ repeat NaN (length o2)).
    { rewrite Eo, map_app, (map_item_valid a o1 F1), (map_item_nan a o2 F2). reflexivity. }
    rewrite Em in Rd, Pm. exists o, (map (numv a) o1), (length o2). split; [exact E|]. split; [exact P|]. split; [exact Rd|].
    split; [now apply strong_map|].
    apply finite_perm in Pm. now rewrite finite_app, finite_map, finite_nan, app_nil_r in Pm.
Qed.

Lemma out_spec a m i : 1 <= i <= zlen a -> length m = length a ->
  (out a m i = false <-> exists z, at_ a i (Fin z) /\ at_ m i false) /\ (out a m i = true <-> at_ a i NaN \/ at_ m i true).
Proof.
  intros Hi L. destruct (aget_total a i Hi) as [x Ex]. destruct (aget_total m i) as [b Eb]; [unfold zlen in *; lia|].
  assert (Ux : forall y, at_ a i y -> y = x) by (intros y Hy; apply aget_at in Hy; congruence).
  assert (Ub : forall y, at_ m i y -> y = b) by (intros y Hy; apply aget_at in Hy; congruence).
  unfold out, item. rewrite Ex, Eb. apply aget_at in Ex, Eb.
  destruct x as [|z], b; cbn [is_nan orb]; split; split; intros H; try discriminate; auto;
    try (destruct H as [z' [H1 H2]]; try specialize (Ux _ H1); try specialize (Ub _ H2); discriminate);
    try (destruct H as [H|H]; [specialize (Ux _ H) | specialize (Ub _ H)]; discriminate).
  eauto.
Qed.

Lemma sort_mask a m : small (zlen a) -> length m = length a -> exists o1 o2 s, qsort (leb_mask a m) (zlen a) = Ok (o1 ++ o2) /\
  Permutation (positions (zlen a)) (o1 ++ o2) /\ read a o1 (map Fin s) /\ nondecreasing s /\
  Forall (fun i => at_ m i false) o1 /\ Forall (fun i => at_ a i NaN \/ at_ m i true) o2.
Proof.
  intros Hn L. destruct (qsort_sorted (leb_mask a m) (zlen a)) as [o [E [P S]]].
  - intros x y. rewrite !leb_mask_rej. apply leb_rej_total.
  - intros x y z. rewrite !leb_mask_rej. apply leb_rej_trans.
  - split; [apply zlen_nonneg | exact Hn].
  - apply (strong_iff _ (fun x y => leb_rej (out a m) (numv a) x y = true)) in S; [|intros x y H; now rewrite <- leb_mask_rej].
    apply sorted_split in S. destruct S as [o1 [o2 [-> [F1 [F2 S1]]]]].
    assert (Rg : forall i, In i (o1 ++ o2) -> 1 <= i <= zlen a).
    { intros i Hi. apply In_positions. exact (Permutation_in i (Permutation_sym P) Hi). }
    exists o1, o2, (map (numv a) o1). split; [exact E|]. split; [exact P|].
    assert (G1 : forall i, In i o1 -> exists z, at_ a i (Fin z) /\ at_ m i false).
    { intros i Hi. apply out_spec; [apply Rg, in_or_app; now left | exact L |]. rewrite Forall_forall in F1. now apply F1. }
    split.
    { rewrite <- map_item_valid.
      - unfold read. clear - G1. induction o1 as [|i o1 IH]; cbn; constructor.
        + destruct (G1 i ltac:(now left)) as [z [H _]]. now rewrite (item_at _ _ _ H).
        + apply IH. intros j Hj. apply G1. now right.
      - apply Forall_forall. intros i Hi. destruct (G1 i Hi) as [z [H _]]. now rewrite (item_at _ _ _ H). }
    split; [now apply strong_map|]. split; apply Forall_forall; intros i Hi.
    + destruct (G1 i Hi) as [z [_ H]]. exact H.
    + apply out_spec; [apply Rg, in_or_app; now right | exact L |]. rewrite Forall_forall in F2. now apply F2.
Qed.

Definition intv (a : list Z) (i : Z) : Z := match aget a i with Ok x => x | Err _ => 0 end.
Lemma intv_at a i x : at_ a i x -> intv a i = x.
Proof. intros H. apply aget_at in H. unfold intv. now rewrite H. Qed.
Definition beyond {T} (a : list T) (i : Z) : bool := match aget a i with Ok _ => false | Err _ => true end.

Lemma sort_int a : small (zlen a) -> exists o s, qsort (leb_int a) (zlen a) = Ok o /\ Permutation (positions (zlen a)) o /\
  read a o s /\ nondecreasing s /\ Permutation a s.
Proof.
  intros Hn. assert (E : forall i j, leb_int a i j = leb_rej (beyond a) (intv a) i j).
  { intros i j. unfold leb_int, leb_rej, beyond, intv. destruct (aget a i), (aget a j); reflexivity. }
  destruct (qsort_sorted (leb_int a) (zlen a)) as [o [Eo [P S]]].
  - intros x y. rewrite !E. apply leb_rej_total.
  - intros x y z. rewrite !E. apply leb_rej_trans.
  - split; [apply zlen_nonneg | exact Hn].
  - apply (strong_iff _ (fun x y => leb_rej (beyond a) (intv a) x y = true)) in S; [|intros x y H; now rewrite <- E].
    apply sorted_split in S. destruct S as [o1 [o2 [Ho [F1 [F2 S1]]]]].
    destruct (read_perm (intv a) a o (intv_at a) P) as [Rd Pm].
    assert (o2 = []) as ->.
    { destruct o2 as [|i o2]; [reflexivity|]. exfalso. apply Forall_inv in F2.
      assert (Hi : 1 <= i <= zlen a).
      { apply In_positions. apply (Permutation_in i (Permutation_sym P)). rewrite Ho. apply in_or_app. right. now left. }
      unfold beyond in F2. destruct (aget_total a i Hi) as [x Ex]. rewrite Ex in F2. discriminate. }
    rewrite app_nil_r in Ho. subst o1. exists o, (map (intv a) o).
    split; [exact Eo|]. split; [exact P|]. split; [exact Rd|]. split; [now apply strong_map | exact Pm].
Qed.

(** QSORTID, without NaN. *)
Lemma sort_plain l : small (zlen l) -> exists o s, qsort (leb_plain (map Fin l)) (zlen l) = Ok o /\ Permutation (positions (zlen l)) o /\
  read l o s /\ nondecreasing s /\ Permutation l s.
Proof.
  intros Hn. assert (E : forall i j, leb_plain (map Fin l) i j = leb_int l i j).
  { assert (G : forall i, aget (map Fin l) i = match aget l i with Ok x => Ok (Fin x) | Err e => Err e end).
    { intros i. unfold aget, get. destruct (i - 1 <? 0); [reflexivity|]. rewrite nth_error_map. destruct (nth_error l _); reflexivity. }
    intros i j. unfold leb_plain, leb_int. rewrite !G. destruct (aget l i), (aget l j); reflexivity. }
  assert (E2 : forall i j, leb_int l i j = leb_rej (beyond l) (intv l) i j).
  { intros i j. unfold leb_int, leb_rej, beyond, intv. destruct (aget l i), (aget l j); reflexivity. }
  destruct (qsort_sorted (leb_plain (map Fin l)) (zlen l)) as [o [Eo [P S]]].
  - intros x y. rewrite !E, !E2. apply leb_rej_total.
  - intros x y z. rewrite !E, !E2. apply leb_rej_trans.
  - split; [apply zlen_nonneg | exact Hn].
  - apply (strong_iff _ (fun x y => leb_rej (beyond l) (intv l) x y = true)) in S; [|intros x y H; now rewrite <- E2, <- E].
    apply sorted_split in S. destruct S as [o1 [o2 [Ho [F1 [F2 S1]]]]].
    destruct (read_perm (intv l) l o (intv_at l) P) as [Rd Pm].
    assert (o2 = []) as ->.
    { destruct o2 as [|i o2]; [reflexivity|]. exfalso. apply Forall_inv in F2.
      assert (Hi : 1 <= i <= zlen l).
      { apply In_positions. apply (Permutation_in i (Permutation_sym P)). rewrite Ho. apply in_or_app. right. now left. }
      unfold beyond in F2. destruct (aget_total l i Hi) as [x Ex]. rewrite Ex in F2. discriminate. }
    rewrite app_nil_r in Ho. subst o1. exists o, (map (intv l) o).
    split; [exact Eo|]. split; [exact P|]. split; [exact Rd|]. split; [now apply strong_map | exact Pm].
Qed.

(** ** Unique values *)
Lemma uniq_loop_in l : forall i val j, In j (uniq_loop i val l) <->
  exists k v, j = i - 1 + Z.of_nat k /\ nth_error (val :: l) k = Some v /\ nth_error (val :: l) (S k) <> Some v.
Proof.
  induction l as [|x r IH]; intros i val j; cbn [uniq_loop].
  - split.
    + intros [<-|[]]. exists O, val. split; [lia|]. split; [reflexivity | discriminate].
    + intros [k [v [-> [H1 H2]]]]. left. destruct k as [|k]; [lia|]. destruct k; discriminate.
  - assert (G : (exists k v, j = i - 1 + Z.of_nat k /\ nth_error (val :: x :: r) k = Some v /\ nth_error (val :: x :: r) (S k) <> Some v) <->
      ((j = i - 1 /\ x <> val) \/ exists k v, j = i + 1 - 1 + Z.of_nat k /\ nth_error (x :: r) k = Some v /\ nth_error (x :: r) (S k) <> Some v)).
    { split.
      - intros [[|k] [v [Ej [H1 H2]]]].
        + left. injection H1 as <-. split; [lia|]. intros ->. now apply H2.
        + right. exists k, v. split; [lia|]. split; [exact H1 | exact H2].
      - intros [[-> N] | [k [v [-> [H1 H2]]]]].
        + exists O, val. split; [lia|]. split; [reflexivity|]. cbn. congruence.
        + exists (S k), v. split; [lia|]. split; [exact H1 | exact H2]. }
    rewrite G. destruct (Z.eqb_spec x val) as [->|N].
    + rewrite IH. split; [intros H; now right|]. intros [[_ N]|H]; [congruence | exact H].
    + cbn [In]. rewrite IH. split; (intros [H|H]; [left | right; exact H]); [auto | symmetry; apply H].
Qed.
Lemma uniq_loop_sorted l : forall i val, StronglySorted Z.lt (uniq_loop i val l) /\ Forall (fun j => i - 1 <= j) (uniq_loop i val l).
Proof.
  induction l as [|x r IH]; intros i val; cbn [uniq_loop].
  - split; repeat constructor. lia.
  - destruct (x =? val).
    + destruct (IH (i + 1) val) as [S F]. split; [exact S|]. eapply Forall_impl; [|exact F]. intros j H. cbn beta in H. lia.
    + destruct (IH (i + 1) x) as [S F]. split.
      * constructor; [exact S|]. eapply Forall_impl; [|exact F]. intros j H. cbn beta in H. lia.
      * constructor; [lia|]. eapply Forall_impl; [|exact F]. intros j H. cbn beta in H. lia.
Qed.
Lemma uniq_int_in a j : In j (uniq_int a) <-> exists v, at_ a j v /\ ~ at_ a (j + 1) v.
Proof.
  destruct a as [|x r].
  - split; [intros []|]. intros [v [[_ H] _]]. destruct (Z.to_nat (j - 1)); discriminate.
  - unfold uniq_int. rewrite uniq_loop_in. split.
    + intros [k [v [-> [H1 H2]]]]. exists v. unfold at_. replace (Z.to_nat (2 - 1 + Z.of_nat k - 1)) with k by lia.
      replace (Z.to_nat (2 - 1 + Z.of_nat k + 1 - 1)) with (S k) by lia. split; [split; [lia | exact H1]|]. intros [_ H]. now apply H2.
    + intros [v [[H1 H2] H3]]. exists (Z.to_nat (j - 1)), v. split; [lia|]. split; [exact H2|]. intros H. apply H3. split; [lia|].
      rewrite <- H. f_equal. lia.
Qed.
Lemma uniq_int_increasing a : increasing (uniq_int a).
Proof. destruct a as [|x r]; [constructor|]. apply uniq_loop_sorted. Qed.

Lemma uniq_loop_values l : forall pre val, nondecreasing (val :: l) ->
  exists vs, read (pre ++ val :: l) (uniq_loop (zlen pre + 2) val l) vs /\ increasing vs /\ (forall v, In v vs <-> In v (val :: l)).
Proof.
  induction l as [|x r IH]; intros pre val S; cbn [uniq_loop].
  - exists [val]. split; [|split].
    + repeat constructor; [pose proof (zlen_nonneg pre); lia|]. rewrite nth_error_app2 by (unfold zlen; lia).
      replace (Z.to_nat (zlen pre + 2 - 1 - 1) - length pre)%nat with O by (unfold zlen; lia). reflexivity.
    + repeat constructor.
    + intros v. reflexivity.
  - apply StronglySorted_inv in S. destruct S as [S F].
    specialize (IH (pre ++ [val]) x S). rewrite <- app_assoc in IH. cbn [app] in IH.
    replace (zlen (pre ++ [val]) + 2) with (zlen pre + 2 + 1) in IH by (rewrite zlen_app; cbn; lia).
    destruct IH as [vs [R [I V]]].
    destruct (Z.eqb_spec x val) as [->|N].
    + exists vs. split; [exact R|]. split; [exact I|]. intros v. rewrite V. cbn [In]. tauto.
    + exists (val :: vs). split; [|split].
      * constructor; [|exact R]. split; [pose proof (zlen_nonneg pre); lia|]. rewrite nth_error_app2 by (unfold zlen; lia).
        replace (Z.to_nat (zlen pre + 2 - 1 - 1) - length pre)%nat with O by (unfold zlen; lia). reflexivity.
      * constructor; [exact I|]. apply Forall_forall. intros v Hv. apply V in Hv.
        assert (val < x) by (apply Forall_inv in F; lia). destruct Hv as [<-|Hv]; [lia|].
        apply StronglySorted_inv in S. destruct S as [_ Fx]. rewrite Forall_forall in Fx. specialize (Fx v Hv). lia.
      * intros v. cbn [In]. rewrite V. reflexivity.
Qed.
Lemma uniq_int_values a : nondecreasing a -> exists vs, read a (uniq_int a) vs /\ increasing vs /\ (forall v, In v vs <-> In v a).
Proof.
  intros S. destruct a as [|x r]; [exists []; repeat constructor; auto|]. exact (uniq_loop_values r [] x S).
Qed.
