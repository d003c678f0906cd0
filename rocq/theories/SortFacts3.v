(** Lemmas for the tables of unique values, histograms and positions. *)
From Coq Require Import Lia Permutation Sorting.Sorted.
From Verif Require Import Base BaseFacts MedianModel MedianFacts MedianSpec SortModel SortSpec SortFacts SortFacts2.
Open Scope Z_scope.

(** ** Equality within a tolerance *)
Section Tol.
Variables rn rd : Z.
Hypothesis Hrn : 0 <= rn.
Local Notation close := (close rn rd).
Local Notation step := (step rn rd).
Lemma close_refl x : close x x.
Proof. unfold close. replace (x - x) with 0 by lia. cbn. nia. Qed.
Lemma neq_close x y : neq_real rn rd (Fin x) (Fin y) = false <-> close x y.
Proof. unfold neq_real, eq_real, close. rewrite negb_false_iff. lia. Qed.
Lemma neq_close' x y : neq_real rn rd (Fin x) (Fin y) = true <-> ~ close x y.
Proof. rewrite <- neq_close. destruct (neq_real rn rd (Fin x) (Fin y)); intuition congruence. Qed.

Definition vlast (tb : list Z) : num := last (map Fin tb) NaN.

Lemma last_snoc {T} (l : list T) x d : last (l ++ [x]) d = x.
Proof. apply last_last. Qed.
Lemma vlast_snoc tb x : vlast (tb ++ [x]) = Fin x.
Proof. unfold vlast. rewrite map_app. apply last_last. Qed.
Lemma sorted_snoc (R : Z -> Z -> Prop) tb x : Sorted R tb -> (forall y, vlast tb = Fin y -> R y x) -> Sorted R (tb ++ [x]).
Proof.
  induction 1 as [|y tb S IH H]; intros Hx; [repeat constructor|]. cbn [app]. destruct tb as [|z tb].
  - cbn. repeat constructor. now apply Hx.
  - constructor; [apply IH; intros w Hw; apply Hx; exact Hw|]. constructor. now inversion H.
Qed.

(** ** uniq_double *)
Lemma uniq_double_loop_ok a l : forall s k val, read a l (map Fin s ++ repeat NaN k) -> nondecreasing (val :: s) ->
  exists out vs, uniq_double_loop (neq_real rn rd) a (Fin val) l = Ok out /\ read a out (map Fin vs) /\
    Sorted step (val :: vs) /\ (forall v, In v vs -> In v s) /\ (forall z, In z s -> exists v, In v (val :: vs) /\ close v z).
Proof.
  induction l as [|i l IH]; intros s k val R S.
  - destruct s as [|x s]; [|inversion R]. exists [], []. split; [reflexivity|]. split; [constructor|]. split; [repeat constructor|]. split; [intros v [] | intros z []].
  - cbn [uniq_double_loop]. destruct s as [|x s].
    + (* NaN *)
      cbn [map app] in R. destruct k as [|k]; [inversion R|]. cbn [repeat] in R. inversion R as [|? ? ? ? H1 H2]; subst.
      pose proof H1 as G. apply aget_at in G. rewrite G. cbn [bind is_nan].
      apply (IH [] k val H2). repeat constructor.
    + cbn [map app] in R. inversion R as [|? ? ? ? H1 H2]; subst.
      pose proof H1 as G. apply aget_at in G. rewrite G. cbn [bind is_nan].
      apply StronglySorted_inv in S. destruct S as [S F].
      destruct (neq_real rn rd (Fin x) (Fin val)) eqn:Nq.
      * destruct (IH s k x H2 S) as [out [vs [E1 [R1 [C1 [I1 Cl]]]]]]. rewrite E1. cbn [bind].
        exists (i :: out), (x :: vs). split; [reflexivity|]. split; [constructor; assumption|].
        apply neq_close' in Nq. assert (Cs : ~ close val x).
        { intros H. apply Nq. unfold close in *. rewrite <- Z.abs_opp, Z.max_comm. now replace (- (x - val)) with (val - x) by lia. }
        split; [constructor; [exact C1|]; constructor; split; [apply Forall_inv in F; lia | exact Cs]|].
        split; [intros v [->|Hv]; [now left | right; now apply I1]|].
        intros z [<-|Hz].
        -- exists x. split; [right; now left | apply close_refl].
        -- destruct (Cl z Hz) as [v [Hv Cv]]. exists v. split; [now right | exact Cv].
      * destruct (IH s k val H2) as [out [vs [E1 [R1 [C1 [I1 Cl]]]]]].
        { constructor; [now apply StronglySorted_inv in S | now apply Forall_inv_tail in F]. }
        exists out, vs. split; [exact E1|]. split; [exact R1|]. split; [exact C1|]. split; [intros v Hv; right; now apply I1|].
        intros z [<-|Hz]; [|now apply Cl]. exists val. split; [now left|].
        apply neq_close in Nq. unfold close in *. rewrite <- Z.abs_opp, Z.max_comm. now replace (- (val - x)) with (x - val) by lia.
Qed.

Lemma uniq_double_ok a l s k : read a l (map Fin s ++ repeat NaN k) -> nondecreasing s -> s <> [] ->
  exists out vs, uniq_double (neq_real rn rd) a l = Ok out /\ read a out (map Fin vs) /\
    Sorted step vs /\ (forall v, In v vs -> In v s) /\ (forall z, In z s -> exists v, In v vs /\ close v z).
Proof.
  intros R S N. destruct s as [|x s]; [contradiction|]. cbn [map app] in R. inversion R as [|i ? l' ? H1 H2]; subst.
  unfold uniq_double. pose proof H1 as G. apply aget_at in G. rewrite G. cbn [bind].
  destruct (uniq_double_loop_ok a l' s k x H2 S) as [out [vs [E1 [R1 [C1 [I1 Cl]]]]]]. rewrite E1. cbn [bind].
  exists (i :: out), (x :: vs). split; [reflexivity|]. split; [constructor; assumption|]. split; [exact C1|].
  split; [intros v [->|Hv]; [now left | right; now apply I1]|].
  intros z [<-|Hz]; [exists x; split; [now left | apply close_refl]|]. now apply Cl.
Qed.

(** ** reorder *)
Lemma aset_total {T} (l : list T) i v : 1 <= i <= zlen l -> aset l i v = Ok (set_at l (i - 1) v).
Proof. intros H. unfold aset. destruct (aget_total l i H) as [x E]. now rewrite E. Qed.
Lemma aget_set_same {T} (l : list T) i v : 1 <= i <= zlen l -> aget (set_at l (i - 1) v) i = Ok v.
Proof. intros H. unfold aget. apply get_set_at_same. lia. Qed.
Lemma aget_set_other {T} (l : list T) i j v : i <> j -> aget (set_at l (i - 1) v) j = aget l j.
Proof. intros H. unfold aget. apply get_set_at_other. lia. Qed.

Lemma at_app {T} (l r : list T) i x : at_ l i x -> at_ (l ++ r) i x.
Proof.
  intros [H E]. split; [exact H|]. rewrite nth_error_app1; [exact E|]. apply nth_error_Some. congruence.
Qed.
Lemma at_snoc {T} (l : list T) x : at_ (l ++ [x]) (zlen l + 1) x.
Proof.
  split; [pose proof (zlen_nonneg l); lia|]. rewrite nth_error_app2 by (unfold zlen; lia).
  replace (Z.to_nat (zlen l + 1 - 1) - length l)%nat with O by (unfold zlen; lia). reflexivity.
Qed.
Lemma vlast_at tb y : vlast tb = Fin y -> at_ tb (zlen tb) y.
Proof.
  destruct tb as [|x tb] using rev_ind; [discriminate|]. rewrite vlast_snoc. intros [= ->].
  replace (zlen (tb ++ [y])) with (zlen tb + 1) by (rewrite zlen_app; reflexivity). apply at_snoc.
Qed.

Lemma reorder_rejected a rej l : forall index nu val table, (forall i, In i l -> rej i = true /\ 1 <= i <= zlen a) -> NoDup l -> zlen index = zlen a ->
  exists index', reorder_loop (neq_real rn rd) a rej l index nu val table = Ok (index', nu, table) /\ zlen index' = zlen index /\
    (forall i, In i l -> at_ index' i HUGE) /\ (forall i, ~ In i l -> aget index' i = aget index i).
Proof.
  induction l as [|i l IH]; intros index nu val table H N Hz.
  - exists index. repeat split; auto; contradiction.
  - cbn [reorder_loop]. destruct (H i ltac:(now left)) as [Ri Hi]. destruct (aget_total a i Hi) as [x Ex]. rewrite Ex. cbn [bind].
    rewrite Ri, aset_total by lia. cbn [bind].
    inversion N as [|? ? N1 N2]; subst.
    destruct (IH (set_at index (i - 1) HUGE) nu val table) as [index' [E [L [H1 H2]]]].
    + intros j Hj. apply H. now right.
    + exact N2.
    + now rewrite zlen_set_at.
    + exists index'. split; [exact E|]. split; [now rewrite L, zlen_set_at|]. split.
      * intros j [<-|Hj]; [|now apply H1]. apply aget_at. rewrite H2 by exact N1. apply aget_set_same. lia.
      * intros j Hj. rewrite H2 by (intros X; apply Hj; now right). apply aget_set_other. intros ->. apply Hj. now left.
Qed.

Lemma reorder_loop_ok a rej o2 : (forall i, In i o2 -> rej i = true /\ 1 <= i <= zlen a) -> forall o1 s index tb,
  read a o1 (map Fin s) -> (forall i, In i o1 -> rej i = false) -> NoDup (o1 ++ o2) -> zlen index = zlen a ->
  nondecreasing s -> Sorted step tb -> (forall y z, vlast tb = Fin y -> In z s -> y <= z) ->
  exists index' e, reorder_loop (neq_real rn rd) a rej (o1 ++ o2) index (zlen tb) (vlast tb) (map Fin tb) =
      Ok (index', zlen (tb ++ e), map Fin (tb ++ e)) /\ zlen index' = zlen index /\ Sorted step (tb ++ e) /\
    (forall v, In v e -> In v s) /\
    (forall i z, In i o1 -> at_ a i (Fin z) -> exists k t, at_ index' i k /\ at_ (tb ++ e) k t /\ close t z) /\
    (forall i, In i o2 -> at_ index' i HUGE) /\ (forall i, ~ In i (o1 ++ o2) -> aget index' i = aget index i).
Proof.
  intros H2. induction o1 as [|i o1 IH]; intros s index tb R H1 N Hz S St Lb.
  - cbn [app] in *. destruct (reorder_rejected a rej o2 index (zlen tb) (vlast tb) (map Fin tb) H2 N Hz) as [index' [E [L [G1 G2]]]].
    exists index', []. rewrite app_nil_r. split; [exact E|]. split; [exact L|]. split; [exact St|]. split; [intros v []|].
    split; [intros i z []|]. split; [exact G1 | exact G2].
  - destruct s as [|x s]; [inversion R|]. cbn [map] in R. inversion R as [|? ? ? ? Hx R']; subst.
    cbn [app reorder_loop] in *. pose proof Hx as G. apply aget_at in G. rewrite G. cbn [bind].
    rewrite (H1 i ltac:(now left)).
    pose proof (aget_range _ _ _ G) as Hi. inversion N as [|? ? N1 N2]; subst. apply StronglySorted_inv in S. destruct S as [S F].
    (* the table after this element *)
    assert (T : exists tb', (if neq_real rn rd (vlast tb) (Fin x) then (zlen tb + 1, Fin x, map Fin tb ++ [Fin x]) else (zlen tb, vlast tb, map Fin tb))
        = (zlen tb', vlast tb', map Fin tb') /\ Sorted step tb' /\ (exists e0, tb' = tb ++ e0 /\ (forall v, In v e0 -> v = x)) /\
        (exists t, vlast tb' = Fin t /\ close t x /\ t <= x)).
    { destruct (neq_real rn rd (vlast tb) (Fin x)) eqn:Nq.
      - exists (tb ++ [x]). split; [rewrite vlast_snoc, zlen_app, map_app; reflexivity|]. split.
        + apply sorted_snoc; [exact St|]. intros y Hy. rewrite Hy in Nq. apply neq_close' in Nq. split; [|exact Nq]. apply (Lb y x Hy). now left.
        + split; [exists [x]; split; [reflexivity|]; intros v [<-|[]]; reflexivity|]. exists x. split; [apply vlast_snoc|]. split; [apply close_refl | lia].
      - exists tb. split; [reflexivity|]. split; [exact St|]. split; [exists []; rewrite app_nil_r; split; [reflexivity | contradiction]|].
        destruct (vlast tb) as [|t] eqn:Vl; [discriminate|]. exists t. split; [reflexivity|]. split; [now apply neq_close|].
        apply Lb; [reflexivity | now left]. }
    destruct T as [tb' [Et [St' [[e0 [Ee He]] [t [Vt [Ct Lt]]]]]]]. rewrite Et. rewrite aset_total by lia. cbn [bind].
    destruct (IH s (set_at index (i - 1) (zlen tb')) tb' R') as [index' [e [E [L [Ss [Iv [G1 [G2 G3]]]]]]]].
    + intros j Hj. apply H1. now right.
    + exact N2.
    + now rewrite zlen_set_at.
    + exact S.
    + exact St'.
    + intros y z Hy Hz'. rewrite Vt in Hy. injection Hy as <-. rewrite Forall_forall in F. specialize (F z Hz'). lia.
    + exists index', (e0 ++ e). rewrite app_assoc, <- Ee. split; [exact E|]. split; [now rewrite L, zlen_set_at|]. split; [exact Ss|].
      split; [intros v Hv; apply in_app_or in Hv; destruct Hv as [Hv|Hv]; [left; symmetry; now apply He | right; now apply Iv]|]. split.
      * intros j z [<-|Hj] Hjz; [|now apply G1]. exists (zlen tb'), t. split.
        { apply aget_at. rewrite G3 by exact N1. apply aget_set_same. lia. }
        split; [apply at_app; now apply vlast_at|].
        apply aget_at in Hjz. rewrite Hjz in G. injection G as <-. exact Ct.
      * split; [exact G2|]. intros j Hj. rewrite G3 by (intros X; apply Hj; now right). apply aget_set_other. intros ->. apply Hj. now left.
Qed.

Lemma reorder_sorted a rej o1 o2 s unset : read a o1 (map Fin s) -> nondecreasing s -> (forall i, In i o1 -> rej i = false) ->
  (forall i, In i o2 -> rej i = true) -> Permutation (positions (zlen a)) (o1 ++ o2) -> length unset = length a ->
  exists index table, reorder (neq_real rn rd) a rej (o1 ++ o2) unset = Ok (index, zlen table, map Fin table) /\ length index = length a /\
    Sorted step table /\ (forall v, In v table -> In v s) /\
    (forall i z, In i o1 -> at_ a i (Fin z) -> exists k t, at_ index i k /\ at_ table k t /\ close t z) /\
    (forall i, In i o2 -> at_ index i HUGE).
Proof.
  intros R S H1 H2 P L. 
  assert (Nd : NoDup (o1 ++ o2)).
  { apply (Permutation_NoDup P). unfold positions. apply FinFun.Injective_map_NoDup; [intros x y; lia | apply seq_NoDup]. }
  destruct (reorder_loop_ok a rej o2) with (o1 := o1) (s := s) (index := unset) (tb := @nil Z)
    as [index [e [E [Ln [Ss [Iv [G1 [G2 _]]]]]]]]; try assumption.
  - intros i Hi. split; [now apply H2|]. apply In_positions. apply (Permutation_in i (Permutation_sym P)). apply in_or_app. now right.
  - unfold zlen. now rewrite L.
  - constructor.
  - discriminate.
  - exists index, e. cbn [app] in *. split; [exact E|]. split; [unfold zlen in Ln; lia|]. auto.
Qed.
End Tol.

(** Without tolerance. *)
Lemma close_exact rd x y : 0 < rd -> close 0 rd x y <-> x = y.
Proof. unfold close. intros H. split; intros G; [nia|]. subst. replace (y - y) with 0 by lia. cbn. lia. Qed.
Lemma step_exact rd l : 0 < rd -> Sorted (step 0 rd) l -> increasing l.
Proof.
  intros H S. apply Sorted_StronglySorted; [intros x y z; lia|]. induction S as [|x l S IH Hd]; constructor; [exact IH|].
  destruct Hd as [|y l [H1 H2]]; constructor. rewrite (close_exact rd) in H2 by exact H. lia.
Qed.

(** ** Histograms *)
Lemma histogram_loop_ok nbins a : forall mask h, length mask = length a -> zlen h = nbins -> nbins < HUGE ->
  (forall i x, nth_error a i = Some x -> nth_error mask i = Some false -> x <> HUGE -> 1 <= x <= nbins) ->
  exists h', histogram_loop a mask h = Ok h' /\ zlen h' = nbins /\
    (forall b c, 1 <= b <= nbins -> at_ h b c -> at_ h' b (c + occurrences b a mask)).
Proof.
  induction a as [|x a IH]; intros mask h L Hz Hn H; destruct mask as [|m mask]; try discriminate.
  - exists h. split; [reflexivity|]. split; [exact Hz|]. intros b c _ Hb. cbn. now rewrite Z.add_0_r.
  - cbn [histogram_loop occurrences]. cbn [length] in L.
    assert (H' : forall i y, nth_error a i = Some y -> nth_error mask i = Some false -> y <> HUGE -> 1 <= y <= nbins).
    { intros i y E1 E2. exact (H (S i) y E1 E2). }
    destruct ((x =? HUGE) || m) eqn:Sk.
    + destruct (IH mask h ltac:(lia) Hz Hn H') as [h' [E [Hz' C]]]. exists h'. split; [exact E|]. split; [exact Hz'|].
      intros b c Hb Hc. specialize (C b c Hb Hc). destruct (Z.eq_dec x b) as [->|N]; [|exact C].
      destruct m; [exact C|]. exfalso. rewrite orb_false_r in Sk. lia.
    + apply orb_false_elim in Sk. destruct Sk as [Sx ->]. specialize (H O x eq_refl eq_refl ltac:(lia)).
      destruct (aget_total h x) as [c0 E0]; [lia|]. rewrite E0. cbn [bind]. rewrite aset_total by lia. cbn [bind].
      destruct (IH mask (set_at h (x - 1) (c0 + 1)) ltac:(lia) ltac:(now rewrite zlen_set_at) Hn H') as [h' [E [Hz' C]]].
      exists h'. split; [exact E|]. split; [exact Hz'|]. intros b c Hb Hc. apply aget_at in Hc.
      destruct (Z.eq_dec x b) as [->|N].
      * rewrite E0 in Hc. injection Hc as <-. rewrite Z.add_assoc. apply C; [exact Hb|]. apply aget_at. apply aget_set_same. lia.
      * cbn [Z.add]. apply C; [exact Hb|]. apply aget_at. rewrite aget_set_other by exact N. exact Hc.
Qed.
(** Otherwise, an access outside of the array. *)
Lemma histogram_loop_bad nbins a : forall mask h i x, zlen h = nbins -> nth_error a i = Some x -> nth_error mask i = Some false ->
  x <> HUGE -> ~ 1 <= x <= nbins -> histogram_loop a mask h = Err IndexError.
Proof.
  induction a as [|y a IH]; intros mask h i x Hz E1 E2 Hx Hb; [destruct i; discriminate|].
  destruct mask as [|m mask]; [destruct i; discriminate|]. cbn [histogram_loop]. destruct i as [|i].
  - injection E1 as ->. injection E2 as ->. replace (x =? HUGE) with false by lia. cbn [orb].
    unfold aget, get. destruct (Z.ltb_spec (x - 1) 0); [reflexivity|].
    assert (nth_error h (Z.to_nat (x - 1)) = None) as -> by (apply nth_error_None; unfold zlen in Hz; lia). reflexivity.
  - destruct ((y =? HUGE) || m); [now apply (IH mask h i x)|].
    destruct (aget h y) as [c|e] eqn:Eg.
    + cbn [bind]. rewrite aset_total by (apply aget_range in Eg; lia). cbn [bind]. apply (IH mask _ i x); auto. now rewrite zlen_set_at.
    + unfold aget, get in Eg. cbn [bind]. destruct (y - 1 <? 0); [congruence|]. destruct (nth_error h (Z.to_nat (y - 1))); congruence.
Qed.

Lemma at_repeat {T} (x : T) n i : 1 <= i <= Z.of_nat n -> at_ (repeat x n) i x.
Proof. intros H. split; [lia|]. rewrite nth_error_repeat by lia. reflexivity. Qed.

Lemma occ_map n a m x (b : bool) : sumZ (map (fun k => occurrences k (x :: a) (b :: m)) (positions n)) =
  sumZ (map (fun k => occurrences k a m) (positions n)) + (if b then 0 else if (1 <=? x) && (x <=? n) then 1 else 0).
Proof.
  cbn [occurrences]. destruct b.
  - rewrite Z.add_0_r. f_equal. apply map_ext. intros k. destruct (Z.eq_dec x k); reflexivity.
  - unfold positions. rewrite !map_map.
    assert (G : forall w s, sumZ (map (fun k => (if Z.eq_dec x (Z.of_nat k) then 1 else 0) + occurrences (Z.of_nat k) a m) (seq s w)) =
      sumZ (map (fun k => occurrences (Z.of_nat k) a m) (seq s w)) + (if (Z.of_nat s <=? x) && (x <? Z.of_nat (s + w)) then 1 else 0)).
    { induction w as [|w IH]; intros s.
      - cbn. destruct ((Z.of_nat s <=? x) && (x <? Z.of_nat (s + 0))) eqn:E; [lia | reflexivity].
      - cbn [seq map]. unfold sumZ in *. cbn [fold_right]. rewrite IH.
        destruct (Z.eq_dec x (Z.of_nat s)) as [->|N].
        + replace (Z.of_nat (S s) <=? Z.of_nat s) with false by lia.
          replace (Z.of_nat s <=? Z.of_nat s) with true by lia. replace (Z.of_nat s <? Z.of_nat (s + S w)) with true by lia. cbn [andb]. lia.
        + replace (Z.of_nat (S s) <=? x) with (Z.of_nat s <=? x) by lia.
          replace (x <? Z.of_nat (S s + w)) with (x <? Z.of_nat (s + S w)) by lia. lia. }
    rewrite G. f_equal. replace (Z.of_nat 1 <=? x) with (1 <=? x) by lia.
    destruct (Z.leb_spec 1 x) as [H|H]; cbn [andb]; [|reflexivity].
    destruct (Z.leb_spec x n), (Z.ltb_spec x (Z.of_nat (1 + Z.to_nat n))); try reflexivity; lia.
Qed.
Lemma occ_sum n a : forall m, length m = length a ->
  sumZ (map (fun k => occurrences k a m) (positions n)) = Z.of_nat (length (filter (fun xb => negb (snd xb) && (1 <=? fst xb) && (fst xb <=? n)) (combine a m))).
Proof.
  induction a as [|x a IH]; intros m L.
  - cbn. unfold sumZ. induction (positions n) as [|y l IHl]; [reflexivity|]. cbn. cbn in IHl. lia.
  - destruct m as [|b m]; [discriminate|]. rewrite occ_map, IH by (cbn [length] in L; lia).
    cbn [combine filter fst snd]. destruct b; cbn [negb andb]; [lia|]. destruct ((1 <=? x) && (x <=? n)); cbn [length]; lia.
Qed.

Lemma histogram_ok a mask nbins : length mask = length a -> 0 <= nbins < HUGE ->
  (forall i x, nth_error a i = Some x -> nth_error mask i = Some false -> x <> HUGE -> 1 <= x <= nbins) ->
  histogram a mask nbins = Ok (map (fun b => occurrences b a mask) (positions nbins)).
Proof.
  intros L Hn H. unfold histogram.
  destruct (histogram_loop_ok nbins a mask (repeat 0 (Z.to_nat nbins)) L) as [h [E [Hz C]]]; try assumption; try lia.
  - rewrite zlen_repeat. lia.
  - rewrite E. f_equal. symmetry. rewrite <- Hz. apply map_positions. intros i x Hi.
    assert (R : 1 <= i <= nbins) by (rewrite <- Hz; apply aget_at in Hi; now apply aget_range in Hi).
    specialize (C i 0 R). specialize (C (at_repeat 0 (Z.to_nat nbins) i ltac:(lia))).
    destruct Hi as [_ Hi]. destruct C as [_ C]. rewrite Hi in C. injection C as ->. lia.
Qed.
Lemma histogram_bad a mask nbins i x : 0 <= nbins -> nth_error a i = Some x -> nth_error mask i = Some false ->
  x <> HUGE -> ~ 1 <= x <= nbins -> histogram a mask nbins = Err IndexError.
Proof. intros Hn. unfold histogram. apply histogram_loop_bad. rewrite zlen_repeat. lia. Qed.

(** ** Positions *)
Lemma where_loop_in l : forall i j, In j (where_loop i l) <-> i <= j /\ nth_error l (Z.to_nat (j - i)) = Some true.
Proof.
  induction l as [|b l IH]; intros i j; cbn [where_loop].
  - split; [intros []|]. intros [_ H]. destruct (Z.to_nat (j - i)); discriminate.
  - assert (G : (i <= j /\ nth_error (b :: l) (Z.to_nat (j - i)) = Some true) <->
       ((j = i /\ b = true) \/ (i + 1 <= j /\ nth_error l (Z.to_nat (j - (i + 1))) = Some true))).
    { split.
      - intros [H E]. destruct (Z.eq_dec j i) as [->|N].
        + left. rewrite Z.sub_diag in E. cbn in E. injection E as ->. auto.
        + right. split; [lia|]. replace (Z.to_nat (j - i)) with (S (Z.to_nat (j - (i + 1)))) in E by lia. exact E.
      - intros [[-> ->]|[H E]]; [split; [lia|]; now rewrite Z.sub_diag|]. split; [lia|].
        replace (Z.to_nat (j - i)) with (S (Z.to_nat (j - (i + 1)))) by lia. exact E. }
    rewrite G. destruct b; cbn [In]; rewrite IH; intuition congruence.
Qed.
Lemma where_loop_sorted l : forall i, StronglySorted Z.lt (where_loop i l) /\ Forall (fun j => i <= j) (where_loop i l).
Proof.
  induction l as [|b l IH]; intros i; cbn [where_loop]; [split; constructor|]. destruct (IH (i + 1)) as [S F].
  destruct b.
  - split; [constructor; [exact S|]; eapply Forall_impl; [|exact F]; intros j H; cbn beta in H; lia|].
    constructor; [lia|]. eapply Forall_impl; [|exact F]. intros j H. cbn beta in H. lia.
  - split; [exact S|]. eapply Forall_impl; [|exact F]. intros j H. cbn beta in H. lia.
Qed.
Lemma where_1d_in l j : In j (where_1d l) <-> at_ l j true.
Proof. unfold where_1d, at_. apply where_loop_in. Qed.
Lemma where_1d_sorted l : increasing (where_1d l).
Proof. apply where_loop_sorted. Qed.

Lemma strong_app {T} (R : T -> T -> Prop) l r : StronglySorted R l -> StronglySorted R r -> (forall x y, In x l -> In y r -> R x y) ->
  StronglySorted R (l ++ r).
Proof.
  induction 1 as [|x l S IH F]; intros Sr H; [exact Sr|]. cbn. constructor.
  - apply IH; [exact Sr|]. intros a b Ha Hb. apply H; [now right | exact Hb].
  - apply Forall_app. split; [exact F|]. apply Forall_forall. intros y Hy. apply H; [now left | exact Hy].
Qed.

Lemma where_2d_loop_in cols : forall j0 i j, In (i, j) (where_2d_loop j0 cols) <->
  j0 <= j /\ exists c, nth_error cols (Z.to_nat (j - j0)) = Some c /\ at_ c i true.
Proof.
  induction cols as [|c cols IH]; intros j0 i j; cbn [where_2d_loop].
  - split; [intros []|]. intros [_ [c [H _]]]. destruct (Z.to_nat (j - j0)); discriminate.
  - rewrite in_app_iff, IH, in_map_iff. split.
    + intros [[k [E H]] | [H [c' [E H']]]].
      * injection E as -> ->. apply where_1d_in in H. split; [lia|]. exists c. rewrite Z.sub_diag. auto.
      * split; [lia|]. exists c'. replace (Z.to_nat (j - j0)) with (S (Z.to_nat (j - (j0 + 1)))) by lia. auto.
    + intros [H [c' [E H']]]. destruct (Z.eq_dec j j0) as [->|N].
      * left. rewrite Z.sub_diag in E. injection E as ->. exists i. split; [reflexivity|]. now apply where_1d_in.
      * right. split; [lia|]. exists c'. replace (Z.to_nat (j - j0)) with (S (Z.to_nat (j - (j0 + 1)))) in E by lia. auto.
Qed.
Lemma where_2d_in cols i j : In (i, j) (where_2d cols) <-> exists c, at_ cols j c /\ at_ c i true.
Proof.
  unfold where_2d. rewrite where_2d_loop_in. unfold at_ at 2. split.
  - intros [H [c [E G]]]. exists c. auto.
  - intros [c [[H E] G]]. split; [exact H|]. exists c. auto.
Qed.
Lemma where_2d_loop_sorted cols : forall j0, StronglySorted before2 (where_2d_loop j0 cols).
Proof.
  induction cols as [|c cols IH]; intros j0; cbn [where_2d_loop]; [constructor|]. apply strong_app.
  - apply strong_map. eapply strong_iff; [|apply where_1d_sorted]. intros x y H. right. cbn. lia.
  - apply IH.
  - intros [i j] [i' j'] Hx Hy. apply in_map_iff in Hx. destruct Hx as [k [E _]]. injection E as <- <-.
    apply where_2d_loop_in in Hy. left. cbn. lia.
Qed.
Lemma where_2d_sorted cols : StronglySorted before2 (where_2d cols).
Proof. apply where_2d_loop_sorted. Qed.

Lemma where_3d_loop_in ps : forall k0 i j k, In (i, j, k) (where_3d_loop k0 ps) <->
  k0 <= k /\ exists p, nth_error ps (Z.to_nat (k - k0)) = Some p /\ In (i, j) (where_2d p).
Proof.
  induction ps as [|c ps IH]; intros k0 i j k; cbn [where_3d_loop].
  - split; [intros []|]. intros [_ [c [H _]]]. destruct (Z.to_nat (k - k0)); discriminate.
  - rewrite in_app_iff, IH, in_map_iff. split.
    + intros [[[i' j'] [E H]] | [H [c' [E H']]]].
      * cbn in E. injection E as -> -> ->. split; [lia|]. exists c. rewrite Z.sub_diag. auto.
      * split; [lia|]. exists c'. replace (Z.to_nat (k - k0)) with (S (Z.to_nat (k - (k0 + 1)))) by lia. auto.
    + intros [H [c' [E H']]]. destruct (Z.eq_dec k k0) as [->|N].
      * left. rewrite Z.sub_diag in E. injection E as ->. exists (i, j). auto.
      * right. split; [lia|]. exists c'. replace (Z.to_nat (k - k0)) with (S (Z.to_nat (k - (k0 + 1)))) in E by lia. auto.
Qed.
Lemma where_3d_in ps i j k : In (i, j, k) (where_3d ps) <-> exists p c, at_ ps k p /\ at_ p j c /\ at_ c i true.
Proof.
  unfold where_3d. rewrite where_3d_loop_in. split.
  - intros [H [p [E G]]]. apply where_2d_in in G. destruct G as [c G]. exists p, c. unfold at_ at 1. auto.
  - intros [p [c [[H E] G]]]. split; [exact H|]. exists p. split; [exact E|]. apply where_2d_in. eauto.
Qed.
Lemma where_3d_loop_sorted ps : forall k0, StronglySorted before3 (where_3d_loop k0 ps).
Proof.
  induction ps as [|c ps IH]; intros k0; cbn [where_3d_loop]; [constructor|]. apply strong_app.
  - apply strong_map. eapply strong_iff; [|apply where_2d_sorted]. intros x y H. right. cbn. destruct x, y. split; [reflexivity | exact H].
  - apply IH.
  - intros [[i j] k] [[i' j'] k'] Hx Hy. apply in_map_iff in Hx. destruct Hx as [[a b] [E _]]. cbn in E. injection E as <- <- <-.
    apply where_3d_loop_in in Hy. left. cbn. lia.
Qed.
Lemma where_3d_sorted ps : StronglySorted before3 (where_3d ps).
Proof. apply where_3d_loop_sorted. Qed.
