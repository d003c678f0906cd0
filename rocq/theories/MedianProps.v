(** Properties of the median, the deviation, the sorts, the unique values and the
    histograms: C41, C51. *)
From Coq Require Import Lia Permutation Sorting.Sorted.
From Verif Require Import Base BaseFacts MedianModel MedianSpec MedianFacts SortModel SortSpec SortFacts SortFacts2 SortFacts3.
Open Scope Z_scope.

(** C41: the median of the finite elements that are not masked; NaN if there is none. *)
Theorem C41_median arr rn mask : length arr = length mask ->
  (rn = true \/ Forall (fun x => is_nan x = false) (unmasked arr mask)) ->
  exists x arr', median arr rn (Some mask) = Ok (x, arr') /\
    match finite (unmasked arr mask) with [] => x = NaN | l => exists z, x = Fin z /\ is_median l z end.
Proof. exact (median_mask_ok arr rn mask). Qed.
Print Assumptions C41_median.
Theorem C41_median_nomask arr rn : (rn = true \/ Forall (fun x => is_nan x = false) arr) ->
  exists x arr', median arr rn None = Ok (x, arr') /\
    match finite arr with [] => x = NaN | l => exists z, x = Fin z /\ is_median l z end.
Proof. exact (median_nomask_ok arr rn). Qed.
Print Assumptions C41_median_nomask.
Example C41_median_case :
  let a := [Fin 7; NaN; Fin 3; Fin 3; Fin 9; Fin 1] in
  (exists a', median a true None = Ok (Fin 3, a')) /\
  (exists a', median a true (Some [false; false; true; true; false; false]) = Ok (Fin 7, a')) /\
  is_median [7; 3; 3; 9; 1] 3 /\ ~ is_median [7; 3; 3; 9; 1] 7.
Proof.
  split; [eexists; vm_compute; reflexivity|]. split; [eexists; vm_compute; reflexivity|].
  unfold is_median, has_rank. cbn. split; [split; [tauto | lia]|]. intros [_ H]. lia.
Qed.
(** NaN that are kept stop the search outside of the array. *)
Theorem C41_median_nan_refuted : exists arr, median arr false None = Err IndexError.
Proof. exists [NaN; Fin 1; Fin 2; Fin 10]. vm_compute. reflexivity. Qed.
Print Assumptions C41_median_nan_refuted.

(** The median absolute deviation, without NaN. *)
Theorem C41_mad_partial l : l <> [] -> exists m d, mad (map Fin l) = Ok (Fin d, Fin m) /\ is_median l m /\
  is_median (map (fun x => Z.abs (x - m)) l) d.
Proof. exact (mad_ok l). Qed.
Print Assumptions C41_mad_partial.
Example C41_mad_case : mad (map Fin [4; 1; 9; 2; 7]) = Ok (Fin 3, Fin 4).
Proof. vm_compute. reflexivity. Qed.
(** With NaN: the elements that replaced them are counted twice. *)
Theorem C41_mad_refuted : exists arr m d, mad arr = Ok (Fin d, Fin m) /\ is_median (finite arr) m /\
  ~ is_median (map (fun x => Z.abs (x - m)) (finite arr)) d.
Proof.
  exists [NaN; Fin 0; Fin 10], 0, 10. split; [vm_compute; reflexivity|].
  unfold is_median, has_rank. cbn. split; [split; [tauto | lia]|]. intros [_ H]. lia.
Qed.
Print Assumptions C41_mad_refuted.

(** C41: unique values of an array of integers: the last position of each run; each value
    once, in order, when the array is sorted. *)
Theorem C41_uniq a : increasing (uniq_int a) /\ (forall j, In j (uniq_int a) <-> exists v, at_ a j v /\ ~ at_ a (j + 1) v) /\
  (nondecreasing a -> exists vs, read a (uniq_int a) vs /\ increasing vs /\ (forall v, In v vs <-> In v a)).
Proof. exact (conj (uniq_int_increasing a) (conj (uniq_int_in a) (uniq_int_values a))). Qed.
Print Assumptions C41_uniq.
Example C41_uniq_case : uniq_int [2; 2; 5; 7; 7; 7] = [2; 3; 6] /\ nondecreasing [2; 2; 5; 7; 7; 7].
Proof. split; [reflexivity|]. repeat constructor; lia. Qed.

(** Unique values of an array of reals, read through a sorting index; the tolerance is
    rn/rd. Two consecutive values are not close, and every value is close to one of them. *)
Theorem C41_uniq_real_partial rn rd a l s k : 0 <= rn -> read a l (map Fin s ++ repeat NaN k) -> nondecreasing s -> s <> [] ->
  exists out vs, uniq_double (neq_real rn rd) a l = Ok out /\ read a out (map Fin vs) /\
    Sorted (step rn rd) vs /\ (forall v, In v vs -> In v s) /\ (forall z, In z s -> exists v, In v vs /\ close rn rd v z).
Proof. exact (fun H => uniq_double_ok rn rd H a l s k). Qed.
Print Assumptions C41_uniq_real_partial.
(** Each value once, in order, without tolerance. *)
Theorem C41_uniq_exact_partial rd a l s k : 0 < rd -> read a l (map Fin s ++ repeat NaN k) -> nondecreasing s -> s <> [] ->
  exists out vs, uniq_double (neq_real 0 rd) a l = Ok out /\ read a out (map Fin vs) /\ increasing vs /\ (forall v, In v vs <-> In v s).
Proof.
  intros Hd R S N. destruct (uniq_double_ok 0 rd ltac:(lia) a l s k R S N) as [out [vs [E [Rd [St [I1 C]]]]]].
  exists out, vs. split; [exact E|]. split; [exact Rd|]. split; [exact (step_exact rd vs Hd St)|].
  intros v. split; [apply I1|]. intros Hv. destruct (C v Hv) as [w [Hw Cw]]. apply (close_exact rd) in Cw; [|exact Hd]. now subst.
Qed.
Print Assumptions C41_uniq_exact_partial.
Example C41_uniq_real_case :
  let a := [Fin 8; NaN; Fin 4; Fin 8; Fin 5] in
  read a [3; 5; 1; 4; 2] (map Fin [4; 5; 8; 8] ++ repeat NaN 1) /\ nondecreasing [4; 5; 8; 8] /\
  uniq_double (neq_real 0 1) a [3; 5; 1; 4; 2] = Ok [3; 5; 1] /\ uniq_double (neq_real 1 5) a [3; 5; 1; 4; 2] = Ok [3; 1].
Proof.
  cbn. split; [repeat constructor; lia|]. split; [repeat constructor; lia|]. split; vm_compute; reflexivity.
Qed.
(** NaN are skipped, but not the first one. *)
Theorem C41_uniq_nan_refuted : exists a l, read a l [NaN; NaN] /\ uniq_double (neq_real 0 1) a l = Ok [1].
Proof. exists [NaN; NaN], [1; 2]. split; [repeat constructor; lia | vm_compute; reflexivity]. Qed.
Print Assumptions C41_uniq_nan_refuted.

(** The equality of eq_real: reflexive (NaN included), symmetric; NaN equals nothing else; without
    tolerance it is the equality. *)
Theorem C41_equality : forall rn rd, 0 <= rn ->
  (forall a, eq_real rn rd a a = true) /\ (forall a b, eq_real rn rd a b = eq_real rn rd b a) /\
  (forall a, eq_real rn rd a NaN = true <-> a = NaN) /\
  (0 < rd -> forall a b, eq_real 0 rd a b = true <-> a = b) /\
  (forall a b, neq_real rn rd a b = true <-> eq_real rn rd a b = false).
Proof.
  intros rn rd Hr. split; [|split; [|split; [|split]]].
  - intros [|x]; cbn; [reflexivity|]. apply Z.leb_le. replace (x - x) with 0 by lia. cbn. nia.
  - intros [|x] [|y]; cbn; try reflexivity. replace (Z.abs (y - x)) with (Z.abs (x - y)) by lia.
    rewrite (Z.max_comm (Z.abs y)). reflexivity.
  - intros [|x]; cbn; split; congruence.
  - intros Hd [|x] [|y]; cbn; split; intros H; try congruence.
    + apply Z.leb_le in H. assert (Z.abs (x - y) = 0) by nia. f_equal. lia.
    + injection H as ->. apply Z.leb_le. replace (y - y) with 0 by lia. cbn. lia.
  - intros a b. unfold neq_real. destruct (eq_real rn rd a b); cbn; split; congruence.
Qed.
Print Assumptions C41_equality.
Example C41_equality_example : eq_real 1 10 (Fin 100) (Fin 91) = true /\ eq_real 1 10 (Fin 100) (Fin 89) = false /\ eq_real 1 10 (Fin 0) NaN = false.
Proof. repeat split. Qed.

(** C41: numbering of the values by a sort: every value kept is close to (equal to, without
    tolerance) the entry of the table it is given, the others are given HUGE. *)
Theorem C41_reorder rn rd a m unset : 0 <= rn -> small (zlen a) -> length m = length a -> length unset = length a ->
  exists o index table, qsort (leb_mask a m) (zlen a) = Ok o /\
    reorder (neq_real rn rd) a (out a m) o unset = Ok (index, zlen table, map Fin table) /\
    length index = length a /\ Sorted (step rn rd) table /\
    (forall v, In v table -> exists i, at_ a i (Fin v) /\ at_ m i false) /\
    (forall i z, at_ a i (Fin z) -> at_ m i false -> exists k t, at_ index i k /\ at_ table k t /\ close rn rd t z) /\
    (forall i, at_ a i NaN \/ at_ m i true -> at_ index i HUGE).
Proof.
  intros Hr Hs Lm Lu. destruct (sort_mask a m Hs Lm) as [o1 [o2 [s [E [P [R [S [F1 F2]]]]]]]].
  assert (Rg : forall i, In i (o1 ++ o2) <-> 1 <= i <= zlen a).
  { intros i. rewrite <- In_positions. split; intros H; [exact (Permutation_in i (Permutation_sym P) H) | exact (Permutation_in i P H)]. }
  assert (O2 : forall i, In i o2 -> out a m i = true).
  { intros i Hi. apply out_spec; [apply Rg, in_or_app; now right | exact Lm|]. rewrite Forall_forall in F2. now apply F2. }
  assert (O1 : forall i, In i o1 -> out a m i = false).
  { intros i Hi. apply out_spec; [apply Rg, in_or_app; now left | exact Lm|].
    rewrite Forall_forall in F1. specialize (F1 i Hi). clear - R Hi F1. unfold read in R.
    revert s R. induction o1 as [|j o1 IH]; intros s R; [destruct Hi|]. destruct s as [|z s]; inversion R as [|? ? ? ? Hz R']; subst.
    destruct Hi as [->|Hi]; [exists z; auto | exact (IH Hi s R')]. }
  destruct (reorder_sorted rn rd Hr a (out a m) o1 o2 s unset R S O1 O2 P Lu) as [index [table [E2 [L [St [I1 [G1 G2]]]]]]].
  exists (o1 ++ o2), index, table. split; [exact E|]. split; [exact E2|]. split; [exact L|]. split; [exact St|]. split; [|split].
  - intros v Hv. apply I1 in Hv. clear - R Hv F1. unfold read in R. revert s R Hv. induction o1 as [|j o1 IH]; intros s R Hv.
    + destruct s as [|z s]; [destruct Hv | inversion R].
    + destruct s as [|z s]; inversion R as [|? ? ? ? Hz R']; subst. apply Forall_cons_iff in F1. destruct F1 as [F1 F1'].
      destruct Hv as [->|Hv]; [exists j; auto | exact (IH F1' s R' Hv)].
  - intros i z Hz Hm. apply G1; [|exact Hz]. assert (Hi : 1 <= i <= zlen a) by (apply aget_at in Hz; now apply aget_range in Hz).
    apply Rg in Hi. apply in_app_or in Hi. destruct Hi as [Hi|Hi]; [exact Hi|]. apply O2 in Hi.
    assert (out a m i = false) by (apply out_spec; [apply aget_at in Hz; now apply aget_range in Hz | exact Lm | eauto]). congruence.
  - intros i Hb. assert (Hi : 1 <= i <= zlen a).
    { destruct Hb as [H|H]; apply aget_at in H; apply aget_range in H; [exact H | unfold zlen in *; lia]. }
    assert (out a m i = true) by (apply out_spec; assumption).
    apply Rg in Hi. apply in_app_or in Hi. destruct Hi as [Hi|Hi]; [apply O1 in Hi; congruence | now apply G2].
Qed.
Print Assumptions C41_reorder.
Theorem C41_exact_tolerance rd l x y : 0 < rd -> (close 0 rd x y <-> x = y) /\ (Sorted (step 0 rd) l -> increasing l).
Proof. exact (fun H => conj (close_exact rd x y H) (step_exact rd l H)). Qed.
Print Assumptions C41_exact_tolerance.
Example C41_reorder_case :
  let a := [Fin 8; NaN; Fin 4; Fin 8; Fin 5] in let m := [false; false; true; false; false] in
  reorder (neq_real 0 1) a (out a m) [5; 4; 1; 2; 3] [0; 0; 0; 0; 0] = Ok ([2; HUGE; HUGE; 2; 1], 2, [Fin 5; Fin 8]).
Proof. vm_compute. reflexivity. Qed.

(** C41: the histogram; the counts sum to the number of samples in range. *)
Theorem C41_histogram a mask nbins : length mask = length a -> 0 <= nbins < HUGE ->
  (forall i x, nth_error a i = Some x -> nth_error mask i = Some false -> x <> HUGE -> 1 <= x <= nbins) ->
  histogram a mask nbins = Ok (map (fun b => occurrences b a mask) (positions nbins)) /\
  sumZ (map (fun b => occurrences b a mask) (positions nbins)) =
    Z.of_nat (length (filter (fun xb => negb (snd xb) && (1 <=? fst xb) && (fst xb <=? nbins)) (combine a mask))).
Proof. exact (fun L H G => conj (histogram_ok a mask nbins L H G) (occ_sum nbins a mask L)). Qed.
Print Assumptions C41_histogram.
Example C41_histogram_case : histogram [1; 3; HUGE; 1; 9] [false; false; false; false; true] 3 = Ok [2; 0; 1].
Proof. vm_compute. reflexivity. Qed.
(** A sample outside of the bins is counted outside of the array. *)
Theorem C41_histogram_refuted a mask nbins i x : 0 <= nbins -> nth_error a i = Some x -> nth_error mask i = Some false ->
  x <> HUGE -> ~ 1 <= x <= nbins -> histogram a mask nbins = Err IndexError.
Proof. exact (histogram_bad a mask nbins i x). Qed.
Print Assumptions C41_histogram_refuted.
Example C41_histogram_bad_case : histogram [1; 0] [false; false] 3 = Err IndexError.
Proof. vm_compute. reflexivity. Qed.

(** C41: positions of the true elements, in the order of the memory. *)
Theorem C41_where l cols planes :
  (increasing (where_1d l) /\ forall j, In j (where_1d l) <-> at_ l j true) /\
  (StronglySorted before2 (where_2d cols) /\ forall i j, In (i, j) (where_2d cols) <-> exists c, at_ cols j c /\ at_ c i true) /\
  (StronglySorted before3 (where_3d planes) /\
   forall i j k, In (i, j, k) (where_3d planes) <-> exists p c, at_ planes k p /\ at_ p j c /\ at_ c i true).
Proof.
  exact (conj (conj (where_1d_sorted l) (where_1d_in l)) (conj (conj (where_2d_sorted cols) (where_2d_in cols))
        (conj (where_3d_sorted planes) (where_3d_in planes)))).
Qed.
Print Assumptions C41_where.
Example C41_where_case : where_2d [[true; false; true]; [false; true; false]] = [(1, 1); (3, 1); (2, 2)].
Proof. reflexivity. Qed.

(** C51: the sort with any total preorder: it ends, without overflow of its stack of 1000
    ranges, and yields a sorted permutation of the items. *)
Theorem C51_sort leb n : (forall x y, leb x y = true \/ leb y x = true) ->
  (forall x y z, leb x y = true -> leb y z = true -> leb x z = true) -> 0 <= n < 2 ^ 1001 ->
  exists o, qsort leb n = Ok o /\ Permutation (positions n) o /\ StronglySorted (fun x y => leb x y = true) o.
Proof. exact (qsort_sorted leb n). Qed.
Print Assumptions C51_sort.
Theorem C51_integers a : small (zlen a) -> exists o s, qsort (leb_int a) (zlen a) = Ok o /\ Permutation (positions (zlen a)) o /\
  read a o s /\ nondecreasing s /\ Permutation a s.
Proof. exact (sort_int a). Qed.
Print Assumptions C51_integers.
(** NaN come last. *)
Theorem C51_reals a : small (zlen a) -> exists o s k, qsort (leb_num a) (zlen a) = Ok o /\ Permutation (positions (zlen a)) o /\
  read a o (map Fin s ++ repeat NaN k) /\ nondecreasing s /\ Permutation (finite a) s.
Proof. exact (sort_num a). Qed.
Print Assumptions C51_reals.
Theorem C51_mask a m : small (zlen a) -> length m = length a -> exists o1 o2 s, qsort (leb_mask a m) (zlen a) = Ok (o1 ++ o2) /\
  Permutation (positions (zlen a)) (o1 ++ o2) /\ read a o1 (map Fin s) /\ nondecreasing s /\
  Forall (fun i => at_ m i false) o1 /\ Forall (fun i => at_ a i NaN \/ at_ m i true) o2.
Proof. exact (sort_mask a m). Qed.
Print Assumptions C51_mask.
Example C51_case :
  let a := [Fin 8; NaN; Fin 4; Fin 8; Fin 5] in
  qsort (leb_num a) 5 = Ok [3; 5; 4; 1; 2] /\ qsort (leb_mask a [false; false; true; false; false]) 5 = Ok [5; 4; 1; 2; 3] /\
  qsort (leb_int [5; 3; 5; 1; 4; 2; 2]) 7 = Ok [4; 6; 7; 2; 5; 3; 1] /\ small 5.
Proof. split; [vm_compute; reflexivity|]. split; [vm_compute; reflexivity|]. split; [vm_compute; reflexivity|]. now compute. Qed.
(** QSORTID, without NaN. *)
Theorem C51_plain_partial l : small (zlen l) -> exists o s, qsort (leb_plain (map Fin l)) (zlen l) = Ok o /\ Permutation (positions (zlen l)) o /\
  read l o s /\ nondecreasing s /\ Permutation l s.
Proof. exact (sort_plain l). Qed.
Print Assumptions C51_plain_partial.
Example C51_plain_case : qsort (leb_plain (map Fin [5; 3; 5; 1])) 4 = Ok [4; 2; 3; 1].
Proof. vm_compute. reflexivity. Qed.
(** With NaN, QSORTID can disorder a sorted array. *)
Theorem C51_plain_refuted : exists a o s, nondecreasing (finite a) /\ qsort (leb_plain a) (zlen a) = Ok o /\
  read a o s /\ ~ nondecreasing (finite s).
Proof.
  exists [Fin 0; Fin 1; NaN]. eexists. eexists. split; [repeat constructor; lia|]. split; [vm_compute; reflexivity|].
  split; [repeat (constructor; [split; [lia | reflexivity]|]); constructor|].
  cbn. intros H. apply StronglySorted_inv in H. destruct H as [_ H]. inversion H; subst; try lia.
Qed.
Print Assumptions C51_plain_refuted.
