(** C136: what the texts of time-ordered data and of packed tables say. *)
From Coq Require Import ZArith List Bool Ascii String Lia Permutation Sorting.Sorted.
From Verif Require Import Base BaseFacts TemplateModel UnitModel UnitSpec UnitFacts UnitParseFacts UnitPrintFacts TxtModel TxtSpec.
Import ListNotations.
Local Open Scope nat_scope.
Local Open Scope list_scope.

Lemma read_number (a b : text) r s : Forall (fun c => is_digit c = true) a -> Forall (fun c => is_digit c = true) b -> a ++ " "%char :: r = b ++ " "%char :: s -> a = b /\ r = s.
Proof.
  revert b. induction a as [|x a IH]; intros [|y b] Ha Hb E; cbn in E.
  - injection E as E. auto.
  - injection E as E1 E2. subst y. inversion Hb as [|? ? H]. discriminate.
  - injection E as E1 E2. subst x. inversion Ha as [|? ? H]. discriminate.
  - injection E as E1 E2. subst y. inversion Ha. inversion Hb. subst. destruct (IH b) as [-> ->]; auto.
Qed.
Lemma read_str m n r s : (0 <= m)%Z -> (0 <= n)%Z -> str_nonneg m ++ " "%char :: r = str_nonneg n ++ " "%char :: s -> m = n /\ r = s.
Proof.
  intros Hm Hn E. destruct (str_nonneg_spec m Hm) as (_ & A & Vm), (str_nonneg_spec n Hn) as (_ & B & Vn). destruct (read_number _ _ _ _ A B E) as [E1 E2]. split; [|exact E2]. rewrite <- Vm, <- Vn. now f_equal.
Qed.
Lemma read_counted m n w w' r s : (0 <= m)%Z -> (0 <= n)%Z -> counted m w ++ r = counted n w' ++ s ->
  m = n /\ w ++ (if (1 <? m)%Z then lit "s" else []) ++ r = w' ++ (if (1 <? n)%Z then lit "s" else []) ++ s.
Proof.
  intros Hm Hn E. assert (C : forall k v t, counted k v ++ t = str_nonneg k ++ " "%char :: v ++ (if (1 <? k)%Z then lit "s" else []) ++ t) by (intros; unfold counted; rewrite <- app_assoc; cbn [app]; now rewrite <- app_assoc).
  rewrite !C in E. exact (read_str _ _ _ _ Hm Hn E).
Qed.
Lemma last_two_rev shape : last_two shape = match rev shape with [] => [] | [n] => [n] | n :: d :: _ => [d; n] end.
Proof.
  rewrite <- (rev_involutive shape) at 1. unfold last_two. destruct (rev shape) as [|n [|d r]]; [reflexivity | reflexivity|]. cbn [rev]. rewrite <- app_assoc. cbn [app]. rewrite app_length. cbn [List.length].
  replace (List.length (rev r) + 2 - 2) with (List.length (rev r)) by lia. rewrite skipn_app, Nat.sub_diag, skipn_all. reflexivity.
Qed.

(** The text of a Tod determines its number of dimensions up to two and its last two dimensions. *)
Theorem C136_tod : forall base s s', Forall (fun n => (0 <= n)%Z) s -> Forall (fun n => (0 <= n)%Z) s' -> tod_str base s = tod_str base s' -> last_two s = last_two s'.
Proof.
  intros base s s' P P' E. apply Forall_rev in P. apply Forall_rev in P'. rewrite !last_two_rev. unfold tod_str in E. destruct (rev s) as [|n r], (rev s') as [|n' r']; auto.
  - exfalso. apply (f_equal (@List.length ascii)) in E. rewrite app_length in E. cbn in E. lia.
  - exfalso. apply (f_equal (@List.length ascii)) in E. rewrite app_length in E. cbn in E. lia.
  - apply app_inv_head in E. apply (app_inv_head (lit " (")) in E. inversion P as [|? ? Pn Pr]. inversion P' as [|? ? Pn' Pr']. subst.
    destruct r as [|d r], r' as [|d' r']; cbn [app] in E.
    + apply read_counted in E; auto. destruct E as [-> _]. reflexivity.
    + exfalso. rewrite <- app_assoc in E. inversion Pr'. subst. apply read_counted in E; auto. destruct E as [_ E]. discriminate.
    + exfalso. rewrite <- app_assoc in E. inversion Pr. subst. apply read_counted in E; auto. destruct E as [_ E]. discriminate.
    + rewrite <- !app_assoc in E. inversion Pr. inversion Pr'. subst. apply read_counted in E; auto. destruct E as [-> E]. apply app_inv_head in E. apply app_inv_head in E. apply app_inv_head in E. apply read_counted in E; auto. destruct E as [-> _]. reflexivity.
Qed.
Print Assumptions C136_tod.
(** It is written in words: numbers in decimal notation, nouns in the plural unless one, for dimensions that are not zero. *)
Theorem C136_words : forall base s d n, (0 < d)%Z -> (0 < n)%Z ->
  (exists a b, number a = d /\ number b = n /\ tod_str base (s ++ [d; n]) = base ++ lit " (" ++ a ++ lit " " ++ plural d (lit "detector") ++ lit ", " ++ b ++ lit " " ++ plural n (lit "sample") ++ lit ")") /\
  (exists b, number b = n /\ tod_str base [n] = base ++ lit " (" ++ b ++ lit " " ++ plural n (lit "sample") ++ lit ")") /\ tod_str base [] = base.
Proof.
  intros base s d n Hd Hn. assert (C : forall m w, (0 < m)%Z -> counted m w = str_nonneg m ++ lit " " ++ plural m w).
  { intros m w Hm. unfold counted, plural. destruct (Z.ltb_spec 1 m), (Z.eq_dec m 1); try lia; auto. now rewrite app_nil_r. }
  split; [|split; [|reflexivity]].
  - exists (str_nonneg d), (str_nonneg n). split; [apply str_nonneg_spec; lia|]. split; [apply str_nonneg_spec; lia|]. unfold tod_str. rewrite rev_app_distr. cbn [rev app]. rewrite !C by auto. rewrite <- !app_assoc. reflexivity.
  - exists (str_nonneg n). split; [apply str_nonneg_spec; lia|]. unfold tod_str. cbn [rev app]. rewrite C by auto. rewrite <- !app_assoc. reflexivity.
Qed.
Print Assumptions C136_words.
(** Refuted: with more than two dimensions the number of detectors is that of one block; and none is written in the singular. *)
Theorem C136_detectors_refuted : exists s, fold_right Z.mul 1%Z (removelast s) = 6%Z /\ tod_str [] s = lit " (3 detectors, 4 samples)".
Proof. exists [2; 3; 4]%Z. split; reflexivity. Qed.
Print Assumptions C136_detectors_refuted.
Theorem C136_none_refuted : tod_str [] [0; 0]%Z = lit " (0 detector, 0 sample)" /\ plural 0 (lit "sample") = lit "samples".
Proof. split; reflexivity. Qed.
Print Assumptions C136_none_refuted.

(** Tables *)
Lemma leb_precedes a b : text_leb a b = true -> precedes a b.
Proof.
  revert b. induction a as [|x a IH]; intros [|y b] H; cbn in H; try discriminate.
  - left. now exists [].
  - left. now exists (y :: b).
  - destruct (Ascii.eqb_spec x y) as [->|N].
    + destruct (IH b H) as [[r ->]|(p & c & d & u & v & -> & -> & L)]; [left; now exists r|]. right. exists (y :: p), c, d, u, v. auto.
    + apply Nat.ltb_lt in H. right. exists [], x, y, a, b. auto.
Qed.
Definition name_le (x y : text * text) : Prop := text_leb (fst x) (fst y) = true.
Lemma name_perm x l : Permutation (insert_name x l) (x :: l).
Proof. induction l as [|y r IH]; cbn; [reflexivity|]. destruct (text_leb (fst x) (fst y)); [reflexivity|]. rewrite IH. apply perm_swap. Qed.
Lemma name_sorted x l : StronglySorted name_le l -> StronglySorted name_le (insert_name x l).
Proof.
  induction 1 as [|y r Sr IH F]; cbn; [repeat constructor|]. destruct (text_leb (fst x) (fst y)) eqn:E.
  - constructor; [constructor; auto|]. constructor; [exact E|]. eapply Forall_impl; [|exact F]. intros z. unfold name_le. apply text_leb_trans, E.
  - constructor; [exact IH|]. eapply Permutation_Forall; [symmetry; apply name_perm|]. constructor; [|exact F].
    unfold name_le. destruct (text_leb_total (fst x) (fst y)); congruence.
Qed.
Lemma shown_sorted l : StronglySorted name_le (shown l).
Proof. unfold shown. induction (flat_map _ l); cbn; [constructor | apply name_sorted; auto]. Qed.
Lemma fold_perm l : Permutation (fold_right insert_name [] l) l.
Proof. induction l as [|x l IH]; cbn; [reflexivity|]. rewrite name_perm, IH. reflexivity. Qed.
Lemma shown_in l k s : In (k, s) (shown l) <-> In (k, Value s) l /\ k <> lit "index" /\ k <> lit "removed".
Proof.
  unfold shown. rewrite (Permutation_in' eq_refl (fold_perm _)), in_flat_map. split.
  - intros [[k' h] [I H]]. cbn [fst snd] in H. destruct h as [| |s']; try destruct H. destruct (text_eqb k' (lit "index")) eqn:A; [destruct H|]. destruct (text_eqb k' (lit "removed")) eqn:B; [destruct H|]. cbn [orb] in H. destruct H as [H|[]]. injection H as <- <-. apply text_eqb_ne in A. apply text_eqb_ne in B. auto.
  - intros (I & A & B). exists (k, Value s). split; [exact I|]. cbn [fst snd]. apply text_eqb_ne in A. apply text_eqb_ne in B. rewrite A, B. now left.
Qed.
Lemma feeds_app a b : feeds (a ++ b) = feeds a + feeds b.
Proof. apply count_occ_app. Qed.
Lemma feeds_none a : ~ In newline a -> feeds a = 0.
Proof. intros H. apply count_occ_not_In. exact H. Qed.
Lemma feeds_joined sep l : feeds (joined sep l) = fold_right (fun t n => feeds t + n) 0 l + (List.length l - 1) * feeds sep.
Proof. induction l as [|x [|y r] IH]; [reflexivity | cbn [joined fold_right List.length Nat.sub Nat.mul]; lia|]. change (joined sep (x :: y :: r)) with (x ++ sep ++ joined sep (y :: r)). rewrite !feeds_app, IH. cbn [fold_right List.length Nat.sub]. rewrite !Nat.sub_0_r. cbn [Nat.mul]. lia. Qed.
Lemma digits_no_feed n : (0 <= n)%Z -> feeds (str_nonneg n) = 0.
Proof. intros H. apply feeds_none. intros I. destruct (str_nonneg_spec n H) as (_ & F & _). rewrite Forall_forall in F. specialize (F _ I). discriminate. Qed.
Lemma tuple_no_feed l : Forall (fun n => (0 <= n)%Z) l -> feeds (tuple_str l) = 0.
Proof.
  intros H. unfold tuple_str. assert (G : fold_right (fun t n => feeds t + n) 0 (map str_nonneg l) = 0) by (induction H as [|n l Hn _ IH]; cbn [map fold_right]; [reflexivity | rewrite (digits_no_feed n Hn); exact IH]).
  assert (J : feeds ("("%char :: joined (lit ", ") (map str_nonneg l) ++ lit ")") = 0). { change (feeds (lit "(" ++ joined (lit ", ") (map str_nonneg l) ++ lit ")") = 0). rewrite !feeds_app, feeds_joined, G. change (feeds (lit "(")) with 0. change (feeds (lit ")")) with 0. change (feeds (lit ", ")) with 0. lia. }
  destruct l as [|n [|m r]]; try exact J. change (feeds (lit "(" ++ str_nonneg n ++ lit ",)") = 0). rewrite !feeds_app. inversion H. rewrite digits_no_feed by auto. reflexivity.
Qed.

(** What is listed: the index, then, in the order of their names, the special attributes that hold something else than a function, with at most the first 65 characters of their values. *)
Theorem C136_table : forall name shape index special, exists listed : list (text * text),
  (forall k s, In (k, s) listed <-> In (k, Value s) special /\ k <> lit "index" /\ k <> lit "removed") /\
  (forall i j a b, i < j -> nth_error listed i = Some a -> nth_error listed j = Some b -> precedes (fst a) (fst b)) /\
  table_str name shape index special = name ++ lit "(" ++ tuple_str shape ++ lit ", " ++
    match listed with [] => lit "index=" ++ firstn 65 index ++ lit ")" | _ => break ++ lit "index=" ++ firstn 65 index ++ flat_map (fun a => lit "," ++ break ++ fst a ++ lit "=" ++ firstn 65 (snd a)) listed ++ lit ")" end.
Proof.
  intros name shape index special. exists (shown special). split; [apply shown_in|]. split.
  - intros i j a b L A B. apply leb_precedes. pose proof (shown_sorted special) as S. revert i j L A B. induction S as [|x l _ IH F]; intros i j L A B; [destruct i; discriminate|]. destruct j as [|j]; [lia|]. destruct i as [|i]; cbn in A, B; [|apply (IH i j); auto; lia].
    injection A as <-. rewrite Forall_forall in F. apply F. now apply nth_error_In in B.
  - unfold table_str. cbv zeta. change (name ++ lit "(" ++ tuple_str shape ++ ?x) with (name ++ "("%char :: tuple_str shape ++ x). do 2 f_equal. f_equal. destruct (shown special) as [|x r]; [reflexivity|].
    assert (1 <? zlen ((lit "index", index) :: x :: r) = true)%Z as -> by (apply Z.ltb_lt; unfold zlen; cbn [List.length]; lia).
    assert (G : forall y l, joined (","%char :: break) (map entry (y :: l)) = entry y ++ flat_map (fun a => lit "," ++ break ++ fst a ++ lit "=" ++ firstn 65 (snd a)) l).
    { intros y l. revert y. induction l as [|z l IH]; intros y; [cbn; now rewrite app_nil_r|]. change (map entry (y :: z :: l)) with (entry y :: map entry (z :: l)). change (joined (","%char :: break) (entry y :: map entry (z :: l))) with (entry y ++ (","%char :: break) ++ joined (","%char :: break) (map entry (z :: l))). rewrite IH. cbn [flat_map]. unfold entry. rewrite <- !app_assoc. cbn [app]. rewrite <- ?app_assoc. reflexivity. }
    rewrite G. unfold entry. cbn [fst snd]. rewrite <- !app_assoc. reflexivity.
Qed.
Print Assumptions C136_table.
(** One line for the head and one for each attribute, the index included, if there is another one than the index and no text has line feeds. *)
Theorem C136_lines : forall name shape index special, ~ In newline name -> Forall (fun n => (0 <= n)%Z) shape -> ~ In newline index ->
  (forall k s, In (k, Value s) special -> ~ In newline k /\ ~ In newline s) ->
  feeds (table_str name shape index special) = match shown special with [] => 0 | l => S (List.length l) end.
Proof.
  intros name shape index special Hn Hs Hi Ha. unfold table_str. cbv zeta. change (feeds (name ++ lit "(" ++ tuple_str shape ++ lit ", " ++ (if (1 <? zlen ((lit "index", index) :: shown special))%Z then break else []) ++ joined (","%char :: break) (map entry ((lit "index", index) :: shown special)) ++ lit ")") = match shown special with [] => 0 | l => S (List.length l) end).
  rewrite !feeds_app, feeds_joined, tuple_no_feed by auto. rewrite (feeds_none name Hn).
  assert (E : forall k s, ~ In newline k -> ~ In newline s -> feeds (entry (k, s)) = 0). { intros k s Hk Hv. apply feeds_none. unfold entry. cbn [fst snd]. rewrite in_app_iff. intros [I|[I|I]]; [auto | discriminate |]. apply Hv. rewrite <- (firstn_skipn 65 s). apply in_or_app. auto. }
  assert (G : fold_right (fun t n => feeds t + n) 0 (map entry ((lit "index", index) :: shown special)) = 0).
  { assert (I : feeds (entry (lit "index", index)) = 0) by (apply E; auto; cbn; intuition discriminate). cbn [map fold_right]. rewrite I. assert (A : forall k s, In (k, s) (shown special) -> ~ In newline k /\ ~ In newline s) by (intros k s H; apply shown_in in H; apply Ha; tauto). cbn [Nat.add].
    induction (shown special) as [|[k s] l IH]; [reflexivity|]. cbn [map fold_right]. rewrite E by (apply (A k s); now left). apply IH. intros; apply A; now right. }
  rewrite G. destruct (shown special) as [|x l]; [reflexivity|]. assert (1 <? zlen ((lit "index", index) :: x :: l) = true)%Z as -> by (apply Z.ltb_lt; unfold zlen; cbn [List.length]; lia). cbn [map List.length]. rewrite map_length. change (feeds break) with 1. change (feeds (","%char :: break)) with 1. change (feeds (lit "(")) with 0. change (feeds (lit ", ")) with 0. change (feeds (lit ")")) with 0. lia.
Qed.
Print Assumptions C136_lines.
(** Refuted: a line for each attribute, with the text of numpy for an array of two dimensions; and different values give different texts. *)
Theorem C136_lines_refuted : exists special, List.length (shown special) = 1 /\ feeds (table_str (lit "Layout") [2]%Z (lit "[0 1]") special) = 3.
Proof. exists [(lit "center", Value (lit "[[0. 0.]" ++ newline :: lit " [1. 0.]]"))]. split; reflexivity. Qed.
Print Assumptions C136_lines_refuted.
Theorem C136_values_refuted : exists v v', v <> v' /\ table_str (lit "Layout") [2]%Z (lit "[0 1]") [(lit "gain", Value v)] = table_str (lit "Layout") [2]%Z (lit "[0 1]") [(lit "gain", Value v')].
Proof. exists (repeat "1"%char 65 ++ lit "0"), (repeat "1"%char 65 ++ lit "2"). split; [discriminate | reflexivity]. Qed.
Print Assumptions C136_values_refuted.

Example C136_example : tod_str (lit "[0. 1.] Jy") [1; 2]%Z = lit "[0. 1.] Jy (1 detector, 2 samples)" /\
  table_str (lit "PackedTable") [4]%Z (lit "[0 1]") [(lit "index", Value (lit "[0 1]")); (lit "removed", Value (lit "False")); (lit "b", Value (lit "[5 6]")); (lit "f", Function); (lit "a", Value (lit "3")); (lit "c", Nothing)] =
  lit "PackedTable((4,), " ++ newline :: lit "    index=[0 1]," ++ newline :: lit "    a=3," ++ newline :: lit "    b=[5 6])".
Proof. split; reflexivity. Qed.
