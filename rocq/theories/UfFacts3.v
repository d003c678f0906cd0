From Coq Require Import String Ascii QArith Qcanon Permutation.
From Verif Require Import Base BaseFacts TemplateModel UnitModel UnitSpec UnitFacts UnitSIFacts UfModel UfSpec UfFacts UfFacts2.
Open Scope nat_scope.

(** ** The table of functions *)
Lemma same_unit_conversion name p r : same_unit name p r -> exists c, conversion_of name = Some c /\ selects (c_input c) p /\ kind (c_output c) r /\ c_action c = SAME.
Proof.
  intros H. unfold same_unit in H.
  assert (G : forall names p r, (forall n, In n names -> exists c, conversion_of n = Some c /\ selects (c_input c) p /\ kind (c_output c) r /\ c_action c = SAME) ->
    In name names -> exists c, conversion_of name = Some c /\ selects (c_input c) p /\ kind (c_output c) r /\ c_action c = SAME) by (intros; auto).
  Ltac each_name H := cbn in H; repeat (destruct H as [<-|H]; [eexists; split; [vm_compute; reflexivity|cbn; auto]|]); destruct H.
  destruct H as [(I & -> & ->)|[(I & -> & ->)|[(I & -> & ->)|[(I & -> & ->)|[(I & -> & ->)|[(I & -> & ->)|[(I & -> & ->)|[(I & -> & ->)|(I & -> & ->)]]]]]]]].
  - each_name I.
  - each_name I.
  - destruct I as [->| ->]; eexists; (split; [vm_compute; reflexivity|cbn; auto]).
  - each_name I.
  - each_name I.
  - each_name I.
  - subst. eexists; (split; [vm_compute; reflexivity|cbn; auto]).
  - subst. eexists; (split; [vm_compute; reflexivity|cbn; auto]).
  - destruct I as [->| ->]; eexists; (split; [vm_compute; reflexivity|cbn; auto]).
Qed.
Lemma product_conversion name : In name product_names -> conversion_of name = Some (Conversion FIRST_AND_SECOND DEFAULT PROD).
Proof. intros H. cbn in H. repeat (destruct H as [<-|H]; [vm_compute; reflexivity|]). destruct H. Qed.

Section P.
Context {K : Type} {o : mag_ops K} (L : mag_laws o) {V : Type} {act : K -> V -> V} (A : action o act).
Notation "a ** b" := (mmul o a b) (at level 40, left associativity).
Variable scale : text -> K.
Notation pw := (powers o scale).
Lemma value_units (a : @operand K V) : value o act scale a = act (pw (get_units a)) (magnitude a).
Proof. destruct a as [x|x u loc]; cbn; [symmetry; apply (proj1 A)|reflexivity]. Qed.
Lemma dict_units (a : @operand K V) : is_dict a -> NoDup (names (get_units a)).
Proof. destruct a; cbn; [constructor|auto]. Qed.
Lemma map_view_value rest : Forall no_unit_arg rest -> map (farg_value o act scale) rest = map (@view_arg K V) rest.
Proof. intros F. apply map_ext_in. intros a I. rewrite Forall_forall in F. apply (view_value A), F, I. Qed.
(** A product of all the arguments but the first. *)
Lemma prod_units (l : list (@operand K V)) u : Forall is_dict l -> NoDup (names u) ->
  NoDup (names (fold_left multiply_unit (map get_units l) u)) /\
  pw (fold_left multiply_unit (map get_units l) u) = pw u ** fold_right (mmul o) (m1 o) (map (fun a => pw (get_units a)) l).
Proof.
  revert u. induction l as [|a l IH]; intros u D N; cbn [map fold_left fold_right]; [split; [exact N|rewrite (one_r L); reflexivity]|].
  inversion D; subst. destruct (IH (multiply_unit u (get_units a))) as [X Y]; auto; [apply multiply_names, N|]. split; [exact X|].
  rewrite Y, (powers_multiply L scale) by exact N. rewrite <- (ml_assoc _ L). reflexivity.
Qed.
End P.

(** ** Items *)
Definition plain_key (k : kitem) : bool := match k with KInt _ | KSlice _ _ => true | _ => false end.
Definition slices (key : list kitem) : nat := length (filter (fun k => match k with KSlice _ _ | KNew => true | _ => false end) key).
Lemma filter_all {A} (f : A -> bool) l : forallb f l = true -> filter f l = l.
Proof. induction l as [|a l IH]; cbn; [reflexivity|]. destruct (f a); cbn; [intros H; rewrite IH; auto|discriminate]. Qed.
Lemma place_app k1 k2 i1 i2 : forallb plain_key k1 = true -> length i1 = slices k1 -> place (k1 ++ k2) (i1 ++ i2) = place k1 i1 ++ place k2 i2 /\ length (place k1 i1) = length k1.
Proof.
  revert i1. induction k1 as [|k k1 IH]; intros i1 P E.
  - destruct i1; [|discriminate]. auto.
  - cbn in P. apply andb_true_iff in P. destruct P as [Pk P]. destruct k as [i|a s| |]; cbn in Pk; try discriminate.
    + destruct (IH i1 P E) as [X Y]. cbn [app place length]. rewrite X, Y. auto.
    + destruct i1 as [|j i1]; [discriminate|]. cbn in E. destruct (IH i1 P) as [X Y]; [unfold slices; lia|]. cbn [app place length]. rewrite X, Y. auto.
Qed.
Lemma place_len k i : forallb plain_key k = true -> length i = slices k -> length (place k i) = length k.
Proof. intros P E. exact (proj2 (place_app k [] i [] P E)). Qed.
Lemma slices_app a b : slices (a ++ b) = slices a + slices b.
Proof. unfold slices. rewrite filter_app, app_length. reflexivity. Qed.
Lemma last_app {A} n (a b : list A) : length b = n -> last_ n (a ++ b) = b.
Proof. intros E. unfold last_. rewrite app_length. replace (length a + length b - n) with (length a) by lia. rewrite skipn_app, skipn_all, Nat.sub_diag. reflexivity. Qed.
Lemma firstn_len {A} n (a b : list A) : length a = n -> firstn n (a ++ b) = a.
Proof. intros <-. rewrite firstn_app, firstn_all, Nat.sub_diag. cbn. apply app_nil_r. Qed.
(** With a key of full length. *)
Lemma item_full {A} (k : list kitem) ndim dir (v : barray A) : forallb plain_key k = true -> length k = ndim -> 0 < b_rank v <= ndim ->
  let k' := match dir with Leftward => match b_rank v with O => k | d => skipn (length k - d) k end | Rightward => firstn (b_rank v) k end in
  exists v', b_item v k' = Ok v' /\ b_rank v' = slices k' /\ forall idx, length idx = slices k -> element dir v' idx = element dir v (place k idx).
Proof.
  intros P E R k'. assert (K' : k' = match dir with Leftward => skipn (length k - b_rank v) k | Rightward => firstn (b_rank v) k end) by (unfold k'; destruct dir, (b_rank v); auto; lia).
  clearbody k'.
  assert (Lk : length k' = b_rank v) by (rewrite K'; destruct dir; rewrite ?skipn_length, ?firstn_length; lia).
  assert (Pk : forallb plain_key k' = true).
  { assert (Pf := P). rewrite forallb_forall in Pf |- *. intros x I. apply Pf. rewrite K' in I. destruct dir.
    - rewrite <- (firstn_skipn (length k - b_rank v) k). apply in_or_app. right. exact I.
    - rewrite <- (firstn_skipn (b_rank v) k). apply in_or_app. left. exact I. }
  assert (Fk : filter (fun k => match k with KInt _ | KSlice _ _ => true | _ => false end) k' = k') by (apply (filter_all plain_key), Pk).
  unfold b_item. rewrite Fk, Lk, Nat.ltb_irrefl. eexists. split; [reflexivity|]. cbn [b_rank]. unfold item_rank. rewrite Fk, Lk, Nat.sub_diag, Nat.add_0_r. fold (slices k'). split; [reflexivity|].
  intros idx Li. unfold element. cbn [b_rank b_at]. f_equal. destruct dir.
  - set (k1 := firstn (length k - b_rank v) k). assert (Ek : k = k1 ++ k') by (rewrite K'; symmetry; apply firstn_skipn).
    assert (P1 : forallb plain_key k1 = true) by (rewrite Ek, forallb_app in P; apply andb_true_iff in P; apply P).
    rewrite Ek, slices_app in Li. clearbody k1. clear K'. subst k.
    assert (X : exists i1 i2, idx = i1 ++ i2 /\ length i1 = slices k1 /\ length i2 = slices k').
    { exists (firstn (slices k1) idx), (skipn (slices k1) idx). rewrite firstn_skipn, firstn_length, skipn_length. repeat split; lia. }
    destruct X as (i1 & i2 & -> & L1 & L2). destruct (place_app k1 k' i1 i2 P1 L1) as [-> Y]. rewrite !last_app; auto. rewrite (place_len k' i2 Pk L2). exact Lk.
  - set (k2 := skipn (b_rank v) k). assert (Ek : k = k' ++ k2) by (rewrite K'; symmetry; apply firstn_skipn).
    rewrite Ek, slices_app in Li. clearbody k2. clear K'. subst k.
    assert (X : exists i1 i2, idx = i1 ++ i2 /\ length i1 = slices k' /\ length i2 = slices k2).
    { exists (firstn (slices k') idx), (skipn (slices k') idx). rewrite firstn_skipn, firstn_length, skipn_length. repeat split; lia. }
    destruct X as (i1 & i2 & -> & L1 & L2). destruct (place_app k' k2 i1 i2 Pk L1) as [-> Y]. rewrite !firstn_len; auto. lia.
Qed.
Lemma plain_no_ellipsis k : forallb plain_key k = true -> index_of_ellipsis k = None /\ existsb is_ellipsis k = false.
Proof.
  induction k as [|x k IH]; cbn; [auto|]. intros H. apply andb_true_iff in H. destruct H as [Hx H]. destruct (IH H) as [-> ->]. destruct x; try discriminate; auto.
Qed.
Lemma index_app a b : forallb plain_key a = true -> index_of_ellipsis (a ++ KEllipsis :: b) = Some (length a).
Proof. induction a as [|x a IH]; cbn; [reflexivity|]. intros H. apply andb_true_iff in H. destruct H as [Hx H]. rewrite (IH H). destruct x; try discriminate; reflexivity. Qed.
Lemma flat_plain n a : forallb plain_key a = true -> flat_map (fun k => if is_ellipsis k then repeat colon n else [k]) a = a.
Proof. induction a as [|x a IH]; cbn; [reflexivity|]. intros H. apply andb_true_iff in H. destruct H as [Hx H]. rewrite (IH H). destruct x; try discriminate; reflexivity. Qed.
Lemma colons_plain n : forallb plain_key (repeat colon n) = true.
Proof. induction n; cbn; auto. Qed.
Lemma used_plain a : forallb plain_key a = true -> length (filter (fun k => match k with KInt _ | KSlice _ _ => true | _ => false end) a) = length a.
Proof. intros H. f_equal. apply (filter_all plain_key), H. Qed.
Lemma code_key_plain ndim key : forallb plain_key key = true -> length key <= ndim ->
  code_key ndim key = numpy_key ndim key /\ forallb plain_key (code_key ndim key) = true /\ length (code_key ndim key) = ndim.
Proof.
  intros P E. unfold code_key, numpy_key. destruct (plain_no_ellipsis key P) as [-> ->]. rewrite (used_plain key P). split; [reflexivity|]. split.
  - rewrite forallb_app, P, colons_plain. reflexivity.
  - rewrite app_length, repeat_length. lia.
Qed.
(** The key of the code with an ellipsis: one slice is moved to the end. *)
Lemma code_key_ellipsis ndim a b : forallb plain_key a = true -> forallb plain_key b = true -> length a + length b <= ndim ->
  numpy_key ndim (a ++ KEllipsis :: b) = a ++ repeat colon (ndim - (length a + length b)) ++ b /\
  (length a + length b = ndim -> code_key ndim (a ++ KEllipsis :: b) = a ++ b) /\
  (length a + length b < ndim -> code_key ndim (a ++ KEllipsis :: b) = a ++ repeat colon (ndim - (length a + length b) - 1) ++ b ++ [colon]).
Proof.
  intros Pa Pb E. assert (X : existsb is_ellipsis (a ++ KEllipsis :: b) = true) by (rewrite existsb_app; cbn; apply orb_true_r).
  split; [|unfold code_key; rewrite (index_app a b Pa), (firstn_len (length a) a) by reflexivity; rewrite (skipn_app (Datatypes.S (length a)) a), (skipn_all2 (n:=Datatypes.S (length a)) a) by lia;
    replace (Datatypes.S (length a) - length a) with 1 by lia; cbn [skipn app]; rewrite !app_length; cbn [length]; rewrite repeat_length; split; intros H].
  - unfold numpy_key. rewrite X, filter_app, app_length. cbn [filter]. rewrite !used_plain by auto. rewrite flat_map_app. cbn [flat_map is_ellipsis]. rewrite !flat_plain by auto. reflexivity.
  - replace (ndim - (length a + Datatypes.S (length b))) with 0 by lia. replace (ndim - (length a + (0 + length b))) with 0 by lia. cbn [repeat app]. apply app_nil_r.
  - replace (ndim - (length a + length b) - 1) with (ndim - (length a + Datatypes.S (length b))) by lia.
    replace (ndim - (length a + (ndim - (length a + Datatypes.S (length b)) + length b))) with 1 by lia. cbn [repeat]. rewrite <- !app_assoc. reflexivity.
Qed.
