(** Lemmas for C121. *)
From Coq Require Import ZArith Lia Lra Reals List Permutation.
From Flocq Require Import Core.
From Verif Require Import Base BaseFacts SparseModel SparseSpec SparseExecFacts RingFacts PmModel PmSpec PmFacts RndModel RndSpec RndFacts RndProps FmaModel FmaProps RpmSpec.
Import ListNotations.
Open Scope R_scope.

Notation eo := exact_ops.
Definition hits_of {K} (evs : list (Z * K)) (j : nat) : list K := map snd (filter (fun e => (fst e =? Z.of_nat j)%Z) evs).
(** Any numbers: a cell receives its terms in the order of the events. *)
Lemma run_cells {K} (o : ops K) n evs : forall mem, length mem = n -> Forall (fun e => (0 <= fst e < Z.of_nat n)%Z) evs ->
  exists mem', run_events o mem evs = Ok mem' /\ length mem' = n /\ forall j, (j < n)%nat -> at_ o mem' j = addl o (at_ o mem j) (hits_of evs j).
Proof.
  induction evs as [|[i t] evs IH]; intros mem L F; cbn [run_events].
  - exists mem. split; [reflexivity|]. split; [exact L|]. reflexivity.
  - apply Forall_cons_iff in F as [Hi F]. cbn [fst] in Hi. rewrite (get_at o) by (unfold zlen; lia). cbn [bind].
    destruct (IH (set_at mem i (kadd o (at_ o mem (Z.to_nat i)) t))) as [mem' [E [L' H]]]; [|exact F|].
    + pose proof (zlen_set_at mem i (kadd o (at_ o mem (Z.to_nat i)) t)) as Z0. unfold zlen in Z0. lia.
    + exists mem'. split; [exact E|]. split; [exact L'|]. intros j Hj. rewrite H by exact Hj. unfold hits_of. cbn [filter fst].
      destruct (Z.eqb_spec i (Z.of_nat j)) as [->|N].
      * rewrite Nat2Z.id. pose proof (at_set_same o mem (Z.of_nat j) (kadd o (at_ o mem j) t) ltac:(unfold zlen; lia)) as Q.
        rewrite Nat2Z.id in Q. rewrite Q. reflexivity.
      * rewrite (at_set_other o) by exact N. reflexivity.
Qed.

(** Events that are products. *)
Definition products_of {K} (o : ops K) (l : list (Z * (K * K))) : list (Z * K) := map (fun w => (fst w, kmul o (fst (snd w)) (snd (snd w)))) l.
Definition unsigned (l : list (Z * (R * R))) : list (Z * (R * R)) := map (fun w => (fst w, (Rabs (fst (snd w)), Rabs (snd (snd w))))) l.

Section Track.
Variables radd rmul : R -> R -> R.
Notation o := (Ops R 0 1 radd rmul Ropp).
Variable F : R -> Prop.
Variables T A : nat -> R -> R -> R -> Prop.
Hypothesis Tprod : forall a b, F a -> F b -> T 1 (rmul a b) (a * b) (Rabs a * Rabs b).
Hypothesis Topp : forall k c e m, T k c e m -> T k (- c) (- e) m.
Hypothesis Tadd : forall k c e m k' c' e' m', T k c e m -> T k' c' e' m' -> T (k + k') (radd c c') (e + e') (m + m').
Hypothesis A0 : forall x, F x -> A 0 x x (Rabs x).
Hypothesis Aadd : forall k c e m k' c' e' m', A k c e m -> T k' c' e' m' -> A (k + k') (radd c c') (e + e') (m + m').

Lemma products_tl l j : (forall w, In w l -> F (fst (snd w)) /\ F (snd (snd w))) ->
  tl T (hits_of (products_of o l) j) (length (filter (fun w => (fst w =? Z.of_nat j)%Z) l)) (hits eo (products_of eo l) j) (hits eo (products_of eo (unsigned l)) j).
Proof.
  induction l as [|[i [a b]] l IH]; intros H.
  - apply tl_nil.
  - specialize (IH ltac:(intros w Hw; apply H; now right)). destruct (H (i, (a, b)) ltac:(now left)) as [Fa Fb]. cbn [fst snd] in Fa, Fb.
    unfold hits_of, hits in *. cbn [products_of unsigned map filter sum_over fst snd]. destruct (i =? Z.of_nat j)%Z.
    + cbn [map length snd]. eapply tl_eq; [econstructor; [now apply Tprod|exact IH]|lia|reflexivity|reflexivity].
    + eapply tl_eq; [exact IH|lia|symmetry; apply Rplus_0_l|symmetry; apply Rplus_0_l].
Qed.
Lemma events_tracked n l evs mem : length mem = n -> Forall (fun w => (0 <= fst w < Z.of_nat n)%Z) l -> Permutation (products_of o l) evs ->
  (forall w, In w l -> F (fst (snd w)) /\ F (snd (snd w))) -> (forall y, In y mem -> F y) ->
  exists mem', run_events o mem evs = Ok mem' /\ length mem' = n /\ forall j, (j < n)%nat ->
    A (length (filter (fun w => (fst w =? Z.of_nat j)%Z) l)) (nth j mem' 0) (nth j mem 0 + hits eo (products_of eo l) j) (Rabs (nth j mem 0) + hits eo (products_of eo (unsigned l)) j).
Proof.
  intros L Rg P Fl Fm. destruct (run_cells o n evs mem L) as [mem' [E [L' H]]].
  - rewrite Forall_forall in *. intros e He. apply (Permutation_in _ (Permutation_sym P)) in He. unfold products_of in He. apply in_map_iff in He as [w [<- Hw]]. cbn [fst]. now apply Rg.
  - exists mem'. split; [exact E|]. split; [exact L'|]. intros j Hj. specialize (H j Hj). unfold at_ in H. cbn [k0] in H. rewrite H.
    apply (addl_tl radd rmul T A Aadd _ _ _ _ 0).
    + apply A0, Fm, nth_In. lia.
    + apply (tl_perm radd rmul F T A Tprod Topp Tadd A0 Aadd (hits_of (products_of o l) j)); [|now apply products_tl]. unfold hits_of. apply Permutation_map. clear - P.
      induction P; cbn [filter]; [constructor|destruct (fst x =? Z.of_nat j)%Z; [now constructor|assumption]|destruct (fst y =? Z.of_nat j)%Z, (fst x =? Z.of_nat j)%Z; try apply Permutation_refl; constructor|now transitivity (filter (fun e => (fst e =? Z.of_nat j)%Z) l')].
Qed.

(** Back projection. *)
Definition triples (m : list (list (Z * R))) (t : list R) : list (Z * (R * R)) :=
  flat_map (fun rt => map (fun e => (fst e, (snd e, snd rt))) (entries (fst rt))) (combine m t).
Lemma transpose_products (o' : ops R) m t : transpose_events o' m t = products_of o' (triples m t).
Proof.
  unfold transpose_events, triples, products_of. induction (combine m t) as [|[row s] l IH]; [reflexivity|]. cbn [flat_map fst snd]. rewrite map_app, <- IH. f_equal.
  rewrite row_events_eq, map_map. reflexivity.
Qed.
Lemma entries_unsigned row : entries (map (fun e : Z * R => (fst e, Rabs (snd e))) row) = map (fun e => (fst e, Rabs (snd e))) (entries row).
Proof. induction row as [|[i v] row IH]; [reflexivity|]. cbn [map entries fst snd]. destruct (i =? -1)%Z; [reflexivity|]. cbn [map fst snd]. now rewrite IH. Qed.
Lemma triples_unsigned m t : triples (unsigned_elements m) (map Rabs t) = unsigned (triples m t).
Proof.
  unfold triples, unsigned_elements, unsigned. revert t. induction m as [|row m IH]; intros [|s t]; try reflexivity. cbn [map combine flat_map fst snd]. rewrite map_app, <- IH. f_equal.
  rewrite entries_unsigned, !map_map. reflexivity.
Qed.
Lemma triples_uses m t j : length t = length m -> length (filter (fun w => (fst w =? Z.of_nat j)%Z) (triples m t)) = uses m j.
Proof.
  unfold uses, triples. revert t. induction m as [|row m IH]; intros [|s t] L; try discriminate; [reflexivity|]. cbn [combine flat_map fst snd]. rewrite !filter_app, !app_length, IH by (injection L; auto). f_equal.
  induction (entries row) as [|e l IHl]; [reflexivity|]. cbn [map filter fst]. destruct (fst e =? Z.of_nat j)%Z; cbn [length]; now rewrite IHl.
Qed.
Lemma entries_in {K} (row : list (Z * K)) e : In e (entries row) -> In e row.
Proof. induction row as [|a row IH]; [intros []|]. cbn [entries]. destruct (fst a =? -1)%Z; [intros []|]. intros [->|H]; [now left|right; auto]. Qed.
Lemma triples_in m t w : In w (triples m t) -> exists row e s, In row m /\ In s t /\ In e (entries row) /\ w = (fst e, (snd e, s)).
Proof.
  unfold triples. intros H. apply in_flat_map in H as [[row s] [H1 H2]]. cbn [fst snd] in H2. apply in_map_iff in H2 as [e [<- H2]]. exists row, e, s.
  split; [now apply in_combine_l in H1|]. split; [now apply in_combine_r in H1|]. split; [exact H2|reflexivity].
Qed.
Lemma unsigned_nth m i : nth i (unsigned_elements m) [] = map (fun e => (fst e, Rabs (snd e))) (nth i m []).
Proof. unfold unsigned_elements. rewrite <- (map_nth (map (fun e : Z * R => (fst e, Rabs (snd e))))). reflexivity. Qed.
Lemma abs_nth t i : nth i (map Rabs t) 0 = Rabs (nth i t 0).
Proof. rewrite <- Rabs_R0 at 1. apply map_nth. Qed.
Lemma transpose_tracked m t mem evs : valid (length mem) m -> length t = length m -> Permutation (transpose_events o m t) evs ->
  all_values F m -> (forall y, In y t -> F y) -> (forall y, In y mem -> F y) ->
  exists mem', run_events o mem evs = Ok mem' /\ length mem' = length mem /\ forall j, (j < length mem)%nat ->
    A (uses m j) (nth j mem' 0) (nth j mem 0 + back eo m (fun i => nth i t 0) j) (Rabs (nth j mem 0) + back eo (unsigned_elements m) (fun i => Rabs (nth i t 0)) j).
Proof.
  intros V L P Fm Ft Fo. rewrite transpose_products in P. destruct (events_tracked (length mem) (triples m t) evs mem eq_refl) as [mem' [E [L' H]]]; auto.
  - rewrite Forall_forall. intros w Hw. destruct (triples_in m t w Hw) as [row [e [s [H1 [H2 [H3 ->]]]]]]. cbn [fst]. pose proof (valid_entries (length mem) row (V row H1)) as Q. rewrite Forall_forall in Q. now apply Q.
  - intros w Hw. destruct (triples_in m t w Hw) as [row [e [s [H1 [H2 [H3 ->]]]]]]. cbn [fst snd]. split; [apply (Fm row e H1); now apply entries_in|now apply Ft].
  - exists mem'. split; [exact E|]. split; [exact L'|]. intros j Hj. specialize (H j Hj). rewrite triples_uses in H by exact L.
    rewrite <- triples_unsigned, <- !transpose_products in H. rewrite !(transpose_hits eo exact_ring) in H by (unfold unsigned_elements; rewrite ?map_length; auto).
    replace (back eo (unsigned_elements m) (fun i => Rabs (nth i t 0)) j) with (back eo (unsigned_elements m) (at_ eo (map Rabs t)) j); [exact H|].
    unfold back. apply bigsum_ext. intros i _. unfold at_. cbn [k0 eo]. now rewrite abs_nth.
Qed.

Lemma unsigned_valid n m : valid n m -> valid n (unsigned_elements m).
Proof. intros V row Hr e He. unfold unsigned_elements in Hr. apply in_map_iff in Hr as [row' [<- Hr]]. apply in_map_iff in He as [e' [<- He]]. cbn [fst]. now apply (V row'). Qed.
(** Product of the transpose and of the matrix. *)
Definition pairs_of (n : nat) (m : list (list (Z * R))) : list (Z * (R * R)) :=
  flat_map (fun row => flat_map (fun e => map (fun e' => (cell (Z.of_nat n) (fst e) (fst e'), (snd e, snd e'))) (entries row)) (entries row)) m.
Lemma ptp_products (o' : ops R) n m : ptp_events o' (Z.of_nat n) m = products_of o' (pairs_of n m).
Proof.
  unfold ptp_events, pairs_of, products_of. induction m as [|row m IH]; [reflexivity|]. cbn [flat_map]. rewrite map_app, <- IH. f_equal. rewrite row_events_id.
  generalize (entries row) at 2 4. intros l. induction l as [|e l IHl]; [reflexivity|]. cbn [flat_map]. rewrite map_app, IHl. f_equal. rewrite map_map. reflexivity.
Qed.
Lemma pairs_unsigned n m : pairs_of n (unsigned_elements m) = unsigned (pairs_of n m).
Proof.
  unfold pairs_of, unsigned_elements, unsigned. induction m as [|row m IH]; [reflexivity|]. cbn [map flat_map]. rewrite map_app, <- IH. f_equal. rewrite entries_unsigned.
  assert (G : forall l1 l : list (Z * R), flat_map (fun e => map (fun e' => (cell (Z.of_nat n) (fst e) (fst e'), (snd e, snd e'))) (map (fun e => (fst e, Rabs (snd e))) l)) (map (fun e => (fst e, Rabs (snd e))) l1) =
    map (fun w : Z * (R * R) => (fst w, (Rabs (fst (snd w)), Rabs (snd (snd w))))) (flat_map (fun e => map (fun e' => (cell (Z.of_nat n) (fst e) (fst e'), (snd e, snd e'))) l) l1)).
  { intros l1 l. induction l1 as [|e l1 IHl]; [reflexivity|]. cbn [map flat_map fst snd]. rewrite map_app, <- IHl. f_equal. rewrite !map_map. reflexivity. }
  apply G.
Qed.
Lemma pairs_in n m w : In w (pairs_of n m) -> exists row e e', In row m /\ In e (entries row) /\ In e' (entries row) /\ w = (cell (Z.of_nat n) (fst e) (fst e'), (snd e, snd e')).
Proof.
  unfold pairs_of. intros H. apply in_flat_map in H as [row [H1 H2]]. apply in_flat_map in H2 as [e [H2 H3]]. apply in_map_iff in H3 as [e' [<- H3]]. now exists row, e, e'.
Qed.
Lemma pairs_uses n m i j : valid n m -> (i < n)%nat -> (j < n)%nat -> length (filter (fun w => (fst w =? Z.of_nat (i + j * n))%Z) (pairs_of n m)) = joint_uses m i j.
Proof.
  intros V Hi Hj. unfold joint_uses, pairs_of. induction m as [|row m IH]; [reflexivity|]. cbn [flat_map map list_sum fold_right]. rewrite filter_app, app_length, IH by (intros r Hr; apply V; now right). f_equal.
  pose proof (valid_entries n row (V row ltac:(now left))) as Q. rewrite Forall_forall in Q. set (l := entries row) in *.
  assert (G : forall l1, (forall e, In e l1 -> In e l) -> length (filter (fun w => (fst w =? Z.of_nat (i + j * n))%Z) (flat_map (fun e => map (fun e' => (cell (Z.of_nat n) (fst e) (fst e'), (snd e, snd e'))) l) l1)) = (length (filter (fun e => (fst e =? Z.of_nat i)%Z) l1) * length (filter (fun e => (fst e =? Z.of_nat j)%Z) l))%nat).
  { induction l1 as [|e l1 IH1]; intros S; [reflexivity|]. cbn [flat_map filter]. rewrite filter_app, app_length, IH1 by (intros e' He; apply S; now right).
    pose proof (Q e (S e ltac:(now left))) as Qe.
    assert (K : length (filter (fun w : Z * (R * R) => (fst w =? Z.of_nat (i + j * n))%Z) (map (fun e' => (cell (Z.of_nat n) (fst e) (fst e'), (snd e, snd e'))) l)) = if (fst e =? Z.of_nat i)%Z then length (filter (fun e => (fst e =? Z.of_nat j)%Z) l) else 0%nat).
    { clear IH1 S. clearbody l. induction l as [|e' l IHl]; [now destruct (fst e =? Z.of_nat i)%Z|]. cbn [map filter fst]. pose proof (Q e' ltac:(now left)) as Qe'.
      specialize (IHl ltac:(intros x Hx; apply Q; now right)). rewrite (cell_range n) by assumption.
      destruct (Z.eqb_spec (fst e) (Z.of_nat i)) as [Ei|Ni].
      - replace (fst e + fst e' * Z.of_nat n =? Z.of_nat (i + j * n))%Z with (fst e' =? Z.of_nat j)%Z by (rewrite Ei; destruct (Z.eqb_spec (fst e') (Z.of_nat j)); nia). destruct (fst e' =? Z.of_nat j)%Z; cbn [length]; now rewrite IHl.
      - replace (fst e + fst e' * Z.of_nat n =? Z.of_nat (i + j * n))%Z with false; [exact IHl|]. symmetry. apply Z.eqb_neq. intros E. apply Ni.
        assert (Q1 : ((fst e + fst e' * Z.of_nat n) mod Z.of_nat n = fst e)%Z) by (rewrite Z.mod_add, Z.mod_small by lia; reflexivity).
        assert (Q2 : (Z.of_nat (i + j * n) mod Z.of_nat n = Z.of_nat i)%Z) by (rewrite Nat2Z.inj_add, Nat2Z.inj_mul, Z.mod_add, Z.mod_small by lia; reflexivity). congruence. }
    rewrite K. destruct (fst e =? Z.of_nat i)%Z; cbn [length]; lia. }
  apply G. auto.
Qed.
Lemma ptp_tracked n m mem evs : valid n m -> length mem = (n * n)%nat -> Permutation (ptp_events o (Z.of_nat n) m) evs -> all_values F m -> (forall y, In y mem -> F y) ->
  exists mem', run_events o mem evs = Ok mem' /\ length mem' = (n * n)%nat /\ forall i j, (i < n)%nat -> (j < n)%nat ->
    A (joint_uses m i j) (nth (i + j * n) mem' 0) (nth (i + j * n) mem 0 + bigsum eo (length m) (fun s => coef eo (nth s m []) i * coef eo (nth s m []) j))
      (Rabs (nth (i + j * n) mem 0) + bigsum eo (length m) (fun s => coef eo (nth s (unsigned_elements m) []) i * coef eo (nth s (unsigned_elements m) []) j)).
Proof.
  intros V L P Fm Fo. rewrite ptp_products in P. destruct (events_tracked (n * n) (pairs_of n m) evs mem L) as [mem' [E [L' H]]]; auto.
  - pose proof (ptp_range eo n m V) as Q. rewrite ptp_products in Q. rewrite Forall_forall in *. intros w Hw. specialize (Q (fst w, fst (snd w) * snd (snd w))). apply Q. unfold products_of. apply in_map_iff. now exists w.
  - intros w Hw. destruct (pairs_in n m w Hw) as [row [e [e' [H1 [H2 [H3 ->]]]]]]. cbn [fst snd]. split; [apply (Fm row e H1)|apply (Fm row e' H1)]; now apply entries_in.
  - exists mem'. split; [exact E|]. split; [exact L'|]. intros i j Hi Hj. specialize (H (i + j * n)%nat ltac:(nia)). rewrite (pairs_uses n m i j V Hi Hj) in H.
    rewrite <- pairs_unsigned, <- !ptp_products in H. rewrite (ptp_hits eo exact_ring n m i j V Hi Hj) in H. rewrite (ptp_hits eo exact_ring n (unsigned_elements m) i j) in H; [|now apply unsigned_valid|exact Hi|exact Hj].
    unfold unsigned_elements in H at 1. rewrite map_length in H. exact H.
Qed.

(** Projection. *)
Lemma direct_cells n row x : length x = n -> (forall e, In e row -> (-1 <= fst e < Z.of_nat n)%Z) -> forall acc,
  direct_row o row x acc = Ok (addl o acc (map (fun e => rmul (nth (Z.to_nat (fst e)) x 0) (snd e)) (entries row))).
Proof.
  intros L. induction row as [|[i v] row IH]; intros H acc; cbn [direct_row entries fst]; [reflexivity|].
  destruct (Z.eqb_spec i (-1)) as [E|E]; [reflexivity|]. specialize (H (i, v) ltac:(now left)) as Hi. cbn [fst] in Hi.
  rewrite (get_at o) by (unfold zlen; lia). cbn [bind]. rewrite IH by (intros e He; apply H; now right). reflexivity.
Qed.
Lemma row_tl x l : (forall e, In e l -> F (snd e) /\ F (nth (Z.to_nat (fst e)) x 0)) ->
  tl T (map (fun e => rmul (nth (Z.to_nat (fst e)) x 0) (snd e)) l) (length l) (sum_over eo l (fun e => snd e * nth (Z.to_nat (fst e)) x 0)) (sum_over eo l (fun e => Rabs (snd e) * Rabs (nth (Z.to_nat (fst e)) x 0))).
Proof.
  induction l as [|e l IH]; intros H; [apply tl_nil|]. destruct (H e ltac:(now left)) as [Fv Fx]. cbn [map length sum_over].
  eapply tl_eq; [econstructor; [now apply Tprod|apply IH; intros e' He; apply H; now right]|lia|cbn -[Rabs]; ring|cbn -[Rabs]; ring].
Qed.
Lemma projected_entries m x i : valid (length x) m -> (i < length m)%nat -> projected eo m x i = sum_over eo (entries (nth i m [])) (fun e => snd e * nth (Z.to_nat (fst e)) x 0).
Proof.
  intros V Hi. assert (I : In (nth i m []) m) by now apply nth_In. pose proof (valid_entries (length x) _ (V _ I)) as Q.
  unfold projected. symmetry. exact (hits_sum eo exact_ring (length x) (entries (nth i m [])) (fun j => nth j x 0) Q).
Qed.
Hypothesis F0 : F 0.
Lemma direct_tracked m x : valid (length x) m -> all_values F m -> (forall y, In y x -> F y) ->
  exists r, pmatrix_direct o m x = Ok r /\ length r = length m /\ forall i, (i < length m)%nat ->
    A (length (entries (nth i m []))) (nth i r 0) (projected eo m x i) (projected eo (unsigned_elements m) (map Rabs x) i).
Proof.
  intros V Fm Fx. exists (map (fun row => addl o 0 (map (fun e => rmul (nth (Z.to_nat (fst e)) x 0) (snd e)) (entries row))) m). split; [|split].
  - unfold pmatrix_direct. cbn [k0]. clear Fm. revert V. induction m as [|row m IH]; intros V; [reflexivity|]. cbn [map_res map]. rewrite (direct_cells (length x) row x eq_refl (V row ltac:(now left))). cbn [bind].
    rewrite IH by (intros r Hr; apply V; now right). reflexivity.
  - apply map_length.
  - intros i Hi. rewrite (nth_indep _ 0 (addl o 0 (map (fun e => rmul (nth (Z.to_nat (fst e)) x 0) (snd e)) (entries [])))) by now rewrite map_length.
    rewrite (map_nth (fun row => addl o 0 (map (fun e => rmul (nth (Z.to_nat (fst e)) x 0) (snd e)) (entries row)))).
    assert (I : In (nth i m []) m) by now apply nth_In.
    rewrite (projected_entries m x i V Hi). rewrite projected_entries; [|rewrite map_length; now apply unsigned_valid|unfold unsigned_elements; now rewrite map_length].
    rewrite unsigned_nth, entries_unsigned, sum_over_map. cbn [fst snd].
    assert (X : forall k, nth k (map Rabs x) 0 = Rabs (nth k x 0)) by (intros; apply abs_nth).
    erewrite (sum_over_ext eo _ (fun e => Rabs (snd e) * nth _ (map Rabs x) 0)) by (intros e _; rewrite X; reflexivity).
    set (s := sum_over eo _ (fun e => Rabs _ * _)). rewrite <- (Rplus_0_l (sum_over eo (entries (nth i m [])) _)). replace s with (Rabs 0 + s) by (rewrite Rabs_R0; ring). unfold s.
    apply (addl_tl radd rmul T A Aadd _ _ _ _ 0); [now apply A0|]. apply row_tl. intros e He. split; [apply (Fm _ e I); now apply entries_in|].
    pose proof (valid_entries (length x) _ (V _ I)) as Q. rewrite Forall_forall in Q. apply Fx, nth_In. specialize (Q e He). lia.
Qed.
End Track.
