(** Kernel masks; construction and shapes. *)
From Coq Require Import Lia Permutation Ring.
From Verif Require Import Base BaseFacts SparseModel SparseSpec RingFacts SparseExecFacts SparseFacts SparsePyFacts SparseOpModel SparseOpSpec SparseOpFacts SparseOpFacts2.
Open Scope nat_scope.

Section Mask.
Context {K : Type} (o : ops K) (nz : K -> bool).

(** Actions only, without the iteration numbers. *)
Fixpoint krun' (tr : list (kact K)) (st : list bool * list K) : option (list bool * list K) :=
  match tr with
  | [] => Some st
  | a :: r => match kstep nz a st with Some st' => krun' r st' | None => None end
  end.

Lemma krun_snd tr st : krun nz tr st = krun' (map snd tr) st.
Proof.
  revert st; induction tr as [|[i a] r IH]; intros st; cbn; [reflexivity|].
  destruct (kstep nz a st); auto.
Qed.

Lemma sequential_snd {A} (its : list (list A)) : map snd (sequential its) = concat its.
Proof.
  unfold sequential. generalize 0. induction its as [|l r IH]; intros n; cbn; [reflexivity|].
  rewrite map_app, IH, map_map. cbn. rewrite map_id. reflexivity.
Qed.

Definition elt_kacts (e : elt K) : list (kact K) :=
  if (e_idx e <? 0)%Z then [] else [Point (e_val e); Test (Z.to_nat (e_idx e))].

Lemma kernel_iters n (data : list (list (elt K))) : in_range n data ->
  all_opt (map (kernel_iter n) data) = Some (map (fun row => flat_map elt_kacts row) data).
Proof.
  intros R. apply all_opt_map. intros row Hr. unfold kernel_iter. rewrite flat_map_concat_map.
  apply concat_opt_some. rewrite map_map. apply map_ext_in. intros e He.
  unfold in_range in R. rewrite Forall_forall in R. specialize (R row Hr). rewrite Forall_forall in R.
  specialize (R e He). unfold guarded, elt_kacts. destruct (e_idx e <? 0)%Z; [reflexivity|].
  destruct (Z.ltb_spec (e_idx e) (Z.of_nat n)); [reflexivity|lia].
Qed.

Lemma nth_set_nth_b (l : list bool) i x k : nth k (set_nth l i x) false =
  if Nat.eqb k i then (if Nat.ltb i (length l) then x else false) else nth k l false.
Proof.
  revert i k; induction l; intros [|i] [|k]; cbn; auto. - destruct (Nat.eqb k i); reflexivity. - rewrite IHl; reflexivity.
Qed.

(** Element e clears pixel c. *)
Definition clears (c : nat) (e : elt K) : bool := (e_idx e =? Z.of_nat c)%Z && existsb nz (e_val e).

Lemma krun_sequential (es : list (elt K)) : forall mask val,
  Forall (fun e => (e_idx e < Z.of_nat (length mask))%Z) es ->
  exists mask' val', krun' (flat_map elt_kacts es) (mask, val) = Some (mask', val') /\
    length mask' = length mask /\
    forall c, nth c mask' false = nth c mask false && negb (existsb (clears c) es).
Proof.
  induction es as [|e r IH]; intros mask val H; cbn [flat_map existsb].
  - exists mask, val. split; [reflexivity|]. split; [reflexivity|]. intros; rewrite andb_true_r; reflexivity.
  - inversion H as [|x l H1 H2]; subst. unfold elt_kacts at 1. destruct (Z.ltb_spec (e_idx e) 0) as [N|N].
    + destruct (IH mask val H2) as [m [v [E [L F]]]]. exists m, v. split; [exact E|]. split; [exact L|].
      intros c. rewrite F. unfold clears at 2. destruct (Z.eqb_spec (e_idx e) (Z.of_nat c)); [lia|]. reflexivity.
    + cbn [app krun' kstep]. destruct (existsb nz (e_val e)) eqn:EN.
      * destruct (Nat.ltb_spec (Z.to_nat (e_idx e)) (length mask)) as [Q|Q]; [|lia].
        destruct (IH (set_nth mask (Z.to_nat (e_idx e)) false) (e_val e)) as [m [v [E [L F]]]].
        { rewrite set_nth_length; exact H2. }
        exists m, v. split; [exact E|]. rewrite set_nth_length in L. split; [exact L|]. intros c.
        rewrite F, nth_set_nth_b. unfold clears at 2. rewrite EN, andb_true_r.
        destruct (Nat.eqb_spec c (Z.to_nat (e_idx e))), (Z.eqb_spec (e_idx e) (Z.of_nat c)); try lia.
        -- destruct (Z.to_nat (e_idx e) <? length mask); cbn; rewrite andb_false_r; reflexivity.
        -- reflexivity.
      * destruct (IH mask (e_val e) H2) as [m [v [E [L F]]]]. exists m, v. split; [exact E|]. split; [exact L|].
        intros c. rewrite F. unfold clears at 2. rewrite EN, andb_false_r. reflexivity.
Qed.

(** Any schedule: each test finds a pointer to a non-zero element, provided that no
    element in use is zero. *)
Inductive alt : list (kact K) -> Prop :=
| alt_nil : alt []
| alt_cons vs c l : existsb nz vs = true -> alt l -> alt (Point vs :: Test c :: l).

Definition pending (val : list K) (l : list (kact K)) : Prop :=
  alt l \/ (existsb nz val = true /\ exists c r, l = Test c :: r /\ alt r).

Lemma krun_any its tr : merge its tr -> forall mask val,
  Forall (pending val) its ->
  Forall (Forall (fun a => match a with Test c => c < length mask | _ => True end)) its ->
  exists mask' val', krun' (map snd tr) (mask, val) = Some (mask', val') /\ length mask' = length mask /\
    forall c, nth c mask' false =
      nth c mask false && negb (existsb (fun a => match a with Test c' => Nat.eqb c' c | _ => false end) (map snd tr)).
Proof.
  induction 1 as [its HN|its i a r tr Hi HM IH]; intros mask val HP HB.
  - exists mask, val. split; [reflexivity|]. split; [reflexivity|]. intros; cbn. rewrite andb_true_r; reflexivity.
  - assert (PI : pending val (a :: r)) by (rewrite Forall_forall in HP; apply HP; eapply nth_error_In; exact Hi).
    assert (BI : Forall (fun a => match a with Test c => c < length mask | _ => True end) (a :: r))
      by (rewrite Forall_forall in HB; apply HB; eapply nth_error_In; exact Hi).
    assert (SETP : forall val', (existsb nz val = true -> existsb nz val' = true) -> pending val' r ->
                   Forall (pending val') (set_nth its i r)).
    { intros val' HV HR. apply Forall_forall. intros l Hl. apply In_nth_error in Hl. destruct Hl as [k Hk].
      rewrite nth_error_set_nth in Hk.
      destruct (Nat.eqb_spec i k) as [EK|D].
      - subst k. destruct (i <? length its); [|discriminate Hk]. inversion Hk; subst l. exact HR.
      - rewrite Forall_forall in HP. specialize (HP l (nth_error_In _ _ Hk)).
        destruct HP as [HA|[HA HB']]; [left; exact HA|right; split; auto]. }
    assert (SETB : Forall (Forall (fun a => match a with Test c => c < length mask | _ => True end)) (set_nth its i r)).
    { apply Forall_forall. intros l Hl. apply In_nth_error in Hl. destruct Hl as [k Hk].
      rewrite nth_error_set_nth in Hk. destruct (Nat.eqb_spec i k) as [EK|D].
      - subst k. destruct (i <? length its); [|discriminate Hk]. inversion Hk; subst l. inversion BI; auto.
      - rewrite Forall_forall in HB. apply HB. eapply nth_error_In; exact Hk. }
    cbn [map snd krun' existsb]. destruct PI as [PA|[PV [c [r' [PE PA]]]]].
    + inversion PA as [|vs c l HV HL]; subst. cbn [kstep].
      destruct (IH mask vs) as [m [v [E [L F]]]]; auto.
      { apply SETP; [auto|]. right. split; [exact HV|]. eauto. }
      exists m, v. split; [exact E|]. split; [exact L|]. exact F.
    + inversion PE; subst a r'. cbn [kstep]. rewrite PV. inversion BI as [|x y B1 B2]; subst.
      destruct (Nat.ltb_spec c (length mask)); [|lia].
      destruct (IH (set_nth mask c false) val) as [m [v [E [L F]]]].
      { apply SETP; [auto|]. left; exact PA. }
      { rewrite set_nth_length. exact SETB. }
      rewrite set_nth_length in L. exists m, v. split; [exact E|]. split; [exact L|]. intros c'.
      rewrite F, nth_set_nth_b. destruct (Nat.eqb_spec c' c) as [->|D].
      * rewrite Nat.eqb_refl. cbn [orb negb]. rewrite andb_false_r. destruct (c <? length mask); reflexivity.
      * destruct (Nat.eqb_spec c c'); [congruence|]. reflexivity.
Qed.

Hypothesis NZ0 : forall v, nz v = false <-> v = k0 o.

Lemma NZ v : nz v = true <-> v <> k0 o.
Proof. rewrite <- NZ0. destruct (nz v); split; congruence. Qed.

Lemma clears_seen (data : list (list (elt K))) c : existsb (clears c) (concat data) = true <-> seen o data c.
Proof.
  rewrite existsb_exists. split.
  - intros [e [He H]]. apply in_concat in He. destruct He as [row [H1 H2]].
    unfold clears in H. apply andb_prop in H. destruct H as [Hi Hv]. apply existsb_exists in Hv.
    destruct Hv as [v [V1 V2]]. exists row, e, v. repeat split; auto. lia. apply NZ; auto.
  - intros [row [e [v [H1 [H2 [H3 [H4 H5]]]]]]]. exists e. split; [apply in_concat; eauto|].
    unfold clears. rewrite H3, Z.eqb_refl. apply existsb_exists. exists v. split; auto. apply NZ; auto.
Qed.

Definition base (op : kop) (out : list bool) : list bool :=
  match op with KIand => out | _ => repeat true (length out) end.

Lemma nth_repeat_true n c : nth c (repeat true n) false = Nat.ltb c n.
Proof. revert c; induction n as [|n IH]; intros [|c]; try reflexivity. exact (IH c). Qed.

Lemma map2_and_true (l : list bool) : map2 andb l (repeat true (length l)) = l.
Proof. induction l as [|a l IH]; cbn; [reflexivity|]. rewrite IH, andb_true_r. reflexivity. Qed.

Lemma empty_data (M : matrix K) : length (concat (mx_data M)) = 0 -> forall c, ~ seen o (mx_data M) c.
Proof.
  intros E c [row [e [v [H1 [H2 _]]]]]. assert (In e (concat (mx_data M))) by (apply in_concat; eauto).
  destruct (concat (mx_data M)); [contradiction|discriminate].
Qed.

Lemma mask_core sched (M : matrix K) out op :
  (forall c, In c (concat (map (flat_map elt_kacts) (mx_data M))) -> True) ->
  mx_kind M <> KBlock -> in_range (length out) (mx_data M) -> op = KAssign \/ op = KIand ->
  (forall mask, length mask = length out -> exists mask' val',
     krun nz (sched (map (flat_map elt_kacts) (mx_data M))) (mask, []) = Some (mask', val') /\
     length mask' = length mask /\
     forall c, nth c mask' false = nth c mask false && negb (existsb (clears c) (concat (mx_data M)))) ->
  exists r, kernel_mask nz sched M out op = Ok (Some r) /\ length r = length out /\
    forall c, c < length out -> (nth c r false = true <-> ~ seen o (mx_data M) c /\ (op = KIand -> nth c out false = true)).
Proof.
  intros _ KB R Hop H. unfold kernel_mask.
  destruct (Nat.eqb_spec (length (concat (mx_data M))) 0) as [E0|E0].
  { pose proof (empty_data M E0) as NS. eexists; split; [reflexivity|]. destruct Hop as [-> | ->].
    - rewrite repeat_length. split; [reflexivity|]. intros c Hc. rewrite nth_repeat_true.
      split; [intros _; split; [apply NS|discriminate]|intros _]. apply Nat.ltb_lt; exact Hc.
    - rewrite map2_and_true. split; [reflexivity|]. intros c Hc. split; [intros Hn; split; [apply NS|auto]|]. intros [_ Hn]; auto. }
  rewrite (kernel_iters (length out) _ R).
  destruct (H (base op out)) as [m [v [E [L F]]]].
  { destruct Hop as [-> | ->]; cbn; rewrite ?repeat_length; reflexivity. }
  exists m. assert (X : match op with KOther f => map2 f out m | _ => m end = m) by (destruct Hop as [-> | ->]; reflexivity).
  change (match op with KIand => out | _ => repeat true (length out) end) with (base op out).
  change (fun row => flat_map elt_kacts row) with (flat_map elt_kacts) in *. rewrite E, X.
  assert (L' : length m = length out) by (rewrite L; destruct Hop as [-> | ->]; cbn; rewrite ?repeat_length; reflexivity).
  split; [destruct (mx_kind M); try reflexivity; congruence|]. split; [exact L'|]. intros c Hc. rewrite F.
  rewrite andb_true_iff, negb_true_iff.
  assert (CS : existsb (clears c) (concat (mx_data M)) = false <-> ~ seen o (mx_data M) c).
  { rewrite <- clears_seen. destruct (existsb (clears c) (concat (mx_data M))); split; intros; try congruence; try tauto. }
  rewrite CS. destruct Hop as [-> | ->]; cbn [base].
  - rewrite nth_repeat_true. replace (c <? length out) with true by lia. split; intros; [split; [tauto|discriminate]|tauto].
  - tauto.
Qed.

Lemma in_range_concat n (data : list (list (elt K))) : in_range n data ->
  Forall (fun e => (e_idx e < Z.of_nat n)%Z) (concat data).
Proof.
  intros R. apply Forall_forall. intros e He. apply in_concat in He. destruct He as [row [H1 H2]].
  unfold in_range in R. rewrite Forall_forall in R. specialize (R row H1). rewrite Forall_forall in R. auto.
Qed.

Lemma mask_sequential (M : matrix K) out op :
  mx_kind M <> KBlock -> in_range (length out) (mx_data M) -> op = KAssign \/ op = KIand ->
  exists r, kernel_mask nz sequential M out op = Ok (Some r) /\ length r = length out /\
    forall c, c < length out -> (nth c r false = true <-> ~ seen o (mx_data M) c /\ (op = KIand -> nth c out false = true)).
Proof.
  intros KB R Hop. apply mask_core; auto. intros mask L.
  rewrite krun_snd, sequential_snd.
  assert (E : concat (map (flat_map elt_kacts) (mx_data M)) = flat_map elt_kacts (concat (mx_data M))).
  { clear. induction (mx_data M) as [|l r IH]; cbn [map concat]; [reflexivity|].
    rewrite IH, flat_map_app. reflexivity. }
  rewrite E. apply krun_sequential. rewrite L. apply in_range_concat; exact R.
Qed.

Lemma mask_any sched (M : matrix K) out op :
  scheduler sched -> no_zero_element o (mx_data M) ->
  mx_kind M <> KBlock -> in_range (length out) (mx_data M) -> op = KAssign \/ op = KIand ->
  exists r, kernel_mask nz sched M out op = Ok (Some r) /\ length r = length out /\
    forall c, c < length out -> (nth c r false = true <-> ~ seen o (mx_data M) c /\ (op = KIand -> nth c out false = true)).
Proof.
  intros HS NZE KB R Hop. apply mask_core; auto. intros mask L.
  assert (GOOD : forall row e, In row (mx_data M) -> In e row -> (0 <= e_idx e)%Z -> existsb nz (e_val e) = true).
  { intros row e H1 H2 H3. destruct (NZE row e H1 H2 H3) as [v [V1 V2]]. apply existsb_exists. exists v. split; auto. apply NZ; auto. }
  destruct (krun_any (map (flat_map elt_kacts) (mx_data M)) (sched (map (flat_map elt_kacts) (mx_data M)))
              (HS _) mask []) as [m [v [E [L' F]]]].
  { rewrite Forall_map. apply Forall_forall. intros row Hr. left.
    assert (G : forall e, In e row -> (0 <= e_idx e)%Z -> existsb nz (e_val e) = true) by (intros; eapply GOOD; eauto).
    clear Hr. induction row as [|e l IH]; cbn; [constructor|]. unfold elt_kacts at 1.
    destruct (Z.ltb_spec (e_idx e) 0); cbn; [apply IH; intros; apply G; [right|]; auto|].
    constructor; [apply G; [left|]; auto|]. apply IH; intros; apply G; [right|]; auto. }
  { rewrite Forall_map. apply Forall_forall. intros row Hr. apply Forall_forall. intros a Ha.
    apply in_flat_map in Ha. destruct Ha as [e [He Ha]]. unfold elt_kacts in Ha.
    destruct (Z.ltb_spec (e_idx e) 0); [contradiction|]. destruct Ha as [<-|[<-|[]]]; [exact I|].
    unfold in_range in R. rewrite Forall_forall in R. specialize (R row Hr). rewrite Forall_forall in R.
    specialize (R e He). rewrite L. lia. }
  exists m, v. rewrite krun_snd. split; [exact E|]. split; [exact L'|]. intros c. rewrite F. f_equal. f_equal.
  set (its := map (flat_map elt_kacts) (mx_data M)) in *.
  assert (P : Permutation (map snd (sched its)) (concat its)) by (apply merge_perm; apply HS).
  apply Bool.eq_iff_eq_true. rewrite !existsb_exists. split.
  - intros [a [Ha Hc]]. destruct a as [|c']; [discriminate|].
    assert (Ha' : In (Test c') (concat its)) by (eapply Permutation_in; eauto).
    apply in_concat in Ha'. destruct Ha' as [l [H1 H2]]. unfold its in H1. apply in_map_iff in H1.
    destruct H1 as [row [<- Hr]]. apply in_flat_map in H2. destruct H2 as [e [He H2]]. unfold elt_kacts in H2.
    destruct (Z.ltb_spec (e_idx e) 0); [contradiction|]. destruct H2 as [H2|[H2|[]]]; [discriminate|]. inversion H2; subst c'.
    exists e. split; [apply in_concat; eauto|]. unfold clears. rewrite (GOOD row e Hr He) by lia.
    rewrite andb_true_r. lia.
  - intros [e [He Hc]]. unfold clears in Hc. apply andb_prop in Hc. destruct Hc as [Hi _].
    apply in_concat in He. destruct He as [row [H1 H2]]. exists (Test c). split; [|apply Nat.eqb_refl].
    eapply Permutation_in; [symmetry; exact P|]. apply in_concat. exists (flat_map elt_kacts row). split.
    + unfold its. apply in_map; exact H1.
    + apply in_flat_map. exists e. split; [exact H2|]. unfold elt_kacts. destruct (Z.ltb_spec (e_idx e) 0); [lia|].
      right. left. f_equal. lia.
Qed.
End Mask.

(** ** What the kernel mask is for *)
Section Lossless.
Context {K : Type} (o : ops K).
Variable RL : ring_laws o.
Let RT : ring_theory (k0 o) (k1 o) (kadd o) (kmul o) (fun a b => kadd o a (kopp o b)) (kopp o) eq := RL.
Add Ring Kring7 : RT.
Hypothesis dec0 : forall v : K, v = k0 o \/ v <> k0 o.

Lemma all_zero_or vs : (forall v : K, In v vs -> v = k0 o) \/ exists v, In v vs /\ v <> k0 o.
Proof.
  induction vs as [|v r IH]; [left; intros v []|]. destruct (dec0 v) as [E|E].
  - destruct IH as [IH|[w [W1 W2]]].
    + left. intros w [->|Hw]; auto.
    + right. exists w. split; [right|]; auto.
  - right. exists v. split; [left|]; auto.
Qed.

Lemma block_entry_zero f vs p q : (forall v, In v vs -> v = k0 o) -> block_entry o f vs p q = k0 o.
Proof.
  intros H. assert (Z0 : forall i, at_ o vs i = k0 o).
  { intros i. unfold at_. destruct (nth_in_or_default i vs (k0 o)); auto. }
  unfold block_entry. destruct f; rewrite ?Z0.
  - destruct (p =? q); reflexivity.
  - reflexivity.
  - destruct p as [|[|p]], q as [|[|q]]; rewrite ?Z0; ring.
  - destruct p as [|[|[|p]]], q as [|[|[|q]]]; rewrite ?Z0; ring.
Qed.

Lemma agree_product flib flib' sched sched' (M : matrix K) extra x y :
  well_formed M -> mx_axis M = FSR -> scheduler sched -> scheduler sched' -> allowed_extra M extra -> 0 < mx_cols M ->
  length x = extra * mx_cols M -> length y = extra * mx_cols M ->
  agree_on_seen o (mx_data M) (extra * snd (mx_bs M)) x y ->
  exists r, matvec o flib sched M x None = Ok (Some r) /\ matvec o flib' sched' M y None = Ok (Some r).
Proof.
  intros W AX S S' A P Lx Ly H.
  destruct (rows_product o RL flib sched M extra x W AX S A P Lx) as [r [E [L1 [L2 F]]]].
  destruct (rows_product o RL flib' sched' M extra y W AX S' A P Ly) as [s [E' [L1' [L2' F']]]].
  exists r. split; [exact E|]. rewrite E'. f_equal. f_equal. symmetry.
  apply (list_ext_blocks o (length (mx_data M)) (frow (fmt_of M extra))); auto.
  intros i p Hi Hp. rewrite F, F' by auto. apply sum_over_ext. intros e He.
  destruct (fcol_fmt M extra (proj1 W) AX A) as [Fc _]. unfold elt_row. rewrite Fc.
  destruct (Z.ltb_spec (e_idx e) 0) as [N|N]; [reflexivity|]. apply bigsum_ext. intros q Hq.
  destruct (all_zero_or (e_val e)) as [Z0|[v [V1 V2]]].
  - rewrite !(block_entry_zero _ _ p q Z0). ring.
  - rewrite (H (Z.to_nat (e_idx e)) q); [reflexivity| |exact Hq].
    exists (nth i (mx_data M) []), e, v. split; [apply nth_In; exact Hi|]. repeat split; auto. lia.
Qed.

Lemma kept_le mask : kept mask <= length mask.
Proof. induction mask as [|[|] m IH]; cbn; lia. Qed.

(** Restricting to a mask containing every seen pixel. *)
Lemma lossless flib flib' sched sched' bits (S : sop K) mshape mask extra x :
  well_formed (so_mx S) -> mx_axis (so_mx S) = FSR -> mask_shape S = Some mshape ->
  mx_cols (so_mx S) = length mask * snd (mx_bs (so_mx S)) -> 0 < kept mask ->
  (1 < bits)%Z -> (Z.of_nat (kept mask) < 2 ^ (bits - 1))%Z ->
  (forall c, c < length mask -> seen o (mx_data (so_mx S)) c -> nth c mask false = true) ->
  scheduler sched -> scheduler sched' -> allowed_extra (so_mx S) extra ->
  length x = extra * mx_cols (so_mx S) ->
  exists S' r, restrict bits S mshape mask = Ok (Some S') /\
    matvec o flib sched (so_mx S') (compress (extra * snd (mx_bs (so_mx S))) mask x) None = Ok (Some r) /\
    matvec o flib' sched' (so_mx S) x None = Ok (Some r).
Proof.
  intros W AX MS Hc Hk B Hb Hm Hs Hs' A Lx.
  destruct (restrict_spec o RL bits S mshape mask W AX MS Hc Hk B Hb) as [S' [E [W' [R' [C' F]]]]].
  set (M := so_mx S) in *. set (b := extra * snd (mx_bs M)) in *.
  assert (LC : length (compress b mask x) = extra * mx_cols (so_mx S')).
  { rewrite (compress_length b mask x) by (unfold b; nia). rewrite C'. unfold b. nia. }
  destruct (F flib flib' sched sched' extra (compress b mask x) Hs Hs' A LC) as [r [E1 E2]].
  fold b in E2. exists S', r. split; [exact E|]. split; [exact E1|].
  assert (LE : length (expand (k0 o) b mask (compress b mask x)) = extra * mx_cols M).
  { rewrite expand_length by (rewrite (compress_length b mask x) by (unfold b; nia); reflexivity). unfold b. nia. }
  pose proof W as [C [nr [nc [Hr [Hc' D]]]]]. rewrite AX in D.
  assert (B0 : 0 < snd (mx_bs M)) by (destruct (mx_kind M); cbn in C; rewrite ?C; cbn; lia).
  pose proof (kept_le mask) as KL.
  destruct (agree_product flib' flib' sched' sched' M extra (expand (k0 o) b mask (compress b mask x)) x W AX Hs' Hs' A) as [r' [E3 E4]];
    auto; [nia| |].
  - intros c q Hsn Hq. fold b in Hq |- *.
    assert (Hcm : c < length mask).
    { destruct Hsn as [row [e [v [H1 [H2 [H3 _]]]]]]. destruct D as [_ D]. unfold in_range in D.
      rewrite Forall_forall in D. specialize (D row H1). rewrite Forall_forall in D. specialize (D e H2). nia. }
    rewrite (expand_compress_at o b mask x c q) by (auto; unfold b; nia). rewrite (Hm c Hcm Hsn). reflexivity.
  - rewrite E2 in E3. inversion E3; subst r'. exact E4.
Qed.

(** Non-negative weights: a column of zeros is an unseen pixel. *)
Lemma nonneg_sum {A} (P : K -> Prop) (l : list A) (g : A -> K) : nonneg_laws o P -> (forall a, In a l -> P (g a)) ->
  P (sum_over o l g) /\ (sum_over o l g = k0 o -> forall a, In a l -> g a = k0 o).
Proof.
  intros [P0 PA] H. induction l as [|a r IH]; cbn [sum_over].
  - split; [exact P0|]. intros _ a [].
  - destruct IH as [I1 I2]; [intros; apply H; right; auto|].
    destruct (PA (g a) (sum_over o r g)) as [Q1 Q2]; [apply H; left; auto|auto|].
    split; [exact Q1|]. intros E. destruct (Q2 E) as [E1 E2]. intros a' [->|Ha']; auto.
Qed.

Lemma unseen_column (P : K -> Prop) (M : matrix K) c :
  nonneg_laws o P -> well_formed M -> mx_axis M = FSR -> mx_kind M = KScalar -> full_records M ->
  (forall row e v, In row (mx_data M) -> In e row -> In v (e_val e) -> P v) ->
  (~ seen o (mx_data M) c <-> forall r, r < mx_rows M -> dense_of o M 1 r c = k0 o).
Proof.
  intros PL W AX KD FR HP. pose proof W as [C [nr [nc [Hr [Hc D]]]]]. rewrite AX in D. rewrite KD in C. cbn in C.
  rewrite C in Hr. cbn in Hr. destruct D as [D1 _].
  assert (DE : forall r, dense_of o M 1 r c = sum_over o (nth r (mx_data M) [])
             (fun e => if (e_idx e =? Z.of_nat c)%Z then at_ o (e_val e) 0 else k0 o)).
  { intros r. unfold dense_of, fmt_of. rewrite AX, KD. cbn [dense]. unfold dense_row. cbn [frow fcol].
    rewrite !Nat.div_1_r, !Nat.mod_1_r. reflexivity. }
  assert (V1 : forall row e, In row (mx_data M) -> In e row -> exists v, e_val e = [v]).
  { intros row e H1 H2. unfold full_records in FR. rewrite Forall_forall in FR. specialize (FR row H1).
    rewrite Forall_forall in FR. specialize (FR e H2). rewrite KD in FR. cbn in FR.
    destruct (e_val e) as [|v [|]]; cbn in FR; try discriminate. eauto. }
  split.
  - intros NS r Hrr. rewrite DE. apply (sum_over_0 o RL). intros e He.
    assert (Hin : In (nth r (mx_data M) []) (mx_data M)) by (apply nth_In; lia).
    destruct (Z.eqb_spec (e_idx e) (Z.of_nat c)) as [Q|Q]; [|reflexivity].
    destruct (V1 _ e Hin He) as [v Ev]. rewrite Ev. cbn. destruct (dec0 v) as [E|E]; [exact E|].
    exfalso. apply NS. exists (nth r (mx_data M) []), e, v. rewrite Ev. repeat split; auto. left; reflexivity.
  - intros H [row [e [v [H1 [H2 [H3 [H4 H5]]]]]]]. apply In_nth with (d := []) in H1. destruct H1 as [r [R1 R2]].
    specialize (H r ltac:(lia)). rewrite DE, R2 in H.
    assert (Hin : In row (mx_data M)) by (rewrite <- R2; apply nth_In; auto).
    destruct (nonneg_sum P row (fun e => if (e_idx e =? Z.of_nat c)%Z then at_ o (e_val e) 0 else k0 o) PL) as [_ Q].
    { intros a Ha. destruct (e_idx a =? Z.of_nat c)%Z; [|apply PL].
      destruct (V1 row a Hin Ha) as [w Ew]. rewrite Ew. cbn. apply (HP row a w); auto. rewrite Ew; left; auto. }
    specialize (Q H e H2). cbn beta in Q. rewrite H3, Z.eqb_refl in Q.
    destruct (V1 row e Hin H2) as [w Ew]. rewrite Ew in H4, Q. destruct H4 as [->|[]]. cbn in Q. congruence.
Qed.
End Lossless.

(** ** Construction *)
Lemma init_given a shape bs nmax ds r :
  init_matrix a shape bs nmax (Some ds) = Ok r <->
  r = ds /\ fits a shape bs ds /\ (nmax = None \/ nmax = Some (last ds 0)).
Proof.
  unfold init_matrix, fits.
  destruct (Nat.eqb_spec (fst bs) 0). { split; [discriminate|intros [_ [H _]]; lia]. }
  destruct (Nat.eqb_spec (fst shape mod fst bs) 0); cbn [negb]. 2:{ split; [discriminate|intros [_ [H _]]; lia]. }
  destruct (Nat.eqb_spec (snd bs) 0). { split; [discriminate|intros [_ [H _]]; lia]. }
  destruct (Nat.eqb_spec (snd shape mod snd bs) 0); cbn [negb]. 2:{ split; [discriminate|intros [_ [H _]]; lia]. }
  destruct (Nat.eqb_spec (prodn (removelast ds) * fixed a bs) (fixed a shape)); cbn [negb].
  2:{ split; [discriminate|intros [_ [H _]]; lia]. }
  destruct nmax as [nm|].
  - destruct (Nat.eqb_spec nm (last ds 0)) as [->|D].
    + split; [intros E; inversion E; subst; repeat split; auto; lia|intros [-> _]; reflexivity].
    + split; [discriminate|]. intros [_ [_ [E|E]]]; [discriminate|inversion E; congruence].
  - split; [intros E; inversion E; subst; repeat split; auto; lia|intros [-> _]; reflexivity].
Qed.

Lemma init_alloc a shape bs n ds :
  init_matrix a shape bs (Some n) None = Ok ds ->
  a = FSR \/ fst bs = snd bs ->
  init_matrix a shape bs (Some n) (Some ds) = Ok ds.
Proof.
  unfold init_matrix.
  destruct (Nat.eqb_spec (fst bs) 0); [discriminate|].
  destruct (Nat.eqb_spec (fst shape mod fst bs) 0); cbn [negb]; [|discriminate].
  destruct (Nat.eqb_spec (snd bs) 0); [discriminate|].
  destruct (Nat.eqb_spec (snd shape mod snd bs) 0); cbn [negb]; [|discriminate].
  intros E H. inversion E; subst ds; clear E. cbn [removelast prodn fold_right last]. rewrite Nat.mul_1_r.
  assert (X : fixed a shape / fst bs * fixed a bs = fixed a shape).
  { destruct H as [-> | H].
    - cbn [fixed]. pose proof (Nat.div_mod (fst shape) (fst bs)). lia.
    - destruct a; cbn [fixed].
      + rewrite H. pose proof (Nat.div_mod (snd shape) (snd bs)). lia.
      + pose proof (Nat.div_mod (fst shape) (fst bs)). lia. }
  rewrite X, !Nat.eqb_refl. reflexivity.
Qed.

Lemma matvec_accepts {K} (o : ops K) flib sched (M : matrix K) v : 0 < mx_cols M ->
  ((exists r, matvec o flib sched M v None = Ok r) <->
   exists e, length v = e * mx_cols M /\ (mx_kind M = KScalar \/ e = 1)).
Proof.
  intros P. unfold matvec, validatein, outsize.
  destruct (Nat.eqb_spec (mx_cols M) 0); [lia|].
  destruct (mx_kind M) eqn:KD.
  - destruct (Nat.eqb_spec (length v mod mx_cols M) 0) as [E|E]; cbn [bind].
    + split; [intros _|intros _; eauto]. exists (length v / mx_cols M). split; [|auto].
      pose proof (Nat.div_mod (length v) (mx_cols M)). lia.
    + split; [intros [r H]; discriminate|]. intros [e [H _]]. rewrite H, Nat.mod_mul in E; lia.
  - destruct (Nat.eqb_spec (length v) (mx_cols M)) as [E|E]; cbn [bind].
    + split; [intros _; exists 1; split; [lia|auto]|intros _; eauto].
    + split; [intros [r H]; discriminate|]. intros [e [H [H'|H']]]; [discriminate|subst; lia].
  - destruct (Nat.eqb_spec (length v) (mx_cols M)) as [E|E]; cbn [bind].
    + split; [intros _; exists 1; split; [lia|auto]|intros _; eauto].
    + split; [intros [r H]; discriminate|]. intros [e [H [H'|H']]]; [discriminate|subst; lia].
  - destruct (Nat.eqb_spec (length v) (mx_cols M)) as [E|E]; cbn [bind].
    + split; [intros _; exists 1; split; [lia|auto]|intros _; eauto].
    + split; [intros [r H]; discriminate|]. intros [e [H [H'|H']]]; [discriminate|subst; lia].
Qed.

Lemma matvec_accepts_out {K} (o : ops K) flib sched (M : matrix K) v out : 0 < mx_cols M -> 0 < mx_rows M ->
  ((exists r, matvec o flib sched M v (Some out) = Ok r) <->
   exists e, length v = e * mx_cols M /\ length out = e * mx_rows M /\ (mx_kind M = KScalar \/ e = 1)).
Proof.
  intros P PR.
  assert (NB : forall e, length v = e * mx_cols M -> length v * mx_rows M / mx_cols M = e * mx_rows M).
  { intros e H. rewrite H. replace (e * mx_cols M * mx_rows M) with (e * mx_rows M * mx_cols M) by lia.
    apply Nat.div_mul; lia. }
  assert (VO : forall e, length out = e * mx_rows M -> (mx_kind M = KScalar \/ e = 1) -> validateout M (length out) = Ok tt).
  { intros e H H'. unfold validateout. destruct (Nat.eqb_spec (mx_rows M) 0); [lia|]. rewrite H.
    destruct (mx_kind M); [rewrite Nat.mod_mul by lia; reflexivity| | |];
      (destruct H' as [H'|H']; [discriminate|subst; rewrite Nat.mul_1_l, Nat.eqb_refl; reflexivity]). }
  pose proof (matvec_accepts o flib sched M v P) as Acc.
  unfold matvec in *. unfold outsize in *. destruct (Nat.eqb_spec (mx_cols M) 0); [lia|].
  destruct (validatein M (length v)) as [u|]; cbn [bind] in *.
  - destruct (proj1 Acc ltac:(eauto)) as [e [He Hk]]. rewrite (NB e He).
    destruct (Nat.eqb_spec (length out) (e * mx_rows M)) as [Q|Q].
    + rewrite (VO e Q Hk). cbn [bind]. split; [intros _; exists e; auto|intros _; eauto].
    + split; [intros [r H]; discriminate|]. intros [e' [H1 [H2 _]]].
      assert (e' = e) by nia. subst; contradiction.
  - split; [intros [r H]; discriminate|]. intros [e' [H1 [_ H2]]]. destruct (proj2 Acc) as [r H]; [eauto|discriminate].
Qed.

(** ** Shapes of the operators *)
Lemma last_prefix_spec acc n shape k : last_prefix acc n shape = Some k ->
  k <= length shape /\ acc * prodn (firstn k shape) = n.
Proof.
  revert acc k; induction shape as [|d r IH]; intros acc k H; cbn in *; [discriminate|].
  destruct (last_prefix (acc * d) n r) as [j|] eqn:E.
  - inversion H; subst. destruct (IH _ _ E) as [H1 H2]. split; [lia|]. cbn [firstn prodn fold_right].
    fold (prodn (firstn j r)). nia.
  - destruct (Nat.eqb_spec (acc * d) n); [|discriminate]. inversion H; subst. split; [lia|]. cbn. lia.
Qed.

Lemma last_prefix_none acc n shape : last_prefix acc n shape = None ->
  forall k, 1 <= k <= length shape -> acc * prodn (firstn k shape) <> n.
Proof.
  revert acc; induction shape as [|d r IH]; intros acc H k Hk; cbn in *; [lia|].
  destruct (last_prefix (acc * d) n r) as [j|] eqn:E; [discriminate|].
  destruct (Nat.eqb_spec (acc * d) n); [discriminate|]. destruct k as [|[|k]]; [lia|cbn; lia|].
  change (prodn (firstn (S (S k)) (d :: r))) with (d * prodn (firstn (S k) r)).
  assert (Hk' : 1 <= S k <= length r) by lia. specialize (IH _ E (S k) Hk'). rewrite Nat.mul_assoc. exact IH.
Qed.

Lemma prodn_app l r : prodn (l ++ r) = prodn l * prodn r.
Proof.
  induction l as [|a l IH]; [symmetry; apply Nat.mul_1_l|].
  change (a * prodn (l ++ r) = a * prodn l * prodn r). rewrite IH. apply Nat.mul_assoc.
Qed.

Lemma broadcastable_prefix n shape k : k <= length shape -> 1 <= k -> prodn (firstn k shape) = n ->
  exists j, broadcastable n shape = firstn j shape /\ j <= length shape /\ prodn (firstn j shape) = n.
Proof.
  intros H1 H2 H3. unfold broadcastable. destruct (last_prefix 1 n shape) as [j|] eqn:E.
  - destruct (last_prefix_spec _ _ _ _ E) as [L P]. exists j. repeat split; auto. lia.
  - exfalso. apply (last_prefix_none _ _ _ E k); [lia|]. lia.
Qed.

(** The size of the output shape matches the product. *)
Lemma reshape_size {K} (M : matrix K) shapein shapeout S shape rest :
  mx_kind M = KScalar -> S = mk_sop M shapein shapeout ->
  (forall s, shapein = Some s -> exists k, 1 <= k <= length s /\ prodn (firstn k s) = mx_cols M) ->
  (forall s, shapeout = Some s -> exists k, 1 <= k <= length s /\ prodn (firstn k s) = mx_rows M) ->
  shape = so_bin S ++ rest ->
  exists r, reshapein S shape = Some r /\ prodn shape = mx_cols M * prodn rest /\ prodn r = mx_rows M * prodn rest.
Proof.
  intros KD -> Hi Ho ->. unfold mk_sop, reshapein. rewrite KD. cbn [so_mx so_bin so_bout]. rewrite KD.
  eexists; split; [reflexivity|]. rewrite !prodn_app.
  rewrite skipn_app, skipn_all, Nat.sub_diag. cbn [skipn app].
  assert (X : forall n so, (forall s, so = Some s -> exists k, 1 <= k <= length s /\ prodn (firstn k s) = n) ->
     prodn (match so with None => [n] | Some s => broadcastable n s end) = n).
  { intros n [s|] H; [|cbn; lia]. destruct (H s eq_refl) as [k [[K1 K2] K3]].
    destruct (broadcastable_prefix n s k K2 K1 K3) as [j [-> [_ J]]]. exact J. }
  rewrite !X by auto. split; reflexivity.
Qed.

(** ** Interleavings used by the kernel mask *)
Lemma merge_sequential {A} (its : list (list A)) : merge its (sequential its).
Proof.
  unfold sequential.
  assert (SH : forall (l : list (list A)) i, concat (mapi (fun i l => map (pair i) l) (S i) l) =
     map (fun ia : nat * A => (S (fst ia), snd ia)) (concat (mapi (fun i l => map (pair i) l) i l))).
  { induction l as [|a l IH]; intros i; cbn; [reflexivity|]. rewrite IH, map_app, map_map. reflexivity. }
  induction its as [|l ls IH]; cbn; [constructor; constructor|].
  induction l as [|a l IHl]; cbn.
  - rewrite SH. apply merge_shift, IH.
  - apply merge_step0, IHl.
Qed.

Lemma kernel_lossless {K} (o : ops K) (RL : ring_laws o) nz (NZ0 : forall v, nz v = false <-> v = k0 o)
    flib flib' sched sched' bits (S : sop K) mshape out extra x :
  well_formed (so_mx S) -> mx_axis (so_mx S) = FSR -> mx_kind (so_mx S) <> KBlock ->
  mask_shape S = Some mshape ->
  mx_cols (so_mx S) = length out * snd (mx_bs (so_mx S)) ->
  (exists c, seen o (mx_data (so_mx S)) c) ->
  (1 < bits)%Z -> (Z.of_nat (length out) < 2 ^ (bits - 1))%Z ->
  scheduler sched -> scheduler sched' -> allowed_extra (so_mx S) extra ->
  length x = extra * mx_cols (so_mx S) ->
  exists kernel S' r, kernel_mask nz sequential (so_mx S) out KAssign = Ok (Some kernel) /\
    restrict bits S mshape (map negb kernel) = Ok (Some S') /\
    matvec o flib sched (so_mx S') (compress (extra * snd (mx_bs (so_mx S))) (map negb kernel) x) None = Ok (Some r) /\
    forall y, length y = length x ->
      agree_on_seen o (mx_data (so_mx S)) (extra * snd (mx_bs (so_mx S))) x y ->
      matvec o flib' sched' (so_mx S) y None = Ok (Some r).
Proof.
  intros W AX KB MS Hc [c0 Sc0] B Hb Hs Hs' A Lx.
  assert (dec0 : forall v : K, v = k0 o \/ v <> k0 o).
  { intros v. destruct (nz v) eqn:E; [right; apply (NZ o nz NZ0); exact E|left; apply NZ0; exact E]. }
  pose proof W as [C [nr [nc [Hr [Hc' D]]]]]. rewrite AX in D. destruct D as [_ D].
  assert (B0 : 0 < snd (mx_bs (so_mx S))) by (destruct (mx_kind (so_mx S)); cbn in C; rewrite ?C; cbn; lia).
  assert (nc = length out) by nia. subst nc.
  destruct (mask_sequential o nz NZ0 (so_mx S) out KAssign KB D (or_introl eq_refl)) as [kn [Ek [Lk Fk]]].
  assert (NB : forall c, c < length out -> (nth c (map negb kn) false = true <-> nth c kn false = false)).
  { intros c Hcc. rewrite (nth_indep _ false (negb false)) by (rewrite map_length; lia). rewrite map_nth.
    destruct (nth c kn false); cbn; split; congruence. }
  assert (HM : forall c, c < length out -> seen o (mx_data (so_mx S)) c -> nth c (map negb kn) false = true).
  { intros c Hcc Hsn. apply NB; [exact Hcc|]. destruct (nth c kn false) eqn:E; [|reflexivity].
    apply Fk in E; [|exact Hcc]. destruct E; contradiction. }
  assert (KP : 0 < kept (map negb kn)).
  { assert (H0 : c0 < length out).
    { destruct Sc0 as [row [e [v [H1 [H2 [H3 _]]]]]]. unfold in_range in D. rewrite Forall_forall in D.
      specialize (D row H1). rewrite Forall_forall in D. specialize (D e H2). lia. }
    specialize (HM c0 H0 Sc0). clear - HM. revert c0 HM. generalize (map negb kn) as l.
    induction l as [|[|] l IH]; intros [|c0] HM; cbn in *; try discriminate; try lia; apply (IH c0); exact HM. }
  pose proof (kept_le (map negb kn)) as KL. rewrite map_length, Lk in KL.
  destruct (lossless o RL dec0 flib flib' sched sched' bits S mshape (map negb kn) extra x W AX MS) as [S' [r [E1 [E2 E3]]]]; auto.
  - rewrite map_length, Lk. exact Hc.
  - lia.
  - rewrite map_length, Lk. exact HM.
  - exists kn, S', r. split; [exact Ek|]. split; [exact E1|]. split; [exact E2|].
    intros y Ly Ag.
    destruct (agree_product o RL dec0 flib' flib' sched' sched' (so_mx S) extra x y W AX Hs' Hs' A) as [r' [E4 E5]]; auto.
    + assert (0 < length out).
      { destruct Sc0 as [row [e [v [H1 [H2 [H3 _]]]]]]. unfold in_range in D. rewrite Forall_forall in D.
        specialize (D row H1). rewrite Forall_forall in D. specialize (D e H2). lia. }
      nia.
    + congruence.
    + rewrite E3 in E4. inversion E4; subst r'. exact E5.
Qed.
