(** C106: conversions and the objects of derived units. *)
From Coq Require Import List Arith Bool String QArith Qcanon Lia.
From Verif Require Import Base BaseFacts TemplateModel UnitModel DuModel.
Import ListNotations.
Local Open Scope nat_scope.

Section Props.
Context {K : Type} (o : mag_ops K).
Notation heap := (@heap K).

(** ** Specification *)
(** A table read as values: magnitudes and units of its quantities. *)
Definition values (h : heap) (tab : otable) : @du_table K :=
  map (fun e => (fst e, match snd e with Some i => option_map d_q (nth_error (h_objs h) i) | None => None end)) tab.
Definition within (tab : otable) (i : nat) : Prop := exists k, In (k, Some i) tab.
(** What a conversion may do to the objects: their magnitudes and units stay; their tables too,
    unless they are themselves in the table t or in that of the module. *)
Definition keeps (t : nat) (h h' : heap) : Prop :=
  length (h_objs h') = length (h_objs h) /\
  forall i d, nth_error (h_objs h) i = Some d -> exists d', nth_error (h_objs h') i = Some d' /\ d_q d' = d_q d /\
    (d_tab d' = d_tab d \/ (d_tab d' = t /\ (within (table h t) i \/ within (table h 0) i))).

(** ** Proofs *)
Lemma set_tab_length (l : list (@dobj K)) i t : length (set_tab l i t) = length l.
Proof. revert i; induction l as [|d l IH]; intros [|i]; cbn; auto. Qed.
Lemma nth_set_tab (l : list (@dobj K)) i t j d : nth_error l j = Some d -> nth_error (set_tab l i t) j = Some (if j =? i then DObj (d_q d) t else d).
Proof.
  revert i j; induction l as [|x l IH]; intros [|i] [|j] H; cbn in *; try discriminate; try congruence; try exact H.
  now apply IH.
Qed.
Lemma keeps_refl t h : keeps t h h.
Proof. split; [reflexivity|]. intros i d H. exists d. auto. Qed.
Lemma keeps_trans t h h' h'' : h_tabs h' = h_tabs h -> keeps t h h' -> keeps t h' h'' -> keeps t h h''.
Proof.
  intros T [L A] [L' B]. split; [congruence|]. intros i d H. destruct (A i d H) as (d1 & H1 & Q1 & C1). destruct (B i d1 H1) as (d2 & H2 & Q2 & C2). exists d2. split; [exact H2|]. split; [congruence|].
  unfold table in *. rewrite T in C2. destruct C2 as [->|C2]; [exact C1|]. right. exact C2.
Qed.
Lemma keeps_values t h h' tab : keeps t h h' -> values h' tab = values h tab.
Proof.
  intros [L A]. unfold values. apply map_ext. intros [k [i|]]; [|reflexivity]. cbn [fst snd]. f_equal. destruct (nth_error (h_objs h) i) as [d|] eqn:E.
  - destruct (A i d E) as (d' & -> & Q & _). cbn. now rewrite Q.
  - replace (nth_error (h_objs h') i) with (@None (@dobj K)); [reflexivity|]. symmetry. apply nth_error_None in E. apply nth_error_None. lia.
Qed.
Lemma find_values h tab k : du_find (values h tab) k = option_map (fun v => match v with Some i => option_map d_q (nth_error (h_objs h) i) | None => None end) (o_find tab k).
Proof. induction tab as [|[k' v] r IH]; [reflexivity|]. cbn. destruct (du_key_eqb k' k); [reflexivity|exact IH]. Qed.
Lemma find_within tab k i : o_find tab k = Some (Some i) -> within tab i.
Proof. induction tab as [|[k' v] r IH]; cbn; [discriminate|]. destruct (du_key_eqb k' k); intros H; [injection H as ->; exists k'; now left|]. destruct (IH H) as [q Hq]. exists q. now right. Qed.
Lemma get_du_pure h t u v tab h' r : (forall i, v = Some i -> within tab i) -> (u = t \/ u = 0) -> tab = table h u -> get_du h t v = (h', r) ->
  r = match v with Some i => option_map d_q (nth_error (h_objs h) i) | None => None end /\ h_tabs h' = h_tabs h /\ keeps t h h'.
Proof.
  intros W U -> H. destruct v as [i|]; cbn in H; [|injection H as <- <-; split; [reflexivity|]; split; [reflexivity|apply keeps_refl]].
  destruct (nth_error (h_objs h) i) as [d|] eqn:E; injection H as <- <-; (split; [reflexivity|]); (split; [reflexivity|]); [|apply keeps_refl].
  split; [apply set_tab_length|]. intros j e Hj. cbn [h_objs]. rewrite (nth_set_tab _ i t j e Hj). eexists. split; [reflexivity|]. destruct (Nat.eqb_spec j i) as [->|]; [|auto].
  cbn. split; [reflexivity|]. right. split; [reflexivity|]. specialize (W i eq_refl). destruct U as [->| ->]; auto.
Qed.
Lemma check_du_pure h t u k v h' r : (u = t \/ u = 0) -> check_du o h t k v (table h u) = (h', r) ->
  r = UnitModel.check_du o (values h (table h u)) k v /\ h_tabs h' = h_tabs h /\ keeps t h h'.
Proof.
  intros U H. unfold check_du in H. unfold UnitModel.check_du. set (tab := table h u) in *.
  destruct tab as [|e l] eqn:ET; [injection H as <- <-; split; [reflexivity|]; split; [reflexivity|apply keeps_refl]|]. rewrite <- ET in *.
  assert (NE : forall A (x y : A), match values h tab with [] => x | _ => y end = y) by (intros; rewrite ET; reflexivity). rewrite NE. clear NE.
  rewrite !find_values. assert (W : forall q i, o_find tab q = Some (Some i) -> within tab i) by (intros q i; apply find_within).
  destruct (o_find tab (k, Some v)) as [x|] eqn:E1; cbn [option_map].
  - apply (get_du_pure h t u x tab) in H; [exact H| |exact U|reflexivity]. intros i ->. exact (W _ _ E1).
  - destruct (o_find tab (k, Some (- v)%Qc)) as [x|] eqn:E2; cbn [option_map].
    + destruct (get_du h t x) as [h1 q] eqn:G. apply (get_du_pure h t u x tab) in G; [|intros i ->; exact (W _ _ E2)|exact U|reflexivity]. destruct G as (-> & T & KP). injection H as <- <-. split; [|auto].
      destruct x as [i|]; [|reflexivity]. destruct (nth_error (h_objs h) i); reflexivity.
    + destruct (o_find tab (k, None)) as [x|] eqn:E3; cbn [option_map]; [|injection H as <- <-; split; [reflexivity|]; split; [reflexivity|apply keeps_refl]].
      destruct (get_du h t x) as [h1 q] eqn:G. apply (get_du_pure h t u x tab) in G; [|intros i ->; exact (W _ _ E3)|exact U|reflexivity]. destruct G as (-> & T & KP). injection H as <- <-. split; [|auto].
      destruct x as [i|]; [|reflexivity]. destruct (nth_error (h_objs h) i) as [d|]; [|reflexivity]. cbn. now destruct (Qc_eqb v 1), (Qc_eqb v (- (1))).
Qed.
Definition agrees (t : nat) (h : heap) (a : res (heap * @quantity K)) (b : res (@quantity K)) : Prop :=
  match a, b with
  | Ok (h', q), Ok q' => q = q' /\ h_tabs h' = h_tabs h /\ keeps t h h'
  | Err e, Err e' => e = e'
  | _, _ => False
  end.
Lemma si_pure fuel : forall h t q, agrees t h (si o fuel h t q) (UnitModel.si o fuel (values h (table h t)) (values h (table h 0)) q).
Proof.
  induction fuel as [|n IH]; intros h t q; [reflexivity|]. cbn [si UnitModel.si]. destruct (snd q) as [|kv0 l0] eqn:EU; [cbn; split; [reflexivity|]; split; [reflexivity|apply keeps_refl]|].
  rewrite <- EU. clear EU kv0 l0. set (loc := values h (table h t)). set (glob := values h (table h 0)).
  set (F := fun acc kv => _ : res (heap * quantity)). set (G := fun acc kv => _ : res quantity).
  assert (S : forall h1 a kv, h_tabs h1 = h_tabs h -> keeps t h h1 -> agrees t h (F (Ok (h1, a)) kv) (G (Ok a) kv)).
  { intros h1 a kv T1 K1. unfold F, G. cbn [bind].
    assert (L1 : values h1 (table h1 t) = loc) by (unfold table; rewrite T1; apply (keeps_values t), K1). assert (L0 : values h1 (table h1 0) = glob) by (unfold table; rewrite T1; apply (keeps_values t), K1).
    assert (Step : forall h2 d, h_tabs h2 = h_tabs h1 -> keeps t h1 h2 -> agrees t h (do r <- si o n h2 t d; Ok (fst r, q_mul o a (snd r))) (do d' <- UnitModel.si o n loc glob d; Ok (q_mul o a d'))).
    { intros h2 d T2 K2. specialize (IH h2 t d). assert (K2' : keeps t h h2) by (apply (keeps_trans t h h1 h2); assumption).
      replace (values h2 (table h2 t)) with loc in IH by (symmetry; unfold table; rewrite T2, T1; apply (keeps_values t), K2').
      replace (values h2 (table h2 0)) with glob in IH by (symmetry; unfold table; rewrite T2, T1; apply (keeps_values t), K2').
      destruct (si o n h2 t d) as [[h3 r]|e], (UnitModel.si o n loc glob d) as [r'|e']; cbn [agrees bind fst snd] in *; try contradiction; [|exact IH].
      destruct IH as (-> & T3 & K3). split; [reflexivity|]. split; [congruence|]. apply (keeps_trans t h h2 h3); [congruence|assumption|assumption]. }
    destruct (check_du o h1 t (fst kv) (snd kv) (table h1 t)) as [h2 d2] eqn:C1. destruct (check_du_pure h1 t t _ _ _ _ (or_introl eq_refl) C1) as (E2 & T2 & K2). rewrite L1 in E2. rewrite <- E2.
    destruct d2 as [d2|]; [now apply Step|].
    destruct (check_du o h2 t (fst kv) (snd kv) (table h2 0)) as [h3 d3] eqn:C2. destruct (check_du_pure h2 t 0 _ _ _ _ (or_intror eq_refl) C2) as (E3 & T3 & K3).
    assert (K2' : keeps t h h2) by (apply (keeps_trans t h h1 h2); assumption).
    replace (values h2 (table h2 0)) with glob in E3 by (symmetry; unfold table; rewrite T2, T1; apply (keeps_values t), K2'). rewrite <- E3.
    assert (K3' : keeps t h1 h3) by (apply (keeps_trans t h1 h2 h3); assumption).
    destruct d3 as [d3|]; [apply Step; [congruence|exact K3']|]. split; [reflexivity|]. split; [congruence|]. apply (keeps_trans t h h1 h3); assumption. }
  assert (FE : forall l e, fold_left F l (Err e) = Err e) by (induction l as [|kv l IHl]; intros e; [reflexivity|apply IHl]).
  assert (GE : forall l e, fold_left G l (Err e) = Err e) by (induction l as [|kv l IHl]; intros e; [reflexivity|apply IHl]).
  assert (FG : forall l h1 a, h_tabs h1 = h_tabs h -> keeps t h h1 -> agrees t h (fold_left F l (Ok (h1, a))) (fold_left G l (Ok a))).
  { induction l as [|kv l IHl]; intros h1 a T1 K1; [cbn; auto|]. cbn [fold_left]. specialize (S h1 a kv T1 K1). destruct (F (Ok (h1, a)) kv) as [[h2 b]|e], (G (Ok a) kv) as [b'|e']; cbn [agrees] in S; try contradiction.
    - destruct S as (-> & T2 & K2). now apply IHl.
    - subst e'. rewrite FE, GE. reflexivity. }
  specialize (FG (snd q) h (m1 o, []) eq_refl (keeps_refl t h)). 
  match goal with |- agrees _ _ (bind ?a _) (bind ?b _) => assert (FG' : agrees t h a b) by exact FG; destruct a as [[h' f]|e], b as [f'|e'] end; cbn [agrees bind fst snd] in FG' |- *; try contradiction; [|exact FG'].
  destruct FG' as (-> & T & KP). auto.
Qed.

(** ** Several conversions *)
(** The tables of the objects exist; the table of the module too. *)
Definition good (h : heap) : Prop := 0 < length (h_tabs h) /\ forall i d, nth_error (h_objs h) i = Some d -> d_tab d < length (h_tabs h).
Definition listed (h : heap) (i : nat) : Prop := exists tab, In tab (h_tabs h) /\ within tab i.
(** Magnitudes and units stay, and the tables of the objects that are in no table. *)
Definition stays (h h' : heap) : Prop :=
  (exists extra, h_tabs h' = h_tabs h ++ extra /\ forall tab, In tab extra -> In tab (h_tabs h)) /\ length (h_objs h') = length (h_objs h) /\
  forall i d, nth_error (h_objs h) i = Some d -> exists d', nth_error (h_objs h') i = Some d' /\ d_q d' = d_q d /\ (d_tab d' = d_tab d \/ listed h i).
Lemma stays_refl h : stays h h.
Proof. split; [exists []; split; [now rewrite app_nil_r|easy]|]. split; [reflexivity|]. intros i d H. exists d. auto. Qed.
Lemma stays_listed h h' i : stays h h' -> listed h' i -> listed h i.
Proof. intros ((ex & T & X) & _) (tab & I & W). rewrite T in I. apply in_app_or in I as [I|I]; exists tab; auto. Qed.
Lemma stays_trans h h' h'' : stays h h' -> stays h' h'' -> stays h h''.
Proof.
  intros S1 S2. pose proof (fun i => stays_listed h h' i S1) as SL. destruct S1 as ((e1 & T1 & X1) & L1 & A1), S2 as ((e2 & T2 & X2) & L2 & A2).
  split; [|split; [congruence|]].
  - exists (e1 ++ e2). split; [rewrite T2, T1; symmetry; apply app_assoc|]. intros tab I. apply in_app_or in I as [I|I]; [now apply X1|]. specialize (X2 tab I). rewrite T1 in X2. apply in_app_or in X2 as [Y|Y]; auto.
  - intros i d H. destruct (A1 i d H) as (d1 & H1 & Q1 & C1). destruct (A2 i d1 H1) as (d2 & H2 & Q2 & C2). exists d2. split; [exact H2|]. split; [congruence|].
    destruct C1 as [C1|C1]; [|now right]. destruct C2 as [C2|C2]; [left; congruence|right; now apply SL].
Qed.
Lemma stays_values h h' tab : stays h h' -> values h' tab = values h tab.
Proof.
  intros (_ & L & A). unfold values. apply map_ext. intros [k [i|]]; [|reflexivity]. cbn [fst snd]. f_equal. destruct (nth_error (h_objs h) i) as [d|] eqn:E.
  - destruct (A i d E) as (d' & -> & Q & _). cbn. now rewrite Q.
  - replace (nth_error (h_objs h') i) with (@None (@dobj K)); [reflexivity|]. symmetry. apply nth_error_None in E. apply nth_error_None. lia.
Qed.
Lemma stays_table h h' t : stays h h' -> t < length (h_tabs h) -> table h' t = table h t.
Proof. intros ((e & T & _) & _) H. unfold table. rewrite T. now apply app_nth1. Qed.
Lemma table_within h t i : within (table h t) i -> listed h i.
Proof.
  intros W. destruct (Nat.lt_ge_cases t (length (h_tabs h))) as [H|H]; [exists (table h t); split; [now apply nth_In|exact W]|].
  unfold table in W. rewrite nth_overflow in W by exact H. destruct W as [k []].
Qed.
Lemma keeps_stays t h h' : h_tabs h' = h_tabs h -> keeps t h h' -> stays h h'.
Proof.
  intros T [L A]. split; [exists []; split; [now rewrite app_nil_r|easy]|]. split; [exact L|]. intros i d H. destruct (A i d H) as (d' & H' & Q & C). exists d'. split; [exact H'|]. split; [exact Q|].
  destruct C as [C|[_ [C|C]]]; [now left|right; eapply table_within, C|right; eapply table_within, C].
Qed.
Lemma keeps_good t h h' : h_tabs h' = h_tabs h -> t < length (h_tabs h) -> keeps t h h' -> good h -> good h'.
Proof.
  intros T Ht [L A] [G1 G2]. split; [congruence|]. intros i d' H'. destruct (nth_error (h_objs h) i) as [d|] eqn:E.
  - destruct (A i d E) as (d1 & H1 & _ & C). rewrite H' in H1. injection H1 as <-. rewrite T. specialize (G2 i d E). destruct C as [->|[-> _]]; assumption.
  - apply nth_error_None in E. assert (X : nth_error (h_objs h') i <> None) by congruence. apply nth_error_Some in X. lia.
Qed.
Lemma copy_table_stays h t : t < length (h_tabs h) -> stays h (fst (copy_table h t)) /\ (good h -> good (fst (copy_table h t))) /\ snd (copy_table h t) = length (h_tabs h) /\
  table (fst (copy_table h t)) (length (h_tabs h)) = table h t /\ length (h_tabs h) < length (h_tabs (fst (copy_table h t))).
Proof.
  intros Ht. cbn. split; [|split; [|split; [reflexivity|split]]].
  - split; [exists [table h t]; split; [reflexivity|]; intros tab [<-|[]]; now apply nth_In|]. split; [reflexivity|]. intros i d H. exists d. auto.
  - intros [G1 G2]. split; cbn; rewrite app_length; cbn; [lia|]. intros i d H. specialize (G2 i d H). lia.
  - unfold table. cbn. rewrite app_nth2, Nat.sub_diag by lia. reflexivity.
  - rewrite app_length. cbn. lia.
Qed.

Inductive op := OSI (i : nat) | OConvert (i : nat) (new : unit_).
Definition do_op (fuel : nat) (h : heap) (c : op) : res (heap * @quantity K) :=
  match c with OSI i => si_of o fuel h i | OConvert i new => convert o fuel h i new end.
Fixpoint do_ops (fuel : nat) (h : heap) (l : list op) : res heap :=
  match l with [] => Ok h | c :: l => do r <- do_op fuel h c; do_ops fuel (fst r) l end.
(** The same with tables of values. *)
Definition pure (fuel : nat) (h : heap) (c : op) : res (@quantity K) :=
  let get i f := match nth_error (h_objs h) i with Some d => f (values h (table h (d_tab d))) (values h (table h 0)) (d_q d) | None => Err RuntimeError end in
  match c with
  | OSI i => get i (UnitModel.si o fuel)
  | OConvert i new => get i (fun loc glob q => UnitModel.convert o (mmul o) fuel loc glob q new)
  end.
Lemma op_pure fuel h c : good h -> match do_op fuel h c, pure fuel h c with
  | Ok (h', q), Ok q' => q = q' /\ stays h h' /\ good h'
  | Err e, Err e' => e = e'
  | _, _ => False
  end.
Proof.
  intros G. destruct c as [i|i new]; cbn [do_op pure].
  - unfold si_of. destruct (nth_error (h_objs h) i) as [d|] eqn:E; [|reflexivity]. assert (S := si_pure fuel h (d_tab d) (d_q d)).
    destruct (si o fuel h (d_tab d) (d_q d)) as [[h' q]|e], (UnitModel.si o fuel _ _ (d_q d)) as [q'|e']; cbn [agrees] in S; try exact S.
    destruct S as (-> & T & KP). split; [reflexivity|]. split; [now apply (keeps_stays (d_tab d))|]. apply (keeps_good (d_tab d) h); try assumption. now apply G in E.
  - unfold convert, UnitModel.convert. destruct (nth_error (h_objs h) i) as [d|] eqn:E; [|reflexivity]. assert (Ht := proj2 G i d E). destruct (snd (d_q d)) as [|kv l] eqn:EU; [split; [reflexivity|]; split; [apply stays_refl|exact G]|].
    destruct new as [|kv' l']; [split; [reflexivity|]; split; [apply stays_refl|exact G]|].
    destruct (copy_table_stays h (d_tab d) Ht) as (S1 & G1 & E1 & T1 & L1). destruct (copy_table h (d_tab d)) as [h1 t1]. cbn [fst snd] in *. specialize (G1 G). subst t1.
    set (loc := values h (table h (d_tab d))). set (glob := values h (table h 0)).
    match goal with |- context [UnitModel.si o fuel loc glob ?x] => set (qa := x) end. match goal with |- context [si o fuel h1 _ ?x] => change x with qa end.
    assert (S := si_pure fuel h1 (length (h_tabs h)) qa). rewrite T1, !(stays_values h h1 _ S1), (stays_table h h1 0 S1 (proj1 G)) in S. fold loc glob in S.
    destruct (si o fuel h1 (length (h_tabs h)) qa) as [[h2 q1]|e], (UnitModel.si o fuel loc glob qa) as [q1'|e']; cbn [agrees bind fst snd] in S |- *; try contradiction; try exact S.
    destruct S as (<- & T2 & K2). assert (S2 := keeps_stays _ _ _ T2 K2). assert (G2 := keeps_good _ _ _ T2 L1 K2 G1). assert (S12 := stays_trans _ _ _ S1 S2).
    assert (Ht2 : d_tab d < length (h_tabs h2)) by (rewrite T2; lia).
    destruct (copy_table_stays h2 (d_tab d) Ht2) as (S3 & G3 & E3 & T3 & L3). destruct (copy_table h2 (d_tab d)) as [h3 t3]. cbn [fst snd] in *. specialize (G3 G2). subst t3. assert (S13 := stays_trans _ _ _ S12 S3).
    match goal with |- context [UnitModel.si o fuel loc glob ?x] => set (qb := x) end. match goal with |- context [si o fuel h3 _ ?x] => change x with qb end.
    assert (S := si_pure fuel h3 (length (h_tabs h2)) qb). rewrite T3, (stays_table h h2 _ S12 Ht), !(stays_values h h3 _ S13), (stays_table h h3 0 S13 (proj1 G)) in S. fold loc glob in S.
    destruct (si o fuel h3 (length (h_tabs h2)) qb) as [[h4 q2]|e], (UnitModel.si o fuel loc glob qb) as [q2'|e']; cbn [agrees bind fst snd] in S |- *; try contradiction; try exact S.
    destruct S as (<- & T4 & K4). destruct (dict_eqb (snd q1) (snd q2)); [|exact eq_refl]. split; [reflexivity|]. split; [apply (stays_trans h h3 h4); [exact S13|now apply (keeps_stays (length (h_tabs h2)))]|now apply (keeps_good (length (h_tabs h2)) h3)].
Qed.
Lemma ops_stay fuel l : forall h h', good h -> do_ops fuel h l = Ok h' -> stays h h' /\ good h'.
Proof.
  induction l as [|c l IH]; intros h h' G H; cbn [do_ops] in H; [injection H as <-; split; [apply stays_refl|exact G]|]. assert (P := op_pure fuel h c G).
  destruct (do_op fuel h c) as [[h1 q]|e]; [|discriminate]. destruct (pure fuel h c) as [q'|e']; [|contradiction]. destruct P as (_ & S1 & G1). cbn [bind fst] in H.
  destruct (IH h1 h' G1 H) as [S2 G2]. split; [now apply (stays_trans h h1 h')|exact G2].
Qed.
End Props.

(** * C106 *)
(** Whatever was written in the quantities of the tables, a conversion gives what it gives for
    tables of values: it depends on the magnitudes and units of the quantities of the tables,
    not on their derived units. *)
Theorem C106_values : forall (K : Type) (o : mag_ops K) fuel h c, good h -> match do_op o fuel h c, pure o fuel h c with
  | Ok (h', q), Ok q' => q = q' /\ stays h h' /\ good h'
  | Err e, Err e' => e = e'
  | _, _ => False
  end.
Proof. intros. now apply op_pure. Qed.
Print Assumptions C106_values.
(** The quantities that are in no table are not changed by any sequence of conversions, and
    they are converted afterwards as they were before. *)
Definition subject (c : op) : nat := match c with OSI i => i | OConvert i _ => i end.
Theorem C106_history : forall (K : Type) (o : mag_ops K) fuel h l h' c d, good h -> do_ops o fuel h l = Ok h' ->
  nth_error (h_objs h) (subject c) = Some d -> ~ listed h (subject c) ->
  nth_error (h_objs h') (subject c) = Some d /\
  match do_op o fuel h' c, do_op o fuel h c with Ok r', Ok r => snd r' = snd r | Err e', Err e => e' = e | _, _ => False end.
Proof.
  intros K o fuel h l h' c d G H E N. destruct (ops_stay o fuel l h h' G H) as [S G'].
  assert (E' : nth_error (h_objs h') (subject c) = Some d).
  { destruct S as (_ & _ & A). destruct (A _ _ E) as (d' & E' & Q & [T|T]); [|contradiction]. rewrite E'. destruct d, d'. cbn in *. congruence. }
  split; [exact E'|]. assert (P := op_pure o fuel h c G). assert (P' := op_pure o fuel h' c G').
  assert (EP : pure o fuel h' c = pure o fuel h c).
  { assert (Ht := proj2 G _ _ E). destruct c as [i|i new]; cbn [pure subject] in *; rewrite E, E', !(stays_values h h' _ S), (stays_table h h' _ S Ht), (stays_table h h' 0 S (proj1 G)); reflexivity. }
  rewrite EP in P'. destruct (do_op o fuel h' c) as [[h1 q1]|e1], (do_op o fuel h c) as [[h2 q2]|e2], (pure o fuel h c) as [q|e]; cbn [snd]; try contradiction; [|congruence].
  destruct P as (-> & _), P' as (-> & _). reflexivity.
Qed.
Print Assumptions C106_history.

(** Refuted for the quantities of the tables.  units['km'].SI is 1000 m; after the conversion of
    1 km with m = 3 s as derived unit, it is 3000 s. *)
Definition zo : mag_ops Z := MagOps Z 1%Z Z.mul (fun x => x) (fun x _ => x).
Definition key (s : string) : du_key := (lit s, None).
Definition one (s : string) : unit_ := [(lit s, 1%Qc)].
Definition show (r : res (@heap Z * @quantity Z)) : option (Z * list text) := match r with Ok (_, (m, u)) => Some (m, map fst u) | Err _ => None end.
Definition then_ {A} (r : res (@heap Z * @quantity Z)) (f : @heap Z -> option A) : option A := match r with Ok (h, _) => f h | Err _ => None end.
Definition km_heap : @heap Z := Heap [DObj (1000%Z, one "m") 1; DObj (3%Z, one "s") 1; DObj (1%Z, one "km") 2; DObj (5%Z, one "km") 1]
  [[(key "km", Some 0); (key "m", None); (key "s", None)]; []; [(key "m", Some 1)]].
Theorem C106_module_refuted : show (si_of zo 5 km_heap 0) = Some (1000%Z, [lit "m"]) /\ then_ (si_of zo 5 km_heap 2) (fun h => show (si_of zo 5 h 0)) = Some (3000%Z, [lit "s"]).
Proof. split; vm_compute; reflexivity. Qed.
Print Assumptions C106_module_refuted.
(** The derived units of a derived unit are ignored, and lost: beam is 4 pixel with pixel = 2 sr,
    that is 8 sr; 1 beam is 4 pixel, and so is beam afterwards. *)
Definition beam_heap : @heap Z := Heap [DObj (2%Z, one "sr") 1; DObj (4%Z, one "pixel") 2; DObj (1%Z, one "beam") 3]
  [[(key "sr", None)]; []; [(key "pixel", Some 0)]; [(key "beam", Some 1)]].
Theorem C106_nested_refuted : show (si_of zo 5 beam_heap 1) = Some (8%Z, [lit "sr"]) /\ show (si_of zo 5 beam_heap 2) = Some (4%Z, [lit "pixel"]) /\
  then_ (si_of zo 5 beam_heap 2) (fun h => show (si_of zo 5 h 1)) = Some (4%Z, [lit "pixel"]).
Proof. split; [|split]; vm_compute; reflexivity. Qed.
Print Assumptions C106_nested_refuted.
(** Case: 5 km is in no table; it is converted as before. *)
Example C106_case : good km_heap /\ nth_error (h_objs km_heap) 3 = Some (DObj (5%Z, one "km") 1) /\ ~ listed km_heap 3 /\
  then_ (si_of zo 5 km_heap 2) (fun h => show (convert zo 5 h 3 (one "m"))) = Some (5000%Z, [lit "m"]).
Proof.
  split; [|split; [reflexivity|split]].
  - split; [cbn; lia|]. intros i d H. cbn. do 4 (destruct i as [|i]; [injection H as <-; cbn; lia|]). destruct i; discriminate H.
  - intros (tab & I & k & W). cbn in I. destruct I as [<-|[<-|[<-|[]]]]; cbn in W; intuition congruence.
  - vm_compute. reflexivity.
Qed.
