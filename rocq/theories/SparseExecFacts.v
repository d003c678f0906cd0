(** Execution of interleaved actions: owned cells and atomic updates. *)
From Coq Require Import Lia Permutation Ring.
From Verif Require Import Base BaseFacts SparseModel SparseSpec RingFacts.
Open Scope nat_scope.

Section Exec.
Context {K : Type} (o : ops K).

Definition footprint (a : act K) : list nat :=
  match a with Atomic ups => map fst ups | Read c => [c] | Write c _ => [c] end.

Lemma update_some (mem : list K) c g : c < length mem ->
  exists x, nth_error mem c = Some x /\ update mem c g = Some (set_nth mem c (g x)).
Proof.
  intros H. unfold update. destruct (nth_error mem c) eqn:E; [eauto|].
  apply nth_error_None in E; lia.
Qed.

Lemma nth_error_set_nth {A} (l : list A) i j v :
  nth_error (set_nth l i v) j =
  if Nat.eqb i j then (if j <? length l then Some v else None) else nth_error l j.
Proof.
  destruct (Nat.eqb_spec i j) as [->|D].
  - destruct (Nat.ltb_spec j (length l)).
    + apply set_nth_same; auto.
    + apply nth_error_None. rewrite set_nth_length; auto.
  - apply set_nth_other; auto.
Qed.

Lemma updates_some (mem : list K) ups : Forall (fun c => c < length mem) (map fst ups) ->
  exists m, updates o mem ups = Some m /\ length m = length mem.
Proof.
  revert mem; induction ups as [|[c ts] r IH]; intros mem H; cbn; [eauto|].
  inversion H; subst. cbn in *.
  destruct (update_some mem c (fun x => addl o x ts)) as [x [E ->]]; [auto|].
  destruct (IH (set_nth mem c (addl o x ts))) as [m [E2 L]].
  { rewrite set_nth_length; auto. }
  exists m; rewrite set_nth_length in L; auto.
Qed.

Lemma updates_length (mem : list K) ups m : updates o mem ups = Some m -> length m = length mem.
Proof.
  revert mem; induction ups as [|[c ts] r IH]; intros mem H; cbn in *; [congruence|].
  unfold update in H. destruct (nth_error mem c); [|discriminate].
  apply IH in H. rewrite set_nth_length in H; auto.
Qed.

Lemma updates_other (mem : list K) ups m c : updates o mem ups = Some m -> ~ In c (map fst ups) ->
  nth_error m c = nth_error mem c.
Proof.
  revert mem; induction ups as [|[c' ts] r IH]; intros mem H N; cbn in *; [congruence|].
  unfold update in H. destruct (nth_error mem c') eqn:E; [|discriminate].
  apply IH in H; [|tauto]. rewrite H. rewrite set_nth_other; auto.
Qed.

(** ** Iterations owning disjoint cells *)
Variable own : nat -> nat.

Definition agree (i : nat) (s s' : list K * (nat -> K)) : Prop :=
  length (fst s) = length (fst s') /\
  (forall c, own c = i -> nth_error (fst s) c = nth_error (fst s') c) /\
  snd s i = snd s' i.

Lemma agree_refl i s : agree i s s. Proof. split; auto. Qed.
Lemma agree_sym i s t : agree i s t -> agree i t s.
Proof. intros [A [B C]]; split; [auto|]; split; [|auto]; intros; symmetry; auto. Qed.
Lemma agree_trans i s t u : agree i s t -> agree i t u -> agree i s u.
Proof.
  intros [A [B C]] [A' [B' C']]; split; [congruence|]; split; [|congruence].
  intros; rewrite B; auto.
Qed.

Definition owned (i : nat) (a : act K) := Forall (fun c => own c = i) (footprint a).

Lemma step_length i a s s' : step o i a s = Some s' -> length (fst s') = length (fst s).
Proof.
  destruct s as [mem reg]; destruct a; cbn; intros H.
  - destruct (updates o mem ups) eqn:E; inversion H; subst. cbn. eapply updates_length; eauto.
  - destruct (nth_error mem c); inversion H; subst; auto.
  - unfold update in H. destruct (nth_error mem c); inversion H; subst. cbn. apply set_nth_length.
Qed.

Lemma step_total i a s : Forall (fun c => c < length (fst s)) (footprint a) ->
  exists s', step o i a s = Some s'.
Proof.
  destruct s as [mem reg]; destruct a; cbn; intros H.
  - destruct (updates_some mem ups H) as [m [-> _]]; eauto.
  - inversion H; subst. destruct (nth_error mem c) eqn:E; [eauto|apply nth_error_None in E; lia].
  - inversion H; subst. destruct (update_some mem c (fun _ => addl o (reg i) ts)) as [x [_ ->]]; eauto.
Qed.

Lemma updates_agree mem mem' ups m : length mem = length mem' ->
  (forall c, In c (map fst ups) -> nth_error mem c = nth_error mem' c) ->
  updates o mem ups = Some m ->
  exists m', updates o mem' ups = Some m' /\
    forall c, nth_error mem c = nth_error mem' c -> nth_error m c = nth_error m' c.
Proof.
  revert mem mem'; induction ups as [|[c ts] r IH]; intros mem mem' L H E; cbn in *.
  - inversion E; subst. eauto.
  - unfold update in *. destruct (nth_error mem c) as [x|] eqn:E1; [|discriminate].
    rewrite <- (H c) by auto. rewrite E1.
    assert (Q : forall c0, nth_error mem c0 = nth_error mem' c0 ->
        nth_error (set_nth mem c (addl o x ts)) c0 = nth_error (set_nth mem' c (addl o x ts)) c0).
    { intros c0 Hc. rewrite !nth_error_set_nth, L, Hc. reflexivity. }
    destruct (IH (set_nth mem c (addl o x ts)) (set_nth mem' c (addl o x ts))) as [m' [E2 F]];
      [rewrite !set_nth_length; auto| |exact E|].
    + intros c0 Hc0. apply Q. apply H; auto.
    + exists m'; split; [exact E2|]. intros c0 Hc0. apply F, Q, Hc0.
Qed.

Lemma step_agree i a s t s' : agree i s t -> owned i a -> step o i a s = Some s' ->
  exists t', step o i a t = Some t' /\ agree i s' t'.
Proof.
  destruct s as [mem reg], t as [mem2 reg2]; intros [L [C R]] O H; cbn in L, C, R.
  unfold owned in O. rewrite Forall_forall in O.
  destruct a; cbn in *.
  - destruct (updates o mem ups) as [m|] eqn:E; inversion H; subst.
    destruct (updates_agree mem mem2 ups m L) as [m' [E' F]]; auto.
    rewrite E'. eexists; split; [reflexivity|].
    split; [cbn; apply updates_length in E, E'; congruence|]. split; cbn; auto.
  - rewrite <- (C c) by (apply O; auto). destruct (nth_error mem c) as [x|] eqn:E; inversion H; subst.
    eexists; split; [reflexivity|]. split; [auto|]. split; cbn; [auto|]. unfold set_reg.
    rewrite Nat.eqb_refl; auto.
  - unfold update in *. rewrite <- (C c) by (apply O; auto).
    destruct (nth_error mem c) as [x|] eqn:E; inversion H; subst.
    eexists; split; [reflexivity|]. rewrite R.
    split; [cbn; rewrite !set_nth_length; auto|]. split; cbn; [|auto].
    intros c0 Hc0. rewrite !nth_error_set_nth, L, (C c0) by auto. reflexivity.
Qed.

Lemma step_other i j a s s' : j <> i -> owned i a -> step o i a s = Some s' -> agree j s s'.
Proof.
  destruct s as [mem reg]; intros D O H. unfold owned in O. rewrite Forall_forall in O.
  split; [symmetry; eapply step_length; exact H|].
  destruct a; cbn in *.
  - destruct (updates o mem ups) as [m|] eqn:E; inversion H; subst. split; cbn; [|auto].
    intros c Hc. symmetry. eapply updates_other; eauto. intros I. apply O in I. congruence.
  - destruct (nth_error mem c) as [x|] eqn:E; inversion H; subst. split; cbn; [auto|].
    unfold set_reg. destruct (Nat.eqb_spec j i); congruence.
  - unfold update in *. destruct (nth_error mem c) as [x|] eqn:E; inversion H; subst. split; cbn; [|auto].
    intros c0 Hc0. rewrite set_nth_other; auto. intros ->. specialize (O c0 (or_introl eq_refl)). congruence.
Qed.

Lemma run_agree i l : forall s t s', agree i s t -> Forall (owned i) l ->
  run o (map (pair i) l) s = Some s' ->
  exists t', run o (map (pair i) l) t = Some t' /\ agree i s' t'.
Proof.
  induction l as [|a r IH]; intros s t s' A O H; cbn in *.
  - inversion H; subst; eauto.
  - inversion O; subst. destruct (step o i a s) as [s1|] eqn:E; [|discriminate].
    destruct (step_agree i a s t s1 A) as [t1 [E1 A1]]; auto. rewrite E1.
    eapply IH; eauto.
Qed.

Definition owned_all (its : list (list (act K))) (n : nat) : Prop :=
  forall i l, nth_error its i = Some l ->
    Forall (fun a => owned i a /\ Forall (fun c => c < n) (footprint a)) l.

Lemma merge_owned its tr : merge its tr -> forall s,
  owned_all its (length (fst s)) ->
  exists s', run o tr s = Some s' /\ length (fst s') = length (fst s) /\
    forall i l si, nth_error its i = Some l -> run o (map (pair i) l) s = Some si -> agree i s' si.
Proof.
  induction 1 as [its HN | its i a r tr Hi HM IH]; intros s O.
  - exists s; split; [reflexivity|]; split; [reflexivity|].
    intros i l si Hl Hs. rewrite Forall_forall in HN.
    apply nth_error_In in Hl. rewrite (HN _ Hl) in Hs. cbn in Hs. inversion Hs. apply agree_refl.
  - pose proof (O i _ Hi) as Oi. inversion Oi as [|? ? [Oa Fa] Or]; subst.
    destruct (step_total i a s Fa) as [s1 E1].
    pose proof (step_length _ _ _ _ E1) as L1.
    assert (Hil : i < length its) by (apply nth_error_Some; congruence).
    destruct (IH s1) as [s' [E [L A]]].
    { intros j l Hj. rewrite L1. rewrite nth_error_set_nth in Hj.
      destruct (Nat.eqb_spec i j) as [<-|D].
      - apply Nat.ltb_lt in Hil. rewrite Hil in Hj. inversion Hj; subst. exact Or.
      - apply O; auto. }
    exists s'. cbn. rewrite E1. split; [exact E|]. split; [congruence|].
    intros j l sj Hj Hs. destruct (Nat.eq_dec i j) as [<-|D].
    + rewrite Hi in Hj; inversion Hj; subst. cbn in Hs. rewrite E1 in Hs.
      eapply A; [|exact Hs]. rewrite nth_error_set_nth, Nat.eqb_refl.
      apply Nat.ltb_lt in Hil. rewrite Hil; reflexivity.
    + assert (Ol : Forall (owned j) l).
      { specialize (O j l Hj). eapply Forall_impl; [|exact O]. cbn; tauto. }
      assert (A1 : agree j s s1) by (apply step_other with i a; auto).
      destruct (run_agree j l s s1 sj A1 Ol Hs) as [t' [Et At]].
      eapply agree_trans; [|apply agree_sym; exact At].
      eapply A; [|exact Et]. rewrite nth_error_set_nth.
      destruct (Nat.eqb_spec i j); [congruence|exact Hj].
Qed.

(** A sequence of unprotected statements, executed alone. *)
Definition rw (ct : nat * list K) : list (act K) := [Read (fst ct); Write (fst ct) (snd ct)].

Definition seq_cell (ss : list (nat * list K)) (c : nat) (x : K) : K :=
  fold_left (fun y ct => if Nat.eqb (fst ct) c then addl o y (snd ct) else y) ss x.

Lemma run_rw i ss : forall mem reg, Forall (fun c => c < length mem) (map fst ss) ->
  exists reg' m, run o (map (pair i) (flat_map rw ss)) (mem, reg) = Some (m, reg') /\
    length m = length mem /\
    forall c x, nth_error mem c = Some x -> nth_error m c = Some (seq_cell ss c x).
Proof.
  induction ss as [|[c ts] r IH]; intros mem reg H; cbn [flat_map rw app map run].
  - exists reg, mem; auto.
  - inversion H; subst. cbn in *.
    destruct (nth_error mem c) as [x0|] eqn:E; [|apply nth_error_None in E; lia].
    unfold step, update. rewrite E. unfold set_reg at 1. rewrite Nat.eqb_refl.
    destruct (IH (set_nth mem c (addl o x0 ts)) (set_reg reg i x0)) as [reg' [m [R [L F]]]].
    { rewrite set_nth_length; auto. }
    exists reg', m. split; [exact R|]. rewrite set_nth_length in L. split; [auto|].
    intros c0 x Hx. destruct (Nat.eqb_spec c c0) as [<-|D].
    + rewrite E in Hx; inversion Hx; subst. apply F. rewrite set_nth_same; auto.
    + apply F. rewrite set_nth_other; auto.
Qed.

(** Any interleaving of iterations made of unprotected statements on their own cells. *)
Lemma exec_owned its (sts : list (list (nat * list K))) tr mem :
  merge its tr -> its = map (flat_map rw) sts ->
  (forall i ss, nth_error sts i = Some ss ->
     Forall (fun ct => own (fst ct) = i /\ fst ct < length mem) ss) ->
  exists m, exec o tr mem = Some m /\ length m = length mem /\
    forall i ss c x, nth_error sts i = Some ss -> own c = i -> nth_error mem c = Some x ->
       nth_error m c = Some (seq_cell ss c x).
Proof.
  intros HM -> O. pose proof (merge_owned _ _ HM (mem, fun _ => k0 o)) as Q. cbn in Q.
  destruct Q as [s' [E [L A]]].
  { intros i l Hl. rewrite nth_error_map in Hl. destruct (nth_error sts i) as [ss|] eqn:Es; [|discriminate].
    cbn in Hl; inversion Hl; subst. specialize (O i ss Es).
    clear - O. induction O as [|[c ts] r [H1 H2] HF IH]; cbn; [constructor|].
    cbn in *. constructor; [split; repeat constructor; auto|].
    constructor; [split; repeat constructor; auto|]. exact IH. }
  exists (fst s'). unfold exec. rewrite E. split; [reflexivity|]. split; [exact L|].
  intros i ss c x Hs Hc Hx. specialize (O i ss Hs).
  destruct (run_rw i ss mem (fun _ => k0 o)) as [reg' [m [R [Lm F]]]].
  { clear - O. induction O; cbn; constructor; tauto. }
  specialize (A i (flat_map rw ss) (m, reg')).
  destruct A as [_ [A _]]; [rewrite nth_error_map, Hs; reflexivity|exact R|].
  rewrite A by exact Hc. cbn. apply F; exact Hx.
Qed.
End Exec.

(** ** Interleavings are permutations *)
Lemma concat_set_nth {A} (its : list (list A)) i a r :
  nth_error its i = Some (a :: r) ->
  Permutation (concat its) (a :: concat (set_nth its i r)).
Proof.
  revert i; induction its as [|l ls IH]; intros [|i] H; cbn in *; try discriminate.
  - inversion H; subst. reflexivity.
  - rewrite (IH i H). symmetry. apply Permutation_middle.
Qed.

Lemma merge_perm {A} (its : list (list A)) tr : merge its tr -> Permutation (map snd tr) (concat its).
Proof.
  induction 1 as [its HN | its i a r tr Hi HM IH]; cbn.
  - induction HN as [|l ls Hl _ IH]; cbn; [constructor|]. subst; exact IH.
  - rewrite (concat_set_nth _ _ _ _ Hi). constructor. exact IH.
Qed.

Lemma merge_step0 {A} (its : list (list A)) l a tr :
  merge (l :: its) tr -> merge ((a :: l) :: its) ((0, a) :: tr).
Proof. intros H. eapply merge_cons; [reflexivity|exact H]. Qed.

Lemma merge_shift {A} (its : list (list A)) tr :
  merge its tr -> merge ([] :: its) (map (fun ia => (S (fst ia), snd ia)) tr).
Proof.
  induction 1 as [its HN | its i a r tr Hi HM IH]; cbn.
  - constructor. constructor; auto.
  - eapply merge_cons; [exact Hi|exact IH].
Qed.

Lemma tag_shift {K} (its : list (list (act K))) i :
  tag (S i) its = map (fun ia => (S (fst ia), snd ia)) (tag i its).
Proof.
  revert i; induction its as [|l ls IH]; intros i; cbn; [reflexivity|].
  rewrite map_app, map_map, IH. reflexivity.
Qed.

Lemma merge_in_order {K} (its : list (list (act K))) : merge its (in_order its).
Proof.
  unfold in_order. induction its as [|l ls IH]; cbn; [constructor; constructor|].
  induction l as [|a l IHl]; cbn.
  - rewrite tag_shift. apply merge_shift, IH.
  - apply merge_step0, IHl.
Qed.

(** ** Atomic updates over a ring *)
Section Atomics.
Context {K : Type} (o : ops K) (RL : ring_laws o).
Let RT : ring_theory (k0 o) (k1 o) (kadd o) (kmul o) (fun a b => kadd o a (kopp o b)) (kopp o) eq := RL.
Add Ring Kring2 : RT.

Definition ups_contr (ups : list (nat * list K)) (c : nat) : K :=
  sum_over o ups (fun ct => if Nat.eqb (fst ct) c then ksum o (snd ct) else k0 o).

Definition contr (a : act K) (c : nat) : K :=
  match a with Atomic ups => ups_contr ups c | _ => k0 o end.

Definition is_atomic (a : act K) : Prop := match a with Atomic _ => True | _ => False end.

Lemma updates_contr ups : forall mem m, updates o mem ups = Some m ->
  forall c, c < length mem -> at_ o m c = kadd o (at_ o mem c) (ups_contr ups c).
Proof.
  unfold ups_contr. induction ups as [|[c' ts] r IH]; intros mem m H c Hc; cbn in *.
  - inversion H; subst. ring.
  - unfold update in H. destruct (nth_error mem c') as [x|] eqn:E; [|discriminate].
    rewrite (IH _ _ H c) by (rewrite set_nth_length; auto).
    unfold at_ at 1. destruct (Nat.eqb_spec c' c) as [->|D].
    + rewrite (nth_error_nth _ _ _ (set_nth_same mem c (addl o x ts) Hc)).
      rewrite (addl_ksum o RL). unfold at_. rewrite (nth_error_nth _ _ _ E). fold (ksum o ts). ring.
    + assert (Q : nth c (set_nth mem c' (addl o x ts)) (k0 o) = nth c mem (k0 o)).
      { destruct (nth_error mem c) as [y|] eqn:Ey; [|apply nth_error_None in Ey; lia].
        rewrite (nth_error_nth _ _ _ Ey). apply nth_error_nth. rewrite set_nth_other; auto. }
      rewrite Q. unfold at_. ring.
Qed.

Lemma run_atomic tr : forall mem reg,
  Forall (fun ia => is_atomic (snd ia) /\ Forall (fun c => c < length mem) (footprint (snd ia))) tr ->
  exists m reg', run o tr (mem, reg) = Some (m, reg') /\ length m = length mem /\
    forall c, c < length mem -> at_ o m c = kadd o (at_ o mem c) (sum_over o tr (fun ia => contr (snd ia) c)).
Proof.
  induction tr as [|[i a] r IH]; intros mem reg H; cbn.
  - exists mem, reg. split; [auto|]; split; [auto|]. intros; ring.
  - inversion H as [|? ? [Ha Hf] Hr]; subst. cbn in Ha, Hf.
    destruct a as [ups| |]; try contradiction. cbn in *.
    destruct (updates_some o mem ups Hf) as [m1 [E1 L1]]. rewrite E1.
    destruct (IH m1 reg) as [m [reg' [E [L F]]]]; [rewrite L1; exact Hr|].
    exists m, reg'. split; [exact E|]. split; [congruence|].
    intros c Hc. rewrite F by lia. rewrite (updates_contr _ _ _ E1) by exact Hc.
    change (sum_over o ups _) with (ups_contr ups c). ring.
Qed.

Lemma exec_atomic its tr mem :
  merge its tr ->
  Forall (Forall (fun a => is_atomic a /\ Forall (fun c => c < length mem) (footprint a))) its ->
  exists m, exec o tr mem = Some m /\ length m = length mem /\
    forall c, c < length mem ->
      at_ o m c = kadd o (at_ o mem c) (sum_over o its (fun l => sum_over o l (fun a => contr a c))).
Proof.
  intros HM H. pose proof (merge_perm _ _ HM) as P.
  assert (F : Forall (fun ia : nat * act K => is_atomic (snd ia) /\ Forall (fun c => c < length mem) (footprint (snd ia))) tr).
  { apply Forall_forall. intros ia Hia. apply (in_map snd) in Hia.
    apply (Permutation_in _ P) in Hia. apply in_concat in Hia. destruct Hia as [l [Hl Ha]].
    rewrite Forall_forall in H. specialize (H l Hl). rewrite Forall_forall in H. apply (H _ Ha). }
  destruct (run_atomic tr mem (fun _ => k0 o) F) as [m [reg' [E [L G]]]].
  exists m. unfold exec. rewrite E. split; [reflexivity|]. split; [exact L|].
  intros c Hc. rewrite G by exact Hc. f_equal.
  rewrite <- (sum_over_concat o RL), <- (sum_over_perm o RL _ _ _ P), (sum_over_map o). reflexivity.
Qed.
End Atomics.
