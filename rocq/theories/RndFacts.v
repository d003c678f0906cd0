(** Sparse products with rounded operations: what is added to each cell, with no law on the
    operations, and its distance to the exact product. *)
From Coq Require Import Lia Lra Permutation Reals List.
From Verif Require Import Base BaseFacts SparseModel SparseSpec RingFacts SparseExecFacts SparseFacts SparsePyFacts RndSpec.
Import ListNotations.
Open Scope nat_scope.

Lemma exact_ring : ring_laws exact_ops.
Proof. constructor; intros; cbn; ring. Qed.

(** ** Statements of a cell, without laws *)
Section Cells.
Context {K : Type} (o : ops K).

Definition terms_of (ups : list (nat * list K)) (c : nat) : list K :=
  flat_map (fun ct => if Nat.eqb (fst ct) c then snd ct else []) ups.

Lemma terms_of_app l r c : terms_of (l ++ r) c = terms_of l c ++ terms_of r c.
Proof. apply flat_map_app. Qed.

Lemma terms_of_flat {A} (g : A -> list (nat * list K)) l c :
  terms_of (flat_map g l) c = flat_map (fun a => terms_of (g a) c) l.
Proof. apply flat_map_flat_map. Qed.

Lemma addl_app x l r : addl o x (l ++ r) = addl o (addl o x l) r.
Proof. apply fold_left_app. Qed.

Lemma seq_cell_terms ss c x : seq_cell o ss c x = addl o x (terms_of ss c).
Proof.
  revert x. induction ss as [|[c' ts] r IH]; intros x; [reflexivity|].
  change (seq_cell o ((c', ts) :: r) c x) with (seq_cell o r c (if Nat.eqb c' c then addl o x ts else x)).
  rewrite IH. change (terms_of ((c', ts) :: r) c) with ((if Nat.eqb c' c then ts else []) ++ terms_of r c). rewrite addl_app.
  destruct (Nat.eqb c' c); reflexivity.
Qed.

Lemma terms_of_cells base ss c :
  terms_of (cells base ss) c =
  if (base <=? c) && (c <? base + length ss) then nth (c - base) ss [] else [].
Proof.
  revert base; induction ss as [|s r IH]; intros base; cbn [cells terms_of flat_map fst snd length].
  - destruct (base <=? c) eqn:A, (c <? base + 0) eqn:B; cbn; auto. lia.
  - fold (terms_of (cells (S base) r) c). rewrite IH. destruct (Nat.eqb_spec base c) as [->|D].
    + rewrite Nat.sub_diag. replace (S c <=? c) with false by lia.
      replace ((c <=? c) && (c <? c + S (length r))) with true by lia. cbn [andb nth]. apply app_nil_r.
    + replace (base + S (length r)) with (S base + length r) by lia.
      replace (S base <=? c) with (base <=? c) by lia.
      destruct (base <=? c) eqn:A; [|reflexivity].
      destruct (c <? S base + length r) eqn:B; [|reflexivity].
      destruct (c - base) as [|d] eqn:E; [lia|]. cbn [nth andb app]. replace (c - S base) with d by lia. reflexivity.
Qed.

Definition act_terms (c : nat) (a : act K) : list K :=
  match a with Atomic ups => terms_of ups c | _ => [] end.

Lemma updates_terms ups : forall mem m, updates o mem ups = Some m ->
  forall c x, nth_error mem c = Some x -> nth_error m c = Some (addl o x (terms_of ups c)).
Proof.
  induction ups as [|[c' ts] r IH]; intros mem m H c x Hx; cbn in H.
  - inversion H; subst. exact Hx.
  - unfold update in H. destruct (nth_error mem c') as [y|] eqn:E; [|discriminate].
    change (terms_of ((c', ts) :: r) c) with ((if Nat.eqb c' c then ts else []) ++ terms_of r c). rewrite addl_app.
    destruct (Nat.eqb_spec c' c) as [->|D].
    + rewrite Hx in E; inversion E; subst y. apply (IH _ _ H). apply set_nth_same.
      apply nth_error_Some; congruence.
    + apply (IH _ _ H). rewrite set_nth_other; auto.
Qed.

Lemma run_terms tr : forall mem reg,
  Forall (fun ia => is_atomic (snd ia) /\ Forall (fun c => c < length mem) (footprint (snd ia))) tr ->
  exists m reg', run o tr (mem, reg) = Some (m, reg') /\ length m = length mem /\
    forall c x, nth_error mem c = Some x ->
      nth_error m c = Some (addl o x (flat_map (act_terms c) (map snd tr))).
Proof.
  induction tr as [|[i a] r IH]; intros mem reg H; cbn [run map snd flat_map].
  - exists mem, reg. auto.
  - inversion H as [|? ? [Ha Hf] Hr]; subst. cbn in Ha, Hf.
    destruct a as [ups| |]; try contradiction. cbn [footprint is_atomic] in *; cbn [step act_terms].
    destruct (updates_some o mem ups Hf) as [m1 [E1 L1]]. rewrite E1.
    destruct (IH m1 reg) as [m [reg' [E [L F]]]]; [rewrite L1; exact Hr|].
    exists m, reg'. split; [exact E|]. split; [congruence|].
    intros c x Hx. rewrite addl_app. apply F. eapply updates_terms; eauto.
Qed.

Lemma exec_terms its tr mem : merge its tr ->
  Forall (Forall (fun a => is_atomic a /\ Forall (fun c => c < length mem) (footprint a))) its ->
  exists m, exec o tr mem = Some m /\ length m = length mem /\
    forall c x, nth_error mem c = Some x -> exists ts,
      Permutation ts (flat_map (act_terms c) (concat its)) /\ nth_error m c = Some (addl o x ts).
Proof.
  intros HM H. pose proof (merge_perm _ _ HM) as P.
  assert (F : Forall (fun ia : nat * act K => is_atomic (snd ia) /\ Forall (fun c => c < length mem) (footprint (snd ia))) tr).
  { apply Forall_forall. intros ia Hia. apply (in_map snd) in Hia.
    apply (Permutation_in _ P) in Hia. apply in_concat in Hia. destruct Hia as [l [Hl Ha]].
    rewrite Forall_forall in H. specialize (H l Hl). rewrite Forall_forall in H. apply (H _ Ha). }
  destruct (run_terms tr mem (fun _ => k0 o) F) as [m [reg' [E [L G]]]].
  exists m. unfold exec. rewrite E. split; [reflexivity|]. split; [exact L|].
  intros c x Hx. exists (flat_map (act_terms c) (map snd tr)). split; [|apply G, Hx].
  apply Permutation_flat_map, P.
Qed.

Lemma elt_acts_terms f k V X c :
  flat_map (act_terms c) (fsc_elt_acts o f k V X) = terms_of (cells (k * fcol f) (fsc_stmts o f V X)) c.
Proof.
  unfold fsc_elt_acts. destruct (fsc_separate f); [|apply app_nil_r].
  induction (cells (k * fcol f) (fsc_stmts o f V X)) as [|[c' ts] r IH]; cbn; [reflexivity|].
  cbn in IH. rewrite IH, app_nil_r. reflexivity.
Qed.
End Cells.

(** ** Dense products for any entry of a block *)
Section Dense.
Variable B : list R -> nat -> nat -> R.
Notation o := exact_ops.
Let RL := exact_ring.

Definition entry_row (f : fmt) (data : list (list (elt R))) (r c : nat) : R :=
  sum_over o (nth (r / frow f) data [])
    (fun e => if (e_idx e =? Z.of_nat (c / fcol f))%Z then B (e_val e) (r mod frow f) (c mod fcol f) else 0%R).

Definition elt_row_of (f : fmt) (x : list R) (p : nat) (e : elt R) : R :=
  if (e_idx e <? 0)%Z then 0%R
  else bigsum o (fcol f) (fun q => (B (e_val e) p q * at_ o x (Z.to_nat (e_idx e) * fcol f + q))%R).

Definition elt_col_of (f : fmt) (x : list R) (i k p : nat) (e : elt R) : R :=
  if (e_idx e =? Z.of_nat k)%Z
  then bigsum o (frow f) (fun q => (B (e_val e) q p * at_ o x (i * frow f + q))%R) else 0%R.

Lemma entry_row_product f data n x i p :
  0 < fcol f -> p < frow f -> in_range n data ->
  mat_vec o (n * fcol f) (entry_row f data) x (i * frow f + p) =
  sum_over o (nth i data []) (elt_row_of f x p).
Proof.
  intros PC Hp R. unfold mat_vec, entry_row.
  destruct (divmod_block i (frow f) p Hp) as [D1 D2]; rewrite D1, D2; clear D1 D2.
  rewrite (bigsum_blocks o RL).
  assert (RR : Forall (fun e => (e_idx e < Z.of_nat n)%Z) (nth i data [])).
  { destruct (nth_in_or_default i data []) as [H | ->]; [|constructor].
    unfold in_range in R. rewrite Forall_forall in R. auto. }
  set (row := nth i data []) in *. clearbody row.
  transitivity (bigsum o n (fun k => bigsum o (fcol f) (fun q => sum_over o row (fun e =>
     if (e_idx e =? Z.of_nat k)%Z then kmul o (B (e_val e) p q) (at_ o x (k * fcol f + q)) else k0 o)))).
  { apply bigsum_ext; intros k Hk. apply bigsum_ext; intros q Hq.
    destruct (divmod_block k (fcol f) q Hq) as [D1 D2]; rewrite D1, D2; clear D1 D2.
    rewrite <- (sum_over_mul_r o RL). apply sum_over_ext. intros e _. apply (if_mul_r o RL). }
  rewrite (bigsum_ext o n _ (fun k => sum_over o row (fun e => bigsum o (fcol f) (fun q =>
     if (e_idx e =? Z.of_nat k)%Z then kmul o (B (e_val e) p q) (at_ o x (k * fcol f + q)) else k0 o)))).
  2:{ intros k _. symmetry. apply (sum_over_bigsum_swap o RL). }
  rewrite <- (sum_over_bigsum_swap o RL). apply sum_over_ext. intros e He.
  rewrite Forall_forall in RR. specialize (RR e He). unfold elt_row_of.
  destruct (Z.ltb_spec (e_idx e) 0) as [Hn|Hn].
  - apply (bigsum_0 o RL). intros k _. apply (bigsum_0 o RL). intros q _.
    destruct (Z.eqb_spec (e_idx e) (Z.of_nat k)); [lia|reflexivity].
  - set (k0' := Z.to_nat (e_idx e)).
    rewrite (bigsum_ext o n _ (fun k => if k =? k0' then bigsum o (fcol f) (fun q =>
       kmul o (B (e_val e) p q) (at_ o x (k * fcol f + q))) else k0 o)).
    + apply (bigsum_single o RL n k0'). unfold k0'; lia.
    + intros k _. replace (k =? k0') with (e_idx e =? Z.of_nat k)%Z by (unfold k0'; lia).
      destruct (e_idx e =? Z.of_nat k)%Z; [reflexivity|]. apply (bigsum_0 o RL); reflexivity.
Qed.

Lemma entry_col_product f data n x k p :
  0 < frow f -> p < fcol f -> k < n ->
  mat_vec o (length data * frow f) (fun r c => entry_row f data c r) x (k * fcol f + p) =
  bigsum o (length data) (fun i => sum_over o (nth i data []) (elt_col_of f x i k p)).
Proof.
  intros PR Hp Hk. unfold mat_vec, entry_row.
  destruct (divmod_block k (fcol f) p Hp) as [D1 D2]; rewrite D1, D2; clear D1 D2.
  rewrite (bigsum_blocks o RL). apply bigsum_ext. intros i Hi.
  transitivity (bigsum o (frow f) (fun q => sum_over o (nth i data []) (fun e =>
     if (e_idx e =? Z.of_nat k)%Z then kmul o (B (e_val e) q p) (at_ o x (i * frow f + q)) else k0 o))).
  { apply bigsum_ext; intros q Hq. destruct (divmod_block i (frow f) q Hq) as [D1 D2]; rewrite D1, D2; clear D1 D2.
    rewrite <- (sum_over_mul_r o RL). apply sum_over_ext. intros e _. apply (if_mul_r o RL). }
  rewrite <- (sum_over_bigsum_swap o RL). apply sum_over_ext. intros e _. unfold elt_col_of.
  destruct (e_idx e =? Z.of_nat k)%Z; [reflexivity|]. apply (bigsum_0 o RL); reflexivity.
Qed.
End Dense.

(** ** Tracking *)
Section Track.
Variables radd rmul : R -> R -> R.
Notation o := (Ops R 0%R 1%R radd rmul Ropp).
Notation eo := exact_ops.
Variable F : R -> Prop.
(** [T k c e m]: c is computed for the exact value e with k products of magnitude m. *)
Variables T A : nat -> R -> R -> R -> Prop.
Hypothesis F0 : F 0%R.
Hypothesis Tprod : forall a b, F a -> F b -> T 1 (rmul a b) (a * b) (Rabs a * Rabs b).
Hypothesis Topp : forall k c e m, T k c e m -> T k (- c) (- e) m.
Hypothesis Tadd : forall k c e m k' c' e' m', T k c e m -> T k' c' e' m' -> T (k + k') (radd c c') (e + e') (m + m').
Hypothesis A0 : forall x, F x -> A 0 x x (Rabs x).
Hypothesis Aadd : forall k c e m k' c' e' m', A k c e m -> T k' c' e' m' -> A (k + k') (radd c c') (e + e') (m + m').

Inductive tl : list R -> nat -> R -> R -> Prop :=
| tl_nil : tl [] 0 0 0
| tl_cons t k e m ts k' e' m' : T k t e m -> tl ts k' e' m' -> tl (t :: ts) (k + k') (e + e') (m + m').

Lemma tl_eq ts k e m k' e' m' : tl ts k e m -> k = k' -> e = e' -> m = m' -> tl ts k' e' m'.
Proof. intros; subst; assumption. Qed.

Lemma tl_app l r k e m k' e' m' : tl l k e m -> tl r k' e' m' -> tl (l ++ r) (k + k') (e + e') (m + m').
Proof.
  intros H H'. induction H; cbn.
  - eapply tl_eq; [exact H'|lia|lra|lra].
  - eapply tl_eq; [econstructor; [exact H|exact IHtl]|lia|lra|lra].
Qed.

Lemma tl_perm l r : Permutation l r -> forall k e m, tl l k e m -> tl r k e m.
Proof.
  induction 1 as [|x l r P IH|x y l|l1 l2 l3 P1 IH1 P2 IH2]; intros k e m H.
  - exact H.
  - inversion H; subst. constructor; auto.
  - inversion H as [|? ? ? ? ? ? ? ? H1 H2]; subst. inversion H2 as [|? ? ? ? ? ? ? ? H3 H4]; subst.
    eapply tl_eq; [econstructor; [exact H3|econstructor; [exact H1|exact H4]]|lia|lra|lra].
  - auto.
Qed.

Lemma addl_tl ts : forall k e m k' c e' m', A k' c e' m' -> tl ts k e m -> A (k' + k) (addl o c ts) (e' + e) (m' + m).
Proof.
  induction ts as [|t r IH]; intros k e m k' c e' m' H Ht; inversion Ht; subst.
  - cbn. rewrite Nat.add_0_r, !Rplus_0_r. exact H.
  - cbn [addl fold_left]. rewrite Nat.add_assoc, <- !Rplus_assoc.
    apply IH; [|assumption]. cbn. apply Aadd; assumption.
Qed.

(** Statements of a block. *)
Definition tspec (ts : list R) (w : nat) (E M : R) : Prop := exists k, tl ts k E M /\ k <= w.

Ltac terms :=
  repeat first [apply tl_nil | eapply tl_cons; [first [apply Tprod; auto | apply Topp, Tprod; auto
     | apply Tadd; [first [apply Tprod; auto | apply Topp, Tprod; auto] | first [apply Tprod; auto | apply Topp, Tprod; auto]]] |]].

Ltac finish := unfold fval; cbn -[at_ Rabs]; rewrite ?Rabs_Ropp, ?Rabs_R0; try lia; try ring; auto.

Lemma abs_if (b : bool) (v y : R) : (Rabs (if b then v else 0) * Rabs y)%R = if b then (Rabs v * Rabs y)%R else 0%R.
Proof. destruct b; [reflexivity|]. rewrite Rabs_R0. ring. Qed.

Lemma row_tl f v X p : supported f -> p < frow f -> (forall i, F (at_ eo v i)) -> (forall q, F (X q)) ->
  tspec (nth p (fsr_stmts o f (at_ eo v) X) []) (line_width FSR f)
    (bigsum eo (fcol f) (fun q => (block_entry eo f v p q * X q)%R))
    (bigsum eo (fcol f) (fun q => (Rabs (block_entry eo f v p q) * Rabs (X q))%R)).
Proof.
  destruct f as [e|m n| |]; cbn [supported frow fcol block_entry]; intros S Hp Fv FX.
  - cbn [fsr_stmts]. rewrite (nth_map_d _ _ 0) by (rewrite seq_length; auto).
    rewrite seq_nth by auto. cbn [Nat.add].
    rewrite (bigsum_ext eo e _ (fun q => if q =? p then (at_ eo v 0 * X q)%R else k0 eo)).
    2:{ intros q _. rewrite (Nat.eqb_sym p q). destruct (q =? p); cbn; ring. }
    rewrite (bigsum_single eo exact_ring e p (fun q => (at_ eo v 0 * X q)%R)) by auto.
    rewrite (bigsum_ext eo e (fun q => (Rabs _ * _)%R) (fun q => if q =? p then (Rabs (at_ eo v 0) * Rabs (X q))%R else k0 eo)).
    2:{ intros q _. rewrite (Nat.eqb_sym p q). apply abs_if. }
    rewrite (bigsum_single eo exact_ring e p (fun q => (Rabs (at_ eo v 0) * Rabs (X q))%R)) by auto.
    eexists. split; [eapply tl_eq; [terms|reflexivity| |]|]; finish.
  - destruct S as [H1 [H2 H3]].
    destruct m as [|[|[|[|m]]]]; try lia; destruct n as [|[|[|[|n]]]]; try lia; try congruence;
    destruct p as [|[|[|p]]]; try lia; cbn [fsr_stmts nth];
    (eexists; split; [eapply tl_eq; [terms|reflexivity| |]|]; finish).
  - destruct p as [|[|p]]; try lia; cbn [fsr_stmts nth];
    (eexists; split; [eapply tl_eq; [terms|reflexivity| |]|]; finish).
  - destruct p as [|[|[|p]]]; try lia; cbn [fsr_stmts nth];
    (eexists; split; [eapply tl_eq; [terms|reflexivity| |]|]; finish).
Qed.

Lemma col_tl f v X p : supported f -> p < fcol f -> (forall i, F (at_ eo v i)) -> (forall q, F (X q)) ->
  tspec (nth p (fsc_stmts o f (at_ eo v) X) []) (line_width FSC f)
    (bigsum eo (frow f) (fun q => (block_entry eo f v q p * X q)%R))
    (bigsum eo (frow f) (fun q => (Rabs (block_entry eo f v q p) * Rabs (X q))%R)).
Proof.
  destruct f as [e|m n| |]; cbn [supported frow fcol block_entry]; intros S Hp Fv FX.
  - cbn [fsc_stmts]. rewrite (nth_map_d _ _ 0) by (rewrite seq_length; auto).
    rewrite seq_nth by auto. cbn [Nat.add].
    rewrite (bigsum_ext eo e _ (fun q => if q =? p then (at_ eo v 0 * X q)%R else k0 eo)).
    2:{ intros q _. destruct (q =? p); cbn; ring. }
    rewrite (bigsum_single eo exact_ring e p (fun q => (at_ eo v 0 * X q)%R)) by auto.
    rewrite (bigsum_ext eo e (fun q => (Rabs _ * _)%R) (fun q => if q =? p then (Rabs (at_ eo v 0) * Rabs (X q))%R else k0 eo)).
    2:{ intros q _. apply abs_if. }
    rewrite (bigsum_single eo exact_ring e p (fun q => (Rabs (at_ eo v 0) * Rabs (X q))%R)) by auto.
    eexists. split; [eapply tl_eq; [terms|reflexivity| |]|]; finish.
  - destruct S as [H1 [H2 H3]].
    destruct m as [|[|[|[|m]]]]; try lia; destruct n as [|[|[|[|n]]]]; try lia; try congruence;
    destruct p as [|[|[|p]]]; try lia; cbn [fsc_stmts nth];
    (eexists; split; [eapply tl_eq; [terms|reflexivity| |]|]; finish).
  - destruct p as [|[|p]]; try lia; cbn [fsc_stmts nth];
    (eexists; split; [eapply tl_eq; [terms|reflexivity| |]|]; finish).
  - destruct p as [|[|[|p]]]; try lia; cbn [fsc_stmts nth];
    (eexists; split; [eapply tl_eq; [terms|reflexivity| |]|]; finish).
Qed.

(** Rows and columns. *)
Definition ab (f : fmt) (v : list R) (p q : nat) : R := Rabs (block_entry eo f v p q).

Lemma at_map_abs x i : at_ eo (map Rabs x) i = Rabs (at_ eo x i).
Proof. unfold at_. rewrite <- Rabs_R0 at 1. apply map_nth. Qed.

Lemma stored_at l : (forall v, In v l -> F v) -> forall i, F (at_ eo l i).
Proof. intros H i. unfold at_. change (k0 eo) with 0%R. destruct (nth_in_or_default i l 0%R) as [Hi| ->]; [auto|exact F0]. Qed.

Lemma elt_tl f x (e : elt R) p i : supported f -> p < frow f ->
  (forall v, In v (e_val e) -> F v) -> (forall v, In v x -> F v) -> (0 <= e_idx e)%Z ->
  tspec (terms_of (cells (i * frow f) (fsr_stmts o f (vals o e) (comps o x (fcol f) (Z.to_nat (e_idx e))))) (i * frow f + p))
    (line_width FSR f) (elt_row_of (block_entry eo f) f x p e) (elt_row_of (ab f) f (map Rabs x) p e).
Proof.
  intros S Hp Fv Fx Hi. rewrite terms_of_cells, fsr_stmts_length by auto.
  replace ((i * frow f <=? i * frow f + p) && (i * frow f + p <? i * frow f + frow f)) with true by lia.
  replace (i * frow f + p - i * frow f) with p by lia.
  pose proof (row_tl f (e_val e) (comps o x (fcol f) (Z.to_nat (e_idx e))) p S Hp (stored_at _ Fv)) as H.
  unfold elt_row_of. replace (e_idx e <? 0)%Z with false by lia.
  rewrite (bigsum_ext eo (fcol f) (fun q => (ab f (e_val e) p q * at_ eo (map Rabs x) (Z.to_nat (e_idx e) * fcol f + q))%R)
    (fun q => (Rabs (block_entry eo f (e_val e) p q) * Rabs (comps o x (fcol f) (Z.to_nat (e_idx e)) q))%R)).
  - apply H. intros q. apply (stored_at x Fx).
  - intros q _. unfold ab. rewrite at_map_abs. reflexivity.
Qed.

Lemma row_terms_tl f x row p i : supported f -> p < frow f ->
  (forall e v, In e row -> In v (e_val e) -> F v) -> (forall v, In v x -> F v) ->
  tspec (terms_of (row_stmts o f x i row) (i * frow f + p))
    (line_width FSR f * count (fun e => (0 <=? e_idx e)%Z) row)
    (sum_over eo row (elt_row_of (block_entry eo f) f x p))
    (sum_over eo row (elt_row_of (ab f) f (map Rabs x) p)).
Proof.
  intros S Hp Fv Fx. unfold row_stmts. rewrite terms_of_flat.
  induction row as [|e r IH].
  - exists 0. split; [apply tl_nil|lia].
  - destruct IH as [k [Hk Lk]]; [intros; eapply Fv; [right; eassumption|assumption]|].
    cbn [flat_map sum_over]. unfold count in *. cbn [filter].
    destruct (Z.ltb_spec (e_idx e) 0) as [N|N].
    + replace (0 <=? e_idx e)%Z with false by lia. exists k. split; [|exact Lk]. cbn [terms_of flat_map app].
      eapply tl_eq; [exact Hk|reflexivity| |]; unfold elt_row_of at 2; replace (e_idx e <? 0)%Z with true by lia; cbn; lra.
    + replace (0 <=? e_idx e)%Z with true by lia. cbn [length].
      destruct (elt_tl f x e p i S Hp (fun v => Fv e v (or_introl eq_refl)) Fx N) as [k' [Hk' Lk']].
      exists (k' + k). split; [apply tl_app; assumption|nia].
Qed.

Lemma col_elt_tl f x (e : elt R) p k i : supported f -> p < fcol f ->
  (forall v, In v (e_val e) -> F v) -> (forall v, In v x -> F v) ->
  tspec (if (e_idx e <? 0)%Z then [] else
     terms_of (cells (Z.to_nat (e_idx e) * fcol f) (fsc_stmts o f (vals o e) (comps o x (frow f) i))) (k * fcol f + p))
    (if (e_idx e =? Z.of_nat k)%Z then line_width FSC f else 0)
    (elt_col_of (block_entry eo f) f x i k p e) (elt_col_of (ab f) f (map Rabs x) i k p e).
Proof.
  intros S Hp Fv Fx. unfold elt_col_of. destruct (Z.ltb_spec (e_idx e) 0) as [N|N].
  { replace (e_idx e =? Z.of_nat k)%Z with false by lia. exists 0. split; [apply tl_nil|lia]. }
  rewrite terms_of_cells, fsc_stmts_length by auto.
  destruct (Z.eqb_spec (e_idx e) (Z.of_nat k)) as [Ek|Ek].
  - rewrite Ek, Nat2Z.id.
    replace ((k * fcol f <=? k * fcol f + p) && (k * fcol f + p <? k * fcol f + fcol f)) with true by lia.
    replace (k * fcol f + p - k * fcol f) with p by lia.
    pose proof (col_tl f (e_val e) (comps o x (frow f) i) p S Hp (stored_at _ Fv)) as H.
    rewrite (bigsum_ext eo (frow f) (fun q => (ab f (e_val e) q p * at_ eo (map Rabs x) (i * frow f + q))%R)
      (fun q => (Rabs (block_entry eo f (e_val e) q p) * Rabs (comps o x (frow f) i q))%R)).
    + apply H. intros q. apply (stored_at x Fx).
    + intros q _. unfold ab. rewrite at_map_abs. reflexivity.
  - destruct ((Z.to_nat (e_idx e) * fcol f <=? k * fcol f + p) &&
              (k * fcol f + p <? Z.to_nat (e_idx e) * fcol f + fcol f)) eqn:B.
    + exfalso. apply andb_prop in B. destruct B as [B1 B2].
      apply Nat.leb_le in B1. apply Nat.ltb_lt in B2. apply Ek.
      assert (Z.to_nat (e_idx e) = k) by nia. lia.
    + exists 0. split; [apply tl_nil|lia].
Qed.

Lemma col_row_tl f x row p k i : supported f -> p < fcol f ->
  (forall e v, In e row -> In v (e_val e) -> F v) -> (forall v, In v x -> F v) ->
  tspec (flat_map (act_terms (k * fcol f + p)) (concat (col_acts o f x i row)))
    (line_width FSC f * count (fun e => (e_idx e =? Z.of_nat k)%Z) row)
    (sum_over eo row (elt_col_of (block_entry eo f) f x i k p))
    (sum_over eo row (elt_col_of (ab f) f (map Rabs x) i k p)).
Proof.
  intros S Hp Fv Fx. unfold col_acts, count. induction row as [|e r IH].
  - exists 0. split; [apply tl_nil|lia].
  - destruct IH as [k1 [Hk Lk]]; [intros; eapply Fv; [right; eassumption|assumption]|].
    cbn [map concat sum_over filter]. rewrite flat_map_app.
    destruct (col_elt_tl f x e p k i S Hp (fun v => Fv e v (or_introl eq_refl)) Fx) as [k2 [Hk' Lk']].
    exists (k2 + k1). split.
    + apply tl_app; [|exact Hk]. destruct (e_idx e <? 0)%Z; [exact Hk'|].
      rewrite elt_acts_terms. exact Hk'.
    + destruct (e_idx e =? Z.of_nat k)%Z; cbn [length]; nia.
Qed.

Lemma col_data_tl f x data p k : supported f -> p < fcol f ->
  (forall row e v, In row data -> In e row -> In v (e_val e) -> F v) -> (forall v, In v x -> F v) -> forall i,
  tspec (flat_map (act_terms (k * fcol f + p)) (concat (mapi (fun i row => concat (col_acts o f x i row)) i data)))
    (line_width FSC f * count (fun e => (e_idx e =? Z.of_nat k)%Z) (concat data))
    (bigsum eo (length data) (fun j => sum_over eo (nth j data []) (elt_col_of (block_entry eo f) f x (i + j) k p)))
    (bigsum eo (length data) (fun j => sum_over eo (nth j data []) (elt_col_of (ab f) f (map Rabs x) (i + j) k p))).
Proof.
  intros S Hp Fv Fx. induction data as [|row r IH]; intros i.
  - exists 0. split; [apply tl_nil|lia].
  - destruct (IH (fun row0 e v H => Fv row0 e v (or_intror H)) (Datatypes.S i)) as [k1 [Hk Lk]].
    cbn [mapi concat]. rewrite flat_map_app. unfold count in *. rewrite filter_app, app_length.
    destruct (col_row_tl f x row p k i S Hp (fun e v => Fv row e v (or_introl eq_refl)) Fx) as [k2 [Hk' Lk']].
    unfold count in Lk'. exists (k2 + k1). split; [|nia].
    eapply tl_eq; [apply tl_app; [exact Hk'|exact Hk]|reflexivity| |];
    cbn [length]; rewrite (bigsum_S_l eo exact_ring); cbn [nth]; rewrite Nat.add_0_r;
    (apply (f_equal2 Rplus); [reflexivity|]); apply bigsum_ext; intros j _; rewrite <- Nat.add_succ_comm; reflexivity.
Qed.

(** Kernels. *)
Lemma fsr_tracked f n data x its tr out :
  supported f -> in_range n data -> length out = length data * frow f ->
  (forall row e v, In row data -> In e row -> In v (e_val e) -> F v) -> (forall v, In v x -> F v) ->
  (forall v, In v out -> F v) ->
  fsr_kernel o f n data x = Some its -> merge its tr ->
  exists m, exec o tr out = Some m /\ length m = length out /\
    forall r, r < length out -> exists k,
      k <= line_width FSR f * count (fun e => (0 <=? e_idx e)%Z) (nth (r / frow f) data []) /\
      A k (at_ eo m r)
        (at_ eo out r + mat_vec eo (n * fcol f) (dense eo FSR f data) x r)
        (Rabs (at_ eo out r) + mat_vec eo (n * fcol f) (abs_row f data) (map Rabs x) r).
Proof.
  intros S RG L Fv Fx Fo E HM. pose proof (supported_pos f S) as [PR PC].
  destruct (fsr_exec o f n data x its tr out S RG L E HM) as [m [Em [Lm G]]].
  exists m. split; [exact Em|]. split; [exact Lm|]. intros r Hr.
  assert (Hd : r = (r / frow f) * frow f + r mod frow f) by (rewrite Nat.mul_comm; apply Nat.div_mod; lia).
  assert (Hp : r mod frow f < frow f) by (apply Nat.mod_upper_bound; lia).
  set (i := r / frow f) in *. set (p := r mod frow f) in *.
  assert (Hi : i < length data) by nia.
  destruct (nth_error out (i * frow f + p)) as [v|] eqn:Ev; [|apply nth_error_None in Ev; nia].
  pose proof (G i p v Hi Hp Ev) as Gm. rewrite seq_cell_terms in Gm.
  assert (Fi : forall e v, In e (nth i data []) -> In v (e_val e) -> F v).
  { intros e v' H1 H2. apply (Fv (nth i data []) e v'); auto. apply nth_In; exact Hi. }
  destruct (row_terms_tl f x (nth i data []) p i S Hp Fi Fx) as [k [Hk Lk]].
  exists k. split; [exact Lk|].
  assert (Av : at_ eo out r = v) by (rewrite Hd; exact (nth_error_nth _ _ _ Ev)).
  assert (Am : at_ eo m r = addl o v (terms_of (row_stmts o f x i (nth i data [])) (i * frow f + p))).
  { unfold at_. rewrite Hd. exact (nth_error_nth _ _ _ Gm). }
  rewrite Am, Av. rewrite Hd.
  change (dense eo FSR f data) with (entry_row (block_entry eo f) f data).
  change (abs_row f data) with (entry_row (ab f) f data).
  rewrite !entry_row_product by auto.
  apply (addl_tl _ k _ _ 0 v v (Rabs v)); [|exact Hk]. apply A0, Fo. eapply nth_error_In; exact Ev.
Qed.

Lemma fsc_tracked f n data x its tr out :
  supported f -> in_range n data -> length out = n * fcol f ->
  (forall row e v, In row data -> In e row -> In v (e_val e) -> F v) -> (forall v, In v x -> F v) ->
  (forall v, In v out -> F v) ->
  fsc_kernel o f n data x = Some its -> merge its tr ->
  exists m, exec o tr out = Some m /\ length m = length out /\
    forall r, r < length out -> exists k,
      k <= line_width FSC f * count (fun e => (e_idx e =? Z.of_nat (r / fcol f))%Z) (concat data) /\
      A k (at_ eo m r)
        (at_ eo out r + mat_vec eo (length data * frow f) (dense eo FSC f data) x r)
        (Rabs (at_ eo out r) + mat_vec eo (length data * frow f) (fun r c => abs_row f data c r) (map Rabs x) r).
Proof.
  intros S RG L Fv Fx Fo E HM. pose proof (supported_pos f S) as [PR PC].
  rewrite (fsc_kernel_some o _ _ _ _ RG) in E. inversion E; subst its; clear E.
  destruct (exec_terms o _ tr out HM) as [m [Em [Lm G]]].
  { apply Forall_forall. intros l Hl. apply In_nth_error in Hl. destruct Hl as [i Hl].
    rewrite mapi_nth in Hl. cbn in Hl.
    destruct (nth_error data i) as [row|] eqn:Er; [|discriminate]. cbn in Hl; inversion Hl; subst l; clear Hl.
    assert (Rr : Forall (fun e => (e_idx e < Z.of_nat n)%Z) row).
    { unfold in_range in RG. rewrite Forall_forall in RG. apply RG. eapply nth_error_In; eauto. }
    apply Forall_concat. unfold col_acts. rewrite Forall_map. eapply Forall_impl; [|exact Rr].
    cbn. intros e He. destruct (Z.ltb_spec (e_idx e) 0); [constructor|].
    apply elt_acts_ok; auto. rewrite L. nia. }
  exists m. split; [exact Em|]. split; [exact Lm|]. intros r Hr.
  assert (Hd : r = (r / fcol f) * fcol f + r mod fcol f) by (rewrite Nat.mul_comm; apply Nat.div_mod; lia).
  assert (Hp : r mod fcol f < fcol f) by (apply Nat.mod_upper_bound; lia).
  set (i := r / fcol f) in *. set (p := r mod fcol f) in *.
  assert (Hi : i < n) by nia.
  destruct (nth_error out r) as [v|] eqn:Ev; [|apply nth_error_None in Ev; lia].
  destruct (G r v Ev) as [ts [P Gm]].
  destruct (col_data_tl f x data p i S Hp Fv Fx 0) as [k [Hk Lk]].
  exists k. split; [exact Lk|].
  assert (Av : at_ eo out r = v) by exact (nth_error_nth _ _ _ Ev).
  assert (Am : at_ eo m r = addl o v ts) by exact (nth_error_nth _ _ _ Gm).
  rewrite Am, Av. rewrite Hd.
  change (dense eo FSC f data) with (fun r c => entry_row (block_entry eo f) f data c r).
  change (fun r c => abs_row f data c r) with (fun r c => entry_row (ab f) f data c r).
  rewrite !(entry_col_product _ f data n) by auto.
  apply (addl_tl _ k _ _ 0 v v (Rabs v)); [apply A0, Fo; eapply nth_error_In; exact Ev|].
  apply (tl_perm (flat_map (act_terms r) (concat (mapi (fun i row => concat (col_acts o f x i row)) 0 data)))).
  - apply Permutation_sym, P.
  - rewrite Hd at 1. exact Hk.
Qed.

Lemma kernel_tracked sched (M : matrix R) extra v out :
  well_formed M -> scheduler sched -> allowed_extra M extra -> 0 < mx_cols M ->
  length v = extra * mx_cols M -> length out = extra * mx_rows M ->
  stored_values F M -> (forall y, In y v -> F y) -> (forall y, In y out -> F y) ->
  exists r,
    match kernel_of o true M v with
    | Some its => exec o (trace_of true sched its) out
    | None => None
    end = Some r /\ length r = extra * mx_rows M /\
    forall c, c < extra * mx_rows M -> exists k, k <= products M extra c /\
      A k (at_ eo r c) (exact_value M extra v out c) (magnitude M extra v out c).
Proof.
  intros W S AL PCols Lv Lo Fv Fx Fo. pose proof W as [C [nr [nc [Hr [Hc D]]]]].
  assert (E : extra_size M (length v) = extra).
  { unfold extra_size, allowed_extra in *. destruct (mx_kind M); auto.
    rewrite Lv. apply div_mul_exact; auto. }
  unfold kernel_of, exact_value, magnitude, products, dense_of, abs_dense. rewrite E.
  pose proof (wf_fmt M extra W AL) as SF. pose proof (supported_pos _ SF) as [PR PC].
  pose proof (wf_dims M extra nr nc C AL Hr Hc) as DM.
  set (f := fmt_of M extra) in *.
  destruct (mx_axis M).
  - destruct D as [DL DR]. destruct DM as [D1 [D2 D3]]. rewrite D3, <- D1, <- DL.
    cbn [trace_of]. destruct (fsc_kernel o f nr (mx_data M) v) as [its|] eqn:EK.
    + destruct (fsc_tracked f nr (mx_data M) v its (sched its) out) as [m [Em [Lm G]]]; auto; try lia.
      exists m. split; [exact Em|]. split; [lia|]. intros c Hc'. apply G. lia.
    + rewrite fsc_kernel_some in EK by auto. discriminate.
  - destruct D as [DL DR]. destruct DM as [D1 [D2 D3]]. rewrite D3, <- D2.
    cbn [trace_of]. destruct (fsr_kernel o f nc (mx_data M) v) as [its|] eqn:EK.
    + destruct (fsr_tracked f nc (mx_data M) v its (sched its) out) as [m [Em [Lm G]]]; auto; try lia.
      exists m. split; [exact Em|]. split; [lia|]. intros c Hc'. apply G. lia.
    + rewrite fsr_kernel_some in EK by auto. discriminate.
Qed.

Lemma matvec_tracked sched (M : matrix R) extra v out :
  well_formed M -> scheduler sched -> allowed_extra M extra -> 0 < mx_cols M -> 0 < mx_rows M ->
  length v = extra * mx_cols M -> length out = extra * mx_rows M ->
  stored_values F M -> (forall y, In y v -> F y) -> (forall y, In y out -> F y) ->
  exists r, matvec o true sched M v (Some out) = Ok (Some r) /\ length r = extra * mx_rows M /\
    forall c, c < extra * mx_rows M -> exists k, k <= products M extra c /\
      A k (at_ eo r c) (exact_value M extra v out c) (magnitude M extra v out c).
Proof.
  intros W S AL P PR Lv Lo Fv Fx Fo.
  destruct (kernel_tracked sched M extra v out W S AL P Lv Lo Fv Fx Fo) as [r [E H]].
  exists r. split; [|exact H]. unfold matvec.
  rewrite (validatein_ok M extra _ AL P Lv). cbn [bind].
  rewrite (outsize_ok M extra _ P Lv). cbn [bind].
  rewrite Lo, Nat.eqb_refl. rewrite (validateout_ok M extra _ AL PR eq_refl). cbn [bind].
  rewrite E. reflexivity.
Qed.

Lemma matvec_tracked_none sched (M : matrix R) extra v :
  well_formed M -> scheduler sched -> allowed_extra M extra -> 0 < mx_cols M ->
  length v = extra * mx_cols M ->
  stored_values F M -> (forall y, In y v -> F y) ->
  exists r, matvec o true sched M v None = Ok (Some r) /\ length r = extra * mx_rows M /\
    forall c, c < extra * mx_rows M -> exists k, k <= products M extra c /\
      A k (at_ eo r c) (exact_value M extra v (repeat 0%R (extra * mx_rows M)) c)
        (magnitude M extra v (repeat 0%R (extra * mx_rows M)) c).
Proof.
  intros W S AL P Lv Fv Fx.
  destruct (kernel_tracked sched M extra v (repeat 0%R (extra * mx_rows M)) W S AL P Lv (repeat_length _ _) Fv Fx) as [r [E H]].
  { intros y Hy. apply repeat_spec in Hy. subst. exact F0. }
  exists r. split; [|exact H]. unfold matvec.
  rewrite (validatein_ok M extra _ AL P Lv). cbn [bind].
  rewrite (outsize_ok M extra _ P Lv). cbn [bind]. cbn [k0].
  rewrite E. reflexivity.
Qed.
End Track.
