(** Lemmas on the truncated exponential response. *)
From Coq Require Import Lia Permutation.
From Verif Require Import Base BaseFacts SparseModel SparseSpec RingFacts TrexpModel TrexpSpec.
Open Scope nat_scope.

Section Facts.
Context {K : Type} (o : ops K).
Variable RL : ring_laws o.
Let RT : ring_theory (k0 o) (k1 o) (kadd o) (kmul o) (fun a b => kadd o a (kopp o b)) (kopp o) eq := RL.
Add Ring KringTrexp : RT.
Local Notation at_ := (at_ o).
Local Notation tau := (@tau K).

Lemma at_set m c x j : c < length m -> at_ (set_nth m c x) j = if Nat.eqb j c then x else at_ m j.
Proof.
  intros H. unfold SparseSpec.at_. destruct (Nat.eqb_spec j c) as [E|D].
  - subst j. apply nth_error_nth. apply set_nth_same; auto.
  - destruct (Nat.lt_ge_cases j (length m)) as [L|L].
    + apply nth_error_nth. rewrite set_nth_other by auto. apply nth_error_nth'; auto.
    + rewrite !nth_overflow; auto. rewrite set_nth_length; auto.
Qed.
Lemma nth_error_at m c : c < length m -> nth_error m c = Some (at_ m c).
Proof. intros. apply nth_error_nth'; auto. Qed.
Lemma wr_ok (m : list K) c x : c < length m -> wr m c x = Some (set_nth m c x).
Proof. intros H. unfold wr, update. rewrite nth_error_at by auto. reflexivity. Qed.

Lemma loop_app body (a b : list nat) (m : list K) :
  loop body (a ++ b) m = match loop body a m with Some m' => loop body b m' | None => None end.
Proof. revert m. induction a as [|i r IH]; intros m; cbn; [reflexivity|]. destruct (body i m); auto. Qed.

(** [m'] has the values [f] on the section, and is [m] elsewhere. *)
Definition section (b : nat) (P : nat -> Prop) (f : nat -> K) (m m' : list K) : Prop :=
  length m' = length m /\ (forall i, P i -> at_ m' (b + i) = f i) /\
  (forall c, (forall i, P i -> c <> b + i) -> nth_error m' c = nth_error m c).

(** A loop writing cell i from the current memory. *)
Lemma loop_up b n a k body f m :
  a + k <= n -> b + n <= length m ->
  (forall i m1, a <= i < a + k -> section b (fun j => a <= j < i) f m m1 -> exists x, body i m1 = wr m1 (b + i) x /\ x = f i) ->
  exists m', loop body (seq a k) m = Some m' /\ section b (fun j => a <= j < a + k) f m m'.
Proof.
  induction k as [|k IH]; intros Hn HL Hb.
  - exists m. split; [reflexivity|]. split; [reflexivity|]. split; [intros; lia|reflexivity].
  - destruct IH as [m1 [E [L1 [V1 O1]]]]; [lia|auto|intros i m1 Hi S; apply Hb; auto; lia|].
    rewrite seq_S, loop_app, E. cbn.
    destruct (Hb (a + k) m1) as [x [Ex ->]]; [lia|split; [auto|split; auto]|]. rewrite Ex, wr_ok by lia.
    eexists. split; [reflexivity|]. split; [rewrite set_nth_length; auto|]. split.
    + intros i Hi. rewrite at_set by lia. destruct (Nat.eqb_spec (b + i) (b + (a + k))) as [Q|Q].
      * f_equal. lia.
      * apply V1. lia.
    + intros c Hc. rewrite set_nth_other by (intros <-; apply (Hc (a + k)); lia). apply O1. intros i Hi. apply Hc. lia.
Qed.

Lemma loop_down b n a k body f m :
  a + k <= n -> b + n <= length m ->
  (forall i m1, a <= i < a + k -> section b (fun j => i < j < a + k) f m m1 -> exists x, body i m1 = wr m1 (b + i) x /\ x = f i) ->
  exists m', loop body (rev (seq a k)) m = Some m' /\ section b (fun j => a <= j < a + k) f m m'.
Proof.
  revert a. induction k as [|k IH]; intros a Hn HL Hb.
  - exists m. split; [reflexivity|]. split; [reflexivity|]. split; [intros; lia|reflexivity].
  - destruct (IH (S a)) as [m1 [E [L1 [V1 O1]]]]; [lia|auto|intros i m1 Hi S; apply Hb; [lia|]|].
    { destruct S as [s1 [s2 s3]]. split; [auto|]. split; [intros; apply s2; lia|]. intros c Hc. apply s3. intros; apply Hc; lia. }
    cbn [seq rev]. rewrite loop_app, E. cbn.
    destruct (Hb a m1) as [x [Ex ->]]; [lia|split; [auto|split]|]; [intros; apply V1; lia|intros c Hc; apply O1; intros; apply Hc; lia|].
    rewrite Ex, wr_ok by lia. eexists. split; [reflexivity|]. split; [rewrite set_nth_length; auto|]. split.
    + intros i Hi. rewrite at_set by lia. destruct (Nat.eqb_spec (b + i) (b + a)) as [Q|Q].
      * f_equal. lia.
      * apply V1. lia.
    + intros c Hc. rewrite set_nth_other by (intros <-; apply (Hc a); lia). apply O1. intros i Hi. apply Hc. lia.
Qed.

(** A routine computing the section [b, b+n) as [f]. *)
Definition computes (b n : nat) (f : nat -> K) (m : list K) (r : option (list K)) : Prop :=
  exists m', r = Some m' /\ section b (fun i => i < n) f m m'.

Lemma section_ext b (P Q : nat -> Prop) f g m m' : (forall i, P i <-> Q i) -> (forall i, P i -> f i = g i) ->
  section b P f m m' -> section b Q g m m'.
Proof.
  intros H E [a [v u]]. split; [auto|]. split.
  - intros i Hi. rewrite <- E by (apply H; auto). apply v, H; auto.
  - intros c Hc. apply u. intros i Hi. apply Hc, H; auto.
Qed.

Lemma computes_ext b n f g m r : (forall i, i < n -> f i = g i) -> computes b n f m r -> computes b n g m r.
Proof. intros E [m' [e s]]. exists m'. split; [auto|]. eapply section_ext; [| |exact s]; [tauto|auto]. Qed.

Lemma fill_ok b n x m : b + n <= length m -> computes b n (fun _ => x) m (fill b n x m).
Proof.
  intros H. destruct (loop_up b n 0 n (fun i m => wr m (b + i) x) (fun _ => x) m) as [m' [E S]]; [lia|lia|intros; eauto|].
  exists m'. split; [exact E|]. refine (section_ext b (fun j => 0 <= j < 0 + n) _ _ _ m m' _ _ S); [intros; split; lia|reflexivity].
Qed.

Lemma copy_ok src bs b n m : b + n <= length m -> bs + n <= length src ->
  computes b n (fun i => at_ src (bs + i)) m (copy src bs b n m).
Proof.
  intros H H'. destruct (loop_up b n 0 n (fun i m => store m (b + i) (nth_error src (bs + i))) (fun i => at_ src (bs + i)) m) as [m' [E S]]; [lia|lia| |].
  - intros i m1 Hi _. exists (at_ src (bs + i)). rewrite nth_error_at by lia. split; reflexivity.
  - exists m'. split; [exact E|]. refine (section_ext b (fun j => 0 <= j < 0 + n) _ _ _ m m' _ _ S); [intros; split; lia|reflexivity].
Qed.

(** ** Direct *)
Fixpoint forward (w : K) (g : nat -> K) (i : nat) : K :=
  match i with O => g 0 | S p => smooth o w (forward w g p) (g (S p)) end.

Lemma direct_in_pos b n w vi m : b + n <= length m ->
  computes b n (forward w (fun i => at_ m (b + i))) m (direct_in o b n (TPos w vi) m).
Proof.
  intros H. set (g := fun i => at_ m (b + i)). cbn [direct_in].
  destruct n as [|n].
  { exists m. split; [reflexivity|]. split; [reflexivity|]. split; [intros; lia|reflexivity]. }
  edestruct (loop_up b (S n) 1 n) as [m' [E SE]]; [| | |exists m'; split; [replace (S n - 1) with n by lia; exact E|]]; [lia|lia| |].
  - intros i m1 Hi SE. exists (forward w g i). split; [|reflexivity]. destruct SE as [L1 [V1 O1]].
    destruct i as [|i]; [lia|]. replace (S i - 1) with i by lia. cbn [forward].
    assert (A : nth_error m1 (b + i) = Some (forward w g i)).
    { rewrite nth_error_at by lia. destruct i as [|i]; [|rewrite V1 by lia; reflexivity].
      f_equal. cbn. unfold g, SparseSpec.at_. apply nth_error_nth. rewrite O1 by (intros; lia). apply nth_error_at. lia. }
    assert (B : nth_error m1 (b + S i) = Some (g (S i))).
    { rewrite O1 by (intros; lia). apply nth_error_at. lia. }
    rewrite A, B. reflexivity.
  - destruct SE as [L1 [V1 O1]]. split; [auto|]. split.
    + intros [|i] Hi; [|apply V1; lia]. cbn. unfold g, SparseSpec.at_. apply nth_error_nth. rewrite O1 by (intros; lia). apply nth_error_at. lia.
    + intros c Hc. apply O1. intros; apply Hc; lia.
Qed.

Lemma direct_out_pos src bs b n w vi m : 1 <= n -> b + n <= length m -> bs + n <= length src ->
  computes b n (forward w (fun i => at_ src (bs + i))) m (direct_out o src bs b n (TPos w vi) m).
Proof.
  intros Hn H H'. set (g := fun i => at_ src (bs + i)). cbn [direct_out].
  rewrite nth_error_at by lia. cbn [store]. rewrite wr_ok by lia. set (m0 := set_nth m b (at_ src bs)).
  assert (L0 : length m0 = length m) by apply set_nth_length.
  destruct n as [|n]; [lia|].
  edestruct (loop_up b (S n) 1 n) as [m' [E SE]]; [| | |exists m'; split; [replace (S n - 1) with n by lia; exact E|]]; [lia|lia| |].
  - intros i m1 Hi SE. exists (forward w g i). split; [|reflexivity]. destruct SE as [L1 [V1 O1]].
    destruct i as [|i]; [lia|]. replace (S i - 1) with i by lia. cbn [forward].
    assert (A : nth_error m1 (b + i) = Some (forward w g i)).
    { rewrite nth_error_at by lia. destruct i as [|i]; [|rewrite V1 by lia; reflexivity].
      f_equal. cbn. unfold g, SparseSpec.at_. apply nth_error_nth. rewrite O1 by (intros; lia).
      rewrite !Nat.add_0_r. unfold m0. apply set_nth_same. lia. }
    rewrite A, (nth_error_at src) by lia. reflexivity.
  - destruct SE as [L1 [V1 O1]]. split; [lia|]. split.
    + intros [|i] Hi; [|apply V1; lia]. cbn. unfold g, SparseSpec.at_. apply nth_error_nth. rewrite O1 by (intros; lia).
      rewrite !Nat.add_0_r. unfold m0. apply set_nth_same. lia.
    + intros c Hc. rewrite O1 by (intros; apply Hc; lia). unfold m0. apply set_nth_other.
      intros <-. apply (Hc 0); lia.
Qed.

(** ** Transpose *)
(** Backward recursion: value at distance k of the end. *)
Fixpoint backward (w : K) (g : nat -> K) (last : K) (n k : nat) : K :=
  match k with O => last | S p => smooth o w (backward w g last n p) (g (n - 1 - S p)) end.

Definition back (w vi : K) (g : nat -> K) (last : K) (n i : nat) : K :=
  let x := backward w g last n (n - 1 - i) in if Nat.eqb i 0 then kmul o x vi else x.

Lemma divide_ok b vi m : b < length m -> divide o b vi m = Some (set_nth m b (kmul o (at_ m b) vi)).
Proof. intros H. unfold divide, update. rewrite nth_error_at by auto. reflexivity. Qed.

Lemma back_pass b n w g last m m0 body :
  1 <= n -> b + n <= length m -> length m0 = length m -> at_ m0 (b + (n - 1)) = last ->
  (forall c, c <> b + (n - 1) -> nth_error m0 c = nth_error m c) ->
  (forall i m1, i < n - 1 -> section b (fun j => i < j < n - 1) (fun j => backward w g last n (n - 1 - j)) m0 m1 ->
     body i m1 = store m1 (b + i) (omap2 (smooth o w) (nth_error m1 (b + S i)) (Some (g i)))) ->
  computes b n (fun i => backward w g last n (n - 1 - i)) m (loop body (rev (seq 0 (n - 1))) m0).
Proof.
  intros Hn HL L0 Hl O0 Hb.
  edestruct (loop_down b n 0 (n - 1) body (fun j => backward w g last n (n - 1 - j)) m0) as [m' [E [L1 [V1 O1]]]]; [lia|lia| |].
  - intros i m1 Hi SE. eexists. split; [|reflexivity]. cbn [plus] in SE. rewrite Hb; [|lia|exact SE].
    destruct SE as [L1 [V1 O1]].
    assert (A : nth_error m1 (b + S i) = Some (backward w g last n (n - 1 - S i))).
    { rewrite nth_error_at by lia. f_equal. destruct (Nat.eq_dec (S i) (n - 1)) as [Q|Q].
      - rewrite Q, Nat.sub_diag. cbn. rewrite <- Hl. unfold SparseSpec.at_. apply nth_error_nth.
        rewrite O1 by (intros; lia). apply nth_error_at. lia.
      - apply V1. lia. }
    rewrite A. cbn [omap2 store]. f_equal. replace (n - 1 - i) with (S (n - 1 - S i)) by lia. cbn [backward].
    f_equal. f_equal. lia.
  - exists m'. split; [exact E|]. cbn [plus] in *. split; [lia|]. split.
    + intros i Hi. destruct (Nat.eq_dec i (n - 1)) as [Q|Q].
      * rewrite Q, Nat.sub_diag. cbn. rewrite <- Hl. unfold SparseSpec.at_. apply nth_error_nth.
        rewrite O1 by (intros; lia). apply nth_error_at. lia.
      * apply V1. lia.
    + intros c Hc. rewrite O1 by (intros; apply Hc; lia). apply O0. intros ->. apply (Hc (n - 1)); lia.
Qed.

Lemma back_loop b n w vi g last m m0 body :
  1 <= n -> b + n <= length m -> length m0 = length m -> at_ m0 (b + (n - 1)) = last ->
  (forall c, c <> b + (n - 1) -> nth_error m0 c = nth_error m c) ->
  (forall i m1, i < n - 1 -> section b (fun j => i < j < n - 1) (fun j => backward w g last n (n - 1 - j)) m0 m1 ->
     body i m1 = store m1 (b + i) (omap2 (smooth o w) (nth_error m1 (b + S i)) (Some (g i)))) ->
  computes b n (back w vi g last n) m
    (match loop body (rev (seq 0 (n - 1))) m0 with Some m1 => divide o b vi m1 | None => None end).
Proof.
  intros Hn HL L0 Hl O0 Hb.
  destruct (back_pass b n w g last m m0 body Hn HL L0 Hl O0 Hb) as [m' [E [L1 [V O1]]]].
  rewrite E, divide_ok by lia. eexists. split; [reflexivity|].
  split; [rewrite set_nth_length; lia|]. split.
  - intros i Hi. rewrite at_set by lia. unfold back. destruct (Nat.eqb_spec i 0) as [Q|Q].
    + subst i. rewrite Nat.add_0_r, Nat.eqb_refl. f_equal. rewrite <- (V 0) by lia. f_equal. lia.
    + replace (Nat.eqb (b + i) b) with false by (symmetry; apply Nat.eqb_neq; lia). apply V; auto.
  - intros c Hc. rewrite set_nth_other by (intros <-; apply (Hc 0); lia). apply O1. exact Hc.
Qed.

Lemma transpose_body_ok src bs b n w vi m : 1 <= n -> b + n <= length m -> bs + n <= length src ->
  computes b n (back w vi (fun i => at_ src (bs + i)) (kmul o (one_minus o w) (at_ src (bs + (n - 1)))) n) m
    (transpose_body o src bs b n w vi m).
Proof.
  intros Hn H H'. unfold transpose_body. rewrite nth_error_at by lia. cbn [omap2 store]. rewrite wr_ok by lia.
  apply back_loop; auto.
  - apply set_nth_length.
  - rewrite at_set, Nat.eqb_refl by lia. reflexivity.
  - intros c Hc. apply set_nth_other. auto.
  - intros i m1 Hi _. rewrite (nth_error_at src) by lia. reflexivity.
Qed.

Lemma transpose_in_pos b n w vi m : 1 <= n -> b + n <= length m ->
  computes b n (back w vi (fun i => at_ m (b + i)) (at_ m (b + (n - 1))) n) m (transpose_in o b n (TPos w vi) m).
Proof.
  intros Hn H. cbn [transpose_in]. apply back_loop; auto.
  intros i m1 Hi SE. destruct SE as [L1 [V1 O1]]. rewrite (O1 (b + i)) by (intros; lia). rewrite (nth_error_at m) by lia. reflexivity.
Qed.

(** ** Algebra *)
Lemma forward_response w vi n g i : i < n ->
  forward w g i = bigsum o n (fun j => kmul o (response o (TPos w vi) i j) (g j)).
Proof.
  induction i as [|i IH]; intros Hi.
  - cbn [forward]. rewrite <- (bigsum_single o RL n 0 (fun j => g j)) by auto. apply bigsum_ext. intros j Hj.
    cbn. destruct j; cbn; ring.
  - cbn [forward]. rewrite IH by lia. unfold smooth. rewrite <- (bigsum_mul_l o RL).
    rewrite <- (bigsum_single o RL n (S i) (fun j => kmul o (one_minus o w) (g j))) by auto.
    rewrite <- (bigsum_add o RL). apply bigsum_ext. intros j Hj. unfold response.
    destruct (Nat.eqb_spec j (S i)) as [Q|Q].
    + subst j. replace (i <? S i) with true by (symmetry; apply Nat.ltb_lt; lia). rewrite Nat.ltb_irrefl, Nat.sub_diag. cbn. unfold one_minus. ring.
    + destruct (Nat.ltb_spec i j) as [A|A].
      * replace (S i <? j) with true by (symmetry; apply Nat.ltb_lt; lia). ring.
      * replace (S i <? j) with false by (symmetry; apply Nat.ltb_ge; lia).
        replace (S i - j) with (S (i - j)) by lia. cbn [kpow]. ring.
Qed.

(** Σ_{r >= i} w^(r-i) g r. *)
Definition tail_sum (w : K) (n : nat) (g : nat -> K) (i : nat) : K :=
  bigsum o n (fun r => kmul o (if Nat.ltb r i then k0 o else kpow o w (r - i)) (g r)).

Lemma tail_sum_step w n g i : i < n -> tail_sum w n g i = kadd o (kmul o w (tail_sum w n g (S i))) (g i).
Proof.
  intros Hi. unfold tail_sum. rewrite <- (bigsum_mul_l o RL). rewrite <- (bigsum_single o RL n i g) by auto.
  rewrite <- (bigsum_add o RL). apply bigsum_ext. intros r Hr. destruct (Nat.eqb_spec r i) as [Q|Q].
  - subst r. rewrite Nat.ltb_irrefl, Nat.sub_diag. replace (i <? S i) with true by (symmetry; apply Nat.ltb_lt; lia). cbn. ring.
  - destruct (Nat.ltb_spec r i) as [A|A].
    + replace (r <? S i) with true by (symmetry; apply Nat.ltb_lt; lia). ring.
    + replace (r <? S i) with false by (symmetry; apply Nat.ltb_ge; lia). replace (r - i) with (S (r - S i)) by lia. cbn [kpow]. ring.
Qed.
Lemma tail_sum_end w n g : tail_sum w n g n = k0 o.
Proof.
  unfold tail_sum. apply (bigsum_0 o RL). intros r Hr. replace (r <? n) with true by (symmetry; apply Nat.ltb_lt; lia). ring.
Qed.

Lemma backward_tail w g n k : k < n ->
  backward w g (kmul o (one_minus o w) (g (n - 1))) n k = kmul o (one_minus o w) (tail_sum w n g (n - 1 - k)).
Proof.
  induction k as [|k IH]; intros Hk; cbn [backward].
  - rewrite Nat.sub_0_r, tail_sum_step by lia. replace (S (n - 1)) with n by lia. rewrite tail_sum_end. ring.
  - rewrite IH by lia. rewrite (tail_sum_step w n g (n - 1 - S k)) by lia. replace (S (n - 1 - S k)) with (n - 1 - k) by lia.
    unfold smooth. ring.
Qed.

Lemma back_response w vi g n i : i < n -> proper o (TPos w vi) ->
  back w vi g (kmul o (one_minus o w) (g (n - 1))) n i = bigsum o n (fun r => kmul o (response o (TPos w vi) r i) (g r)).
Proof.
  intros Hi P. unfold back. rewrite backward_tail by lia. replace (n - 1 - (n - 1 - i)) with i by lia. cbn in P.
  destruct (Nat.eqb_spec i 0) as [Q|Q].
  - subst i. transitivity (kmul o (kmul o (one_minus o w) vi) (tail_sum w n g 0)); [ring|]. unfold one_minus. rewrite P.
    transitivity (tail_sum w n g 0); [ring|]. apply bigsum_ext. intros r Hr. cbn. ring.
  - unfold tail_sum. rewrite <- (bigsum_mul_l o RL). apply bigsum_ext. intros r Hr. unfold response.
    replace (i =? 0) with false by (symmetry; apply Nat.eqb_neq; auto). unfold one_minus. destruct (r <? i); ring.
Qed.

(** Scaling the last input only: the recursion depends on it through its end value. *)
Lemma backward_ext w g g' last n k : (forall i, i < n - 1 -> g i = g' i) -> k < n -> backward w g last n k = backward w g' last n k.
Proof. intros E. induction k as [|k IH]; intros Hk; cbn; [reflexivity|]. rewrite IH, (E (n - 1 - S k)) by lia. reflexivity. Qed.

Definition scale_last (vi : K) (n : nat) (g : nat -> K) (i : nat) : K := if Nat.eqb i (n - 1) then kmul o vi (g i) else g i.

Lemma back_inplace w vi g n i : i < n -> proper o (TPos w vi) ->
  back w vi g (g (n - 1)) n i = bigsum o n (fun r => kmul o (response o (TPos w vi) r i) (scale_last vi n g r)).
Proof.
  intros Hi P. rewrite <- back_response by auto. unfold back. cbn in P.
  assert (E : kmul o (one_minus o w) (scale_last vi n g (n - 1)) = g (n - 1)).
  { unfold scale_last. rewrite Nat.eqb_refl. transitivity (kmul o (kmul o (one_minus o w) vi) (g (n - 1))); [ring|].
    unfold one_minus. rewrite P. ring. }
  rewrite E. rewrite (backward_ext w g (scale_last vi n g)); [reflexivity| |lia].
  intros j Hj. unfold scale_last. replace (j =? n - 1) with false by (symmetry; apply Nat.eqb_neq; lia). reflexivity.
Qed.

(** ** The four routines *)
Definition times (A : nat -> nat -> K) (n : nat) (g : nat -> K) (i : nat) : K := bigsum o n (fun j => kmul o (A i j) (g j)).

Lemma times_id n g i : i < n -> times (response o TZero) n g i = g i.
Proof.
  intros Hi. unfold times. rewrite <- (bigsum_single o RL n i g) by auto. apply bigsum_ext. intros j Hj. cbn.
  rewrite (Nat.eqb_sym i j). destruct (Nat.eqb j i); ring.
Qed.
Lemma times_zero n g i : times (response o TNeg) n g i = k0 o.
Proof. unfold times. apply (bigsum_0 o RL). intros. cbn. ring. Qed.
Lemma times_id_t n g i : i < n -> times (transposed (response o TZero)) n g i = g i.
Proof.
  intros Hi. rewrite <- (times_id n g i) by auto. unfold times, transposed. apply bigsum_ext. intros j Hj. cbn. rewrite Nat.eqb_sym. reflexivity.
Qed.

Lemma same_section b n m f : (forall i, i < n -> f i = at_ m (b + i)) -> computes b n f m (Some m).
Proof. intros E. exists m. split; [reflexivity|]. split; [reflexivity|]. split; [intros; symmetry; auto|reflexivity]. Qed.

Lemma direct_in_ok b n t m : b + n <= length m ->
  computes b n (times (response o t) n (fun i => at_ m (b + i))) m (direct_in o b n t m).
Proof.
  intros H. destruct t as [| |w vi].
  - apply same_section. intros i Hi. apply (times_id n (fun i => at_ m (b + i)) i); auto.
  - eapply computes_ext; [|apply fill_ok; auto]. intros. symmetry. apply times_zero.
  - eapply computes_ext; [|apply direct_in_pos; auto]. intros i Hi. apply forward_response; auto.
Qed.

Lemma direct_out_ok src bs b n t m : 1 <= n -> b + n <= length m -> bs + n <= length src ->
  computes b n (times (response o t) n (fun i => at_ src (bs + i))) m (direct_out o src bs b n t m).
Proof.
  intros Hn H H'. destruct t as [| |w vi].
  - eapply computes_ext; [|apply copy_ok; auto]. intros. symmetry. rewrite times_id; auto.
  - eapply computes_ext; [|apply fill_ok; auto]. intros. symmetry. apply times_zero.
  - eapply computes_ext; [|apply direct_out_pos; auto]. intros i Hi. apply forward_response; auto.
Qed.

Lemma computes_again b n f g m m1 r : computes b n f m (Some m1) -> computes b n g m1 r -> computes b n g m r.
Proof.
  intros [m2 [E [L [V O]]]] [m3 [E' [L' [V' O']]]]. inversion E; subst m2. exists m3. split; [auto|].
  split; [lia|]. split; [auto|]. intros c Hc. rewrite O' by auto. apply O; auto.
Qed.

Lemma transpose_out_ok src bs b n t m : proper o t -> 1 <= n -> b + n <= length m -> bs + n <= length src ->
  computes b n (times (transposed (response o t)) n (fun i => at_ src (bs + i))) m (transpose_out o src bs b n t m).
Proof.
  intros P Hn H H'. destruct t as [| |w vi]; cbn [transpose_out].
  - destruct (copy_ok src bs b n m) as [m1 [E S]]; [auto|auto|]. rewrite E.
    apply (computes_again b n _ _ m m1 _ (ex_intro _ m1 (conj eq_refl S))).
    destruct S as [L1 _].
    eapply computes_ext; [|apply transpose_body_ok; auto; lia].
    intros i Hi. rewrite times_id_t by auto. set (g := fun i => at_ src (bs + i)).
    change (at_ src (bs + (n - 1))) with (g (n - 1)).
    transitivity (g i); [|reflexivity]. rewrite back_response; [|auto|cbn; ring].
    rewrite <- (bigsum_single o RL n i g) by auto. apply bigsum_ext. intros r Hr. unfold response.
    destruct (Nat.eqb_spec r i) as [Q|Q].
    + subst r. rewrite Nat.ltb_irrefl, Nat.sub_diag. cbn. destruct (i =? 0); ring.
    + destruct (Nat.ltb_spec r i); [ring|]. replace (r - i) with (S (r - S i)) by lia. cbn. ring.
  - eapply computes_ext; [|apply fill_ok; auto]. intros. symmetry. unfold times, transposed. apply (bigsum_0 o RL). intros. cbn. ring.
  - eapply computes_ext; [|apply transpose_body_ok; auto]. intros i Hi.
    apply (back_response w vi (fun i => at_ src (bs + i)) n i); auto.
Qed.

Lemma transpose_in_ok b n t m : proper o t -> 1 <= n -> b + n <= length m ->
  computes b n (fun i => match t with
     | TPos w vi => times (transposed (response o t)) n (scale_last vi n (fun i => at_ m (b + i))) i
     | _ => times (transposed (response o t)) n (fun i => at_ m (b + i)) i end) m (transpose_in o b n t m).
Proof.
  intros P Hn H. destruct t as [| |w vi].
  - apply same_section. intros i Hi. apply (times_id_t n (fun i => at_ m (b + i)) i); auto.
  - eapply computes_ext; [|apply fill_ok; auto]. intros. symmetry. unfold times, transposed. apply (bigsum_0 o RL). intros. cbn. ring.
  - eapply computes_ext; [|apply transpose_in_pos; auto]. intros i Hi.
    apply (back_inplace w vi (fun i => at_ m (b + i)) n i); auto.
Qed.

(** ** Drivers *)
Lemma driver_loop nd size stride (step : nat -> list K -> option (list K)) (F : nat -> (nat -> K) -> nat -> K) m order :
  size <= stride -> nd * stride <= length m -> Permutation order (seq 0 nd) ->
  (forall d g g', (forall i, i < size -> g i = g' i) -> forall i, i < size -> F d g i = F d g' i) ->
  (forall d m1, d < nd -> length m1 = length m ->
     computes (d * stride) size (F d (fun i => at_ m1 (d * stride + i))) m1 (step d m1)) ->
  exists m', loop step order m = Some m' /\ length m' = length m /\
    (forall d i, d < nd -> i < size -> at_ m' (d * stride + i) = F d (fun i => at_ m (d * stride + i)) i) /\
    (forall c, (forall d, d < nd -> ~ (d * stride <= c < d * stride + size)) -> nth_error m' c = nth_error m c).
Proof.
  intros Hs HL Hp Hext Hstep.
  assert (ND : NoDup order) by (apply (Permutation_NoDup (Permutation_sym Hp)), seq_NoDup).
  assert (HI : forall d, In d order <-> d < nd).
  { intros d. split; intros H.
    - apply (Permutation_in _ Hp) in H. apply in_seq in H. lia.
    - apply (Permutation_in _ (Permutation_sym Hp)). apply in_seq. lia. }
  assert (G : forall l m0, NoDup l -> (forall d, In d l -> d < nd) -> length m0 = length m ->
    exists m', loop step l m0 = Some m' /\ length m' = length m /\
     (forall d i, In d l -> i < size -> at_ m' (d * stride + i) = F d (fun i => at_ m0 (d * stride + i)) i) /\
     (forall c, (forall d, In d l -> ~ (d * stride <= c < d * stride + size)) -> nth_error m' c = nth_error m0 c)).
  { induction l as [|d l IH]; intros m0 N Hl L0.
    - exists m0. split; [reflexivity|]. split; [auto|]. split; [intros d i []|reflexivity].
    - inversion N as [|x y N1 N2]; subst. destruct (Hstep d m0 (Hl d (or_introl eq_refl)) L0) as [m1 [E [L1 [V1 O1]]]].
      destruct (IH m1 N2 (fun e He => Hl e (or_intror He)) ltac:(lia)) as [m' [E' [L' [V' O']]]].
      exists m'. cbn. rewrite E. split; [auto|]. split; [auto|].
      assert (DIS : forall e i, e <> d -> i < size -> forall j, j < size -> e * stride + i <> d * stride + j).
      { intros e i D Hi j Hj Q. destruct (Nat.lt_trichotomy e d) as [A|[A|A]]; [|auto|]; nia. }
      split.
      + intros e i [He|He] Hi.
        * subst e. rewrite <- (V1 i Hi). unfold SparseSpec.at_.
          assert (B : d * stride + i < length m1) by (pose proof (Hl d (or_introl eq_refl)); nia).
          apply nth_error_nth. rewrite O'; [apply nth_error_at; auto|].
          intros e He [A1 A2]. apply (DIS e (d * stride + i - e * stride)) with (j := i); auto; [intros ->; auto|lia|lia].
        * rewrite V' by auto. apply Hext; auto. intros j Hj. unfold SparseSpec.at_.
          assert (e <> d) by (intros ->; auto).
          assert (B : e * stride + j < length m0) by (pose proof (Hl e (or_intror He)); nia).
          apply nth_error_nth. rewrite O1; [apply nth_error_at; auto|]. intros k Hk. apply DIS; auto.
      + intros c Hc. rewrite O' by (intros e He; apply Hc; right; auto). apply O1.
        intros i Hi ->. apply (Hc d (or_introl eq_refl)). lia. }
  destruct (G order m ND (fun d H => proj1 (HI d) H) eq_refl) as [m' [E [L [V O]]]].
  exists m'. split; [auto|]. split; [auto|]. split.
  - intros d i Hd Hi. apply V; auto. apply HI; auto.
  - intros c Hc. apply O. intros d Hd. apply Hc, HI; auto.
Qed.

Lemma firstn_nth {A} (l : list A) n i x : i < n -> nth i (firstn n l) x = nth i l x.
Proof. revert n i. induction l as [|a l IH]; intros [|n] [|i] H; cbn; try lia; auto. apply IH. lia. Qed.
Lemma skipn_nth {A} (l : list A) n i x : nth i (skipn n l) x = nth (n + i) l x.
Proof. revert n. induction l as [|a l IH]; intros [|n]; cbn; auto. destruct i; reflexivity. Qed.
Lemma at_row size stride d m i : i < size -> at_ (row size stride d m) i = at_ m (d * stride + i).
Proof. intros H. unfold row, SparseSpec.at_. rewrite firstn_nth, skipn_nth by auto. reflexivity. Qed.

Lemma mat_vec_times A n x g i : (forall j, j < n -> at_ x j = g j) -> mat_vec o n A x i = times A n g i.
Proof. intros H. apply bigsum_ext. intros j Hj. rewrite H by auto. reflexivity. Qed.

Lemma times_ext A n g g' i : (forall j, j < n -> g j = g' j) -> times A n g i = times A n g' i.
Proof. intros H. apply bigsum_ext. intros j Hj. rewrite H by auto. reflexivity. Qed.

Lemma tau_for_of (taus : list tau) nd d : taus <> [] -> length taus = 1 \/ length taus = nd -> d < nd -> tau_of taus d = tau_for taus d.
Proof.
  intros N H Hd. unfold tau_of, tau_for. destruct taus as [|t [|t' q]]; [congruence|..].
  - cbn. replace (Nat.min d 0) with 0 by lia. reflexivity.
  - f_equal. cbn in *. lia.
Qed.

Lemma tau_for_proper (taus : list tau) d : Forall (proper o) taus -> proper o (tau_for taus d).
Proof.
  intros F. unfold tau_for. destruct taus as [|t [|t' q]].
  - destruct d; cbn; auto.
  - inversion F; auto.
  - destruct (nth_in_or_default d (t :: t' :: q) TZero) as [H|H].
    + rewrite Forall_forall in F. apply F; auto.
    + rewrite H. cbn. auto.
Qed.

Section Drivers.
Variables (taus : list tau) (nd size : nat) (order : list nat).
Hypothesis NT : taus <> [].
Hypothesis LT : length taus = 1 \/ length taus = nd.
Hypothesis HP : Permutation order (seq 0 nd).

Lemma driver_direct_in stride m : size <= stride -> nd * stride <= length m ->
  exists m', driver_in (direct_in o) taus size stride order m = Some m' /\
    rows_multiplied o (fun d => response o (tau_for taus d)) nd size stride stride m m m'.
Proof.
  intros Hs HL.
  destruct (driver_loop nd size stride (fun d => direct_in o (d * stride) size (tau_of taus d))
     (fun d g => times (response o (tau_for taus d)) size g) m order) as [m' [E [L [V O]]]]; auto.
  - intros. apply times_ext; auto.
  - intros d m1 Hd L1. rewrite (tau_for_of taus nd d) by auto. apply direct_in_ok. nia.
  - exists m'. split; [exact E|]. split; [auto|]. split; [|exact O].
    intros d i Hd Hi. rewrite at_row, V by auto. symmetry. apply mat_vec_times. intros j Hj. apply at_row; auto.
Qed.

Lemma driver_out_ok routine (A : tau -> nat -> nat -> K) istride ostride src m :
  (forall d bs b m1, proper o (tau_for taus d) -> b + size <= length m1 -> bs + size <= length src ->
    computes b size (times (A (tau_for taus d)) size (fun i => at_ src (bs + i))) m1 (routine src bs b size (tau_for taus d) m1)) ->
  Forall (proper o) taus -> size <= ostride -> size <= istride -> nd * ostride <= length m -> nd * istride <= length src ->
  exists m', driver_out routine taus size istride ostride order src m = Some m' /\
    rows_multiplied o (fun d => A (tau_for taus d)) nd size istride ostride src m m'.
Proof.
  intros HR F Hs Hs' HL HL'.
  destruct (driver_loop nd size ostride (fun d => routine src (d * istride) (d * ostride) size (tau_of taus d))
     (fun d _ => times (A (tau_for taus d)) size (fun i => at_ src (d * istride + i))) m order) as [m' [E [L [V O]]]]; auto.
  - intros d m1 Hd L1. rewrite (tau_for_of taus nd d) by auto. apply HR; [apply tau_for_proper; auto|nia|nia].
  - exists m'. split; [exact E|]. split; [auto|]. split; [|exact O].
    intros d i Hd Hi. rewrite at_row, V by auto. symmetry. apply mat_vec_times. intros j Hj. apply at_row; auto.
Qed.

Lemma driver_direct_out istride ostride src m : Forall (proper o) taus -> 1 <= size ->
  size <= ostride -> size <= istride -> nd * ostride <= length m -> nd * istride <= length src ->
  exists m', driver_out (direct_out o) taus size istride ostride order src m = Some m' /\
    rows_multiplied o (fun d => response o (tau_for taus d)) nd size istride ostride src m m'.
Proof.
  intros F H1. apply (driver_out_ok (direct_out o) (response o)); auto.
  intros. apply direct_out_ok; auto.
Qed.

Lemma driver_transpose_out istride ostride src m : Forall (proper o) taus -> 1 <= size ->
  size <= ostride -> size <= istride -> nd * ostride <= length m -> nd * istride <= length src ->
  exists m', driver_out (transpose_out o) taus size istride ostride order src m = Some m' /\
    rows_multiplied o (fun d => transposed (response o (tau_for taus d))) nd size istride ostride src m m'.
Proof.
  intros F H1. apply (driver_out_ok (transpose_out o) (fun t => transposed (response o t))); auto.
  intros. apply transpose_out_ok; auto.
Qed.

(** The samples of each detector with the last one divided by 1 - w. *)
Definition last_divided (t : tau) (x : list K) : list K :=
  match t with TPos _ vi => set_nth x (size - 1) (kmul o vi (at_ x (size - 1))) | _ => x end.

Lemma driver_transpose_in stride m : Forall (proper o) taus -> 1 <= size -> size <= stride -> nd * stride <= length m ->
  exists m', driver_in (transpose_in o) taus size stride order m = Some m' /\ length m' = length m /\
    (forall d i, d < nd -> i < size ->
       at_ (row size stride d m') i =
       mat_vec o size (transposed (response o (tau_for taus d))) (last_divided (tau_for taus d) (row size stride d m)) i) /\
    (forall c, (forall d, d < nd -> ~ (d * stride <= c < d * stride + size)) -> nth_error m' c = nth_error m c).
Proof.
  intros F H1 Hs HL.
  destruct (driver_loop nd size stride (fun d => transpose_in o (d * stride) size (tau_of taus d))
     (fun d g i => match tau_for taus d with
        | TPos w vi => times (transposed (response o (tau_for taus d))) size (scale_last vi size g) i
        | _ => times (transposed (response o (tau_for taus d))) size g i end) m order) as [m' [E [L [V O]]]]; auto.
  - intros d g g' Hg i Hi. destruct (tau_for taus d); [apply times_ext; auto|apply times_ext; auto|].
    apply times_ext. intros j Hj. unfold scale_last. rewrite Hg by auto. reflexivity.
  - intros d m1 Hd L1. rewrite (tau_for_of taus nd d) by auto. apply transpose_in_ok; [apply tau_for_proper; auto|auto|nia].
  - exists m'. split; [exact E|]. split; [auto|]. split; [|exact O].
    intros d i Hd Hi. rewrite at_row, V by auto. symmetry. unfold last_divided.
    destruct (tau_for taus d) as [| |w vi].
    + apply mat_vec_times. intros j Hj. apply at_row; auto.
    + apply mat_vec_times. intros j Hj. apply at_row; auto.
    + apply mat_vec_times. intros j Hj. rewrite at_set.
      * unfold scale_last. destruct (Nat.eqb_spec j (size - 1)) as [Q|Q]; [rewrite Q; rewrite at_row by lia; reflexivity|apply at_row; auto].
      * unfold row. rewrite firstn_length, skipn_length. nia.
Qed.
End Drivers.

Lemma adjoint A n x y : length x = n -> length y = n ->
  bigsum o n (fun i => kmul o (mat_vec o n A x i) (at_ y i)) =
  bigsum o n (fun i => kmul o (at_ x i) (mat_vec o n (transposed A) y i)).
Proof.
  intros _ _. unfold mat_vec, transposed.
  transitivity (bigsum o n (fun i => bigsum o n (fun j => kmul o (kmul o (A i j) (at_ x j)) (at_ y i)))).
  - apply bigsum_ext. intros. rewrite (bigsum_mul_r o RL). reflexivity.
  - rewrite (bigsum_swap o RL). apply bigsum_ext. intros j Hj. rewrite <- (bigsum_mul_l o RL). apply bigsum_ext. intros. ring.
Qed.

Lemma annihilates x : kmul o x (k0 o) = k0 o.
Proof. ring. Qed.
Lemma minus_self w x : x = kmul o (kadd o (k1 o) (kopp o w)) x -> kmul o w x = k0 o.
Proof.
  intros Q. transitivity (kadd o x (kopp o (kmul o (kadd o (k1 o) (kopp o w)) x))); [ring|]. rewrite <- Q. ring.
Qed.
End Facts.
