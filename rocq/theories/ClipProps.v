(** Properties C45 and C54: sigma clipping and moments. *)
From Coq Require Import Lia Reals Lra.
From Verif Require Import Base BaseFacts MedianSpec MpiFileFacts ClipModel ClipSpec ClipFacts.
Open Scope R_scope.

(** C45.  Clipping ends after at most as many passes as there are samples; without the
    limit 1 nothing more is rejected by another pass; with it exactly one pass is made.
    Missing for the full claim: other limits are ignored, see [C45_limit_refuted]. *)
Theorem C45_partial : forall (x : list R) s limit, exists j m,
  sigma_clipping (map Some x) (Some s) limit = Ok m /\ passes s x j m /\ (j <= length x)%nat /\
  (limit <> Some 1%Z -> is_pass s x m m) /\
  (limit = Some 1%Z -> (j <= 1)%nat /\ is_pass s x (map (fun _ => false) x) m).
Proof.
  intros x s limit. unfold sigma_clipping. set (nit := match limit with Some n => n | None => 0%Z end).
  rewrite map_length, map_map.
  destruct (clip_loop_ok s x nit (S (length x)) 0 (map (fun _ => false) x)) as [j [m [E [P [_ [C [L [H1 H2]]]]]]]].
  - apply map_length.
  - constructor.
  - rewrite count_false. reflexivity.
  - rewrite count_false. unfold zlen. lia.
  - exists j, m. split; [exact E|]. split; [exact P|]. split.
    + pose proof (count_bound m) as B. unfold zlen in B. lia.
    + split; intros Hl; [apply H1 | apply H2]; subst nit; destruct limit as [n|]; try discriminate; congruence.
Qed.
Print Assumptions C45_partial.

(** Whatever the samples and the threshold, NaN included: it ends, and only marks more. *)
Theorem C45_ends : forall (x : list fl) s limit, exists m, sigma_clipping x s limit = Ok m /\ length m = length x.
Proof.
  intros x s limit. destruct (clip_loop_total (S (length x)) x s (match limit with Some n => n | None => 0%Z end) (map (fun _ => false) x)) as [m [E G]].
  - apply map_length.
  - rewrite count_false. unfold zlen. lia.
  - exists m. split; [exact E|]. apply grows_length in G. rewrite map_length in G. auto.
Qed.
Print Assumptions C45_ends.

(** Each pass keeps the rejected samples rejected. *)
Theorem C45_grows : forall s x m m', length m = length x -> is_pass s x m m' -> grows m m'.
Proof.
  intros s x m m' L [L' H]. unfold grows. 
  assert (G : forall i b b', nth_error m i = Some b -> nth_error m' i = Some b' -> b = true -> b' = true).
  { intros i b b' A B ->. destruct (nth_error x i) as [xi|] eqn:Ex.
    - destruct (H i xi true Ex A) as [b2 [B2 E]]. rewrite B in B2. injection B2 as <-. apply E. now left.
    - apply nth_error_None in Ex. assert (i < length m)%nat by (apply nth_error_Some; congruence). lia. }
  clear H L. revert m' L' G. induction m as [|b m IH]; intros [|b' m'] L' G; try discriminate; constructor.
  - apply (G O b b'); reflexivity.
  - apply IH; [now injection L'|]. intros i. apply (G (S i)).
Qed.
Print Assumptions C45_grows.

(** A threshold of one deviation or more never rejects everything. *)
Theorem C45_keeps : forall (x : list R) s limit m, 1 <= s -> x <> [] -> sigma_clipping (map Some x) (Some s) limit = Ok m -> In false m.
Proof.
  intros x s limit m Hs Hx E. destruct (C45_partial x s limit) as [j [m' [E' [P _]]]]. rewrite E in E'. injection E' as <-.
  destruct (passes_kept s x j m Hs Hx P) as [L U]. destruct (unmasked x m) as [|y l] eqn:Eu; [congruence|].
  assert (In y (unmasked x m)) as I by (rewrite Eu; now left). apply In_unmasked in I as [i [_ I]]. now apply nth_error_In in I.
Qed.
Print Assumptions C45_keeps.

(** One NaN and nothing is rejected. *)
Theorem C45_nan : forall (x : list fl) s limit, In None x -> sigma_clipping x s limit = Ok (map (fun _ => false) x).
Proof. exact clip_nan. Qed.
Print Assumptions C45_nan.

(** ** A concrete run: three passes although two were asked for *)
Definition cx : list R := [100; -100; 10; -10; 1; -1].
Definition m0 := [false; false; false; false; false; false].
Definition m1 := [true; true; false; false; false; false].
Definition m2 := [true; true; true; true; false; false].
Definition m3 := [true; true; true; true; true; true].

Lemma half_sigma l v y : variance l = v -> 0 <= v -> avg l = 0 -> (1 / 2 * sigma l < Rabs (y - avg l) <-> v < 4 * (y * y)).
Proof.
  intros E P A. unfold sigma. rewrite E, A, Rminus_0_r.
  assert (S1 : sqrt v * sqrt v = v) by now apply sqrt_sqrt. assert (S2 : 0 <= sqrt v) by apply sqrt_pos.
  pose proof (sq_abs y) as Q. pose proof (Rabs_pos y) as Q'. split; intros H.
  - assert (sqrt v < 2 * Rabs y) by lra. nra.
  - assert (sqrt v < 2 * Rabs y); [|lra]. apply Rnot_le_lt. intros H'. nra.
Qed.
Lemma pass_by_cases (l : list R) v m m' : length m = 6%nat -> length m' = 6%nat -> unmasked cx m = l -> (2 <= length l)%nat -> variance l = v -> 0 <= v -> avg l = 0 ->
  (forall i xi b b', nth_error cx i = Some xi -> nth_error m i = Some b -> nth_error m' i = Some b' -> (b' = true <-> b = true \/ v < 4 * (xi * xi))) ->
  is_pass (1 / 2) cx m m'.
Proof.
  intros L L' U N V P A H. split; [lia|]. intros i xi b Hx Hm.
  destruct (nth_error m' i) as [b'|] eqn:E.
  - exists b'. split; [reflexivity|]. rewrite U, (half_sigma l v xi V P A). rewrite (H i xi b b' Hx Hm E). tauto.
  - apply nth_error_None in E. assert (i < length m)%nat by (apply nth_error_Some; congruence). lia.
Qed.
Ltac cases := intros i xi b b' Hx Hm Hm'; do 6 (destruct i as [|i]; [injection Hx as <-; injection Hm as <-; injection Hm' as <-; split; [intros ?; try discriminate; first [left; reflexivity | right; lra] | intros [?|?]; try discriminate; first [reflexivity | exfalso; lra]] |]); destruct i; discriminate.
Lemma p01 : is_pass (1 / 2) cx m0 m1.
Proof.
  apply (pass_by_cases cx (20202 / 5)); try reflexivity; try (cbn; lia); try lra.
  - unfold variance, deviations, avg, size, total, cx; cbn. field.
  - unfold avg, size, total, cx; cbn. field.
  - unfold cx, m0, m1. cases.
Qed.
Lemma p12 : is_pass (1 / 2) cx m1 m2.
Proof.
  apply (pass_by_cases [10; -10; 1; -1] (202 / 3)); try reflexivity; try (cbn; lia); try lra.
  - unfold variance, deviations, avg, size, total; cbn. field.
  - unfold avg, size, total; cbn. field.
  - unfold cx, m1, m2. cases.
Qed.
Lemma p23 : is_pass (1 / 2) cx m2 m3.
Proof.
  apply (pass_by_cases [1; -1] 2); try reflexivity; try (cbn; lia); try lra.
  - unfold variance, deviations, avg, size, total; cbn. field.
  - unfold avg, size, total; cbn. field.
  - unfold cx, m2, m3. cases.
Qed.
Lemma pass_unique s x m a b : length m = length x -> is_pass s x m a -> is_pass s x m b -> a = b.
Proof.
  intros L [La A] [Lb B]. apply nth_error_ext. intros i.
  destruct (nth_error x i) as [xi|] eqn:Ex.
  - assert (i < length m)%nat by (rewrite L; apply nth_error_Some; congruence).
    destruct (nth_error m i) as [c|] eqn:Em; [|apply nth_error_None in Em; lia].
    destruct (A i xi c Ex Em) as [a' [E1 E2]], (B i xi c Ex Em) as [b' [E3 E4]]. rewrite E1, E3. f_equal.
    destruct a', b'; try reflexivity; [symmetry|]; tauto.
  - assert (length x <= i)%nat by now apply nth_error_None. rewrite !(proj2 (nth_error_None _ _)) by lia. reflexivity.
Qed.

Example C45_example : passes (1 / 2) cx 3 m3.
Proof. apply (one_more _ _ 2 m2); [|exact p23]. apply (one_more _ _ 1 m1); [|exact p12]. apply (one_more _ _ 0 m0); [constructor | exact p01]. Qed.

(** The limit is compared with a counter that stays at 1. *)
Theorem C45_limit_refuted : ~ (forall (x : list R) s n m, (1 <= n)%Z -> sigma_clipping (map Some x) (Some s) (Some n) = Ok m ->
  exists j, (Z.of_nat j <= n)%Z /\ passes s x j m).
Proof.
  intros H. destruct (C45_partial cx (1 / 2) (Some 2%Z)) as [k [m [E [_ [_ [F _]]]]]]. specialize (F ltac:(discriminate)).
  destruct (H cx (1 / 2) 2%Z m ltac:(lia) E) as [j [Hj P]].
  assert (P0 : forall m, passes (1 / 2) cx 0 m -> m = m0) by (intros q Q; inversion Q; reflexivity).
  assert (P1 : forall m, passes (1 / 2) cx 1 m -> m = m1).
  { intros q Q. inversion Q as [|? p ? Q1 Q2]; subst. apply P0 in Q1 as ->. apply (pass_unique (1 / 2) cx m0); [reflexivity | exact Q2 | exact p01]. }
  assert (P2 : forall m, passes (1 / 2) cx 2 m -> m = m2).
  { intros q Q. inversion Q as [|? p ? Q1 Q2]; subst. apply P1 in Q1 as ->. apply (pass_unique (1 / 2) cx m1); [reflexivity | exact Q2 | exact p12]. }
  destruct j as [|[|[|j]]]; [| | |lia].
  - apply P0 in P as ->. pose proof (pass_unique _ cx m0 m0 m1 eq_refl F p01). discriminate.
  - apply P1 in P as ->. pose proof (pass_unique _ cx m1 m1 m2 eq_refl F p12). discriminate.
  - apply P2 in P as ->. pose proof (pass_unique _ cx m2 m2 m3 eq_refl F p23). discriminate.
Qed.
Print Assumptions C45_limit_refuted.

(** C54.  Moments of the samples that are not masked. *)
Theorem C54_moments : forall (input : list fl) mask l, length mask = length input -> unmasked input mask = map Some l ->
  exists M, moment input (Some mask) = Ok M /\
  (l = [] -> M = Moments None None None None None None) /\
  (l <> [] -> mo_mean M = Some (avg l) /\ mo_meandev M = Some (mean_deviation l)) /\
  ((length l <= 1)%nat -> mo_variance M = None /\ mo_stddev M = None /\ mo_skewness M = None /\ mo_kurtosis M = None) /\
  ((2 <= length l)%nat -> mo_variance M = Some (variance l) /\ mo_stddev M = Some (sigma l) /\
     (sigma l = 0 -> mo_skewness M = None /\ mo_kurtosis M = None) /\
     (sigma l <> 0 -> mo_skewness M = Some (skew l) /\ mo_kurtosis M = Some (kurt l))).
Proof. exact moment_ok. Qed.
Print Assumptions C54_moments.
(** NaN under the mask does not matter. *)
Example C54_example : exists M, moment [Some 1; None; Some 3] (Some [false; true; false]) = Ok M /\ mo_mean M = Some 2 /\ mo_variance M = Some 2.
Proof.
  destruct (C54_moments [Some 1; None; Some 3] [false; true; false] [1; 3] eq_refl eq_refl) as [M [E [_ [H1 [_ H2]]]]].
  exists M. split; [exact E|]. destruct (H1 ltac:(discriminate)) as [-> _]. destruct (H2 ltac:(cbn; lia)) as [-> _].
  split; f_equal; unfold variance, deviations, avg, size, total; cbn; field.
Qed.

(** Without mask nothing is masked; a NaN that is not masked makes all moments NaN; a
    mask of another size stops the program. *)
Theorem C54_cases : forall (input : list fl),
  moment input None = moment input (Some (map (fun _ => false) input)) /\
  (forall mask, length mask = length input -> In None (unmasked input mask) -> moment input (Some mask) = Ok (Moments None None None None None None)) /\
  (forall mask, length mask <> length input -> moment input (Some mask) = Err RuntimeError).
Proof.
  intros input. split; [apply moment_nomask|]. split; [intros mask; apply moment_nan|].
  intros mask L. unfold moment. replace (negb (zlen mask =? zlen input)%Z) with true by (unfold zlen; lia). reflexivity.
Qed.
Print Assumptions C54_cases.
