(** Lemmas for moments and sigma clipping. *)
From Coq Require Import Lia Reals Lra.
From Verif Require Import Base BaseFacts SparseModel SparseSpec RingFacts MedianSpec MedianFacts NumModel NumFacts ClipModel ClipSpec.
Open Scope R_scope.

Definition r_ops : ops R := Ops R 0 1 Rplus Rmult Ropp.
Lemma r_ring : ring_laws r_ops.
Proof. constructor; cbn; intros; ring. Qed.

(** ** Sums of numbers that are not NaN, and of NaN *)
Lemma kloop_some l : forall s c, kloop fl_ops (lift2 Rplus) (Some s) (Some c) (map Some l) =
  let '(s', c') := kloop r_ops Rplus s c l in (Some s', Some c').
Proof.
  induction l as [|x l IH]; intros s c; cbn [map kloop]; [reflexivity|]. cbv zeta.
  change (ksub fl_ops (Some x) (Some c)) with (Some (ksub r_ops x c)). cbn [lift2].
  change (ksub fl_ops (Some (s + ksub r_ops x c)) (Some s)) with (Some (ksub r_ops (s + ksub r_ops x c) s)).
  change (ksub fl_ops (Some (ksub r_ops (s + ksub r_ops x c) s)) (Some (ksub r_ops x c))) with
    (Some (ksub r_ops (ksub r_ops (s + ksub r_ops x c) s) (ksub r_ops x c))). apply IH.
Qed.
Lemma sum_kahan_some l : fst (sum_kahan fl_ops (lift2 Rplus) (map Some l)) = Some (total l).
Proof.
  assert (E : sum_kahan fl_ops (lift2 Rplus) (map Some l) = let '(s, c) := sum_kahan r_ops Rplus l in (Some s, Some c)).
  { destruct l as [|x l]; [reflexivity|]. cbn [map sum_kahan]. exact (kloop_some l x 0). }
  rewrite E. rewrite (sum_kahan_exact r_ops r_ring). reflexivity.
Qed.
Lemma kloop_none_s l : forall c, fst (kloop fl_ops (lift2 Rplus) None c l) = None.
Proof. induction l as [|x l IH]; intros c; cbn [kloop]; [reflexivity|]. cbv zeta. cbn [lift2]. apply IH. Qed.
Lemma kloop_none l : forall s c, In None l -> fst (kloop fl_ops (lift2 Rplus) s c l) = None.
Proof.
  induction l as [|x l IH]; intros s c []; cbn [kloop]; cbv zeta.
  - subst x. change (ksub fl_ops None c) with (@None R). replace (lift2 Rplus s None) with (@None R) by now destruct s. apply kloop_none_s.
  - now apply IH.
Qed.
Lemma sum_kahan_none l : In None l -> fst (sum_kahan fl_ops (lift2 Rplus) l) = None.
Proof.
  destruct l as [|x l]; [intros []|]. cbn [sum_kahan]. intros [->|H]; [apply kloop_none_s | now apply kloop_none].
Qed.

(** ** Masks *)
Lemma unmasked_map {A B} (f : A -> B) l : forall m, unmasked (map f l) m = map f (unmasked l m).
Proof. induction l as [|x l IH]; intros [|b m]; cbn; try reflexivity. destruct b; cbn; now rewrite IH. Qed.
Lemma unmasked_length {A} (l : list A) : forall m, length l = length m -> zlen (unmasked l m) = (zlen l - count m)%Z.
Proof.
  induction l as [|x l IH]; intros [|b m] L; try discriminate; [reflexivity|]. injection L as L. specialize (IH m L).
  unfold count in *. cbn [unmasked filter]. destruct b; rewrite ?zlen_cons; lia.
Qed.
Lemma unmasked_all {A} (l : list A) : unmasked l (map (fun _ => false) l) = l.
Proof. induction l as [|x l IH]; cbn; [reflexivity|]. now rewrite IH. Qed.
Lemma count_false {A} (l : list A) : count (map (fun _ => false) l) = 0%Z.
Proof. unfold count. induction l; cbn [map filter]; auto. Qed.
Lemma In_unmasked {A} (l : list A) : forall m x, In x (unmasked l m) <-> exists i, nth_error l i = Some x /\ nth_error m i = Some false.
Proof.
  induction l as [|y l IH]; intros m x.
  - cbn. split; [intros [] | intros [[|i] [H _]]; discriminate].
  - destruct m as [|b m]; cbn [unmasked]; [split; [intros [] | intros [[|i] [_ H]]; discriminate]|].
    destruct b; [|cbn [In]]; rewrite IH; split.
    + intros [i H]. now exists (S i).
    + intros [[|i] [H1 H2]]; [discriminate H2 | now exists i].
    + intros [->|[i H]]; [now exists O | now exists (S i)].
    + intros [[|i] [H1 H2]]; [left; now injection H1 | right; now exists i].
Qed.

(** ** Moments *)
Lemma moment_nomask input : moment input None = moment input (Some (map (fun _ => false) input)).
Proof.
  unfold moment. replace (negb (zlen (map (fun _ : fl => false) input) =? zlen input)%Z) with false by (rewrite zlen_map; lia). cbn [bind].
  rewrite count_false, Z.sub_0_r.
  assert (E : forall f : fl -> fl, sum_kahan_mask fl_ops (lift2 Rplus) (map f input) (map (fun _ => false) input) = sum_kahan fl_ops (lift2 Rplus) (map f input)).
  { intros f. rewrite sum_kahan_mask_eq by now rewrite !map_length. f_equal. rewrite unmasked_map. now rewrite unmasked_all. }
  assert (E0 : sum_kahan_mask fl_ops (lift2 Rplus) input (map (fun _ => false) input) = sum_kahan fl_ops (lift2 Rplus) input).
  { rewrite <- (map_id input) at 1 3. apply E. }
  rewrite E0. cbv zeta. rewrite !map_map, !E. reflexivity.
Qed.

Lemma avg_size (l : list R) : size l = IZR (zlen l).
Proof. unfold size, zlen. apply INR_IZR_INZ. Qed.

(** Sum of a function of the residuals. *)
Lemma sum_residuals (input : list fl) mk l f g : length mk = length input -> unmasked input mk = map Some l -> (forall r, f r = g r) ->
  fst (sum_kahan_mask fl_ops (lift2 Rplus) (map (lift1 f) (map (fun x => fsub x (Some (avg l))) input)) mk) = Some (deviations g l).
Proof.
  intros L U H. rewrite sum_kahan_mask_eq by now rewrite !map_length. rewrite !unmasked_map, U, !map_map.
  cbn [fsub lift2 lift1]. rewrite <- (map_map (fun x => f (x - avg l)) Some). rewrite sum_kahan_some. unfold deviations. do 2 f_equal.
  apply map_ext. intros x. apply H.
Qed.

Definition moments_spec (l : list R) (M : moments) : Prop :=
  (l = [] -> M = Moments None None None None None None) /\
  (l <> [] -> mo_mean M = Some (avg l) /\ mo_meandev M = Some (mean_deviation l)) /\
  ((length l <= 1)%nat -> mo_variance M = None /\ mo_stddev M = None /\ mo_skewness M = None /\ mo_kurtosis M = None) /\
  ((2 <= length l)%nat -> mo_variance M = Some (variance l) /\ mo_stddev M = Some (sigma l) /\
     (sigma l = 0 -> mo_skewness M = None /\ mo_kurtosis M = None) /\
     (sigma l <> 0 -> mo_skewness M = Some (skew l) /\ mo_kurtosis M = Some (kurt l))).

Lemma moment_ok (input : list fl) mk l : length mk = length input -> unmasked input mk = map Some l ->
  exists M, moment input (Some mk) = Ok M /\ moments_spec l M.
Proof.
  intros L U. unfold moment. replace (negb (zlen mk =? zlen input)%Z) with false by (unfold zlen; lia). cbn [bind].
  assert (N : (zlen input - count mk = zlen l)%Z).
  { rewrite <- unmasked_length by lia. rewrite U. apply zlen_map. }
  rewrite N. cbv zeta.
  assert (S0 : fst (sum_kahan_mask fl_ops (lift2 Rplus) input mk) = Some (total l)).
  { rewrite sum_kahan_mask_eq by lia. rewrite U. apply sum_kahan_some. }
  rewrite S0. cbn [lift1].
  eexists. split; [reflexivity|]. unfold moments_spec. cbn [mo_mean mo_meandev mo_variance mo_stddev mo_skewness mo_kurtosis].
  destruct (Z.eqb_spec (zlen l) 0) as [E|E].
  - assert (l = []) as -> by (destruct l; [reflexivity | rewrite zlen_cons in E; pose proof (zlen_nonneg l); lia]).
    split; [reflexivity|]. split; [congruence|]. split; [auto|]. cbn. lia.
  - rewrite <- (avg_size l). replace (total l / size l) with (avg l) by reflexivity.
    split; [intros ->; cbn in E; lia|].
    rewrite (sum_residuals input mk l Rabs Rabs L U ltac:(reflexivity)).
    rewrite (sum_residuals input mk l (fun r => r ^ 2) (fun r => r * r) L U ltac:(intros r; cbv beta; ring)).
    rewrite (sum_residuals input mk l (fun r => r ^ 3) (fun r => r * r * r) L U ltac:(intros r; cbv beta; ring)).
    rewrite (sum_residuals input mk l (fun r => r ^ 4) (fun r => r * r * r * r) L U ltac:(intros r; cbv beta; ring)).
    cbn [lift1]. split; [split; reflexivity|].
    destruct (Z.leb_spec (zlen l) 1) as [A|A].
    + split; [cbn; auto|]. intros B. unfold zlen in A. lia.
    + split; [intros B; unfold zlen in A; lia|]. intros _.
      assert (V : deviations (fun r => r * r) l / IZR (zlen l - 1) = variance l).
      { unfold variance. rewrite minus_IZR, <- avg_size. reflexivity. }
      cbn [lift1]. rewrite V. split; [reflexivity|]. split; [reflexivity|].
      change (sqrt (variance l)) with (sigma l). cbn [orb is_zero].
      split; intros H; destruct (Req_EM_T (sigma l) 0); try contradiction; [auto|].
      cbn [lift2]. unfold skew, kurt. split; repeat f_equal; ring.
Qed.

Lemma moment_nan (input : list fl) mk : length mk = length input -> In None (unmasked input mk) -> moment input (Some mk) = Ok (Moments None None None None None None).
Proof.
  intros L H. unfold moment. replace (negb (zlen mk =? zlen input)%Z) with false by (unfold zlen; lia). cbn [bind]. cbv zeta.
  assert (S0 : fst (sum_kahan_mask fl_ops (lift2 Rplus) input mk) = None).
  { rewrite sum_kahan_mask_eq by lia. now apply sum_kahan_none. }
  rewrite S0. cbn [lift1].
  assert (S1 : forall f, fst (sum_kahan_mask fl_ops (lift2 Rplus) (map (lift1 f) (map (fun x => fsub x None) input)) mk) = None).
  { intros f. rewrite sum_kahan_mask_eq by (rewrite !map_length; lia). apply sum_kahan_none. rewrite !unmasked_map, map_map. apply in_map_iff. exists None. auto. }
  replace (if (zlen input - count mk =? 0)%Z then None else None) with (@None R) by now destruct (_ =? _)%Z.
  rewrite !S1. cbn [lift1 lift2]. destruct (_ =? 0)%Z, (_ <=? 1)%Z; reflexivity.
Qed.

(** ** Sigma clipping *)
Lemma pass_ok s x m M : length m = length x -> moments_spec (unmasked x m) M ->
  is_pass s x m (newmask (map Some x) m (Some s) (mo_mean M) (mo_stddev M)).
Proof.
  intros L HM. split; [unfold newmask; rewrite map_length, combine_length, map_length; lia|].
  intros i xi b Hx Hm.
  assert (C : nth_error (combine m (map Some x)) i = Some (b, Some xi)).
  { clear HM. revert m i L Hx Hm. induction x as [|y x IH]; intros [|c m] [|i] L Hx Hm; try discriminate.
    - cbn in *. congruence.
    - cbn. apply IH; auto. }
  unfold newmask. eexists. split; [apply (map_nth_error _ i (combine m (map Some x)) C)|]. cbn [fst snd].
  destruct HM as [H0 [H1 [H2 H3]]]. set (l := unmasked x m) in *.
  destruct (Nat.le_gt_cases 2 (length l)) as [A|A].
  - destruct (H3 A) as [_ [-> _]]. destruct (H1 ltac:(intros E; rewrite E in A; cbn in A; lia)) as [-> _].
    cbn [fsub lift2 lift1 gtb]. destruct (Rlt_dec _ _) as [B|B]; rewrite ?orb_true_r, ?orb_false_r; tauto.
  - destruct (H2 ltac:(lia)) as [_ [-> _]].
    replace (gtb _ _) with false by (cbn; destruct (mo_mean M); reflexivity).
    rewrite orb_false_r. split; [auto|]. intros [B|[B _]]; [exact B | lia].
Qed.

Lemma newmask_grows input mask s a b : length mask = length input -> grows mask (newmask input mask s a b).
Proof.
  unfold newmask, grows. revert mask. induction input as [|x input IH]; intros [|c mask] L; try discriminate; cbn; [constructor|].
  constructor; [intros ->; reflexivity|]. apply IH. now injection L.
Qed.
Lemma grows_count m m' : grows m m' -> (count m <= count m')%Z /\ (count m' = count m -> m' = m).
Proof.
  unfold count. induction 1 as [|b b' m m' H F [IH1 IH2]]; [split; [lia|auto]|]. cbn [filter].
  destruct b, b'; rewrite ?zlen_cons; try (specialize (H eq_refl); discriminate H); split; try lia; intros E; f_equal; apply IH2; lia.
Qed.
Lemma count_bound m : (0 <= count m <= zlen m)%Z.
Proof. unfold count. induction m as [|[] m IH]; cbn [filter]; rewrite ?zlen_cons; [cbn; lia | lia | lia]. Qed.
Lemma grows_length m m' : grows m m' -> length m = length m'.
Proof. unfold grows. induction 1; cbn; auto. Qed.

Lemma some_moment x m : length m = length x -> exists M, moment (map Some x) (Some m) = Ok M /\ moments_spec (unmasked x m) M.
Proof. intros L. apply moment_ok; [now rewrite map_length | apply unmasked_map]. Qed.

(** From a mask reached by k passes. *)
Lemma clip_loop_ok s x nit fuel : forall k m, length m = length x -> passes s x k m -> (Z.of_nat k <= count m)%Z ->
  (zlen x < Z.of_nat fuel + count m)%Z ->
  exists j out, clip_loop fuel (map Some x) (Some s) 1 nit m = Ok out /\ passes s x j out /\ (k <= j)%nat /\ (Z.of_nat j <= count out)%Z /\
    length out = length x /\ (nit <> 1%Z -> is_pass s x out out) /\ (nit = 1%Z -> (j <= S k)%nat /\ is_pass s x m out).
Proof.
  induction fuel as [|fuel IH]; intros k m L P C F.
  - pose proof (count_bound m). unfold zlen in *. lia.
  - cbn [clip_loop]. destruct (some_moment x m L) as [M [E HM]]. rewrite E. cbn [bind]. cbv zeta.
    pose proof (pass_ok s x m M L HM) as HP. set (new := newmask _ _ _ _ _) in *.
    assert (G : grows m new) by (apply newmask_grows; now rewrite map_length).
    pose proof (grows_count _ _ G) as [G1 G2]. pose proof (grows_length _ _ G) as G3.
    destruct (Z.eqb_spec (count new) (count m)) as [Ec|Ec].
    + rewrite (G2 Ec) in HP. exists k, m. repeat split; auto; try apply HP.
    + destruct (Z.eqb_spec 1 nit) as [En|En].
      * exists (S k), new. split; [reflexivity|]. split; [econstructor; eauto|]. split; [lia|]. split; [lia|]. split; [lia|].
        split; [lia|]. intros _. split; [lia | exact HP].
      * destruct (IH (S k) new) as [j [out [E1 [E2 [E3 [E4 [E5 [E6 E7]]]]]]]]; try lia; [econstructor; eauto|].
        exists j, out. split; [exact E1|]. split; [exact E2|]. split; [lia|]. split; [exact E4|]. split; [exact E5|]. split; [exact E6 | lia].
Qed.

Lemma clip_loop_total fuel : forall input s nit m, length m = length input -> (zlen input < Z.of_nat fuel + count m)%Z ->
  exists out, clip_loop fuel input s 1 nit m = Ok out /\ grows m out.
Proof.
  induction fuel as [|fuel IH]; intros input s nit m L F.
  - pose proof (count_bound m). unfold zlen in *. lia.
  - cbn [clip_loop].
    assert (exists M, moment input (Some m) = Ok M) as [M E].
    { unfold moment. replace (negb (zlen m =? zlen input)%Z) with false by (unfold zlen; lia). cbn [bind]. eexists. reflexivity. }
    rewrite E. cbn [bind]. cbv zeta. set (new := newmask _ _ _ _ _).
    assert (G : grows m new) by (now apply newmask_grows).
    pose proof (grows_count _ _ G) as [G1 G2]. pose proof (grows_length _ _ G) as G3.
    destruct (Z.eqb_spec (count new) (count m)) as [Ec|Ec].
    + exists m. split; [reflexivity|]. unfold grows. clear. induction m; constructor; auto.
    + destruct (1 =? nit)%Z; [exists new; auto|].
      destruct (IH input s nit new) as [out [E1 E2]]; try lia. exists out. split; [exact E1|].
      clear - G E2. unfold grows in *. revert out E2. induction G; intros out E2; inversion E2; subst; constructor; auto.
Qed.

Lemma clip_nan (input : list fl) s nit : In None input -> sigma_clipping input s nit = Ok (map (fun _ => false) input).
Proof.
  intros H. unfold sigma_clipping. cbn [clip_loop]. set (m := map (fun _ => false) input).
  assert (L : length m = length input) by (unfold m; now rewrite map_length).
  rewrite moment_nan; [|exact L | unfold m; now rewrite unmasked_all]. cbn [bind mo_mean mo_stddev]. cbv zeta.
  assert (E : newmask input m s None None = m).
  { clear H L. unfold m, newmask. induction input as [|x l IH]; cbn; [reflexivity|]. f_equal; [destruct x; reflexivity | apply IH]. }
  change (@None R) with (None : fl) in E. rewrite E, Z.eqb_refl. reflexivity.
Qed.

(** ** With a threshold of at least one deviation, something is always kept. *)
Lemma total_le f g (l : list R) : (forall x, In x l -> f x <= g x) -> total (map f l) <= total (map g l).
Proof.
  induction l as [|x l IH]; intros H; cbn; [lra|]. assert (f x <= g x) by (apply H; now left).
  assert (total (map f l) <= total (map g l)) by (apply IH; intros y Hy; apply H; now right). unfold total in *. lra.
Qed.
Lemma total_const c (l : list R) : total (map (fun _ => c) l) = size l * c.
Proof.
  unfold size. induction l as [|x l IH]; [cbn; ring|]. cbn [map length]. change (total (c :: map (fun _ => c) l)) with (c + total (map (fun _ => c) l)).
  rewrite IH, S_INR. ring.
Qed.
Lemma sq_abs r : Rabs r * Rabs r = r * r.
Proof. rewrite <- Rabs_mult. apply Rabs_pos_eq. apply Rle_0_sqr. Qed.
Lemma some_kept s (l : list R) : 1 <= s -> (2 <= length l)%nat -> ~ (forall x, In x l -> s * sigma l < Rabs (x - avg l)).
Proof.
  intros Hs Hl H. unfold sigma in H. set (v := variance l) in *.
  assert (N : 2 <= size l) by (unfold size; replace 2 with (INR 2) by reflexivity; now apply le_INR).
  assert (P : 0 <= deviations (fun r => r * r) l).
  { unfold deviations. replace 0 with (total (map (fun _ => 0) l)) by (rewrite total_const; ring). apply total_le. intros. apply Rle_0_sqr. }
  assert (V0 : 0 <= v) by (unfold v, variance; apply Rmult_le_pos; [exact P | left; apply Rinv_0_lt_compat; lra]).
  assert (V : v * (size l - 1) = deviations (fun r => r * r) l) by (unfold v, variance; field; lra).
  assert (S1 : sqrt v * sqrt v = v) by now apply sqrt_sqrt.
  assert (S2 : 0 <= sqrt v) by apply sqrt_pos.
  assert (B : forall x, In x l -> v <= (x - avg l) * (x - avg l)).
  { intros x Hx. specialize (H x Hx). assert (sqrt v <= Rabs (x - avg l)) by nra.
    rewrite <- S1. rewrite <- (sq_abs (x - avg l)).
    nra. }
  assert (D : total (map (fun _ => v) l) <= deviations (fun r => r * r) l) by (apply total_le; exact B).
  rewrite total_const in D.
  assert (v = 0) by nra.
  (* all deviations are zero although they exceed the threshold *)
  assert (Z0 : deviations (fun r => r * r) l = 0) by nra.
  destruct l as [|x l]; [cbn in Hl; lia|].
  set (a := avg (x :: l)) in *. assert (T : 0 < (x - a) * (x - a)).
  { specialize (H x ltac:(now left)). assert (0 < Rabs (x - a)) by nra.
    rewrite <- (sq_abs (x - a)). nra. }
  unfold deviations in Z0. fold a in Z0. cbn [map] in Z0. change (total ((x - a) * (x - a) :: map (fun y => (y - a) * (y - a)) l)) with ((x - a) * (x - a) + total (map (fun y => (y - a) * (y - a)) l)) in Z0.
  assert (0 <= total (map (fun y => (y - a) * (y - a)) l)).
  { replace 0 with (total (map (fun _ => 0) l)) by (rewrite total_const; ring). apply total_le. intros. apply Rle_0_sqr. }
  lra.
Qed.
Lemma passes_kept s x k m : 1 <= s -> x <> [] -> passes s x k m -> length m = length x /\ unmasked x m <> [].
Proof.
  intros Hs Hx P. induction P as [|k m m' P [L U] [L' Q]].
  - rewrite map_length, unmasked_all. auto.
  - split; [lia|]. intros E.
    assert (A : forall y, In y (unmasked x m) -> (2 <= length (unmasked x m))%nat /\ s * sigma (unmasked x m) < Rabs (y - avg (unmasked x m))).
    { intros y Hy. apply In_unmasked in Hy as [i [H1 H2]]. destruct (Q i y false H1 H2) as [b' [B1 B2]].
      destruct b'.
      - destruct B2 as [B2 _]. destruct (B2 eq_refl) as [|B3]; [discriminate | exact B3].
      - exfalso. assert (In y (unmasked x m')) as F by (apply In_unmasked; exists i; auto). rewrite E in F. destruct F. }
    destruct (unmasked x m) as [|y l] eqn:El; [congruence|].
    apply (some_kept s (y :: l) Hs).
    + apply (A y). now left.
    + intros z Hz. apply (A z Hz).
Qed.
