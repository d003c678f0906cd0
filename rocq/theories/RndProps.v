(** C111: the sparse products with rounded operations. *)
From Coq Require Import ZArith Lia Lra Reals List.
From Flocq Require Import Core Relative Plus_error.
From Verif Require Import Base BaseFacts SparseModel SparseSpec SparseExecFacts SparseFacts SparsePyFacts SparseProps RndModel RndSpec RndFacts.
Import ListNotations.
Open Scope R_scope.

(** ** One operation *)
Section One.
Variables emin prec : Z.
Hypothesis Pp : (0 < prec)%Z.
Instance prec_gt_0_ : Prec_gt_0 prec := Pp.
Notation fmt64 := (generic_format radix2 (FLT_exp emin prec)).
Notation rn := (rndp emin prec).

Let u := unit_of prec.
Let eta := tiny_of emin.

Lemma pow2 e : powerRZ 2 e = bpow radix2 e.
Proof. rewrite bpow_powerRZ. reflexivity. Qed.

Lemma u_pos : 0 < u.
Proof. unfold u, unit_of. rewrite pow2. apply bpow_gt_0. Qed.
Lemma eta_pos : 0 < eta.
Proof. unfold eta, tiny_of. rewrite pow2. apply bpow_gt_0. Qed.

Lemma half_bpow e : / 2 * bpow radix2 (e + 1) = bpow radix2 e.
Proof. rewrite bpow_plus. change (bpow radix2 1) with 2. field. Qed.

Lemma u_is : u = / 2 * bpow radix2 (- prec + 1).
Proof. unfold u, unit_of. rewrite pow2, half_bpow. reflexivity. Qed.

Lemma eta_is : eta = / 2 * bpow radix2 emin.
Proof.
  unfold eta, tiny_of. rewrite pow2. replace emin with (emin - 1 + 1)%Z at 2 by lia.
  rewrite half_bpow. reflexivity.
Qed.

Lemma format_representable x : representable emin prec x -> fmt64 x.
Proof.
  intros [m [e [E [H1 H2]]]]. apply generic_format_FLT.
  exists (Float radix2 m e); cbn; [|exact H1|exact H2]. unfold F2R. cbn. rewrite E, pow2. reflexivity.
Qed.

Lemma format_round x : fmt64 (rn x).
Proof. apply generic_format_round; [apply FLT_exp_valid; exact Pp|apply valid_rnd_N]. Qed.

Lemma format_opp x : fmt64 x -> fmt64 (- x).
Proof. apply generic_format_opp. Qed.

Lemma add_error a b : fmt64 a -> fmt64 b -> Rabs (rn (a + b) - (a + b)) <= u * Rabs (a + b).
Proof.
  intros Fa Fb. destruct (FLT_plus_error_N_ex radix2 emin prec (fun x => negb (Z.even x)) a b Fa Fb) as [eps [He E]].
  unfold rndp. rewrite E. replace ((a + b) * (1 + eps) - (a + b)) with (eps * (a + b)) by ring.
  rewrite Rabs_mult. apply Rmult_le_compat_r; [apply Rabs_pos|].
  assert (U : u_ro radix2 prec = u) by (rewrite u_is; reflexivity). rewrite U in He. pose proof u_pos.
  eapply Rle_trans; [exact He|]. unfold Rdiv.
  rewrite <- (Rmult_1_r u) at 3. apply Rmult_le_compat_l; [lra|].
  rewrite <- Rinv_1. apply Rinv_le; lra.
Qed.

Lemma mul_error a b : Rabs (rn (a * b) - a * b) <= u * Rabs (a * b) + eta.
Proof.
  destruct (error_N_FLT radix2 emin prec Pp (fun x => negb (Z.even x)) (a * b)) as [eps [et [He [Ht [_ E]]]]].
  unfold rndp. rewrite E. replace (a * b * (1 + eps) + et - a * b) with (eps * (a * b) + et) by ring.
  eapply Rle_trans; [apply Rabs_triang|]. rewrite Rabs_mult. rewrite <- u_is in He. rewrite <- eta_is in Ht.
  apply Rplus_le_compat; [|exact Ht]. apply Rmult_le_compat_r; [apply Rabs_pos|exact He].
Qed.

(** ** Propagation *)
Let g (k : nat) : R := (1 + u) ^ k.

Lemma g_ge1 k : 1 <= g k.
Proof. unfold g. apply pow_R1_Rle. pose proof u_pos. lra. Qed.

Lemma g_mono k k' : (k <= k')%nat -> g k <= g k'.
Proof. intros H. unfold g. apply Rle_pow; [|exact H]. pose proof u_pos. lra. Qed.

Lemma g_S k : g (S k) = (1 + u) * g k. Proof. reflexivity. Qed.

Definition bound (n k : nat) (m : R) : R := (g n - 1) * m + INR k * g n * eta.

Lemma bound_mono n k n' k' m : (n <= n')%nat -> (k <= k')%nat -> 0 <= m -> bound n k m <= bound n' k' m.
Proof.
  intros Hn Hk Hm. unfold bound. pose proof (g_mono n n' Hn). pose proof (g_ge1 n). pose proof eta_pos.
  pose proof (le_INR _ _ Hk). pose proof (pos_INR k).
  apply Rplus_le_compat; [apply Rmult_le_compat_r; lra|].
  apply Rmult_le_compat_r; [lra|]. apply Rmult_le_compat; lra.
Qed.

Definition T_err (k : nat) (c e m : R) : Prop :=
  fmt64 c /\ 0 <= m /\ (1 <= k)%nat /\ Rabs e <= m /\ Rabs (c - e) <= bound k k m.
Definition A_err (k : nat) (c e m : R) : Prop :=
  fmt64 c /\ 0 <= m /\ Rabs e <= m /\ Rabs (c - e) <= bound (k + 1) k m.

Lemma sum_error c c' e e' m m' d d' : fmt64 c -> fmt64 c' -> Rabs e <= m -> Rabs e' <= m' ->
  Rabs (c - e) <= d -> Rabs (c' - e') <= d' ->
  Rabs (rn (c + c') - (e + e')) <= u * (m + m') + (1 + u) * (d + d').
Proof.
  intros Fc Fc' He He' Hd Hd'. pose proof (add_error c c' Fc Fc') as H. pose proof u_pos as Hu.
  assert (X : Rabs (c + c') <= (m + m') + (d + d')).
  { replace (c + c') with (e + e' + ((c - e) + (c' - e'))) by ring.
    eapply Rle_trans; [apply Rabs_triang|]. pose proof (Rabs_triang e e'). pose proof (Rabs_triang (c - e) (c' - e')). lra. }
  replace (rn (c + c') - (e + e')) with (rn (c + c') - (c + c') + ((c - e) + (c' - e'))) by ring.
  eapply Rle_trans; [apply Rabs_triang|]. pose proof (Rabs_triang (c - e) (c' - e')).
  assert (u * Rabs (c + c') <= u * ((m + m') + (d + d'))) by (apply Rmult_le_compat_l; lra). lra.
Qed.

Lemma sum_bound n k k' m m' : u * (m + m') + (1 + u) * (bound n k m + bound n k' m') = bound (S n) (k + k') (m + m').
Proof. unfold bound. rewrite g_S, plus_INR. ring. Qed.

Lemma sum_step n n1 n2 k k' c c' e e' m m' : fmt64 c -> fmt64 c' -> 0 <= m -> 0 <= m' -> Rabs e <= m -> Rabs e' <= m' ->
  (n1 <= n)%nat -> (n2 <= n)%nat ->
  Rabs (c - e) <= bound n1 k m -> Rabs (c' - e') <= bound n2 k' m' ->
  Rabs (rn (c + c') - (e + e')) <= bound (S n) (k + k') (m + m').
Proof.
  intros Fc Fc' Hm Hm' He He' H1 H2 Hd Hd'. rewrite <- sum_bound. apply sum_error; auto.
  - eapply Rle_trans; [exact Hd|]. apply bound_mono; auto.
  - eapply Rle_trans; [exact Hd'|]. apply bound_mono; auto.
Qed.

Lemma err_prod a b : fmt64 a -> fmt64 b -> T_err 1 (rn (a * b)) (a * b) (Rabs a * Rabs b).
Proof.
  intros _ _. pose proof (Rabs_pos a). pose proof (Rabs_pos b). rewrite <- Rabs_mult.
  split; [apply format_round|]. split; [apply Rabs_pos|]. split; [lia|]. split; [lra|].
  eapply Rle_trans; [apply mul_error|]. unfold bound, g. cbn [pow INR]. pose proof u_pos. pose proof eta_pos. nra.
Qed.

Lemma err_opp k c e m : T_err k c e m -> T_err k (- c) (- e) m.
Proof.
  intros [H1 [H2 [H3 [H4 H5]]]]. split; [apply format_opp, H1|]. split; [exact H2|]. split; [exact H3|].
  split; [rewrite Rabs_Ropp; exact H4|]. replace (- c - - e) with (- (c - e)) by ring. rewrite Rabs_Ropp. exact H5.
Qed.

Lemma err_add k c e m k' c' e' m' : T_err k c e m -> T_err k' c' e' m' -> T_err (k + k') (rn (c + c')) (e + e') (m + m').
Proof.
  intros [H1 [H2 [H3 [H4 H5]]]] [H1' [H2' [H3' [H4' H5']]]]. split; [apply format_round|]. split; [lra|].
  split; [lia|]. split; [pose proof (Rabs_triang e e'); lra|].
  replace (bound (k + k') (k + k') (m + m')) with (bound (S (k + k' - 1)) (k + k') (m + m')) by (f_equal; lia).
  eapply sum_step with (n1 := k) (n2 := k'); eauto; lia.
Qed.

Lemma err_start x : fmt64 x -> A_err 0 x x (Rabs x).
Proof.
  intros H. split; [exact H|]. split; [apply Rabs_pos|]. split; [lra|].
  replace (x - x) with 0 by ring. rewrite Rabs_R0. unfold bound. pose proof (g_ge1 (0 + 1)). pose proof (Rabs_pos x).
  cbn [INR]. nra.
Qed.

Lemma err_acc k c e m k' c' e' m' : A_err k c e m -> T_err k' c' e' m' -> A_err (k + k') (rn (c + c')) (e + e') (m + m').
Proof.
  intros [H1 [H2 [H4 H5]]] [H1' [H2' [H3' [H4' H5']]]]. split; [apply format_round|]. split; [lra|].
  split; [pose proof (Rabs_triang e e'); lra|].
  replace (k + k' + 1)%nat with (S (k + k')) by lia.
  eapply sum_step with (n1 := (k + 1)%nat) (n2 := k'); eauto; lia.
Qed.

(** ** Integers *)
Hypothesis Pe : (emin <= 0)%Z.

Lemma integer_exact x : is_integer x -> Rabs x <= IZR (2 ^ prec) -> rn x = x.
Proof.
  intros [n ->] H. apply round_generic; [apply valid_rnd_N|]. rewrite <- abs_IZR in H. apply le_IZR in H.
  destruct (Z.eq_dec (Z.abs n) (2 ^ prec)) as [E|E].
  - assert (B : fmt64 (IZR (2 ^ prec))).
    { replace (IZR (2 ^ prec)) with (bpow radix2 prec).
      - apply generic_format_FLT_bpow; [exact Pp|lia].
      - rewrite <- IZR_Zpower by lia. reflexivity. }
    destruct (Z.abs_eq_or_opp n) as [A|A]; rewrite A in E.
    + rewrite E. exact B.
    + replace n with (- (2 ^ prec))%Z by lia. rewrite opp_IZR. apply generic_format_opp, B.
  - apply generic_format_FLT. exists (Float radix2 n 0); cbn; [|lia|exact Pe].
    unfold F2R. cbn. ring.
Qed.

Definition T_int (k : nat) (c e m : R) : Prop :=
  0 <= m /\ (m <= IZR (2 ^ prec) -> c = e /\ is_integer e /\ Rabs e <= m).

Lemma int_mul a b : is_integer a -> is_integer b -> is_integer (a * b).
Proof. intros [x ->] [y ->]. exists (x * y)%Z. rewrite mult_IZR. reflexivity. Qed.
Lemma int_add a b : is_integer a -> is_integer b -> is_integer (a + b).
Proof. intros [x ->] [y ->]. exists (x + y)%Z. rewrite plus_IZR. reflexivity. Qed.
Lemma int_opp a : is_integer a -> is_integer (- a).
Proof. intros [x ->]. exists (- x)%Z. rewrite opp_IZR. reflexivity. Qed.

Lemma int_prod a b : is_integer a -> is_integer b -> T_int 1 (rn (a * b)) (a * b) (Rabs a * Rabs b).
Proof.
  intros Ha Hb. rewrite <- Rabs_mult. split; [apply Rabs_pos|]. intros Hm.
  split; [apply integer_exact; [apply int_mul; auto|exact Hm]|]. split; [apply int_mul; auto|lra].
Qed.

Lemma int_neg k c e m : T_int k c e m -> T_int k (- c) (- e) m.
Proof.
  intros [H1 H2]. split; [exact H1|]. intros Hm. destruct (H2 Hm) as [-> [I L]].
  split; [reflexivity|]. split; [apply int_opp, I|rewrite Rabs_Ropp; exact L].
Qed.

Lemma int_plus k c e m k' c' e' m' : T_int k c e m -> T_int k' c' e' m' -> T_int (k + k') (rn (c + c')) (e + e') (m + m').
Proof.
  intros [H1 H2] [H1' H2']. split; [lra|]. intros Hm.
  destruct H2 as [-> [I L]]; [lra|]. destruct H2' as [-> [I' L']]; [lra|].
  pose proof (Rabs_triang e e').
  split; [apply integer_exact; [apply int_add; auto|lra]|]. split; [apply int_add; auto|lra].
Qed.

Lemma int_start x : is_integer x -> T_int 0 x x (Rabs x).
Proof. intros H. split; [apply Rabs_pos|]. intros _. split; [reflexivity|]. split; [exact H|lra]. Qed.
End One.

(** ** C111 *)
Lemma zero_format emin prec : (0 < prec)%Z -> generic_format radix2 (FLT_exp emin prec) 0.
Proof. intros. apply generic_format_0. Qed.

Lemma err_final emin prec (M : matrix R) extra v out r c : (0 < prec)%Z ->
  (exists k, (k <= products M extra c)%nat /\
     A_err emin prec k (at_ exact_ops r c) (exact_value M extra v out c) (magnitude M extra v out c)) ->
  Rabs (at_ exact_ops r c - exact_value M extra v out c) <= error_bound emin prec M extra v out c.
Proof.
  intros Pp [k [Hk [_ [Hm [_ H]]]]]. eapply Rle_trans; [exact H|].
  apply (bound_mono emin prec (k + 1) k (products M extra c + 1) (products M extra c)); auto. lia.
Qed.

(** For every class, every schedule of the compiled kernels and any number of broadcast
    columns, with representable values: the rounded result is within the bound of the exact
    product. *)
Theorem C111_error : forall emin prec, (0 < prec)%Z ->
  forall sched (M : matrix R) extra v out,
  well_formed M -> scheduler sched -> allowed_extra M extra -> (0 < mx_cols M)%nat -> (0 < mx_rows M)%nat ->
  length v = (extra * mx_cols M)%nat -> length out = (extra * mx_rows M)%nat ->
  stored_values (representable emin prec) M ->
  (forall y, In y v -> representable emin prec y) -> (forall y, In y out -> representable emin prec y) ->
  exists r, matvec (fp_ops emin prec) true sched M v (Some out) = Ok (Some r) /\
    length r = (extra * mx_rows M)%nat /\
    forall c, (c < extra * mx_rows M)%nat ->
      Rabs (at_ exact_ops r c - exact_value M extra v out c) <= error_bound emin prec M extra v out c.
Proof.
  intros emin prec Pp sched M extra v out W S A C R Lv Lo Fv Fx Fo.
  destruct (matvec_tracked _ _ (generic_format radix2 (FLT_exp emin prec)) (T_err emin prec) (A_err emin prec)
    (zero_format emin prec Pp) (err_prod emin prec Pp) (err_opp emin prec) (err_add emin prec Pp)
    (err_start emin prec) (err_acc emin prec Pp) sched M extra v out W S A C R Lv Lo) as [r [E [L H]]].
  - intros row e y H1 H2 H3. apply format_representable. eapply Fv; eauto.
  - intros y Hy. apply format_representable; auto.
  - intros y Hy. apply format_representable; auto.
  - exists r. split; [exact E|]. split; [exact L|]. intros c Hc. apply err_final; auto.
Qed.
Print Assumptions C111_error.

Theorem C111_error_new_output : forall emin prec, (0 < prec)%Z ->
  forall sched (M : matrix R) extra v,
  well_formed M -> scheduler sched -> allowed_extra M extra -> (0 < mx_cols M)%nat ->
  length v = (extra * mx_cols M)%nat ->
  stored_values (representable emin prec) M -> (forall y, In y v -> representable emin prec y) ->
  let zero := repeat 0 (extra * mx_rows M) in
  exists r, matvec (fp_ops emin prec) true sched M v None = Ok (Some r) /\
    length r = (extra * mx_rows M)%nat /\
    forall c, (c < extra * mx_rows M)%nat ->
      Rabs (at_ exact_ops r c - exact_value M extra v zero c) <= error_bound emin prec M extra v zero c.
Proof.
  intros emin prec Pp sched M extra v W S A C Lv Fv Fx zero.
  destruct (matvec_tracked_none _ _ (generic_format radix2 (FLT_exp emin prec)) (T_err emin prec) (A_err emin prec)
    (zero_format emin prec Pp) (err_prod emin prec Pp) (err_opp emin prec) (err_add emin prec Pp)
    (err_start emin prec) (err_acc emin prec Pp) sched M extra v W S A C Lv) as [r [E [L H]]].
  - intros row e y H1 H2 H3. apply format_representable. eapply Fv; eauto.
  - intros y Hy. apply format_representable; auto.
  - exists r. split; [exact E|]. split; [exact L|]. intros c Hc. apply err_final; auto.
Qed.
Print Assumptions C111_error_new_output.

(** Two schedules: the results differ by at most twice the bound. *)
Theorem C111_schedules : forall emin prec, (0 < prec)%Z ->
  forall sched sched' (M : matrix R) extra v out r r',
  well_formed M -> scheduler sched -> scheduler sched' -> allowed_extra M extra ->
  (0 < mx_cols M)%nat -> (0 < mx_rows M)%nat ->
  length v = (extra * mx_cols M)%nat -> length out = (extra * mx_rows M)%nat ->
  stored_values (representable emin prec) M ->
  (forall y, In y v -> representable emin prec y) -> (forall y, In y out -> representable emin prec y) ->
  matvec (fp_ops emin prec) true sched M v (Some out) = Ok (Some r) ->
  matvec (fp_ops emin prec) true sched' M v (Some out) = Ok (Some r') ->
  forall c, (c < extra * mx_rows M)%nat ->
    Rabs (at_ exact_ops r c - at_ exact_ops r' c) <= 2 * error_bound emin prec M extra v out c.
Proof.
  intros emin prec Pp sched sched' M extra v out r r' W S S' A C R Lv Lo Fv Fx Fo E E' c Hc.
  destruct (C111_error emin prec Pp sched M extra v out W S A C R Lv Lo Fv Fx Fo) as [s [Es [_ H]]].
  destruct (C111_error emin prec Pp sched' M extra v out W S' A C R Lv Lo Fv Fx Fo) as [s' [Es' [_ H']]].
  rewrite E in Es. injection Es as <-. rewrite E' in Es'. injection Es' as <-.
  specialize (H c Hc). specialize (H' c Hc).
  replace (at_ exact_ops r c - at_ exact_ops r' c) with
    ((at_ exact_ops r c - exact_value M extra v out c) + - (at_ exact_ops r' c - exact_value M extra v out c)) by ring.
  eapply Rle_trans; [apply Rabs_triang|]. rewrite Rabs_Ropp. lra.
Qed.
Print Assumptions C111_schedules.

(** ** Overflow *)
Section Overflow.
Variables emin prec emax : Z.
Hypothesis Pp : (0 < prec)%Z.
Variable overflow : R -> R.
Notation F := (generic_format radix2 (FLT_exp emin prec)).
Notation ck := (checked emin prec emax overflow).
Notation top := (bpow radix2 emax).

Definition T_ov (k : nat) (c e m : R) : Prop :=
  0 <= m /\ (m + bound emin prec k k m < top -> T_err emin prec k c e m).
Definition A_ov (k : nat) (c e m : R) : Prop :=
  0 <= m /\ (m + bound emin prec (k + 1) k m < top -> A_err emin prec k c e m).

Lemma checked_ok x e m b : Rabs e <= m -> Rabs (rndp emin prec x - e) <= b -> m + b < top -> ck x = rndp emin prec x.
Proof.
  intros He Hb Ht. unfold checked. destruct (Rlt_dec (Rabs (rndp emin prec x)) top) as [|N]; [reflexivity|]. exfalso. apply N.
  replace (rndp emin prec x) with (e + (rndp emin prec x - e)) by ring.
  eapply Rle_lt_trans; [apply Rabs_triang|]. lra.
Qed.

Lemma ov_prod a b : F a -> F b -> T_ov 1 (ck (a * b)) (a * b) (Rabs a * Rabs b).
Proof.
  intros Fa Fb. destruct (err_prod emin prec Pp a b Fa Fb) as [H1 [H2 [H3 [H4 H5]]]]. split; [exact H2|]. intros Ht.
  rewrite (checked_ok _ _ _ _ H4 H5 Ht). repeat split; assumption.
Qed.

Lemma ov_opp k c e m : T_ov k c e m -> T_ov k (- c) (- e) m.
Proof. intros [H1 H2]. split; [exact H1|]. intros Ht. apply err_opp, H2, Ht. Qed.

Lemma bound_sum n k m n' k' m' : (n <= n')%nat -> (k <= k')%nat -> 0 <= m -> m <= m' ->
  m + bound emin prec n k m <= m' + bound emin prec n' k' m'.
Proof.
  intros Hn Hk Hm Hm'. apply Rplus_le_compat; [exact Hm'|]. eapply Rle_trans; [apply bound_mono; eauto|].
  unfold bound. apply Rplus_le_compat_r. apply Rmult_le_compat_l; [|exact Hm']. pose proof (g_ge1 prec n'). lra.
Qed.

Lemma ov_add k c e m k' c' e' m' : T_ov k c e m -> T_ov k' c' e' m' -> T_ov (k + k') (ck (c + c')) (e + e') (m + m').
Proof.
  intros [H1 H2] [H1' H2']. split; [lra|]. intros Ht.
  assert (X : T_err emin prec k c e m).
  { apply H2. eapply Rle_lt_trans; [|exact Ht]. apply bound_sum; try lia; lra. }
  assert (X' : T_err emin prec k' c' e' m').
  { apply H2'. eapply Rle_lt_trans; [|exact Ht]. apply bound_sum; try lia; lra. }
  pose proof (err_add emin prec Pp _ _ _ _ _ _ _ _ X X') as Y. destruct Y as [Y1 [Y2 [Y3 [Y4 Y5]]]].
  rewrite (checked_ok _ _ _ _ Y4 Y5 Ht). repeat split; assumption.
Qed.

Lemma ov_start x : F x -> A_ov 0 x x (Rabs x).
Proof. intros Fx. split; [apply Rabs_pos|]. intros _. apply err_start, Fx. Qed.

Lemma ov_acc k c e m k' c' e' m' : A_ov k c e m -> T_ov k' c' e' m' -> A_ov (k + k') (ck (c + c')) (e + e') (m + m').
Proof.
  intros [H1 H2] [H1' H2']. split; [lra|]. intros Ht.
  assert (X : A_err emin prec k c e m).
  { apply H2. eapply Rle_lt_trans; [|exact Ht]. apply bound_sum; try lia; lra. }
  assert (X' : T_err emin prec k' c' e' m').
  { apply H2'. eapply Rle_lt_trans; [|exact Ht]. apply bound_sum; try lia; lra. }
  pose proof (err_acc emin prec Pp _ _ _ _ _ _ _ _ X X') as Y. destruct Y as [Y1 [Y2 [Y4 Y5]]].
  rewrite (checked_ok _ _ _ _ Y4 Y5 Ht). repeat split; assumption.
Qed.
End Overflow.

(** A cell whose magnitude and error stay below 2^emax (128 or 1024) does not depend on what
    overflows give: no operation made for it overflows, whatever happens to the others. *)
Theorem C111_no_overflow : forall emin prec emax overflow, (0 < prec)%Z ->
  forall sched (M : matrix R) extra v out,
  well_formed M -> scheduler sched -> allowed_extra M extra -> (0 < mx_cols M)%nat -> (0 < mx_rows M)%nat ->
  length v = (extra * mx_cols M)%nat -> length out = (extra * mx_rows M)%nat ->
  stored_values (representable emin prec) M ->
  (forall y, In y v -> representable emin prec y) -> (forall y, In y out -> representable emin prec y) ->
  exists r, matvec (fp_ops_checked emin prec emax overflow) true sched M v (Some out) = Ok (Some r) /\
    length r = (extra * mx_rows M)%nat /\
    forall c, (c < extra * mx_rows M)%nat ->
      magnitude M extra v out c + error_bound emin prec M extra v out c < powerRZ 2 emax ->
      Rabs (at_ exact_ops r c - exact_value M extra v out c) <= error_bound emin prec M extra v out c.
Proof.
  intros emin prec emax overflow Pp sched M extra v out W S A C R Lv Lo Fv Fx Fo.
  destruct (matvec_tracked _ _ (generic_format radix2 (FLT_exp emin prec)) (T_ov emin prec emax) (A_ov emin prec emax)
    (zero_format emin prec Pp) (ov_prod emin prec emax Pp overflow) (ov_opp emin prec emax) (ov_add emin prec emax Pp overflow)
    (ov_start emin prec emax) (ov_acc emin prec emax Pp overflow) sched M extra v out W S A C R Lv Lo) as [r [E [L H]]].
  - intros row e y H1 H2 H3. apply format_representable. eapply Fv; eauto.
  - intros y Hy. apply format_representable; auto.
  - intros y Hy. apply format_representable; auto.
  - exists r. split; [exact E|]. split; [exact L|]. intros c Hc Ht. rewrite pow2 in Ht.
    destruct (H c Hc) as [k [Hk [Hm K]]]. apply err_final; [exact Pp|]. exists k. split; [exact Hk|]. apply K.
    eapply Rle_lt_trans; [|exact Ht]. apply bound_sum; try lia; lra.
Qed.
Print Assumptions C111_no_overflow.
(** In single precision: 2^127 + 2^127 overflows, the other cell does not see it. *)
Definition ex_over : matrix R := Matrix FSR KScalar 2 1 (1, 1)%nat [[Elt 0 [2]]; [Elt 0 [1]]].
Example C111_no_overflow_example : matvec (fp_ops_checked (-149) 24 128 (fun _ => 0)) true (@in_order R) ex_over [IZR (2 ^ 127)] (Some [0; 0]) = Ok (Some [0; IZR (2 ^ 127)]).
Proof.
  assert (Z : forall e, (0 <= e)%Z -> IZR (2 ^ e) = bpow radix2 e) by (intros e He; rewrite <- IZR_Zpower by exact He; reflexivity).
  assert (P : forall e, (0 <= e)%Z -> rndp (-149) 24 (IZR (2 ^ e)) = IZR (2 ^ e)).
  { intros e He. apply round_generic; [apply valid_rnd_N|]. rewrite Z by exact He. apply generic_format_FLT_bpow; [reflexivity|lia]. }
  assert (A : forall e, Rabs (bpow radix2 e) = bpow radix2 e) by (intros e; apply Rabs_pos_eq, bpow_ge_0).
  assert (C0 : checked (-149) 24 128 (fun _ => 0) 0 = 0).
  { unfold checked, rndp. rewrite round_0 by apply valid_rnd_N. destruct (Rlt_dec _ _); reflexivity. }
  assert (C1 : checked (-149) 24 128 (fun _ => 0) (2 * IZR (2 ^ 127)) = 0).
  { replace (2 * IZR (2 ^ 127)) with (IZR (2 ^ 128)) by (change (2 ^ 128)%Z with (2 * 2 ^ 127)%Z; rewrite mult_IZR; reflexivity).
    unfold checked. rewrite P, Z, A by lia. destruct (Rlt_dec _ _) as [L|]; [|reflexivity]. apply lt_bpow in L. lia. }
  assert (C2 : checked (-149) 24 128 (fun _ => 0) (IZR (2 ^ 127)) = IZR (2 ^ 127)).
  { unfold checked. rewrite P, Z, A by lia. destruct (Rlt_dec _ _) as [|N]; [reflexivity|]. exfalso. apply N, bpow_lt. lia. }
  cbv -[checked IZR Z.pow Rplus Rmult]. rewrite C1, !Rplus_0_r, C0, Rmult_1_l, C2, Rplus_0_l, C2. reflexivity.
Qed.

(** Integers: a cell whose magnitude does not exceed 2^prec is exact, in every order. *)
Theorem C111_integers : forall emin prec, (0 < prec)%Z -> (emin <= 0)%Z ->
  forall sched (M : matrix R) extra v out,
  well_formed M -> scheduler sched -> allowed_extra M extra -> (0 < mx_cols M)%nat -> (0 < mx_rows M)%nat ->
  length v = (extra * mx_cols M)%nat -> length out = (extra * mx_rows M)%nat ->
  stored_values is_integer M -> (forall y, In y v -> is_integer y) -> (forall y, In y out -> is_integer y) ->
  exists r, matvec (fp_ops emin prec) true sched M v (Some out) = Ok (Some r) /\
    length r = (extra * mx_rows M)%nat /\
    forall c, (c < extra * mx_rows M)%nat -> magnitude M extra v out c <= IZR (2 ^ prec) ->
      at_ exact_ops r c = exact_value M extra v out c.
Proof.
  intros emin prec Pp Pe sched M extra v out W S A C R Lv Lo Fv Fx Fo.
  destruct (matvec_tracked _ _ is_integer (T_int prec) (T_int prec)
    (ex_intro _ 0%Z eq_refl) (int_prod emin prec Pp Pe) (int_neg prec) (int_plus emin prec Pp Pe)
    (int_start prec) (int_plus emin prec Pp Pe) sched M extra v out W S A C R Lv Lo Fv Fx Fo) as [r [E [L H]]].
  exists r. split; [exact E|]. split; [exact L|]. intros c Hc Hm.
  destruct (H c Hc) as [k [_ [_ K]]]. apply K, Hm.
Qed.
Print Assumptions C111_integers.

(** FINDING 180.  Above 2^53 the binary64 result of a column format depends on the schedule:
    2^53 + 1 + 1 is 2^53, 1 + 1 + 2^53 is 2^53 + 2. *)
Definition ex_big : matrix R := Matrix FSC KScalar 1 3 (1, 1)%nat [[Elt 0 [IZR (2 ^ 53)]]; [Elt 0 [1]]; [Elt 0 [1]]].

Lemma rndp_odd : rndp (-1074) 53 (IZR (2 ^ 53 + 1)) = IZR (2 ^ 53).
Proof.
  unfold rndp, round, F2R, scaled_mantissa, cexp.
  assert (M : mag radix2 (IZR (2 ^ 53 + 1)) = 54%Z :> Z).
  { apply mag_unique_pos. split.
    - change (bpow radix2 (54 - 1)) with (IZR (2 ^ 53)). apply IZR_le. lia.
    - change (bpow radix2 54) with (IZR (2 ^ 54)). apply IZR_lt. lia. }
  rewrite M. change (FLT_exp (-1074) 53 54) with 1%Z. cbn [Defs.Fnum Defs.Fexp].
  change (bpow radix2 (- (1))) with (/ 2). change (bpow radix2 1) with 2.
  assert (X : IZR (2 ^ 53 + 1) * / 2 = IZR (2 ^ 52) + / 2).
  { replace (2 ^ 53 + 1)%Z with (2 * 2 ^ 52 + 1)%Z by reflexivity. rewrite plus_IZR, mult_IZR. field. }
  rewrite X. unfold ZnearestE, Znearest.
  assert (F : Zfloor (IZR (2 ^ 52) + / 2) = (2 ^ 52)%Z).
  { apply Zfloor_imp. rewrite plus_IZR. lra. }
  rewrite F. replace (IZR (2 ^ 52) + / 2 - IZR (2 ^ 52)) with (/ 2) by ring.
  rewrite Rcompare_Eq by reflexivity.
  replace (negb (Z.even (2 ^ 52))) with false by reflexivity.
  replace (2 ^ 53)%Z with (2 ^ 52 * 2)%Z by reflexivity. rewrite mult_IZR. reflexivity.
Qed.

Lemma rndp_even : rndp (-1074) 53 (IZR (2 ^ 53 + 2)) = IZR (2 ^ 53 + 2).
Proof.
  apply round_generic; [apply valid_rnd_N|]. apply generic_format_FLT.
  exists (Float radix2 (2 ^ 52 + 1) 1); cbn; [|lia|lia]. unfold F2R. cbn. lra.
Qed.

Lemma rndp_int n : (Z.abs n <= 2 ^ 53)%Z -> rndp (-1074) 53 (IZR n) = IZR n.
Proof.
  intros H. apply integer_exact; [lia|lia|exists n; reflexivity|].
  rewrite <- abs_IZR. apply IZR_le. exact H.
Qed.

Theorem C111_columns_refuted :
  exists M v sched sched', well_formed M /\ mx_axis M = FSC /\ scheduler sched /\ scheduler sched' /\
    stored_values (representable (-1074) 53) M /\ (forall y, In y v -> representable (-1074) 53 y) /\
    matvec (fp_ops (-1074) 53) true sched M v None = Ok (Some [IZR (2 ^ 53)]) /\
    matvec (fp_ops (-1074) 53) true sched' M v None = Ok (Some [IZR (2 ^ 53 + 2)]).
Proof.
  exists ex_big, [1; 1; 1], (@in_order R), (@backwards (act R)). split.
  { split; [reflexivity|]. exists 1%nat, 3%nat. repeat split; repeat constructor; cbn; lia. }
  split; [reflexivity|]. split; [apply in_order_scheduler|]. split; [apply backwards_scheduler|].
  assert (R1 : representable (-1074) 53 1) by (exists 1%Z, 0%Z; repeat split; [cbn; lra|lia]).
  split.
  { intros row e v H1 H2 H3. cbn in H1. destruct H1 as [<-|[<-|[<-|[]]]]; destruct H2 as [<-|[]]; destruct H3 as [<-|[]]; auto.
    exists 1%Z, 53%Z. split; [|split; lia]. rewrite pow2. change (bpow radix2 53) with (IZR (2 ^ 53)). lra. }
  split; [intros y [<-|[<-|[<-|[]]]]; exact R1|].
  assert (P1 : rndp (-1074) 53 (IZR (2 ^ 53) * 1) = IZR (2 ^ 53)) by (rewrite Rmult_1_r; apply rndp_int; lia).
  assert (P2 : rndp (-1074) 53 (1 * 1) = 1) by (rewrite Rmult_1_r; apply rndp_int; lia).
  split.
  - cbv -[rndp IZR Z.pow Rplus Rmult]. rewrite P1, P2.
    replace (0 + IZR (2 ^ 53)) with (IZR (2 ^ 53)) by ring. rewrite rndp_int by lia.
    replace (IZR (2 ^ 53) + 1) with (IZR (2 ^ 53 + 1)) by (rewrite plus_IZR; reflexivity). rewrite rndp_odd.
    replace (IZR (2 ^ 53) + 1) with (IZR (2 ^ 53 + 1)) by (rewrite plus_IZR; reflexivity). rewrite rndp_odd.
    reflexivity.
  - cbv -[rndp IZR Z.pow Rplus Rmult]. rewrite P1, P2.
    replace (0 + 1) with (IZR 1) by (change (IZR 1) with 1; ring). rewrite rndp_int by lia.
    replace (IZR 1 + 1) with (IZR 2) by (change (IZR 1) with 1; lra). rewrite rndp_int by lia.
    replace (IZR 2 + IZR (2 ^ 53)) with (IZR (2 ^ 53 + 2)) by (rewrite plus_IZR; ring). rewrite rndp_even.
    reflexivity.
Qed.
Print Assumptions C111_columns_refuted.

(** Counts: two hits and a miss, in every order, in single precision. *)
Definition ex_hits : matrix R := Matrix FSC KScalar 2 3 (1, 1)%nat [[Elt 0 [1]]; [Elt 0 [1]]; [Elt (-1) [1]]].

Example C111_example : forall sched, scheduler sched ->
  exists r, matvec (fp_ops (-149) 24) true sched ex_hits [1; 1; 1] (Some [5; 6]) = Ok (Some r) /\
    r = [7; 6] /\ products ex_hits 1 0 = 2%nat /\ magnitude ex_hits 1 [1; 1; 1] [5; 6] 0 = 7.
Proof.
  intros sched Hs.
  assert (I : forall n, is_integer (IZR n)) by (intros n; exists n; reflexivity).
  assert (W : well_formed ex_hits).
  { split; [reflexivity|]. exists 2%nat, 3%nat. repeat split; repeat constructor; cbn; lia. }
  assert (M0 : magnitude ex_hits 1 [1; 1; 1] [5; 6] 0 = 7).
  { cbv -[Rabs Rplus Rmult IZR]. rewrite !Rabs_R1, (Rabs_pos_eq 5) by lra. lra. }
  assert (M1 : magnitude ex_hits 1 [1; 1; 1] [5; 6] 1 = 6).
  { cbv -[Rabs Rplus Rmult IZR]. rewrite !Rabs_R1, (Rabs_pos_eq 6) by lra. lra. }
  destruct (C111_integers (-149) 24 ltac:(lia) ltac:(lia) sched ex_hits 1 [1; 1; 1] [5; 6] W Hs) as [r [E [L H]]];
    try reflexivity; try (cbn; lia).
  - intros row e v H1 H2 H3. cbn in H1. destruct H1 as [<-|[<-|[<-|[]]]]; destruct H2 as [<-|[]]; destruct H3 as [<-|[]]; apply I.
  - intros y [<-|[<-|[<-|[]]]]; apply I.
  - intros y [<-|[<-|[]]]; apply I.
  - exists r. split; [exact E|]. split; [|split; [reflexivity|exact M0]].
    pose proof (H 0%nat ltac:(cbn; lia)) as H0. pose proof (H 1%nat ltac:(cbn; lia)) as H1.
    rewrite M0 in H0. rewrite M1 in H1. specialize (H0 ltac:(apply IZR_le; lia)). specialize (H1 ltac:(apply IZR_le; lia)).
    destruct r as [|a [|b [|]]]; try discriminate L.
    change (at_ exact_ops [a; b] 0) with a in H0. change (at_ exact_ops [a; b] 1) with b in H1.
    rewrite H0, H1. f_equal; [|f_equal]; cbv -[Rplus Rmult IZR]; lra.
Qed.
