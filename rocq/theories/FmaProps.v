(** C111: the sparse products with contracted operations. *)
From Coq Require Import ZArith Lia Lra Reals List.
From Flocq Require Import Core Relative.
From Verif Require Import Base BaseFacts SparseModel SparseSpec SparseExecFacts SparseFacts SparsePyFacts SparseProps RndModel RndSpec RndFacts RndProps FmaModel.
Import ListNotations.
Open Scope R_scope.

Section Fused.
Variables emin prec : Z.
Hypothesis Pp : (0 < prec)%Z.
Notation fmt64 := (generic_format radix2 (FLT_exp emin prec)).
Notation rn := (rndp emin prec).
Notation u := (unit_of prec).
Notation eta := (tiny_of emin).
Notation bound := (bound emin prec).

Lemma round_error x : Rabs (rn x - x) <= u * Rabs x + eta.
Proof. pose proof (mul_error emin prec Pp x 1) as H. rewrite Rmult_1_r in H. exact H. Qed.

(** A term is a rounded number, or a product which is not rounded yet. *)
Definition T_fma (k : nat) (c e m : R) : Prop :=
  0 <= m /\ (1 <= k)%nat /\ Rabs e <= m /\ ((fmt64 c /\ Rabs (c - e) <= bound k k m) \/ c = e).

Lemma sum_fused n k d c c' e m m' :
  Rabs e <= m -> Rabs c' <= m' -> (1 <= n)%nat -> Rabs (c - e) <= d -> d <= bound n k m -> 0 <= m ->
  Rabs (rn (c + c') - (e + c')) <= bound (S n) (k + 1) (m + m').
Proof.
  intros He Hc Hn Hd Hb Hm. pose proof (round_error (c + c')) as H.
  pose proof (u_pos prec) as Hu. pose proof (eta_pos emin) as Ht. cbv zeta in Hu, Ht.
  assert (X : Rabs (c + c') <= (m + m') + d).
  { replace (c + c') with (e + c' + (c - e)) by ring.
    eapply Rle_trans; [apply Rabs_triang|]. pose proof (Rabs_triang e c'). lra. }
  replace (rn (c + c') - (e + c')) with (rn (c + c') - (c + c') + (c - e)) by ring.
  eapply Rle_trans; [apply Rabs_triang|].
  assert (u * Rabs (c + c') <= u * ((m + m') + d)) by (apply Rmult_le_compat_l; lra).
  assert (Y : u * (m + m') + (1 + u) * (bound n k m + bound n 1 m') = bound (S n) (k + 1) (m + m')) by (apply sum_bound).
  assert (Z : eta <= bound n 1 m').
  { unfold RndProps.bound. pose proof (g_ge1 prec n). cbn [INR]. pose proof (Rabs_pos c').
    apply Rle_trans with (0 + 1 * 1 * eta); [lra|]. apply Rplus_le_compat; [apply Rmult_le_pos; lra|].
    apply Rmult_le_compat_r; lra. }
  assert (u * d <= u * bound n k m) by (apply Rmult_le_compat_l; lra).
  assert (0 <= u * bound n 1 m') by (apply Rmult_le_pos; lra). lra.
Qed.

Lemma fma_prod (fuse : R -> R -> bool) a b : fmt64 a -> fmt64 b -> T_fma 1 (if fuse a b then a * b else rn (a * b)) (a * b) (Rabs a * Rabs b).
Proof.
  intros Fa Fb. destruct (err_prod emin prec Pp a b Fa Fb) as [H1 [H2 [H3 [H4 H5]]]].
  split; [exact H2|]. split; [exact H3|]. split; [exact H4|]. destruct (fuse a b); [right; reflexivity|left; auto].
Qed.

Lemma fma_opp k c e m : T_fma k c e m -> T_fma k (- c) (- e) m.
Proof.
  intros [H1 [H2 [H3 H4]]]. split; [exact H1|]. split; [exact H2|]. split; [rewrite Rabs_Ropp; exact H3|].
  destruct H4 as [[F H]| ->]; [left|right; reflexivity]. split; [apply generic_format_opp, F|].
  replace (- c - - e) with (- (c - e)) by ring. rewrite Rabs_Ropp. exact H.
Qed.

Lemma bound_pos n k m : 0 <= m -> 0 <= bound n k m.
Proof.
  intros H. unfold RndProps.bound. pose proof (g_ge1 prec n). pose proof (eta_pos emin). pose proof (pos_INR k). cbv zeta in *.
  apply Rplus_le_le_0_compat; [apply Rmult_le_pos; lra|]. apply Rmult_le_pos; [apply Rmult_le_pos; lra|lra].
Qed.

(** Adding a term to a number of the format or to another term. *)
Lemma step n k c e m k' c' e' m' : 0 <= m -> (1 <= n)%nat -> (k' <= n)%nat -> Rabs e <= m ->
  (fmt64 c /\ Rabs (c - e) <= bound n k m \/ c = e /\ (1 <= k)%nat) -> T_fma k' c' e' m' ->
  Rabs (rn (c + c') - (e + e')) <= bound (S n) (k + k') (m + m').
Proof.
  intros Hm Hn Hk He Hc [H1 [H2 [H3 H4]]].
  destruct H4 as [[F' E']| ->].
  - destruct Hc as [[F E]|[-> Kp]].
    + apply (sum_step emin prec Pp n n k'); auto.
    + rewrite (Rplus_comm e c'), (Rplus_comm e e').
      eapply Rle_trans; [apply (sum_fused n k' (bound k' k' m')) with (m := m') (m' := m); auto|].
      * apply bound_mono; auto.
      * rewrite (Rplus_comm m' m). apply bound_mono; [lia|lia|lra].
  - destruct Hc as [[F E]|[-> Kp]].
    + eapply Rle_trans; [apply (sum_fused n k (bound n k m)) with (m := m) (m' := m'); auto; lra|].
      apply bound_mono; [lia|lia|lra].
    + eapply Rle_trans; [apply (sum_fused n k 0) with (m := m) (m' := m'); auto|].
      * replace (e - e) with 0 by ring. rewrite Rabs_R0. lra.
      * apply bound_pos, Hm.
      * apply bound_mono; [lia|lia|lra].
Qed.

Lemma fma_add k c e m k' c' e' m' : T_fma k c e m -> T_fma k' c' e' m' -> T_fma (k + k') (rn (c + c')) (e + e') (m + m').
Proof.
  intros H H'. pose proof H' as [P1 [P2 [P3 P4]]]. destruct H as [H1 [H2 [H3 H4]]].
  split; [lra|]. split; [lia|]. split; [pose proof (Rabs_triang e e'); lra|]. left. split; [apply format_round; exact Pp|].
  replace (bound (k + k') (k + k') (m + m')) with (bound (S (k + k' - 1)) (k + k') (m + m')) by (f_equal; lia).
  apply step; auto; try lia. destruct H4 as [[F E]|E]; [left; split; [exact F|]|right; auto].
  eapply Rle_trans; [exact E|]. apply bound_mono; [lia|lia|lra].
Qed.

Lemma fma_acc k c e m k' c' e' m' : A_err emin prec k c e m -> T_fma k' c' e' m' ->
  A_err emin prec (k + k') (rn (c + c')) (e + e') (m + m').
Proof.
  intros [H1 [H2 [H3 H4]]] H'. pose proof H' as [P1 [P2 [P3 P4]]].
  split; [apply format_round; exact Pp|]. split; [lra|]. split; [pose proof (Rabs_triang e e'); lra|].
  replace (k + k' + 1)%nat with (S (k + k')) by lia.
  apply step; auto; try lia. left. split; [exact H1|]. eapply Rle_trans; [exact H4|]. apply bound_mono; [lia|lia|lra].
Qed.
End Fused.

(** Contracted or not, the products are within the same bound. *)
Theorem C111_fused : forall fuse emin prec, (0 < prec)%Z ->
  forall sched (M : matrix R) extra v out,
  well_formed M -> scheduler sched -> allowed_extra M extra -> (0 < mx_cols M)%nat -> (0 < mx_rows M)%nat ->
  length v = (extra * mx_cols M)%nat -> length out = (extra * mx_rows M)%nat ->
  stored_values (representable emin prec) M ->
  (forall y, In y v -> representable emin prec y) -> (forall y, In y out -> representable emin prec y) ->
  exists r, matvec (fused_ops fuse emin prec) true sched M v (Some out) = Ok (Some r) /\
    length r = (extra * mx_rows M)%nat /\
    forall c, (c < extra * mx_rows M)%nat ->
      Rabs (at_ exact_ops r c - exact_value M extra v out c) <= error_bound emin prec M extra v out c.
Proof.
  intros fuse emin prec Pp sched M extra v out W S A C R Lv Lo Fv Fx Fo.
  destruct (matvec_tracked _ _ (generic_format radix2 (FLT_exp emin prec)) (T_fma emin prec) (A_err emin prec)
    (zero_format emin prec Pp) (fma_prod emin prec Pp fuse) (fma_opp emin prec) (fma_add emin prec Pp)
    (err_start emin prec) (fma_acc emin prec Pp) sched M extra v out W S A C R Lv Lo) as [r [E [L H]]].
  - intros row e y H1 H2 H3. apply format_representable. eapply Fv; eauto.
  - intros y Hy. apply format_representable; auto.
  - intros y Hy. apply format_representable; auto.
  - exists r. split; [exact E|]. split; [exact L|]. intros c Hc. apply err_final; auto.
Qed.
Print Assumptions C111_fused.

Theorem C111_fused_new_output : forall fuse emin prec, (0 < prec)%Z ->
  forall sched (M : matrix R) extra v,
  well_formed M -> scheduler sched -> allowed_extra M extra -> (0 < mx_cols M)%nat ->
  length v = (extra * mx_cols M)%nat ->
  stored_values (representable emin prec) M -> (forall y, In y v -> representable emin prec y) ->
  let zero := repeat 0 (extra * mx_rows M) in
  exists r, matvec (fused_ops fuse emin prec) true sched M v None = Ok (Some r) /\
    length r = (extra * mx_rows M)%nat /\
    forall c, (c < extra * mx_rows M)%nat ->
      Rabs (at_ exact_ops r c - exact_value M extra v zero c) <= error_bound emin prec M extra v zero c.
Proof.
  intros fuse emin prec Pp sched M extra v W S A C Lv Fv Fx zero.
  destruct (matvec_tracked_none _ _ (generic_format radix2 (FLT_exp emin prec)) (T_fma emin prec) (A_err emin prec)
    (zero_format emin prec Pp) (fma_prod emin prec Pp fuse) (fma_opp emin prec) (fma_add emin prec Pp)
    (err_start emin prec) (fma_acc emin prec Pp) sched M extra v W S A C Lv) as [r [E [L H]]].
  - intros row e y H1 H2 H3. apply format_representable. eapply Fv; eauto.
  - intros y Hy. apply format_representable; auto.
  - exists r. split; [exact E|]. split; [exact L|]. intros c Hc. apply err_final; auto.
Qed.
Print Assumptions C111_fused_new_output.

(** Contracting changes results: with two bits, 9 is rounded to 8. *)
Definition ex_con : matrix R := Matrix FSR KScalar 1 1 (1, 1)%nat [[Elt 0 [3]]].

Lemma nine : rndp (-10) 2 9 = 8.
Proof.
  unfold rndp, round, F2R, scaled_mantissa, cexp.
  assert (M : mag radix2 9 = 4%Z :> Z).
  { apply mag_unique. rewrite Rabs_pos_eq by lra. change (bpow radix2 (4 - 1)) with 8. change (bpow radix2 4) with 16. lra. }
  rewrite M. change (FLT_exp (-10) 2 4) with 2%Z. cbn [Defs.Fnum Defs.Fexp].
  change (bpow radix2 (- (2))) with (/ 4). change (bpow radix2 2) with 4.
  unfold ZnearestE, Znearest.
  assert (F : Zfloor (9 * / 4) = 2%Z) by (apply Zfloor_imp; cbn; lra).
  rewrite F. rewrite Rcompare_Lt by lra. lra.
Qed.

Example C111_fused_example :
  matvec (fused_ops (fun _ _ => true) (-10) 2) true (@in_order R) ex_con [3] (Some [-8]) = Ok (Some [1]) /\
  matvec (fused_ops (fun _ _ => false) (-10) 2) true (@in_order R) ex_con [3] (Some [-8]) = Ok (Some [0]) /\
  well_formed ex_con /\ stored_values (representable (-10) 2) ex_con /\ representable (-10) 2 (-8) /\
  error_bound (-10) 2 ex_con 1 [3] [-8] 0 = 17 * (9 / 16) + (25 / 16) * powerRZ 2 (-11).
Proof.
  assert (P : forall n k, (Z.abs n < 4)%Z -> (-10 <= k)%Z -> rndp (-10) 2 (IZR n * powerRZ 2 k) = IZR n * powerRZ 2 k).
  { intros n k H K. apply round_generic; [apply valid_rnd_N|]. apply format_representable. exists n, k. repeat split; auto. }
  split; [|split; [|split; [|split; [|split]]]].
  - cbv -[rndp IZR Rplus Rmult powerRZ]. do 3 f_equal. replace (-8 + 3 * 3) with (1 * powerRZ 2 0) by (cbn; lra).
    rewrite P by lia. cbn. lra.
  - cbv -[rndp IZR Rplus Rmult powerRZ]. do 3 f_equal. replace (3 * 3) with 9 by lra. rewrite nine.
    replace (-8 + 8) with (0 * powerRZ 2 0) by (cbn; lra). rewrite P by lia. lra.
  - split; [reflexivity|]. exists 1%nat, 1%nat. repeat split; repeat constructor; cbn; lia.
  - intros row e v [<-|[]] [<-|[]] [<-|[]]. exists 3%Z, 0%Z. repeat split; [cbn; lra|lia].
  - exists (-1)%Z, 3%Z. repeat split; [|lia]. change (powerRZ 2 3) with (2 * (2 * (2 * 1))). lra.
  - unfold error_bound, magnitude, unit_of, tiny_of. change (products ex_con 1 0) with 1%nat.
    cbn -[powerRZ]. rewrite (Rabs_left (-8)) by lra. rewrite !(Rabs_pos_eq 3) by lra.
    replace (powerRZ 2 (-2)) with (/ 4) by (change (powerRZ 2 (-2)) with (/ (2 * (2 * 1))); field). set (t := powerRZ 2 (-11)). lra.
Qed.
