(** C118: the dot test of the sparse products with rounded operations. *)
From Coq Require Import ZArith Lia Lra Reals List.
From Verif Require Import Base BaseFacts SparseModel SparseSpec RingFacts SparseExecFacts SparseFacts SparsePyFacts SparseProps RndModel RndSpec RndFacts RndProps FmaModel FmaProps RadSpec.
Import ListNotations.
Open Scope R_scope.

Notation eo := exact_ops.

Lemma bs_ext n f g : (forall i, (i < n)%nat -> f i = g i) -> bigsum eo n f = bigsum eo n g.
Proof. induction n as [|n IH]; intros H; [reflexivity|]. cbn. rewrite IH by (intros; apply H; lia). rewrite H by lia. reflexivity. Qed.

Lemma bs_le n f g : (forall i, (i < n)%nat -> f i <= g i) -> bigsum eo n f <= bigsum eo n g.
Proof. induction n as [|n IH]; intros H; [cbn; lra|]. cbn. apply Rplus_le_compat; [apply IH; intros; apply H; lia|apply H; lia]. Qed.

Lemma bs_minus n f g : bigsum eo n f - bigsum eo n g = bigsum eo n (fun i => f i - g i).
Proof. induction n as [|n IH]; [cbn; ring|]. cbn. cbn in IH. rewrite <- IH. ring. Qed.

Lemma bs_plus n f g : bigsum eo n f + bigsum eo n g = bigsum eo n (fun i => f i + g i).
Proof. induction n as [|n IH]; [cbn; ring|]. cbn. cbn in IH. rewrite <- IH. ring. Qed.

Lemma bs_scal n a f : a * bigsum eo n f = bigsum eo n (fun i => a * f i).
Proof. induction n as [|n IH]; [cbn; ring|]. cbn. cbn in IH. rewrite <- IH. ring. Qed.

Lemma bs_abs n f : Rabs (bigsum eo n f) <= bigsum eo n (fun i => Rabs (f i)).
Proof.
  induction n as [|n IH]; [cbn; rewrite Rabs_R0; lra|]. cbn. eapply Rle_trans; [apply Rabs_triang|].
  apply Rplus_le_compat_r, IH.
Qed.

Lemma bs_swap n m f : bigsum eo n (fun i => bigsum eo m (f i)) = bigsum eo m (fun j => bigsum eo n (fun i => f i j)).
Proof.
  induction n as [|n IH]; cbn.
  - induction m as [|m IHm]; [reflexivity|]. cbn. rewrite <- IHm. ring.
  - rewrite IH. rewrite <- bs_plus. reflexivity.
Qed.

Lemma stored_transpose P (M : matrix R) : stored_values P M -> stored_values P (transpose M).
Proof. intros H. exact H. Qed.

(** Products from a new output, rounded and exact, side by side. *)
Lemma both fuse emin prec (Pp : (0 < prec)%Z) sched (M : matrix R) extra v :
  well_formed M -> scheduler sched -> allowed_extra M extra -> (0 < mx_cols M)%nat ->
  length v = (extra * mx_cols M)%nat ->
  stored_values (representable emin prec) M -> (forall y, In y v -> representable emin prec y) ->
  exists r e, matvec (fused_ops fuse emin prec) true sched M v None = Ok (Some r) /\
    matvec eo true (@in_order R) M v None = Ok (Some e) /\
    length r = (extra * mx_rows M)%nat /\ length e = (extra * mx_rows M)%nat /\
    forall c, (c < extra * mx_rows M)%nat ->
      Rabs (nth c r 0 - nth c e 0) <= error_bound emin prec M extra v (repeat 0 (extra * mx_rows M)) c.
Proof.
  intros W S A C L F Fv.
  destruct (C111_fused_new_output fuse emin prec Pp sched M extra v W S A C L F Fv) as [r [E [Lr H]]].
  destruct (C16_product_new_output R eo exact_ring true (@in_order R) M extra v W (in_order_scheduler) A C L) as [e [E' [Le H']]].
  exists r, e. repeat split; auto. intros c Hc. specialize (H c Hc). specialize (H' c Hc). unfold exact_value in H.
  change (at_ eo e c) with (nth c e 0) in H'. rewrite H'. exact H.
Qed.

(** The rounded products by a matrix and by its transpose pass the dot test up to the bounds of
    the products, contracted or not; the threads may interleave differently in the two products. *)
Theorem C118_dot_test : forall fuse emin prec, (0 < prec)%Z ->
  forall sched sched' (M : matrix R) extra x y,
  well_formed M -> scheduler sched -> scheduler sched' -> allowed_extra M extra ->
  (0 < mx_cols M)%nat -> (0 < mx_rows M)%nat ->
  length x = (extra * mx_cols M)%nat -> length y = (extra * mx_rows M)%nat ->
  stored_values (representable emin prec) M ->
  (forall v, In v x -> representable emin prec v) -> (forall v, In v y -> representable emin prec v) ->
  exists a b, matvec (fused_ops fuse emin prec) true sched M x None = Ok (Some a) /\
    matvec (fused_ops fuse emin prec) true sched' (transpose M) y None = Ok (Some b) /\
    length a = length y /\ length b = length x /\
    Rabs (inner eo a y - inner eo x b) <= dot_bound emin prec M extra x y.
Proof.
  intros fuse emin prec Pp sched sched' M extra x y W S S' A C Rw Lx Ly F Fx Fy.
  destruct (both fuse emin prec Pp sched M extra x W S A C Lx F Fx) as [a [ea [Ea [Eea [La [Lea Ha]]]]]].
  destruct (both fuse emin prec Pp sched' (transpose M) extra y (wf_transpose M W) S'
    (proj2 (allowed_transpose M extra) A) Rw Ly (stored_transpose _ _ F) Fy) as [b [eb [Eb [Eeb [Lb [Leb Hb]]]]]].
  change (mx_rows (transpose M)) with (mx_cols M) in Lb, Leb, Hb.
  destruct (C17_adjoint _ eo exact_ring true true (@in_order R) (@in_order R) M extra x y W
    in_order_scheduler in_order_scheduler A C Rw Lx Ly) as [a' [b' [Ea' [Eb' [La' [Lb' I]]]]]].
  rewrite Eea in Ea'. injection Ea' as <-. rewrite Eeb in Eb'. injection Eb' as <-.
  exists a, b. split; [exact Ea|]. split; [exact Eb|]. split; [congruence|]. split; [congruence|].
  replace (inner eo a y - inner eo x b) with ((inner eo a y - inner eo ea y) + (inner eo x eb - inner eo x b)) by (rewrite I; ring).
  eapply Rle_trans; [apply Rabs_triang|]. unfold dot_bound, inner. rewrite La, Lea, Lx. rewrite !bs_minus.
  apply Rplus_le_compat; (eapply Rle_trans; [apply bs_abs|]); apply bs_le; intros i Hi; cbn [kmul eo]; unfold at_; cbn [k0 eo].
  - replace (nth i a 0 * nth i y 0 - nth i ea 0 * nth i y 0) with ((nth i a 0 - nth i ea 0) * nth i y 0) by ring.
    rewrite Rabs_mult. apply Rmult_le_compat_r; [apply Rabs_pos|]. apply Ha, Hi.
  - replace (nth i x 0 * nth i eb 0 - nth i x 0 * nth i b 0) with (nth i x 0 * (nth i eb 0 - nth i b 0)) by ring.
    rewrite Rabs_mult. apply Rmult_le_compat_l; [apply Rabs_pos|]. rewrite Rabs_minus_sym. apply Hb, Hi.
Qed.
Print Assumptions C118_dot_test.

Lemma nth_abs (l : list R) i : nth i (map Rabs l) 0 = Rabs (nth i l 0).
Proof. rewrite <- Rabs_R0 at 1. apply map_nth. Qed.

Lemma nth_zero n i : nth i (repeat 0 n) 0 = 0.
Proof. revert i; induction n; destruct i; cbn; auto. Qed.

Lemma mag_zero (M : matrix R) extra x n r :
  magnitude M extra x (repeat 0 n) r = bigsum eo (extra * mx_cols M) (fun c => abs_dense M extra r c * Rabs (nth c x 0)).
Proof.
  unfold magnitude, mat_vec, at_. cbn [k0 eo]. rewrite nth_zero, Rabs_R0, Rplus_0_l. apply bs_ext. intros i _.
  cbn [kmul eo]. rewrite nth_abs. reflexivity.
Qed.

Lemma abs_transpose (M : matrix R) extra r c : abs_dense (transpose M) extra r c = abs_dense M extra c r.
Proof. unfold abs_dense. rewrite fmt_transpose. destruct M as [[] k nr nc bs d]; reflexivity. Qed.

Lemma abs_row_pos f d r c : 0 <= abs_row f d r c.
Proof.
  unfold abs_row. induction (nth (r / frow f) d []) as [|e l IH]; cbn; [lra|].
  apply Rplus_le_le_0_compat; [destruct (e_idx e =? Z.of_nat (c / fcol f))%Z; [apply Rabs_pos|lra]|exact IH].
Qed.

Lemma abs_dense_pos (M : matrix R) extra r c : 0 <= abs_dense M extra r c.
Proof. unfold abs_dense. destruct (mx_axis M); apply abs_row_pos. Qed.

Lemma bound_k emin prec (M : matrix R) extra x n r k : (products M extra r <= k)%nat ->
  error_bound emin prec M extra x (repeat 0 n) r <=
    ((1 + unit_of prec) ^ (k + 1) - 1) * bigsum eo (extra * mx_cols M) (fun c => abs_dense M extra r c * Rabs (nth c x 0)) +
    INR k * (1 + unit_of prec) ^ (k + 1) * tiny_of emin.
Proof.
  intros H. unfold error_bound. rewrite mag_zero.
  assert (U : 0 <= unit_of prec) by (unfold unit_of; apply powerRZ_le; lra).
  assert (T : 0 <= tiny_of emin) by (unfold tiny_of; apply powerRZ_le; lra).
  assert (G : (1 + unit_of prec) ^ (products M extra r + 1) <= (1 + unit_of prec) ^ (k + 1)) by (apply Rle_pow; [lra|lia]).
  assert (G0 : 0 <= (1 + unit_of prec) ^ (products M extra r + 1)) by (apply pow_le; lra).
  assert (B : 0 <= bigsum eo (extra * mx_cols M) (fun c => abs_dense M extra r c * Rabs (nth c x 0))).
  { replace 0 with (bigsum eo (extra * mx_cols M) (fun _ => 0)).
    - apply bs_le. intros i _. apply Rmult_le_pos; [apply abs_dense_pos|apply Rabs_pos].
    - clear. induction (extra * mx_cols M)%nat; cbn; [reflexivity|]. cbn in IHn. rewrite IHn. ring. }
  apply Rplus_le_compat.
  - apply Rmult_le_compat_r; [exact B|]. lra.
  - apply Rmult_le_compat_r; [exact T|]. apply Rmult_le_compat; [apply pos_INR|exact G0|apply le_INR, H|exact G].
Qed.

(** In one number: with at most k products for a cell of either product, the two inner products
    differ by 2 ((1+u)^(k+1) - 1) |y|'|A||x| and the contribution of underflows. *)
Theorem C118_bound : forall emin prec (M : matrix R) extra x y k,
  length x = (extra * mx_cols M)%nat -> length y = (extra * mx_rows M)%nat ->
  (forall r, (r < extra * mx_rows M)%nat -> (products M extra r <= k)%nat) ->
  (forall c, (c < extra * mx_cols M)%nat -> (products (transpose M) extra c <= k)%nat) ->
  dot_bound emin prec M extra x y <=
    2 * ((1 + unit_of prec) ^ (k + 1) - 1) * dot_magnitude M extra x y +
    INR k * (1 + unit_of prec) ^ (k + 1) * tiny_of emin * (total x + total y).
Proof.
  intros emin prec M extra x y k Lx Ly Hr Hc. unfold dot_bound.
  set (g := (1 + unit_of prec) ^ (k + 1)). set (w := INR k * g * tiny_of emin).
  assert (D1 : dot_magnitude M extra x y = bigsum eo (extra * mx_rows M) (fun r =>
     bigsum eo (extra * mx_cols M) (fun c => abs_dense M extra r c * Rabs (nth c x 0)) * Rabs (nth r y 0))).
  { apply bs_ext. intros r _. rewrite Rmult_comm, bs_scal. apply bs_ext. intros c _. ring. }
  assert (D2 : dot_magnitude M extra x y = bigsum eo (extra * mx_cols M) (fun c =>
     Rabs (nth c x 0) * bigsum eo (extra * mx_rows M) (fun r => abs_dense (transpose M) extra c r * Rabs (nth r y 0)))).
  { unfold dot_magnitude. rewrite bs_swap. apply bs_ext. intros c _. rewrite bs_scal. apply bs_ext. intros r _.
    rewrite abs_transpose. ring. }
  apply Rle_trans with (((g - 1) * dot_magnitude M extra x y + w * total y) + ((g - 1) * dot_magnitude M extra x y + w * total x)); [|lra].
  apply Rplus_le_compat.
  - rewrite D1. unfold total. rewrite Ly, !bs_scal, bs_plus. apply bs_le. intros r H.
    rewrite <- Rmult_assoc, <- Rmult_plus_distr_r. apply Rmult_le_compat_r; [apply Rabs_pos|]. apply bound_k, Hr, H.
  - rewrite D2. unfold total. rewrite Lx, !bs_scal, bs_plus. apply bs_le. intros c H.
    eapply Rle_trans; [apply Rmult_le_compat_l; [apply Rabs_pos|apply (bound_k _ _ _ _ _ _ _ k), Hc, H]|].
    change (mx_cols (transpose M)) with (mx_rows M). fold g. fold w. apply Req_le. ring.
Qed.
Print Assumptions C118_bound.

(** Not exactly: the two inner products are 2^53 and 2^53 + 2 for ones and the row (2^53, 1, 1). *)
Theorem C118_exact_refuted :
  exists M x y a b, well_formed M /\ stored_values (representable (-1074) 53) M /\
    (forall v, In v x -> representable (-1074) 53 v) /\ (forall v, In v y -> representable (-1074) 53 v) /\
    matvec (fp_ops (-1074) 53) true (@in_order R) M x None = Ok (Some a) /\
    matvec (fp_ops (-1074) 53) true (@in_order R) (transpose M) y None = Ok (Some b) /\
    inner eo x b - inner eo a y = 2.
Proof.
  exists ex_big, [1; 1; 1], [1], [IZR (2 ^ 53)], [IZR (2 ^ 53); 1; 1].
  assert (R1 : representable (-1074) 53 1) by (exists 1%Z, 0%Z; repeat split; [cbn; lra|lia]).
  split.
  { split; [reflexivity|]. exists 1%nat, 3%nat. repeat split; repeat constructor; cbn; lia. }
  split.
  { intros row e v H1 H2 H3. cbn in H1. destruct H1 as [<-|[<-|[<-|[]]]]; destruct H2 as [<-|[]]; destruct H3 as [<-|[]]; auto.
    exists 1%Z, 53%Z. split; [|split; lia]. rewrite pow2. change (Raux.bpow Zaux.radix2 53) with (IZR (2 ^ 53)). lra. }
  split; [intros y [<-|[<-|[<-|[]]]]; exact R1|]. split; [intros y [<-|[]]; exact R1|].
  assert (P1 : rndp (-1074) 53 (IZR (2 ^ 53) * 1) = IZR (2 ^ 53)) by (rewrite Rmult_1_r; apply rndp_int; lia).
  assert (P2 : rndp (-1074) 53 (1 * 1) = 1) by (rewrite Rmult_1_r; apply rndp_int; lia).
  split; [|split].
  - cbv -[rndp IZR Z.pow Rplus Rmult]. rewrite P1, P2.
    replace (0 + IZR (2 ^ 53)) with (IZR (2 ^ 53)) by ring. rewrite rndp_int by lia.
    replace (IZR (2 ^ 53) + 1) with (IZR (2 ^ 53 + 1)) by (rewrite plus_IZR; reflexivity). rewrite rndp_odd.
    replace (IZR (2 ^ 53) + 1) with (IZR (2 ^ 53 + 1)) by (rewrite plus_IZR; reflexivity). rewrite rndp_odd.
    reflexivity.
  - cbv -[rndp IZR Z.pow Rplus Rmult]. rewrite P1, P2.
    replace (0 + IZR (2 ^ 53)) with (IZR (2 ^ 53)) by ring. rewrite rndp_int by lia.
    replace (0 + 1) with (IZR 1) by (change (IZR 1) with 1; ring). rewrite rndp_int by lia. reflexivity.
  - unfold inner, at_. cbn -[IZR Z.pow]. ring.
Qed.
Print Assumptions C118_exact_refuted.

(** For that matrix at most three products make a cell and the bound is 8 ((1 + 2^-53)^4 - 1) 2^53 at most. *)
Example C118_example :
  (forall r, (r < 1 * mx_rows ex_big)%nat -> (products ex_big 1 r <= 3)%nat) /\
  (forall c, (c < 1 * mx_cols ex_big)%nat -> (products (transpose ex_big) 1 c <= 3)%nat) /\
  dot_magnitude ex_big 1 [1; 1; 1] [1] = IZR (2 ^ 53) + 2 /\ total [1; 1; 1] = 3.
Proof.
  split; [|split; [|split]].
  - intros [|r] H; [cbn; lia|cbn in H; lia].
  - intros [|[|[|c]]] H; try (cbn; lia). cbn in H; lia.
  - unfold dot_magnitude, abs_dense, abs_row. cbn -[IZR Z.pow]. rewrite !Rabs_R1, (Rabs_pos_eq (IZR (2 ^ 53))) by (apply IZR_le; lia). ring.
  - unfold total. cbn -[IZR]. rewrite !Rabs_R1. lra.
Qed.
