(** C121: products by pointing matrices with rounded operations. *)
From Coq Require Import ZArith Lia Lra Reals List Permutation.
From Flocq Require Import Core.
From Verif Require Import Base BaseFacts SparseModel SparseSpec SparseExecFacts RingFacts PmModel PmSpec PmFacts RndModel RndSpec RndFacts RndProps FmaModel FmaProps RadProps RpmSpec RpmFacts.
Import ListNotations.
Open Scope R_scope.

Lemma values_format emin prec m : all_values (representable emin prec) m -> all_values (generic_format radix2 (FLT_exp emin prec)) m.
Proof. intros H row e H1 H2. apply format_representable. now apply (H row). Qed.
Lemma list_format emin prec l : (forall y : R, In y l -> representable emin prec y) -> forall y, In y l -> generic_format radix2 (FLT_exp emin prec) y.
Proof. intros H y Hy. now apply format_representable, H. Qed.

(** Every sample of the projection is within the bound, whichever products are contracted. *)
Theorem C121_direct : forall fuse emin prec, (0 < prec)%Z -> forall m x, valid (length x) m ->
  all_values (representable emin prec) m -> (forall y, In y x -> representable emin prec y) ->
  exists y, pmatrix_direct (fused_ops fuse emin prec) m x = Ok y /\ length y = length m /\ forall i, (i < length m)%nat ->
    Rabs (nth i y 0 - projected exact_ops m x i) <= projection_bound emin prec m x i.
Proof.
  intros fuse emin prec Pp m x V Fm Fx.
  destruct (direct_tracked _ _ (generic_format radix2 (FLT_exp emin prec)) (T_fma emin prec) (A_err emin prec) (fma_prod emin prec Pp fuse)
    (fma_opp emin prec) (fma_add emin prec Pp) (err_start emin prec) (fma_acc emin prec Pp) (zero_format emin prec Pp) m x V (values_format _ _ _ Fm) (list_format _ _ _ Fx)) as [y [E [L H]]].
  exists y. split; [exact E|]. split; [exact L|]. intros i Hi. apply (H i Hi).
Qed.
Print Assumptions C121_direct.

(** Every pixel of the back projection is within the bound, whatever the order of the atomic
    additions. *)
Theorem C121_transpose : forall fuse emin prec, (0 < prec)%Z -> forall m t out evs, valid (length out) m -> length t = length m ->
  Permutation (transpose_events (fused_ops fuse emin prec) m t) evs ->
  all_values (representable emin prec) m -> (forall y, In y t -> representable emin prec y) -> (forall y, In y out -> representable emin prec y) ->
  exists r, run_events (fused_ops fuse emin prec) out evs = Ok r /\ length r = length out /\ forall j, (j < length out)%nat ->
    Rabs (nth j r 0 - (nth j out 0 + back exact_ops m (fun i => nth i t 0) j)) <= back_bound emin prec m t out j.
Proof.
  intros fuse emin prec Pp m t out evs V L P Fm Ft Fo.
  destruct (transpose_tracked _ _ (generic_format radix2 (FLT_exp emin prec)) (T_fma emin prec) (A_err emin prec) (fma_prod emin prec Pp fuse)
    (fma_opp emin prec) (fma_add emin prec Pp) (err_start emin prec) (fma_acc emin prec Pp) m t out evs V L P (values_format _ _ _ Fm) (list_format _ _ _ Ft) (list_format _ _ _ Fo)) as [y [E [L' H]]].
  exists y. split; [exact E|]. split; [exact L'|]. intros i Hi. apply (H i Hi).
Qed.
Print Assumptions C121_transpose.

Theorem C121_ptp : forall fuse emin prec, (0 < prec)%Z -> forall n m evs, valid n m ->
  Permutation (ptp_events (fused_ops fuse emin prec) (Z.of_nat n) m) evs -> all_values (representable emin prec) m ->
  exists r, run_events (fused_ops fuse emin prec) (repeat 0 (n * n)) evs = Ok r /\ length r = (n * n)%nat /\ forall i j, (i < n)%nat -> (j < n)%nat ->
    Rabs (nth (i + j * n) r 0 - bigsum exact_ops (length m) (fun s => coef exact_ops (nth s m []) i * coef exact_ops (nth s m []) j)) <=
    rounding_bound emin prec (joint_uses m i j)
      (bigsum exact_ops (length m) (fun s => coef exact_ops (nth s (unsigned_elements m) []) i * coef exact_ops (nth s (unsigned_elements m) []) j)).
Proof.
  intros fuse emin prec Pp n m evs V P Fm.
  destruct (ptp_tracked _ _ (generic_format radix2 (FLT_exp emin prec)) (T_fma emin prec) (A_err emin prec) (fma_prod emin prec Pp fuse)
    (fma_opp emin prec) (fma_add emin prec Pp) (err_start emin prec) (fma_acc emin prec Pp) n m (repeat 0 (n * n)) evs V (repeat_length _ _) P (values_format _ _ _ Fm)) as [y [E [L' H]]].
  - intros y Hy. apply repeat_spec in Hy. subst y. apply (zero_format emin prec Pp).
  - exists y. split; [exact E|]. split; [exact L'|]. intros i j Hi Hj. pose proof (H i j Hi Hj) as Q. rewrite RadProps.nth_zero, Rabs_R0, !Rplus_0_l in Q. apply Q.
Qed.
Print Assumptions C121_ptp.

(** The projection and the back projection from a map of zeros, computed with rounding, are the
    transpose of each other to the sum of the two bounds. *)
Theorem C121_dot : forall fuse emin prec, (0 < prec)%Z -> forall m x t evs, valid (length x) m -> length t = length m ->
  Permutation (transpose_events (fused_ops fuse emin prec) m t) evs ->
  all_values (representable emin prec) m -> (forall y, In y x -> representable emin prec y) -> (forall y, In y t -> representable emin prec y) ->
  exists px ptt, pmatrix_direct (fused_ops fuse emin prec) m x = Ok px /\ run_events (fused_ops fuse emin prec) (repeat 0 (length x)) evs = Ok ptt /\
    length px = length t /\ length ptt = length x /\
    Rabs (PmSpec.inner exact_ops px t - PmSpec.inner exact_ops x ptt) <=
      bigsum exact_ops (length m) (fun i => projection_bound emin prec m x i * Rabs (nth i t 0)) +
      bigsum exact_ops (length x) (fun j => Rabs (nth j x 0) * back_bound emin prec m t (repeat 0 (length x)) j).
Proof.
  intros fuse emin prec Pp m x t evs V L P Fm Fx Ft.
  destruct (C121_direct fuse emin prec Pp m x V Fm Fx) as [px [E1 [L1 H1]]].
  destruct (C121_transpose fuse emin prec Pp m t (repeat 0 (length x)) evs) as [ptt [E2 [L2 H2]]]; auto.
  { rewrite repeat_length. exact V. }
  { intros y Hy. apply repeat_spec in Hy. subst y. exists 0%Z, emin. split; [ring|]. split; [|lia]. cbn. pose proof (Z.pow_pos_nonneg 2 prec). lia. }
  rewrite repeat_length in L2, H2. exists px, ptt. split; [exact E1|]. split; [exact E2|]. split; [congruence|]. split; [exact L2|].
  assert (X : bigsum eo (length m) (fun i => projected eo m x i * nth i t 0) = bigsum eo (length x) (fun j => nth j x 0 * back eo m (fun i => nth i t 0) j)).
  { unfold projected, back. cbn [kmul eo]. unfold at_. cbn [k0 eo].
    rewrite (bs_ext (length m) _ (fun i => bigsum eo (length x) (fun j => coef eo (nth i m []) j * nth j x 0 * nth i t 0))).
    - rewrite bs_swap. apply bs_ext. intros j _. rewrite bs_scal. apply bs_ext. intros i _. ring.
    - intros i _. rewrite Rmult_comm, bs_scal. apply bs_ext. intros j _. ring. }
  unfold PmSpec.inner, at_. cbn [kmul k0 eo]. rewrite L1.
  replace (bigsum eo (length m) (fun i => nth i px 0 * nth i t 0) - bigsum eo (length x) (fun i => nth i x 0 * nth i ptt 0)) with
    ((bigsum eo (length m) (fun i => nth i px 0 * nth i t 0) - bigsum eo (length m) (fun i => projected eo m x i * nth i t 0)) +
     (bigsum eo (length x) (fun j => nth j x 0 * back eo m (fun i => nth i t 0) j) - bigsum eo (length x) (fun i => nth i x 0 * nth i ptt 0))) by (rewrite X; ring).
  eapply Rle_trans; [apply Rabs_triang|]. rewrite !bs_minus. apply Rplus_le_compat; (eapply Rle_trans; [apply bs_abs|]); apply bs_le; intros i Hi.
  - replace (nth i px 0 * nth i t 0 - projected eo m x i * nth i t 0) with ((nth i px 0 - projected eo m x i) * nth i t 0) by ring.
    rewrite Rabs_mult. apply Rmult_le_compat_r; [apply Rabs_pos|now apply H1].
  - replace (nth i x 0 * back eo m (fun i0 => nth i0 t 0) i - nth i x 0 * nth i ptt 0) with (- (nth i x 0 * (nth i ptt 0 - (0 + back eo m (fun i0 => nth i0 t 0) i)))) by ring.
    rewrite Rabs_Ropp, Rabs_mult. apply Rmult_le_compat_l; [apply Rabs_pos|]. specialize (H2 i Hi). rewrite RadProps.nth_zero in H2. exact H2.
Qed.
Print Assumptions C121_dot.

(** Integers: nothing is lost, in any order, as long as the magnitude is not beyond 2^prec. *)
Theorem C121_integers : forall emin prec, (0 < prec)%Z -> (emin <= 0)%Z -> forall m, all_values is_integer m ->
  (forall x, valid (length x) m -> (forall y, In y x -> is_integer y) ->
     exists y, pmatrix_direct (fp_ops emin prec) m x = Ok y /\ length y = length m /\ forall i, (i < length m)%nat ->
       projected exact_ops (unsigned_elements m) (map Rabs x) i <= IZR (2 ^ prec) -> nth i y 0 = projected exact_ops m x i) /\
  (forall t out evs, valid (length out) m -> length t = length m -> Permutation (transpose_events (fp_ops emin prec) m t) evs ->
     (forall y, In y t -> is_integer y) -> (forall y, In y out -> is_integer y) ->
     exists r, run_events (fp_ops emin prec) out evs = Ok r /\ length r = length out /\ forall j, (j < length out)%nat ->
       Rabs (nth j out 0) + back exact_ops (unsigned_elements m) (fun i => Rabs (nth i t 0)) j <= IZR (2 ^ prec) ->
       nth j r 0 = nth j out 0 + back exact_ops m (fun i => nth i t 0) j).
Proof.
  intros emin prec Pp Pe m Fm. split.
  - intros x V Fx.
    destruct (direct_tracked _ _ is_integer (T_int prec) (T_int prec) (int_prod emin prec Pp Pe) (int_neg prec) (int_plus emin prec Pp Pe) (int_start prec) (int_plus emin prec Pp Pe) (ex_intro _ 0%Z eq_refl) m x V Fm Fx) as [y [E [L H]]].
    exists y. split; [exact E|]. split; [exact L|]. intros i Hi B. now apply (H i Hi).
  - intros t out evs V L P Ft Fo.
    destruct (transpose_tracked _ _ is_integer (T_int prec) (T_int prec) (int_prod emin prec Pp Pe) (int_neg prec) (int_plus emin prec Pp Pe) (int_start prec) (int_plus emin prec Pp Pe) m t out evs V L P Fm Ft Fo) as [y [E [L' H]]].
    exists y. split; [exact E|]. split; [exact L'|]. intros i Hi B. now apply (H i Hi).
Qed.
Print Assumptions C121_integers.

(** FINDING 199.  Beyond 2^53 the back projection in binary64 depends on the order of the atomic
    additions: three samples of a pixel, 2^53 + 1 + 1 or 1 + 1 + 2^53. *)
Theorem C121_order_refuted : exists (m : list (list (Z * R))) (t : list R) (evs evs' : list (Z * R)), valid 1 m /\ length t = length m /\
  Permutation (transpose_events (fp_ops (-1074) 53) m t) evs /\ Permutation (transpose_events (fp_ops (-1074) 53) m t) evs' /\
  all_values (representable (-1074) 53) m /\ (forall y, In y t -> representable (-1074) 53 y) /\
  run_events (fp_ops (-1074) 53) [0] evs = Ok [IZR (2 ^ 53)] /\ run_events (fp_ops (-1074) 53) [0] evs' = Ok [IZR (2 ^ 53 + 2)].
Proof.
  set (m := [[(0%Z, 1)]; [(0%Z, 1)]; [(0%Z, 1)]]). set (t := [IZR (2 ^ 53); 1; 1]).
  assert (R1 : representable (-1074) 53 1) by (exists 1%Z, 0%Z; repeat split; [cbn; lra|lia]).
  assert (P1 : rndp (-1074) 53 (1 * IZR (2 ^ 53)) = IZR (2 ^ 53)) by (rewrite Rmult_1_l; apply rndp_int; lia).
  assert (P2 : rndp (-1074) 53 (1 * 1) = 1) by (rewrite Rmult_1_r; apply rndp_int; lia).
  assert (Ev : transpose_events (fp_ops (-1074) 53) m t = [(0%Z, IZR (2 ^ 53)); (0%Z, 1); (0%Z, 1)]).
  { cbv -[rndp IZR Z.pow Rplus Rmult]. rewrite P1, P2. reflexivity. }
  exists m, t, [(0%Z, IZR (2 ^ 53)); (0%Z, 1); (0%Z, 1)], [(0%Z, 1); (0%Z, 1); (0%Z, IZR (2 ^ 53))].
  split. { intros row [<-|[<-|[<-|[]]]] e [<-|[]]; cbn; lia. }
  split; [reflexivity|]. rewrite Ev. split; [apply Permutation_refl|]. split.
  { apply (Permutation_trans (l' := [(0%Z, 1); (0%Z, IZR (2 ^ 53)); (0%Z, 1)])); [apply perm_swap|]. constructor. apply perm_swap. }
  split. { intros row e [<-|[<-|[<-|[]]]] [<-|[]]; exact R1. }
  split. { intros y [<-|[<-|[<-|[]]]]; try exact R1. exists 1%Z, 53%Z. split; [|split; lia]. rewrite pow2. change (bpow radix2 53) with (IZR (2 ^ 53)). lra. }
  split.
  - cbv -[rndp IZR Z.pow Rplus Rmult].
    replace (0 + IZR (2 ^ 53)) with (IZR (2 ^ 53)) by ring. rewrite rndp_int by lia.
    replace (IZR (2 ^ 53) + 1) with (IZR (2 ^ 53 + 1)) by (rewrite plus_IZR; reflexivity). rewrite rndp_odd.
    replace (IZR (2 ^ 53) + 1) with (IZR (2 ^ 53 + 1)) by (rewrite plus_IZR; reflexivity). rewrite rndp_odd.
    reflexivity.
  - cbv -[rndp IZR Z.pow Rplus Rmult].
    replace (0 + 1) with (IZR 1) by (change (IZR 1) with 1; ring). rewrite rndp_int by lia.
    replace (IZR 1 + 1) with (IZR 2) by (change (IZR 1) with 1; lra). rewrite rndp_int by lia.
    replace (IZR 2 + IZR (2 ^ 53)) with (IZR (2 ^ 53 + 2)) by (rewrite plus_IZR; ring). rewrite rndp_even.
    reflexivity.
Qed.
Print Assumptions C121_order_refuted.

(** A case: two samples on two pixels, in single precision; three elements, one of them behind
    the index -1. *)
Definition ex_rpm : list (list (Z * R)) := [[(0%Z, 2); (1%Z, 3)]; [(1%Z, 5); ((-1)%Z, 7)]].
Example C121_example : valid 2 ex_rpm /\ all_values (representable (-149) 24) ex_rpm /\ all_values is_integer ex_rpm /\
  (exists y, pmatrix_direct (fp_ops (-149) 24) ex_rpm [10; 20] = Ok y /\ y = [80; 100]) /\
  uses ex_rpm 1 = 2%nat /\ joint_uses ex_rpm 0 1 = 1%nat /\ joint_uses ex_rpm 1 1 = 2%nat.
Proof.
  assert (I : forall n, is_integer (IZR n)) by (intros n; exists n; reflexivity).
  assert (V : valid 2 ex_rpm) by (intros row [<-|[<-|[]]] e [<-|[<-|[]]]; cbn; lia).
  assert (J : all_values is_integer ex_rpm) by (intros row e [<-|[<-|[]]] [<-|[<-|[]]]; apply I).
  split; [exact V|]. split.
  { intros row e [<-|[<-|[]]] [<-|[<-|[]]]; cbn [snd].
    - exists 2%Z, 0%Z. cbn. split; [lra|]. split; lia.
    - exists 3%Z, 0%Z. cbn. split; [lra|]. split; lia.
    - exists 5%Z, 0%Z. cbn. split; [lra|]. split; lia.
    - exists 7%Z, 0%Z. cbn. split; [lra|]. split; lia. }
  split; [exact J|]. split.
  { destruct (proj1 (C121_integers (-149) 24 ltac:(lia) ltac:(lia) ex_rpm J) [10; 20]) as [y [E [L H]]]; [exact V|intros y [<-|[<-|[]]]; apply I|].
    exists y. split; [exact E|]. destruct y as [|a [|b [|? ?]]]; try discriminate L.
    assert (B : forall v, 0 <= v -> Rabs v = v) by (intros; now apply Rabs_pos_eq).
    assert (Z0 : 100 <= IZR (2 ^ 24)) by (apply IZR_le; lia).
    f_equal; [|f_equal].
    - change a with (nth 0 [a; b] 0). rewrite (H 0%nat); [cbv -[Rplus Rmult IZR]; lra|cbn; lia|]. cbv -[Rabs Rplus Rmult IZR Rle Z.pow]. rewrite !B by lra. lra.
    - change b with (nth 1 [a; b] 0). rewrite (H 1%nat); [cbv -[Rplus Rmult IZR]; lra|cbn; lia|]. cbv -[Rabs Rplus Rmult IZR Rle Z.pow]. rewrite !B by lra. lra. }
  repeat split.
Qed.
