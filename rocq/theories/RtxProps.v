(** C114: the truncated exponential response with rounded operations. *)
From Coq Require Import ZArith Lia Lra Reals List Permutation.
From Flocq Require Import Core.
From Verif Require Import Base BaseFacts SparseModel SparseSpec RingFacts TrexpModel TrexpSpec TrexpFacts TrexpProps RndModel RndSpec RndFacts RndProps FmaModel RtxModel RtxSpec RtxFacts.
Import ListNotations.
Open Scope R_scope.

Lemma tau_for_close emin prec eps used meant d : Forall2 (close emin prec eps) used meant ->
  close emin prec eps (tau_for used d) (tau_for meant d).
Proof.
  intros H. assert (G : forall l l', Forall2 (close emin prec eps) l l' -> forall d, close emin prec eps (nth d l TZero) (nth d l' TZero)).
  { clear. intros l l' H. induction H; intros [|d]; cbn; auto. }
  unfold tau_for. inversion H as [|t e l l' H1 H2]; subst; [apply (G [] []); constructor|].
  inversion H2; subst; [exact H1|]. apply G. exact H.
Qed.

Section Drivers.
Variables emin prec : Z.
Hypothesis P0 : (0 < prec)%Z.
Hypothesis E0 : (emin <= 0)%Z.
Variable fuse : R -> R -> bool.
Notation fo := (fused_ops fuse emin prec).
Notation F := (generic_format radix2 (FLT_exp emin prec)).
Variables (eps X : R) (used meant : list (@tau R)) (nd size : nat) (order : list nat).
Hypothesis FT : fitting used nd.
Hypothesis CL : Forall2 (close emin prec eps) used meant.
Hypothesis HP : Permutation order (seq 0 nd).

Lemma representable_all x : Forall (representable emin prec) x -> Forall F x.
Proof. apply Forall_impl. intros a. apply format_representable. Qed.

Lemma driver_out_near routine (f : nat -> (nat -> R) -> nat -> R) (A : nat -> nat -> nat -> R) bnd istride ostride x m :
  (size <= ostride)%nat -> (size <= istride)%nat -> (nd * ostride <= length m)%nat -> (nd * istride <= length x)%nat ->
  Forall (representable emin prec) x ->
  (forall d i, (d < nd)%nat -> (i < size)%nat -> Rabs (at_ exact_ops (row size istride d x) i) <= X) ->
  (forall d bs b m1, (d < nd)%nat -> (b + size <= length m1)%nat -> (bs + size <= length x)%nat ->
     computes fo b size (f d (fun i => at_ fo x (bs + i))) m1 (routine x bs b size (tau_for used d) m1)) ->
  (forall d g i, (d < nd)%nat -> (i < size)%nat -> (forall j, (j < size)%nat -> F (g j) /\ Rabs (g j) <= X) ->
     Rabs (f d g i - times exact_ops (A d) size g i) <= bnd d i) ->
  exists m', driver_out routine used size istride ostride order x m = Some m' /\
    rows_near A bnd nd size istride ostride x m m'.
Proof.
  intros Ho Hi HL HL' RX BX HR HN. destruct FT as [NT LT].
  destruct (driver_loop fo nd size ostride (fun d => routine x (d * istride)%nat (d * ostride)%nat size (tau_of used d))
     (fun d _ => f d (fun i => at_ fo x (d * istride + i))) m order) as [m' [E [L [V O]]]]; auto.
  - intros d m1 Hd L1. rewrite (tau_for_of used nd d) by auto. apply HR; [auto|nia|nia].
  - exists m'. split; [exact E|]. split; [auto|]. split; [|exact O].
    intros d i Hd Hi'. change (at_ exact_ops) with (at_ fo). rewrite (at_row fo), V by auto.
    rewrite (mat_vec_times exact_ops (A d) size _ (fun i => at_ fo x (d * istride + i)) i) by (intros j Hj; apply (at_row fo); auto).
    apply HN; auto. intros j Hj. split.
    + apply at_format. apply representable_all, RX.
    + rewrite <- (at_row fo size istride d x j) by auto. apply BX; auto.
Qed.

Lemma driver_in_near stride m : (size <= stride)%nat -> (nd * stride <= length m)%nat ->
  Forall (representable emin prec) m ->
  (forall d i, (d < nd)%nat -> (i < size)%nat -> Rabs (at_ exact_ops (row size stride d m) i) <= X) ->
  exists m', driver_in (direct_in fo) used size stride order m = Some m' /\
    rows_near (fun d => response exact_ops (tau_for meant d)) (fun d => direct_bound emin prec eps X (tau_for used d)) nd size stride stride m m m'.
Proof.
  intros Hs HL RX BX. destruct FT as [NT LT].
  destruct (driver_loop fo nd size stride (fun d => direct_in fo (d * stride) size (tau_of used d))
     (fun d g => direct_values emin prec fuse (tau_for used d) g) m order) as [m' [E [L [V O]]]]; auto.
  - intros d g g' Hg i Hi. unfold direct_values. destruct (tau_for used d); [apply Hg; auto|reflexivity|].
    apply forward_ext. intros j Hj. apply Hg. lia.
  - intros d m1 Hd L1. rewrite (tau_for_of used nd d) by auto. apply direct_in_values. nia.
  - exists m'. split; [exact E|]. split; [auto|]. split; [|exact O].
    intros d i Hd Hi'. change (at_ exact_ops) with (at_ fo). rewrite (at_row fo), V by auto.
    rewrite (mat_vec_times exact_ops _ size _ (fun i => at_ fo m (d * stride + i)) i) by (intros j Hj; apply (at_row fo); auto).
    apply direct_near; auto; [apply tau_for_close; exact CL|]. intros j Hj. split.
    + apply at_format. apply representable_all, RX.
    + rewrite <- (at_row fo size stride d m j) by auto. apply BX; auto.
Qed.
End Drivers.

(** Direct, in place or not, any order of the detectors: each sample is that of the exact response,
    with the weights meant, up to the accumulated error. *)
Theorem C114_direct_inplace : forall fuse emin prec, (0 < prec)%Z -> (emin <= 0)%Z ->
  forall eps X used meant nd size stride order m, fitting used nd -> Forall2 (close emin prec eps) used meant ->
  Permutation order (seq 0 nd) -> (size <= stride)%nat -> (nd * stride <= length m)%nat ->
  Forall (representable emin prec) m ->
  (forall d i, (d < nd)%nat -> (i < size)%nat -> Rabs (at_ exact_ops (row size stride d m) i) <= X) ->
  exists m', driver_in (direct_in (fused_ops fuse emin prec)) used size stride order m = Some m' /\
    rows_near (fun d => response exact_ops (tau_for meant d)) (fun d => direct_bound emin prec eps X (tau_for used d))
      nd size stride stride m m m'.
Proof. intros. apply driver_in_near; auto. Qed.
Print Assumptions C114_direct_inplace.

Theorem C114_direct : forall fuse emin prec, (0 < prec)%Z -> (emin <= 0)%Z ->
  forall eps X used meant nd size istride ostride order x m, fitting used nd -> Forall2 (close emin prec eps) used meant ->
  Permutation order (seq 0 nd) -> (1 <= size)%nat -> (size <= ostride)%nat -> (size <= istride)%nat ->
  (nd * ostride <= length m)%nat -> (nd * istride <= length x)%nat -> Forall (representable emin prec) x ->
  (forall d i, (d < nd)%nat -> (i < size)%nat -> Rabs (at_ exact_ops (row size istride d x) i) <= X) ->
  exists m', driver_out (direct_out (fused_ops fuse emin prec)) used size istride ostride order x m = Some m' /\
    rows_near (fun d => response exact_ops (tau_for meant d)) (fun d => direct_bound emin prec eps X (tau_for used d))
      nd size istride ostride x m m'.
Proof.
  intros fuse emin prec P0 E0 eps X used meant nd size istride ostride order x m FT CL HP H1 Ho Hi HL HL' RX BX.
  apply (driver_out_near emin prec fuse X used nd size order FT HP (direct_out (fused_ops fuse emin prec)) (fun d => direct_values emin prec fuse (tau_for used d))); auto.
  - intros. apply direct_out_values; auto.
  - intros d g i Hd Hi' Hg. apply direct_near; auto. apply tau_for_close; exact CL.
Qed.
Print Assumptions C114_direct.

(** Transposed, into another array, when no rounded weight is one. *)
Theorem C114_transpose : forall fuse emin prec, (0 < prec)%Z -> (emin <= 0)%Z ->
  forall eps X used meant nd size istride ostride order x m, fitting used nd -> Forall2 (close emin prec eps) used meant ->
  Forall (fun t => match t with TPos w _ => w < 1 | _ => True end) used ->
  Permutation order (seq 0 nd) -> (1 <= size)%nat -> (size <= ostride)%nat -> (size <= istride)%nat ->
  (nd * ostride <= length m)%nat -> (nd * istride <= length x)%nat -> Forall (representable emin prec) x ->
  (forall d i, (d < nd)%nat -> (i < size)%nat -> Rabs (at_ exact_ops (row size istride d x) i) <= X) ->
  exists m', driver_out (transpose_out_r fuse emin prec) used size istride ostride order x m = Some m' /\
    rows_near (fun d => transposed (response exact_ops (tau_for meant d)))
      (fun d => transpose_bound emin prec eps X (tau_for used d) (tau_for meant d) size) nd size istride ostride x m m'.
Proof.
  intros fuse emin prec P0 E0 eps X used meant nd size istride ostride order x m FT CL W HP H1 Ho Hi HL HL' RX BX.
  assert (W' : forall d, match tau_for used d with TPos w _ => w < 1 | _ => True end).
  { intros d. unfold tau_for. destruct used as [|t [|t' q]].
    - destruct d; cbn; auto.
    - inversion W; auto.
    - destruct (nth_in_or_default d (t :: t' :: q) TZero) as [H|H]; [|rewrite H; exact I].
      rewrite Forall_forall in W. apply W, H. }
  apply (driver_out_near emin prec fuse X used nd size order FT HP (transpose_out_r fuse emin prec) (fun d => transpose_all emin prec fuse (tau_for used d) size)); auto.
  - intros d bs b m1 Hd Hb Hbs. apply transpose_out_values; auto.
    + apply representable_all; auto.
    + pose proof (tau_for_close emin prec eps used meant d CL) as C. specialize (W' d).
      destruct (tau_for used d) as [| |w vi]; auto. destruct (tau_for meant d) as [| |a ai]; cbn in C; try contradiction.
      destruct C as [Rw [Hw [Ha [_ He]]]].
      destruct (quotient_near emin prec P0 E0 w a eps 0 0 0 0) as [V _]; auto; [apply format_representable; auto|lra|apply u_lt1; auto|rewrite Rabs_R0; lra|rewrite Rminus_0_r, Rabs_R0; lra|].
      lra.
  - intros d g i Hd Hi' Hg. apply transpose_near; auto; [apply tau_for_close; exact CL|apply W'].
Qed.
Print Assumptions C114_transpose.

(** The errors do not accumulate without limit: the bound does not depend on the number of
    samples when the carried factor is less than one. *)
Theorem C114_steady : forall emin prec eps X w k, (0 < prec)%Z -> 0 <= eps -> 0 <= X -> 0 <= w ->
  (carried prec w < 1 -> accumulated emin prec eps X w k <= drift emin prec eps X / (1 - carried prec w)) /\
  (carried prec w <= 1 -> accumulated emin prec eps X w k <= INR k * drift emin prec eps X).
Proof.
  intros emin prec eps X w k P0 He HX Hw. pose proof (drift_pos emin prec eps X He HX) as D. unfold accumulated.
  assert (C0 : 0 <= carried prec w).
  { unfold carried. pose proof (u_pos prec). apply Rmult_le_pos; [auto|]. apply pow_le. lra. }
  split; intros H.
  - apply Rmult_le_compat_l; [auto|]. apply geometric_steady; auto.
  - rewrite Rmult_comm. apply Rmult_le_compat_r; [auto|]. apply geometric_linear; auto.
Qed.
Print Assumptions C114_steady.

(** ** Long time constants *)
Section Long.
Variables emin prec : Z.
Hypothesis P0 : (0 < prec)%Z.
Hypothesis E0 : (emin <= - prec - 2)%Z.
Notation rn := (rndp emin prec).
Notation F := (generic_format radix2 (FLT_exp emin prec)).

(** No number between 1 - 2^-prec and 1. *)
Lemma below_one x : F x -> x < 1 -> x <= 1 - unit_of prec.
Proof.
  intros Fx H1. destruct (Rlt_le_dec x (/ 2)) as [H|H].
  - unfold unit_of. rewrite pow2. assert (bpow radix2 (- prec) <= bpow radix2 (-1)) by (apply bpow_le; lia).
    change (bpow radix2 (-1)) with (/ 2) in *. lra.
  - assert (Mg : mag radix2 x = 0%Z :> Z).
    { apply mag_unique. change (bpow radix2 (0 - 1)) with (/ 2). change (bpow radix2 0) with 1. rewrite Rabs_pos_eq by lra. lra. }
    unfold generic_format, cexp, FLT_exp in Fx. rewrite Mg in Fx. rewrite Z.max_l in Fx by lia.
    set (k := Ztrunc _) in Fx. unfold F2R in Fx. cbn in Fx. replace (0 - prec)%Z with (- prec)%Z in Fx by lia.
    unfold unit_of. rewrite pow2. pose proof (bpow_gt_0 radix2 (- prec)) as B.
    assert (K : (k < 2 ^ prec)%Z).
    { apply lt_IZR. change 2%Z with (radix_val radix2). rewrite IZR_Zpower by lia.
      apply (Rmult_lt_reg_r (bpow radix2 (- prec))); [exact B|]. rewrite <- bpow_plus, Z.add_opp_diag_r. change (bpow radix2 0) with 1. lra. }
    assert (K' : IZR k <= bpow radix2 prec - 1).
    { rewrite <- IZR_Zpower by lia. rewrite <- minus_IZR. apply IZR_le. change (radix_val radix2) with 2%Z. lia. }
    rewrite Fx. replace (1 - bpow radix2 (- prec)) with ((bpow radix2 prec - 1) * bpow radix2 (- prec)).
    + apply Rmult_le_compat_r; lra.
    + rewrite Rmult_minus_distr_r, <- bpow_plus, Z.add_opp_diag_r. change (bpow radix2 0) with 1. ring.
Qed.

Lemma near_one y : 1 - powerRZ 2 (- prec - 2) <= y <= 1 -> rn y = 1.
Proof.
  intros H. assert (F1 : F 1) by (apply format_one; lia).
  assert (L : rn y <= 1).
  { rewrite <- (rn_id emin prec 1 F1). apply round_le; [apply FLT_exp_valid; exact P0|apply valid_rnd_N|lra]. }
  assert (VE : Valid_exp (FLT_exp emin prec)) by (apply FLT_exp_valid; exact P0).
  pose proof (round_N_pt radix2 (FLT_exp emin prec) (fun x => negb (Z.even x)) y) as [_ N].
  specialize (N 1 F1). fold (rn y) in N. destruct (Req_dec (rn y) 1) as [Q|Q]; [exact Q|exfalso].
  pose proof (below_one (rn y) (format_round emin prec P0 y) ltac:(lra)) as B.
  change (Rabs (rn y - y) <= Rabs (1 - y)) in N.
  rewrite (Rabs_pos_eq (1 - y)) in N by lra. apply Rabs_le_inv in N.
  unfold unit_of in B. rewrite pow2 in *.
  assert (E : bpow radix2 (- prec) = 4 * bpow radix2 (- prec - 2)).
  { replace (- prec)%Z with (2 + (- prec - 2))%Z at 1 by lia. rewrite bpow_plus. reflexivity. }
  pose proof (bpow_gt_0 radix2 (- prec - 2)). lra.
Qed.

Lemma decay_long tau : powerRZ 2 (prec + 2) <= tau -> decay emin prec tau = 1.
Proof.
  intros H. unfold decay. apply near_one.
  assert (B : powerRZ 2 (- prec - 2) = / powerRZ 2 (prec + 2)).
  { rewrite !pow2. replace (- prec - 2)%Z with (- (prec + 2))%Z by lia. apply bpow_opp. }
  assert (T0 : 0 < powerRZ 2 (prec + 2)) by (rewrite pow2; apply bpow_gt_0).
  assert (Fb : F (- powerRZ 2 (- prec - 2))).
  { apply generic_format_opp. rewrite pow2. apply generic_format_bpow. unfold FLT_exp. lia. }
  set (q := rn (-1 / tau)).
  assert (Q : - powerRZ 2 (- prec - 2) <= q <= 0).
  { split.
    - rewrite <- (rn_id emin prec _ Fb). apply round_le; [apply FLT_exp_valid; exact P0|apply valid_rnd_N|].
      rewrite B. unfold Rdiv. assert (/ tau <= / powerRZ 2 (prec + 2)) by (apply Rinv_le; lra). lra.
    - rewrite <- (rn_id emin prec 0 (format_zero emin prec)). apply round_le; [apply FLT_exp_valid; exact P0|apply valid_rnd_N|].
      unfold Rdiv. assert (0 < / tau) by (apply Rinv_0_lt_compat; lra). lra. }
  pose proof (exp_ineq1_le q) as X.
  assert (exp q <= 1).
  { rewrite <- exp_0. destruct (proj2 Q) as [L|E]; [left; apply exp_increasing; exact L|rewrite E; lra]. }
  lra.
Qed.
End Long.

(** Time constants from 2^(prec + 2) samples on: the rounded weight is one, so that the transposed
    routine divides by zero, and the direct one repeats the first sample; the transpose meant
    divides by a positive number. *)
Theorem C114_long_refuted : forall fuse emin prec, (0 < prec)%Z -> (emin <= - prec - 2)%Z ->
  forall tau vi, powerRZ 2 (prec + 2) <= tau ->
  0 < 1 - exp (-1 / tau) /\
  forall src bs b n m, (1 <= n)%nat -> (b + n <= length m)%nat -> (bs + n <= length src)%nat -> Forall (representable emin prec) src ->
  transpose_out_r fuse emin prec src bs b n (TPos (decay emin prec tau) vi) m = None /\
  exists m', direct_out (fused_ops fuse emin prec) src bs b n (TPos (decay emin prec tau) vi) m = Some m' /\
    forall i, (i < n)%nat -> at_ exact_ops m' (b + i) = at_ exact_ops src bs.
Proof.
  intros fuse emin prec P0 E0 tau vi H. split.
  - assert (0 < powerRZ 2 (prec + 2)) by (rewrite pow2; apply bpow_gt_0).
    assert (-1 / tau < 0) by (unfold Rdiv; assert (0 < / tau) by (apply Rinv_0_lt_compat; lra); lra).
    pose proof (exp_increasing (-1 / tau) 0 ltac:(lra)) as X. rewrite exp_0 in X. lra.
  - intros src bs b n m Hn HL HL' RS. rewrite decay_long by auto.
    assert (FS : Forall (generic_format radix2 (FLT_exp emin prec)) src) by (apply representable_all; auto).
    assert (V : rndp emin prec (1 + Ropp 1) = 0).
    { rewrite Rplus_opp_r. apply round_0, valid_rnd_N. }
    split.
    + cbn [transpose_out_r]. unfold transpose_body_r. change (one_minus (fp_ops emin prec) 1) with (rndp emin prec (1 + Ropp 1)).
      rewrite V. unfold divide_r. destruct (Req_EM_T 0 0) as [_|Q]; [|congruence].
      destruct (store _ _ _); [|reflexivity]. destruct (loop _ _ _); reflexivity.
    + destruct (direct_out_values emin prec fuse src bs b n (TPos 1 vi) m Hn HL HL') as [m' [E [_ [Vs _]]]].
      exists m'. split; [exact E|]. intros i Hi. change (at_ exact_ops) with (at_ (fused_ops fuse emin prec)). rewrite Vs by auto. cbn [direct_values].
      clear Hi. induction i as [|i IH]; cbn [forward]; [rewrite Nat.add_0_r; reflexivity|].
      rewrite IH, smooth_fp, V. unfold term. rewrite Rmult_0_l, Rmult_1_l.
      rewrite !(rn_id emin prec (at_ (fused_ops fuse emin prec) src bs)) by (apply at_format, FS).
      rewrite (rn_id emin prec 0) by apply format_zero. destruct (fuse 1 _), (fuse 0 _); rewrite Rplus_0_r; apply rn_id, at_format, FS.
Qed.
Print Assumptions C114_long_refuted.

(** binary64, weights 1/2 (exact), two detectors of four samples: the hypotheses hold, and the errors
    are below 2^-47. *)
Lemma rep_int n : (Z.abs n < 2 ^ 53)%Z -> representable (-1074) 53 (IZR n).
Proof. intros H. exists n, 0%Z. cbn. split; [ring|]. split; [exact H|lia]. Qed.

Example C114_example : exists (used meant : list (@tau R)) (x : list R) (order : list nat),
  fitting used 2 /\ Forall2 (close (-1074) 53 0) used meant /\
  Forall (fun t => match t with TPos w _ => w < 1 | _ => True end) used /\
  Permutation order (seq 0 2) /\ Forall (representable (-1074) 53) x /\ length x = 8%nat /\
  (forall d i, (d < 2)%nat -> (i < 4)%nat -> Rabs (at_ exact_ops (row 4 4 d x) i) <= 5) /\
  carried 53 (/ 2) < 1 /\ drift (-1074) 53 0 5 / (1 - carried 53 (/ 2)) <= powerRZ 2 (-47).
Proof.
  exists [TPos (/ 2) 2; TZero], [TPos (/ 2) 2; TZero], [1; 3; -2; 5; 4; 0; 2; -5], [1; 0]%nat.
  split; [split; [discriminate|right; reflexivity]|]. split.
  { constructor; [|constructor; [exact I|constructor]]. cbn. split; [|repeat split; try lra].
    - exists 1%Z, (-1)%Z. split; [rewrite pow2; change (bpow radix2 (-1)) with (/ 2); lra|]. split; [reflexivity|lia].
    - rewrite Rminus_diag_eq, Rabs_R0 by reflexivity. lra. }
  split; [repeat constructor; lra|]. split; [apply perm_swap|].
  split; [repeat (apply Forall_cons; [apply rep_int; cbn; lia|]); apply Forall_nil|]. split; [reflexivity|]. split.
  { intros [|[|d]] [|[|[|[|i]]]] Hd Hi; try lia; cbn; unfold Rabs; destruct Rcase_abs; lra. }
  unfold carried, drift, unit_of, tiny_of. 
  assert (T : powerRZ 2 (-1074 - 1) <= powerRZ 2 (-53)) by (rewrite !pow2; apply bpow_le; lia).
  assert (T0 : 0 < powerRZ 2 (-1074 - 1)) by (rewrite pow2; apply bpow_gt_0).
  set (t := powerRZ 2 (-1074 - 1)) in *. clearbody t.
  change (powerRZ 2 (- (53))) with (powerRZ 2 (-53)).
  assert (U : powerRZ 2 (-53) = / IZR (2 ^ 53)) by (rewrite pow2; cbn; lra).
  assert (W : powerRZ 2 (-47) = / IZR (2 ^ 47)) by (rewrite pow2; cbn; lra).
  rewrite W, U in *. change (2 ^ 53)%Z with 9007199254740992%Z in *. change (2 ^ 47)%Z with 140737488355328%Z.
  split; [lra|]. unfold Rdiv. apply (Rmult_le_reg_r (1 - / 2 * (1 + / 9007199254740992) ^ 2)); [lra|].
  rewrite Rmult_assoc, Rinv_l by lra. lra.
Qed.

(** binary32: from 2^26 samples on. *)
Example C114_long_example : decay (-149) 24 (powerRZ 2 26) = 1 /\ Forall (representable (-149) 24) [3; 1; 2] /\
  transpose_out_r (fun _ _ => true) (-149) 24 [3; 1; 2] 0 0 3 (TPos (decay (-149) 24 (powerRZ 2 26)) 0) [0; 0; 0] = None.
Proof.
  assert (RS : Forall (representable (-149) 24) [3; 1; 2]).
  { repeat constructor; [exists 3%Z, 0%Z|exists 1%Z, 0%Z|exists 2%Z, 0%Z]; cbn; (split; [ring|split; lia]). }
  split; [apply decay_long; [lia|lia|apply Rle_refl]|]. split; [exact RS|].
  apply C114_long_refuted; try lia; [apply Rle_refl|cbn; lia|cbn; lia|exact RS].
Qed.
