(** C92: back projection and coverage. *)
From Coq Require Import Lia Permutation Ring.
From Verif Require Import Base BaseFacts SparseModel SparseSpec RingFacts SparseExecFacts SparseFacts SparsePyFacts SparseProps
  SparseOpModel SparseOpSpec SparseOpFacts SparseOpFacts2 PtxModel.
Open Scope nat_scope.

Section Op.
Context {K : Type} (o : ops K).
Variable RL : ring_laws o.
Let RT : ring_theory (k0 o) (k1 o) (kadd o) (kmul o) (fun a b => kadd o a (kopp o b)) (kopp o) eq := RL.
Add Ring Kring7 : RT.
Lemma pTx_scalar flib sched (S : sop K) extra x out op :
  well_formed (so_mx S) -> mx_kind (so_mx S) = KScalar -> length x = extra * mx_rows (so_mx S) ->
  1 <= extra -> scheduler sched -> 0 < mx_cols (so_mx S) -> 0 < mx_rows (so_mx S) ->
  length out = extra * mx_cols (so_mx S) -> op = Assign \/ op = IAdd ->
  exists r, pTx o flib sched S x out op = Ok (Some r) /\ length r = length out /\
    forall c, c < length out ->
      at_ o r c = kadd o (previous o op out c) (bigsum o (extra * mx_rows (so_mx S)) (fun i => kmul o (dense_of o (so_mx S) extra i c) (at_ o x i))).
Proof.
  intros W KD Hx E1 Hs PC PR Lo Hop. set (M := so_mx S) in *.
  assert (A : allowed_extra (transpose M) extra) by (unfold allowed_extra; cbn; rewrite KD; exact E1).
  assert (MV : forall c, mat_vec o (extra * mx_rows M) (dense_of o (transpose M) extra) x c
               = bigsum o (extra * mx_rows M) (fun i => kmul o (dense_of o M extra i c) (at_ o x i))).
  { intros c. unfold mat_vec. apply bigsum_ext. intros i Hi. rewrite dense_transpose. reflexivity. }
  unfold pTx. fold M. rewrite KD. destruct Hop as [-> | ->].
  - destruct (direct_assign o RL flib sched (transpose M) extra x out) as [r [E [L F]]]; auto using wf_transpose.
    exists r. split; [exact E|]. split; [exact L|]. intros c Hcc. rewrite F by auto. change (mx_cols (transpose M)) with (mx_rows M). rewrite MV. cbn [previous]. ring.
  - destruct (direct_iadd o RL flib sched (transpose M) extra x out) as [r [E [L F]]]; auto using wf_transpose.
    exists r. split; [exact E|]. split; [exact L|]. intros c Hcc. rewrite F by auto. change (mx_cols (transpose M)) with (mx_rows M). rewrite MV. cbn [previous]. ring.
Qed.
Lemma pTx_first flib sched (S : sop K) x out op n :
  well_formed (so_mx S) -> mx_kind (so_mx S) = KRot3 \/ mx_kind (so_mx S) = KBlock -> 1 < snd (mx_bs (so_mx S)) ->
  length x = mx_rows (so_mx S) -> scheduler sched -> 0 < mx_rows (so_mx S) ->
  mx_cols (so_mx S) = n * snd (mx_bs (so_mx S)) -> length out = n -> op = Assign \/ op = IAdd ->
  exists r, pTx o flib sched S x out op = Ok (Some r) /\ length r = length out /\
    forall c, c < length out ->
      at_ o r c = kadd o (previous o op out c)
                    (bigsum o (mx_rows (so_mx S)) (fun i => kmul o (dense_of o (so_mx S) 1 i (c * snd (mx_bs (so_mx S)))) (at_ o x i))).
Proof.
  intros W KD B2 Hx Hs PR Hc Lo Hop. set (M := so_mx S) in *.
  assert (A : allowed_extra (transpose M) 1) by (unfold allowed_extra; cbn; destruct KD as [-> | ->]; auto).
  destruct (matvec_none o RL flib sched (transpose M) 1 x (wf_transpose M W) Hs A) as [t [Et Ht]]; [exact PR|cbn; lia|].
  assert (F : forall c, c < n -> at_ o (firsts o n (snd (mx_bs M)) t) c =
             bigsum o (mx_rows M) (fun i => kmul o (dense_of o M 1 i (c * snd (mx_bs M))) (at_ o x i))).
  { intros c Hcn. rewrite firsts_at by auto.
    rewrite (adds_product_zero o RL _ _ _ _ _ _ _ Ht) by (cbn; fold M in Hc; nia).
    unfold mat_vec. change (mx_cols (transpose M)) with (mx_rows M). rewrite Nat.mul_1_l.
    apply bigsum_ext. intros i Hi. rewrite dense_transpose. reflexivity. }
  unfold pTx. fold M.
  assert (Hb1 : (snd (mx_bs M) =? 1) = false) by (apply Nat.eqb_neq; lia).
  destruct KD as [KD|KD]; rewrite KD, Et, Hb1; cbn [bind]; rewrite Lo;
  (destruct Hop as [-> | ->]; eexists; (split; [reflexivity|]);
   [split; [cbn; apply firsts_length|]; intros c Hcn; cbn [fill]; rewrite F by lia; cbn [previous]; ring
   |split; [cbn [fill]; rewrite map2_length; rewrite ?firsts_length; auto|]; intros c Hcn; cbn [fill];
    unfold at_ at 1; rewrite (map2_nth (kadd o) _ _ (k0 o) (k0 o)) by (rewrite ?firsts_length; lia);
    change (nth c (firsts o n (snd (mx_bs M)) t) (k0 o)) with (at_ o (firsts o n (snd (mx_bs M)) t) c);
    rewrite F by lia; reflexivity]).
Qed.
Lemma same_shape_refl s : same_shape s s = true.
Proof. induction s; cbn; [reflexivity|]. now rewrite Nat.eqb_refl. Qed.
Lemma same_shape_eq s t : same_shape s t = true -> s = t.
Proof. revert t; induction s as [|a s IH]; intros [|b t] H; cbn in H; try discriminate; [reflexivity|]. apply andb_prop in H. destruct H as [H1 H2]. apply Nat.eqb_eq in H1. subst. f_equal. auto. Qed.
(** The terms of column c, with or without the argument. *)
Definition column (M : matrix K) extra c (f : nat -> K) : K := bigsum o (extra * mx_rows M) (fun i => kmul o (dense_of o M extra i c) (f i)).
End Op.

(** Scalar matrices: the transpose of the projection applied to x, and to ones, for each pixel. *)
Theorem C92_scalar : forall (K : Type) (o : ops K), ring_laws o ->
  forall flib sched norm junk (S : sop K) extra x s1 s2 a1 a2 op,
  well_formed (so_mx S) -> mx_axis (so_mx S) = FSR -> mx_kind (so_mx S) = KScalar ->
  prodn (shape_of_x S) = extra * mx_rows (so_mx S) -> (so_out S = None -> snd (mx_bs (so_mx S)) = 1 /\ extra = 1) ->
  s1 = shape_of_map S -> s2 = shape_of_map S ->
  1 <= extra -> scheduler sched -> 0 < mx_cols (so_mx S) -> 0 < mx_rows (so_mx S) -> length x = extra * mx_rows (so_mx S) ->
  length a1 = extra * mx_cols (so_mx S) -> length a2 = extra * mx_cols (so_mx S) -> op = Assign \/ op = IAdd ->
  exists t h, pTx_pT1 o flib sched norm junk S (shape_of_x S) x (Some (s1, s2, (a1, a2))) op = Ok (Some (t, h)) /\ length t = length a1 /\ length h = length a2 /\
    forall c, c < extra * mx_cols (so_mx S) ->
      at_ o t c = kadd o (previous o op a1 c) (column o (so_mx S) extra c (at_ o x)) /\
      at_ o h c = kadd o (previous o op a2 c) (column o (so_mx S) extra c (fun _ => k1 o)).
Proof.
  intros K o RL flib sched norm junk S extra x s1 s2 a1 a2 op W AX KD Hn Hnone E1 E2 H1 Hs Hc Hr Hx L1 L2 Hop.
  destruct (pTx_scalar o RL flib sched S extra x a1 op W KD Hx H1 Hs Hc Hr L1 Hop) as (t & Et & Lt & Ht).
  destruct (pT1_scalar o RL flib sched norm S extra a2 op W AX KD) as (h & Eh & Lh & Hh); try assumption.
  { unfold shape_of_x in Hn. destruct (so_out S); [exact Hn|]. now apply Hnone. }
  exists t, h. unfold pTx_pT1. rewrite KD, same_shape_refl. cbn [negb]. subst s1 s2. rewrite same_shape_refl. cbn [andb bind fst snd].
  destruct Hop as [-> | ->]; rewrite Eh, Et; cbn [bind]; (split; [reflexivity|]; split; [assumption|]; split; [assumption|]; intros c Hcc; split; [rewrite Ht by lia; reflexivity|]; rewrite Hh by lia; f_equal; apply bigsum_ext; intros i Hi; destruct RL; rewrite Rmul_comm, Rmul_1_l; reflexivity).
Qed.
Print Assumptions C92_scalar.
(** Blocks and three-dimensional rotations: the first component of each pixel. *)
Theorem C92_blocks_partial : forall (K : Type) (o : ops K), ring_laws o ->
  forall flib sched norm junk (S : sop K) n x s1 s2 a1 a2 op,
  well_formed (so_mx S) -> mx_axis (so_mx S) = FSR -> mx_kind (so_mx S) = KRot3 \/ mx_kind (so_mx S) = KBlock -> 1 < snd (mx_bs (so_mx S)) ->
  match so_out S with Some s => prodn s = mx_rows (so_mx S) | None => False end -> s1 = shape_of_map S -> s2 = shape_of_map S ->
  scheduler sched -> 0 < mx_rows (so_mx S) -> mx_cols (so_mx S) = n * snd (mx_bs (so_mx S)) -> length x = mx_rows (so_mx S) ->
  length a1 = n -> length a2 = n -> op = Assign \/ op = IAdd ->
  exists t h, pTx_pT1 o flib sched norm junk S (shape_of_x S) x (Some (s1, s2, (a1, a2))) op = Ok (Some (t, h)) /\ length t = n /\ length h = n /\
    forall c, c < n ->
      at_ o t c = kadd o (previous o op a1 c) (column o (so_mx S) 1 (c * snd (mx_bs (so_mx S))) (at_ o x)) /\
      at_ o h c = kadd o (previous o op a2 c) (column o (so_mx S) 1 (c * snd (mx_bs (so_mx S))) (fun _ => k1 o)).
Proof.
  intros K o RL flib sched norm junk S n x s1 s2 a1 a2 op W AX KD HB Hso E1 E2 Hs Hr Hc Hx L1 L2 Hop.
  destruct (pTx_first o RL flib sched S x a1 op n W KD HB Hx Hs Hr Hc L1 Hop) as (t & Et & Lt & Ht).
  destruct (pT1_first o RL flib sched norm S a2 op n W AX KD HB) as (h & Eh & Lh & Hh); try assumption.
  { destruct (so_out S); [exact Hso|easy]. }
  exists t, h. unfold pTx_pT1. subst s1 s2. unfold column. rewrite !Nat.mul_1_l.
  assert (R : (if negb (same_shape (shape_of_x S) (shape_of_x S)) then true else false) = false) by (now rewrite same_shape_refl).
  assert (G : forall c, c < n -> at_ o t c = kadd o (previous o op a1 c) (bigsum o (mx_rows (so_mx S)) (fun i => kmul o (dense_of o (so_mx S) 1 i (c * snd (mx_bs (so_mx S)))) (at_ o x i))) /\
      at_ o h c = kadd o (previous o op a2 c) (bigsum o (mx_rows (so_mx S)) (fun i => kmul o (dense_of o (so_mx S) 1 i (c * snd (mx_bs (so_mx S)))) (k1 o)))).
  { intros c Hcc. split; [apply Ht; lia|]. rewrite Hh by lia. f_equal. apply bigsum_ext. intros i Hi. destruct RL. rewrite Rmul_comm, Rmul_1_l. reflexivity. }
  destruct KD as [KD|KD]; rewrite KD, !same_shape_refl; cbn [negb andb bind fst snd]; destruct Hop as [-> | ->]; rewrite Eh, Et; cbn [bind]; (split; [reflexivity|]; split; [lia|]; split; [lia|exact G]).
Qed.
Print Assumptions C92_blocks_partial.
(** Other shapes and operations, and two-dimensional rotations, are refused. *)
Theorem C92_errors : forall (K : Type) (o : ops K) flib sched norm junk (S : sop K) xshape x out op,
  mx_kind (so_mx S) <> KRot2 /\ xshape = shape_of_x S /\ op <> OtherOp \/ exists e, pTx_pT1 o flib sched norm junk S xshape x out op = Err e.
Proof.
  intros K o flib sched norm junk S xshape x out op. unfold pTx_pT1. destruct (mx_kind (so_mx S)) eqn:KD; try (right; eexists; reflexivity).
  all: destruct (same_shape xshape (shape_of_x S)) eqn:E; cbn [negb]; [apply same_shape_eq in E|right; eexists; reflexivity].
  all: destruct op; try (left; split; [discriminate|split; [exact E|discriminate]]).
  all: right; destruct out as [[[s1 s2] a]|]; cbn [bind]; [destruct (same_shape s1 _ && same_shape s2 _); cbn [bind]|]; eexists; reflexivity.
Qed.
Print Assumptions C92_errors.
(** The shape of the two maps: that of the declared input, without its last dimension if that is the components of a block; other shapes are refused. *)
Theorem C92_shapes : forall (K : Type) (S : sop K),
  (so_in S = None -> shape_of_map S = [mx_cols (so_mx S)]) /\
  (forall s, so_in S = Some s -> snd (mx_bs (so_mx S)) <= 1 -> shape_of_map S = s) /\
  (forall s n, so_in S = Some (s ++ [n]) -> 1 < snd (mx_bs (so_mx S)) -> shape_of_map S = s).
Proof.
  intros K S. unfold shape_of_map. split; [intros ->; reflexivity|]. split.
  - intros s -> H. destruct (Nat.ltb_spec 1 (snd (mx_bs (so_mx S)))); [lia|reflexivity].
  - intros s n -> H. destruct (Nat.ltb_spec 1 (snd (mx_bs (so_mx S)))); [apply removelast_last|lia].
Qed.
Print Assumptions C92_shapes.
Theorem C92_output_shapes : forall (K : Type) (o : ops K) flib sched norm junk (S : sop K) x s1 s2 a op r,
  pTx_pT1 o flib sched norm junk S (shape_of_x S) x (Some (s1, s2, a)) op = Ok r -> s1 = shape_of_map S /\ s2 = shape_of_map S.
Proof.
  intros K o flib sched norm junk S x s1 s2 a op r. unfold pTx_pT1. destruct (mx_kind (so_mx S)); try discriminate.
  all: rewrite same_shape_refl; cbn [negb]; destruct (same_shape s1 _) eqn:E1; [|discriminate]; destruct (same_shape s2 _) eqn:E2; [|discriminate]; intros _; split; apply same_shape_eq; assumption.
Qed.
Print Assumptions C92_output_shapes.
Example C92_case : let S := mk_sop ex_scalar (Some [3; 2]) (Some [2; 2]) in
  pTx_pT1 z_ops true (@in_order Z) Z.add (fun n => repeat 0%Z n) S [2; 2] [1; 2; 3; 4]%Z None Assign =
  Ok (Some ([7; 14; 0; 0; 17; 26], [7; 7; 0; 0; 9; 9])%Z) /\ shape_of_x S = [2; 2] /\ shape_of_map S = [3; 2].
Proof. repeat split; reflexivity. Qed.

(** Wrong: adding without an array to add to is not refused (it is by the mask of the kernel): the result is added to memory that is not initialised. *)
Theorem C92_uninitialised_refuted : let S := mk_sop ex_scalar None None in let f junk := pTx_pT1 z_ops true (@in_order Z) Z.add junk S [2] [1; 1]%Z None IAdd in
  exists r1 r2, f (fun n => repeat 0%Z n) = Ok (Some r1) /\ f (fun n => repeat 5%Z n) = Ok (Some r2) /\ r1 <> r2.
Proof. do 2 eexists. split; [reflexivity|]. split; [reflexivity|]. discriminate. Qed.
Print Assumptions C92_uninitialised_refuted.
