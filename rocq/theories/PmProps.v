(** Properties C36, C37, C56, C57, C58: pointing matrices. *)
From Coq Require Import Lia Permutation.
From Verif Require PTFacts.
From Verif Require Import Base BaseFacts SparseModel SparseSpec RingFacts NumModel NumFacts PmModel PmSpec PmFacts PmFacts2.
Open Scope Z_scope.

Lemma k_mul_0_l {K} (o : ops K) : ring_laws o -> forall a, kmul o (k0 o) a = k0 o.
Proof.
  intros RL a. pose proof (sum_over_mul_r o RL ([] : list nat) a (fun _ => k0 o)) as H. cbn in H. now symmetry.
Qed.

(** ** C36: packing *)
(** A valid matrix can be packed, and acts on packed maps as it did on the maps with
    masked pixels set to zero; samples keep their size. *)
Theorem C36_pack_partial : forall K (o : ops K) (iszero : K -> bool), ring_laws o -> (forall v, iszero v = true <-> v = k0 o) ->
  forall m mask x, valid (length mask) m -> length x = length mask ->
  exists m' y, pmatrix_pack o iszero m mask = Ok m' /\ map (@length _) m' = map (@length _) m /\
    pmatrix_direct o m' (packed x mask) = Ok y /\ pmatrix_direct o m (zeroed o x mask) = Ok y.
Proof.
  intros K o iszero RL Hz m mask x V L. destruct (pmatrix_pack_ok o iszero Hz mask m V) as [m' [E F]].
  assert (Lz : length (zeroed o x mask) = length mask) by (unfold zeroed; rewrite map_length, combine_length; lia).
  exists m', (map (fun i => projected o m (zeroed o x mask) i) (seq 0 (length m))). split; [exact E|]. split; [|split].
  - clear - F. induction F as [|row row' m m' [H _] F IH]; cbn; [reflexivity | now rewrite H, IH].
  - rewrite <- (pmatrix_direct_ok o RL) by now rewrite Lz. unfold pmatrix_direct. clear E.
    induction F as [|row row' m m' [_ H] F IH]; cbn [map_res]; [reflexivity|].
    rewrite (packed_row_direct o RL iszero Hz mask row row' x L (V row ltac:(now left)) H).
    rewrite IH; [reflexivity|]. intros r Hr. apply V. now right.
  - apply (pmatrix_direct_ok o RL). now rewrite Lz.
Qed.
Print Assumptions C36_pack_partial.
Example C36_pack_example : let m := [[(0, 2); (3, 0); (2, 5)]; [(1, 3); (-1, 0); (2, 7)]] in
  pmatrix_pack z_ops (Z.eqb 0) m [false; true; false; false] = Ok [[(0, 2); (1, 5); (-1, 0)]; [(-1, 0); (2, 7); (-1, 0)]] /\
  pmatrix_direct z_ops [[(0, 2); (1, 5); (-1, 0)]; [(-1, 0); (2, 7); (-1, 0)]] (packed [10; 20; 30; 40] [false; true; false; false]) = Ok [170; 0] /\
  pmatrix_direct z_ops m (zeroed z_ops [10; 20; 30; 40] [false; true; false; false]) = Ok [170; 0].
Proof. repeat split; vm_compute; reflexivity. Qed.

(** The mask marks the pixels without stored weight, besides those already unmarked. *)
Theorem C36_mask : forall K (o : ops K) (iszero : K -> bool), (forall v, iszero v = true <-> v = k0 o) ->
  forall m mask, valid (length mask) m -> exists mask', pmatrix_mask iszero m mask = Ok mask' /\ length mask' = length mask /\
    forall j, (j < length mask)%nat -> (nth j mask' true = true <->
      nth j mask true = true /\ ~ exists row e, In row m /\ In e (entries row) /\ fst e = Z.of_nat j /\ snd e <> k0 o).
Proof. intros K o iszero Hz m mask V. exact (pmatrix_mask_ok o iszero Hz (length mask) m mask eq_refl V). Qed.
Print Assumptions C36_mask.
Example C36_mask_example : pmatrix_mask (Z.eqb 0) [[(0, 2); (3, 0); (2, 5)]; [(1, 3); (-1, 0); (3, 7)]] [true; true; true; true; true] = Ok [false; false; false; true; true].
Proof. reflexivity. Qed.

(** get_mask: a new mask marks the pixels without stored weight; a given one is restricted to
    them; its type and shape are checked. *)
Theorem C36_get_mask : forall K (o : ops K) (iszero : K -> bool), (forall v, iszero v = true <-> v = k0 o) ->
  forall shape m mask, Z.of_nat (length mask) = prodZ shape -> valid (length mask) m ->
  exists fresh given, get_mask iszero shape m None = Ok fresh /\
    get_mask iszero shape m (Some (true, shape, mask)) = Ok given /\
    length fresh = length mask /\ length given = length mask /\
    (forall j, (j < length mask)%nat ->
      (nth j fresh true = true <-> ~ exists row e, In row m /\ In e (entries row) /\ fst e = Z.of_nat j /\ snd e <> k0 o) /\
      nth j given true = (nth j mask true && nth j fresh true)%bool) /\
    (forall s, s <> shape -> get_mask iszero shape m (Some (true, s, mask)) = Err ValueError) /\
    (forall s, get_mask iszero shape m (Some (false, s, mask)) = Err TypeError).
Proof.
  intros K o iszero Hz shape m mask Hs V. unfold get_mask. cbn [negb bind].
  destruct (list_eq_dec Z.eq_dec shape shape) as [_|N]; [|congruence]. cbn [negb bind].
  rewrite <- Hs, Nat2Z.id. set (n := length mask) in *.
  assert (W : forall s, s <> shape -> (do mask0 <- (if negb (if list_eq_dec Z.eq_dec s shape then true else false) then Err ValueError else Ok mask);
     if (length (concat m) =? 0)%nat then Ok mask0 else pmatrix_mask iszero m mask0) = Err ValueError).
  { intros s N. destruct (list_eq_dec Z.eq_dec s shape); [congruence|reflexivity]. }
  destruct (Nat.eqb_spec (length (concat m)) 0) as [E|E].
  - exists (repeat true n), mask. split; [reflexivity|]. split; [reflexivity|].
    split; [apply repeat_length|]. split; [reflexivity|]. split; [|split; [exact W|reflexivity]].
    intros j Hj. rewrite nth_repeat. rewrite Bool.andb_true_r. split; [|reflexivity]. split; [|reflexivity].
    intros _ (row & e & Hr & He & _). assert (In e (concat m)); [|destruct (concat m); [assumption|discriminate]].
    apply in_concat. exists row. split; [exact Hr|]. clear - He.
    induction row as [|x row IH]; [destruct He|]. cbn [entries] in He. destruct (fst x =? -1)%Z; [destruct He|].
    destruct He as [<-|He]; [now left|right; now apply IH].
  - destruct (pmatrix_mask_ok o iszero Hz n m (repeat true n) (repeat_length _ _) V) as [f [Ef [Lf Hf]]].
    destruct (pmatrix_mask_ok o iszero Hz n m mask eq_refl V) as [g [Eg [Lg Hg]]].
    exists f, g. split; [exact Ef|]. split; [exact Eg|].
    split; [rewrite Lf; reflexivity|]. split; [rewrite Lg; reflexivity|].
    split; [|split; [exact W|reflexivity]].
    intros j Hj. specialize (Hf j Hj). specialize (Hg j Hj). rewrite nth_repeat in Hf. split.
    + rewrite Hf. split; [tauto|]. intros H. split; [reflexivity|exact H].
    + apply Bool.eq_iff_eq_true. rewrite Bool.andb_true_iff, Hg, Hf. tauto.
Qed.
Print Assumptions C36_get_mask.
Example C36_get_mask_example :
  get_mask (Z.eqb 0) [2; 2] [[(0, 2); (3, 0)]; [(1, 3); (-1, 0)]] None = Ok [false; false; true; true] /\
  get_mask (Z.eqb 0) [2; 2] [[(0, 2); (3, 0)]; [(1, 3); (-1, 0)]] (Some (true, [2; 2], [true; true; false; true])) = Ok [false; false; false; true] /\
  get_mask (Z.eqb 0) [2; 2] ([] : list (list (Z * Z))) (Some (true, [2; 2], [true; false; false; true])) = Ok [true; false; false; true].
Proof. repeat split; reflexivity. Qed.

(** Packed by its own mask, a matrix keeps its action. *)
Theorem C36_pack_own_mask : forall K (o : ops K) (iszero : K -> bool), ring_laws o -> (forall v, iszero v = true <-> v = k0 o) ->
  forall m x mask m', valid (length x) m -> pmatrix_mask iszero m (repeat true (length x)) = Ok mask -> pmatrix_pack o iszero m mask = Ok m' ->
  exists y, pmatrix_direct o m' (packed x mask) = Ok y /\ pmatrix_direct o m x = Ok y.
Proof.
  intros K o iszero RL Hz m x mask m' V Em Ep.
  destruct (C36_mask K o iszero Hz m (repeat true (length x))) as [mask' [E1 [L1 H1]]]; [now rewrite repeat_length|].
  rewrite repeat_length in L1, H1. rewrite Em in E1. injection E1 as <-.
  destruct (C36_pack_partial K o iszero RL Hz m mask x) as [m2 [y [E2 [_ [E3 E4]]]]]; [now rewrite L1 | lia |].
  rewrite Ep in E2. injection E2 as <-. exists y. split; [exact E3|]. rewrite <- E4. unfold pmatrix_direct. apply map_res_ext. intros row Hr.
  assert (Lz : length (zeroed o x mask) = length x) by (unfold zeroed; rewrite map_length, combine_length; lia).
  rewrite (direct_row_ok o RL (length x) row x (k0 o) eq_refl (V row Hr)).
  rewrite (direct_row_ok o RL (length x) row (zeroed o x mask) (k0 o) Lz (V row Hr)).
  do 2 f_equal. apply sum_over_ext. intros e He.
  pose proof (valid_entries (length x) row (V row Hr)) as F. rewrite Forall_forall in F. specialize (F e He).
  unfold at_. rewrite (zeroed_at o iszero Hz) by lia. destruct (nth (Z.to_nat (fst e)) mask true) eqn:Eb; [|reflexivity].
  apply H1 in Eb; [|lia]. destruct Eb as [_ N]. destruct (iszero (snd e)) eqn:Ez.
  - apply Hz in Ez. rewrite Ez. rewrite !(k_mul_0_l o RL). reflexivity.
  - exfalso. apply N. exists row, e. split; [exact Hr|]. split; [exact He|]. split; [lia|]. intros Q. rewrite Q in Ez. rewrite (proj2 (Hz (k0 o)) eq_refl) in Ez. discriminate.
Qed.
Print Assumptions C36_pack_own_mask.

(** One pixel per sample: the sample whose pixel is dropped keeps whatever the output
    contained, here 7. *)
Theorem C36_one_pixel_refuted : exists (m : list (list (Z * Z))) mask x,
  valid (length mask) m /\ length x = length mask /\
  (do m' <- pmatrix_pack z_ops (Z.eqb 0) m mask; fdirect z_ops 1 m' (packed x mask) [7]) = Ok [7] /\
  fdirect z_ops 1 m (zeroed z_ops x mask) [7] = Ok [0].
Proof.
  exists [[(0, 1)]], [true; false], [5; 6]. split; [|repeat split; vm_compute; reflexivity].
  apply (PmFacts.isvalid_ok 2). reflexivity.
Qed.
Print Assumptions C36_one_pixel_refuted.

(** What follows the index -1 is not renumbered: the packed matrix may be invalid. *)
Theorem C36_valid_refuted : exists (m : list (list (Z * Z))) mask m', isvalid 3 m = true /\ length mask = 3%nat /\
  pmatrix_pack z_ops (Z.eqb 0) m mask = Ok m' /\ isvalid (zlen (packed [0; 0; 0] mask)) m' = false.
Proof. exists [[(-1, 0); (2, 1)]], [true; false; false], [[(-1, 0); (2, 1)]]. repeat split; vm_compute; reflexivity. Qed.
Print Assumptions C36_valid_refuted.

(** apply_mask: masked samples become zero, the others do not change. *)
Theorem C36_apply_mask : forall K (o : ops K), ring_laws o -> forall m mask x, valid (length x) m -> length mask = length m ->
  exists y, pmatrix_direct o m x = Ok y /\ pmatrix_direct o (apply_mask o m mask) x = Ok (zeroed o y mask).
Proof.
  intros K o RL m mask x V. rewrite (pmatrix_direct_ok o RL m x V). unfold pmatrix_direct. revert mask.
  assert (G : forall m mask, valid (length x) m -> length mask = length m -> exists y, map_res (fun row => direct_row o row x (k0 o)) m = Ok y /\
    map_res (fun row => direct_row o row x (k0 o)) (apply_mask o m mask) = Ok (zeroed o y mask)).
  { clear m V. induction m as [|row m IH]; intros [|b mask] V L; try discriminate; [exists []; auto|].
    destruct (IH mask) as [y [E1 E2]]; [intros r Hr; apply V; now right | now injection L|].
    assert (Vr := V row ltac:(now left)). unfold apply_mask. cbn [combine map map_res fst snd].
    rewrite (direct_row_ok o RL (length x) row x (k0 o) eq_refl Vr). rewrite E1. cbn [bind]. eexists. split; [reflexivity|].
    set (row' := map _ row).
    assert (Vr' : forall e, In e row' -> -1 <= fst e < Z.of_nat (length x)).
    { intros e He. apply in_map_iff in He as [e' [<- He]]. cbn [fst]. now apply Vr. }
    rewrite (direct_row_ok o RL (length x) row' x (k0 o) eq_refl Vr'). fold (apply_mask o m mask). rewrite E2. cbn [bind]. unfold zeroed. cbn [combine map fst snd].
    do 2 f_equal.
    assert (Ee : entries row' = map (fun e => (fst e, kmul o (snd e) (if b then k0 o else k1 o))) (entries row)).
    { subst row'. clear. induction row as [|e row IH]; cbn [map entries fst]; [reflexivity|]. destruct (fst e =? -1); [reflexivity|]. cbn [map]. now rewrite IH. }
    rewrite Ee, sum_over_map. cbn [fst snd]. pose proof (RL : ring_theory _ _ _ _ _ _ _) as RT.
    destruct b.
    - rewrite (sum_over_0 o RL); [now rewrite (Radd_0_l RT)|]. intros e _. rewrite (Rmul_comm RT (snd e)), (k_mul_0_l o RL). apply (k_mul_0_l o RL).
    - f_equal. apply sum_over_ext. intros e _. now rewrite (Rmul_comm RT (snd e)), (Rmul_1_l RT). }
  intros mask L. destruct (G m mask V L) as [y [E1 E2]]. exists y. split; [|exact E2]. rewrite <- E1. symmetry. apply (pmatrix_direct_ok o RL m x V).
Qed.
Print Assumptions C36_apply_mask.
Example C36_apply_mask_example : apply_mask z_ops [[(0, 2); (1, 3)]; [(1, 4); (-1, 0)]] [true; false] = [[(0, 0); (1, 0)]; [(1, 4); (-1, 0)]].
Proof. reflexivity. Qed.

(** A matrix is valid when isvalid says so. *)
Theorem C36_isvalid : forall K n (m : list (list (Z * K))), isvalid (Z.of_nat n) m = true <-> valid n m.
Proof. intros K n m. apply PmFacts.isvalid_ok. Qed.
Print Assumptions C36_isvalid.

(** ** C37: adjoints *)
Theorem C37_direct : forall K (o : ops K), ring_laws o -> forall m x, valid (length x) m ->
  exists y, pmatrix_direct o m x = Ok y /\ length y = length m /\ forall i, (i < length m)%nat -> at_ o y i = projected o m x i.
Proof.
  intros K o RL m x V. eexists. split; [apply (pmatrix_direct_ok o RL m x V)|]. split; [now rewrite map_length, seq_length|].
  intros i Hi. unfold at_. rewrite (nth_indep _ (k0 o) (projected o m x 0)) by now rewrite map_length, seq_length.
  rewrite (map_nth (projected o m x)), seq_nth by exact Hi. reflexivity.
Qed.
Print Assumptions C37_direct.

(** The transpose adds the back projection to the map, whatever the order of the atomic
    additions. *)
Theorem C37_transpose : forall K (o : ops K), ring_laws o -> forall m t map0 evs, valid (length map0) m -> length t = length m ->
  Permutation (transpose_events o m t) evs ->
  exists map1, run_events o map0 evs = Ok map1 /\ length map1 = length map0 /\
    forall j, (j < length map0)%nat -> at_ o map1 j = kadd o (at_ o map0 j) (back o m (at_ o t) j).
Proof.
  intros K o RL m t map0 evs V L P.
  destruct (run_events_any o RL (length map0) (transpose_events o m t) evs map0 eq_refl (transpose_range o (length map0) m t V) P) as [map1 [E [L1 H]]].
  exists map1. split; [exact E|]. split; [exact L1|]. intros j Hj. rewrite H by exact Hj. f_equal. apply (transpose_hits o RL). now symmetry.
Qed.
Print Assumptions C37_transpose.
Example C37_transpose_example : let m := [[(0, 2); (3, 0); (2, 5)]; [(2, 3); (-1, 0); (2, 7)]] in
  run_events z_ops [1; 1; 1; 1] (rev (transpose_events z_ops m [10; 100])) = Ok [21; 1; 351; 1].
Proof. reflexivity. Qed.

(** The operators of the Python layer: with several pixels per sample, or when every
    sample of a one-pixel matrix has its pixel, they are adjoint, whatever the previous
    content of the outputs and the order of the atomic additions. *)
Definition complete {K} (npps : nat) (m : list (list (Z * K))) : Prop :=
  Forall (fun row => length row = npps) m /\ ((2 <= npps)%nat \/ npps = 1%nat /\ Forall (Forall (fun e => 0 <= fst e)) m).

Theorem C37_adjoint_partial : forall K (o : ops K), ring_laws o -> forall npps m x y out_direct out_transpose order,
  complete npps m -> valid (length x) m -> length y = length m -> length out_direct = length m -> length out_transpose = length x ->
  (forall evs, Permutation evs (order evs)) ->
  exists px pty, proj_direct o (Z.of_nat npps) m x out_direct = Ok px /\
    proj_transpose o (Z.of_nat npps) m false y out_transpose order = Ok pty /\
    length px = length y /\ length pty = length x /\ inner o px y = inner o x pty.
Proof.
  intros K o RL npps m x y od ot order [Fm C] V Ly Lod Lot P.
  destruct (C37_direct K o RL m x V) as [px [E1 [L1 H1]]].
  assert (Ed : proj_direct o (Z.of_nat npps) m x od = Ok px).
  { unfold proj_direct. destruct (Z.eqb_spec (pm_size m) 0) as [E|E].
    - assert (m = []) as ->.
      { destruct m as [|row m]; [reflexivity|]. exfalso. apply Forall_cons_iff in Fm as [F1 _]. unfold pm_size in E. cbn [map sumZ fold_right] in E.
        assert (0 <= fold_right Z.add 0 (map zlen m)) by (clear; induction m as [|r m IH]; cbn; [lia | pose proof (zlen_nonneg r); lia]).
        unfold zlen in E at 1. rewrite F1 in E. unfold sumZ in E. cbn [fold_right map] in E. assert (1 <= npps)%nat by (destruct C as [C|[-> _]]; lia). lia. }
      cbn in *. destruct od; [|discriminate]. exact E1.
    - unfold fdirect. destruct (Z.eqb_spec (Z.of_nat npps) 1) as [N|N]; [|exact E1].
      assert (npps = 1%nat) as -> by lia. destruct C as [C|[_ C]]; [lia|].
      rewrite (direct_one_ok o RL).
      + rewrite first_column_ok by exact Fm. exact E1.
      + rewrite <- (map_length (fun e => [e])). rewrite first_column_ok by exact Fm. now symmetry.
      + apply Forall_forall. intros e He. assert (In [e] m) as I by (rewrite <- (first_column_ok m Fm); now apply in_map with (f := fun e => [e])).
        rewrite Forall_forall in C. specialize (C _ I). apply Forall_cons_iff in C as [C _]. specialize (V _ I e ltac:(now left)). unfold zlen. lia. }
  set (zero := map (fun _ => k0 o) ot).
  assert (Lz : length zero = length x) by (subst zero; now rewrite map_length).
  assert (Et : ftranspose_events o (Z.of_nat npps) m y = transpose_events o m y).
  { unfold ftranspose_events. destruct (Z.eqb_spec (Z.of_nat npps) 1) as [N|N]; [|reflexivity].
    assert (npps = 1%nat) as -> by lia. destruct C as [C|[_ C]]; [lia|].
    rewrite transpose_one_eq; [now rewrite first_column_ok|].
    apply Forall_forall. intros e He. assert (In [e] m) as I by (rewrite <- (first_column_ok m Fm); now apply in_map with (f := fun e => [e])).
    specialize (V _ I e ltac:(now left)). lia. }
  destruct (C37_transpose K o RL m y zero (order (transpose_events o m y))) as [pty [E2 [L2 H2]]]; [now rewrite Lz | exact Ly | apply P|].
  exists px, pty. split; [exact Ed|]. split.
  { unfold proj_transpose. fold zero. rewrite Et. destruct (Z.eqb_spec (pm_size m) 0) as [E|E]; [|exact E2].
    assert (transpose_events o m y = []) as Q.
    { assert (Forall (fun row => row = []) m) as A.
      { clear - E. unfold pm_size, sumZ in E. induction m as [|r m IH]; constructor; cbn [map fold_right] in E.
        - pose proof (zlen_nonneg r). assert (0 <= fold_right Z.add 0 (map zlen m)) by (clear; induction m as [|r m IH]; cbn; [lia | pose proof (zlen_nonneg r); lia]).
          destruct r; [reflexivity|]. rewrite zlen_cons in E. pose proof (zlen_nonneg r). lia.
        - apply IH. pose proof (zlen_nonneg r). assert (0 <= fold_right Z.add 0 (map zlen m)) by (clear; induction m as [|r m IH]; cbn; [lia | pose proof (zlen_nonneg r); lia]). lia. }
      clear - A. unfold transpose_events. revert y. induction A as [|r m -> A IH]; intros [|t y]; cbn; auto. }
    rewrite Q in E2. pose proof (P []) as P0. apply Permutation_nil in P0. rewrite P0 in E2. exact E2. }
  split; [lia|]. split; [lia|].
  unfold inner. rewrite L1.
  rewrite (bigsum_ext o (length m) _ (fun i => bigsum o (length x) (fun j => kmul o (kmul o (coef o (nth i m []) j) (at_ o x j)) (at_ o y i)))).
  2:{ intros i Hi. rewrite H1 by exact Hi. unfold projected. rewrite <- (bigsum_mul_r o RL). reflexivity. }
  rewrite (bigsum_swap o RL). apply bigsum_ext. intros j Hj. rewrite H2 by lia.
  pose proof (RL : ring_theory _ _ _ _ _ _ _) as RT.
  assert (Z0 : at_ o zero j = k0 o) by (unfold at_, zero; clear; revert j; induction ot as [|a ot IH]; intros [|j]; cbn; auto).
  rewrite Z0, (Radd_0_l RT). unfold back. rewrite <- (bigsum_mul_l o RL). apply bigsum_ext. intros i _.
  rewrite (Rmul_comm RT (coef o (nth i m []) j)). now rewrite (Rmul_assoc RT).
Qed.
Print Assumptions C37_adjoint_partial.
Example C37_adjoint_example : complete 1 [[(2, 3)]; [(0, 4)]] /\ valid 3 [[(2, 3)]; [(0, 4)]] /\
  proj_direct z_ops 1 [[(2, 3)]; [(0, 4)]] [10; 20; 30] [99; 99] = Ok [90; 40] /\
  proj_transpose z_ops 1 [[(2, 3)]; [(0, 4)]] false [5; 7] [8; 8; 8] (@rev _) = Ok [28; 0; 15].
Proof.
  split; [split; [repeat constructor | right; split; [reflexivity | repeat constructor; cbn; lia]]|].
  split; [apply (PmFacts.isvalid_ok 3); reflexivity|]. split; reflexivity.
Qed.

(** A one-pixel matrix with a sample outside of the map, and a matrix with no pixel per
    sample, do not write their output. *)
Theorem C37_stale_refuted :
  (forall v, proj_direct z_ops 1 [[(0, 2)]; [(-1, 0)]] [10] [0; v] = Ok [20; v]) /\
  (forall v, proj_direct z_ops 0 [[]; []] [10] [v; v] = Ok [v; v]).
Proof. split; reflexivity. Qed.
Print Assumptions C37_stale_refuted.

(** ptp: the matrix of the transpose after the direct. *)
Theorem C37_ptp : forall K (o : ops K), ring_laws o -> forall n m evs, valid n m ->
  Permutation (ptp_events o (Z.of_nat n) m) evs ->
  exists ptp, run_events o (repeat (k0 o) (n * n)) evs = Ok ptp /\ length ptp = (n * n)%nat /\
    (forall i j, (i < n)%nat -> (j < n)%nat -> at_ o ptp (i + j * n) = bigsum o (length m) (fun s => kmul o (coef o (nth s m []) i) (coef o (nth s m []) j))) /\
    (forall x i, length x = n -> (i < n)%nat -> bigsum o n (fun j => kmul o (at_ o ptp (i + j * n)) (at_ o x j)) = back o m (projected o m x) i).
Proof.
  intros K o RL n m evs V P. pose proof (RL : ring_theory _ _ _ _ _ _ _) as RT.
  destruct (run_events_any o RL (n * n) (ptp_events o (Z.of_nat n) m) evs (repeat (k0 o) (n * n)) (repeat_length _ _) (ptp_range o n m V) P) as [ptp [E [L H]]].
  assert (H1 : forall i j, (i < n)%nat -> (j < n)%nat -> at_ o ptp (i + j * n) = bigsum o (length m) (fun s => kmul o (coef o (nth s m []) i) (coef o (nth s m []) j))).
  { intros i j Hi Hj. rewrite H by nia. rewrite (ptp_hits o RL n m i j V Hi Hj).
    assert (at_ o (repeat (k0 o) (n * n)) (i + j * n) = k0 o) as -> by (unfold at_; apply nth_repeat). apply (Radd_0_l RT). }
  exists ptp. split; [exact E|]. split; [exact L|]. split; [exact H1|]. intros x i Lx Hi.
  rewrite (bigsum_ext o n _ (fun j => bigsum o (length m) (fun s => kmul o (coef o (nth s m []) i) (kmul o (coef o (nth s m []) j) (at_ o x j))))).
  - rewrite (bigsum_swap o RL). unfold back. apply bigsum_ext. intros s _. rewrite (bigsum_mul_l o RL). unfold projected. now rewrite Lx.
  - intros j Hj. rewrite H1 by assumption. rewrite <- (bigsum_mul_r o RL). apply bigsum_ext. intros s _. now rewrite (Rmul_assoc RT).
Qed.
Print Assumptions C37_ptp.
Example C37_ptp_example : run_events z_ops (repeat 0 9) (ptp_events z_ops 3 [[(0, 2); (2, 5)]; [(2, 3); (-1, 0)]]) = Ok [4; 0; 10; 0; 0; 0; 10; 0; 34].
Proof. reflexivity. Qed.

(** ptp_one, the diagonal that replaces P.T P for one-pixel matrices. *)
Theorem C37_ptp_one_partial : forall K (o : ops K), ring_laws o -> forall n (c : list (Z * K)), Forall (fun e => 0 <= fst e < Z.of_nat n) c ->
  exists cov, run_events o (repeat (k0 o) n) (ptp_one_events o c) = Ok cov /\ length cov = n /\
    forall i j, (i < n)%nat -> (j < n)%nat ->
      bigsum o (length c) (fun s => kmul o (coef o (nth s (map (fun e => [e]) c) []) i) (coef o (nth s (map (fun e => [e]) c) []) j)) =
      if Nat.eqb i j then at_ o cov i else k0 o.
Proof.
  intros K o RL n c F. pose proof (RL : ring_theory _ _ _ _ _ _ _) as RT.
  destruct (run_events_ok o RL n (ptp_one_events o c) (repeat (k0 o) n) (repeat_length _ _)) as [cov [E [L H]]].
  { unfold ptp_one_events. rewrite Forall_map. exact F. }
  exists cov. split; [exact E|]. split; [exact L|]. intros i j Hi Hj.
  assert (C : forall e k, In e c -> coef o [e] k = if fst e =? Z.of_nat k then snd e else k0 o).
  { intros e k He. rewrite Forall_forall in F. specialize (F e He). unfold coef. cbn [entries]. replace (fst e =? -1) with false by lia. cbn [sum_over].
    rewrite (Radd_comm RT), (Radd_0_l RT). reflexivity. }
  rewrite <- (map_length (fun e => [e]) c). rewrite <- (sum_over_nth o RL (map (fun e => [e]) c) [] (fun r => kmul o (coef o r i) (coef o r j))).
  rewrite sum_over_map. destruct (Nat.eqb_spec i j) as [<-|N].
  - rewrite H by exact Hi. assert (at_ o (repeat (k0 o) n) i = k0 o) as -> by (unfold at_; apply nth_repeat). rewrite (Radd_0_l RT).
    unfold hits, ptp_one_events. rewrite sum_over_map. cbn [fst snd]. apply sum_over_ext. intros e He. rewrite !C by exact He. destruct (_ =? _); [reflexivity | apply (k_mul_0_l o RL)].
  - apply (sum_over_0 o RL). intros e He. rewrite !C by exact He. destruct (Z.eqb_spec (fst e) (Z.of_nat i)) as [E1|E1]; [|apply (k_mul_0_l o RL)].
    replace (fst e =? Z.of_nat j) with false by lia. rewrite (Rmul_comm RT). apply (k_mul_0_l o RL).
Qed.
Print Assumptions C37_ptp_one_partial.
Example C37_ptp_one_example : run_events z_ops (repeat 0 3) (ptp_one_events z_ops [(2, 3); (0, 4); (2, 1)]) = Ok [16; 0; 10].
Proof. reflexivity. Qed.
(** A sample outside of the map: array(-1) is written. *)
Theorem C37_ptp_one_refuted : exists (m : list (list (Z * Z))), valid 2 m /\ Forall (fun row => length row = 1%nat) m /\
  run_events z_ops [0; 0] (ptp_one_events z_ops (first_column m)) = Err IndexError.
Proof. exists [[(1, 2)]; [(-1, 0)]]. split; [apply (PmFacts.isvalid_ok 2); reflexivity|]. split; [repeat constructor | reflexivity]. Qed.
Print Assumptions C37_ptp_one_refuted.

(** get_pTp hands an array of booleans to Fortran, which expects real numbers: it fails
    for every matrix with elements, with or without output array. *)
Theorem C37_get_ptp_refuted : forall K (o : ops K) m npixels out, pm_size m <> 0 -> exists e, get_pTp o m npixels out = Err e.
Proof.
  intros K o m npixels out H. unfold get_pTp. apply Z.eqb_neq in H. rewrite H.
  destruct out as [[[|] [a b]]|]; cbn [bind]; [destruct (_ && _); cbn [bind call_ptp] | | cbn [call_ptp]]; eauto.
Qed.
Print Assumptions C37_get_ptp_refuted.

(** A matrix without elements: zeros, if the given array has the right shape. *)
Theorem C37_get_ptp_empty : forall K (o : ops K) m npixels, Forall (fun row => row = []) m -> 0 <= npixels -> 
  exists l, get_pTp o m npixels None = Ok l /\ zlen l = npixels * npixels /\ forall i, 0 <= i < npixels * npixels -> get l i = Ok (k0 o).
Proof.
  intros K o m npixels H Hn. unfold get_pTp. cbn [bind]. replace (pm_size m) with 0.
  2:{ unfold pm_size. induction H as [|row m -> H IH]; [reflexivity|]. cbn [map sumZ fold_right]. unfold sumZ in *. cbn [map fold_right]. rewrite <- IH. reflexivity. }
  cbn [Z.eqb]. eexists. split; [reflexivity|]. assert (0 <= npixels * npixels) by (apply Z.mul_nonneg_nonneg; assumption). split; [rewrite zlen_repeat; lia|].
  intros i Hi. apply PTFacts.get_repeat. lia.
Qed.
Print Assumptions C37_get_ptp_empty.
(** PointingMatrix.zeros: no pixel is seen, all the weights are zero. *)
Theorem C37_zeros : forall K (o : ops K) nsamples npixels i row, nth_error (pm_zeros o nsamples npixels) i = Some row ->
  (i < nsamples)%nat /\ length row = npixels /\ forall e, In e row -> e = (-1, k0 o).
Proof.
  intros K o ns np i row H. unfold pm_zeros in H. assert (L : (i < ns)%nat) by (rewrite <- (repeat_length (repeat (-1, k0 o) np) ns); apply nth_error_Some; congruence).
  split; [exact L|]. apply nth_error_In, repeat_spec in H. subst row. split; [apply repeat_length|]. intros e He. now apply repeat_spec in He.
Qed.
Print Assumptions C37_zeros.
Example C37_zeros_example : get_pTp z_ops (pm_zeros z_ops 3 0) 1 None = Ok [0] /\ pm_zeros z_ops 1 2 = [[(-1, 0); (-1, 0)]].
Proof. split; reflexivity. Qed.

(** ** C56: back projection and coverage *)
Theorem C56_backprojection : forall K (o : ops K), ring_laws o -> forall m t (mask : option (list bool)) map0 weight0 evs evs',
  valid (length map0) m -> length weight0 = length map0 -> length t = length m -> (forall mk, mask = Some mk -> length mk = length m) ->
  Permutation (back_map_events o m t mask) evs -> Permutation (back_weight_events m t mask) evs' ->
  let used i := match mask with Some mk => negb (nth i mk true) | None => true end in
  exists map1 weight1, run_events o map0 evs = Ok map1 /\ run_events o weight0 evs' = Ok weight1 /\
    forall j, (j < length map0)%nat ->
      at_ o map1 j = kadd o (at_ o map0 j) (back o m (fun i => if used i then at_ o t i else k0 o) j) /\
      at_ o weight1 j = kadd o (at_ o weight0 j) (back o m (fun i => if used i then k1 o else k0 o) j).
Proof.
  intros K o RL m t mask map0 weight0 evs evs' V Lw Lt Lm P P' used. pose proof (RL : ring_theory _ _ _ _ _ _ _) as RT.
  assert (U : forall f : list (Z * K) * K -> K, sum_over o (unmasked_samples m t mask) f = bigsum o (length m) (fun i => if used i then f (nth i m [], at_ o t i) else k0 o)).
  { intros f. unfold unmasked_samples, used, at_. destruct mask as [mk|].
    - rewrite sum_over_map, (sum_over_filter o RL). rewrite (sum_over_combine o RL (combine m t) mk ([], k0 o) true) by (rewrite combine_length, Lt, Nat.min_id; symmetry; now apply Lm).
      rewrite combine_length, Lt, Nat.min_id. apply bigsum_ext. intros i Hi. cbn [fst snd]. now rewrite combine_nth by now symmetry.
    - rewrite (sum_over_combine o RL m t [] (k0 o)) by now symmetry. reflexivity. }
  assert (R : forall g : list (Z * K) * K -> K -> K, Forall (fun e => 0 <= fst e < Z.of_nat (length map0)) (flat_map (fun rt => row_events (g rt) (fst rt)) (unmasked_samples m t mask))).
  { intros g. apply Forall_forall. intros e He. apply in_flat_map in He as [[row a] [H1 H2]]. cbn [fst] in H2. rewrite row_events_eq in H2. apply in_map_iff in H2 as [e' [<- H2]]. cbn [fst].
    assert (In row m) as I.
    { unfold unmasked_samples in H1. destruct mask; [apply in_map_iff in H1 as [[x b] [E H1]]; cbn [fst] in E; subst x; apply filter_In in H1 as [H1 _]; apply in_combine_l in H1|]; now apply in_combine_l in H1. }
    pose proof (valid_entries (length map0) row (V row I)) as F. rewrite Forall_forall in F. now apply F. }
  destruct (run_events_any o RL (length map0) _ evs map0 eq_refl (R (fun rt v => kmul o v (snd rt))) P) as [map1 [E1 [_ H1]]].
  destruct (run_events_any o RL (length map0) _ evs' weight0 Lw (R (fun _ v => v)) P') as [weight1 [E2 [_ H2]]].
  exists map1, weight1. split; [exact E1|]. split; [exact E2|]. intros j Hj. rewrite H1, H2 by exact Hj. split; f_equal.
  - rewrite (hits_flat_map o RL), U. unfold back. apply bigsum_ext. intros i _. cbn [fst snd]. destruct (used i).
    + rewrite row_events_eq. apply (hits_map_mul o RL).
    + rewrite (Rmul_comm RT). symmetry. apply (k_mul_0_l o RL).
  - rewrite (hits_flat_map o RL), U. unfold back. apply bigsum_ext. intros i _. cbn [fst snd]. destruct (used i).
    + rewrite row_events_id. unfold hits, coef. rewrite (Rmul_comm RT). symmetry. apply (Rmul_1_l RT).
    + rewrite (Rmul_comm RT). symmetry. apply (k_mul_0_l o RL).
Qed.
Print Assumptions C56_backprojection.
Example C56_example : let m := [[(0, 2); (2, 5)]; [(2, 3); (-1, 0)]] in
  run_events z_ops [0; 0; 0] (back_map_events z_ops m [10; 100] (Some [true; false])) = Ok [0; 0; 300] /\
  run_events z_ops [0; 0; 0] (back_weight_events m [10; 100] None) = Ok [2; 0; 8].
Proof. split; reflexivity. Qed.

(** The mask given to get_pTx_pT1: without it the mask of the samples is used; a mask of
    more than one sample is refused, others are replaced by the mask of the samples. *)
Theorem C56_mask_partial : forall xmask, backprojection_mask None xmask = Ok xmask /\ backprojection_mask (Some []) xmask = Ok xmask /\ backprojection_mask (Some [false]) xmask = Ok xmask.
Proof. intros [|]; repeat split. Qed.
Print Assumptions C56_mask_partial.
Theorem C56_mask_refuted : forall mask xmask,
  (2 <= length mask)%nat -> backprojection_mask (Some mask) xmask = Err ValueError.
Proof. intros [|b [|c mask]] xmask H; cbn in H; try lia. reflexivity. Qed.
Print Assumptions C56_mask_refuted.
Theorem C56_mask_one_refuted : backprojection_mask (Some [true]) None = Err AttributeError /\ backprojection_mask (Some [true]) (Some [false]) = Ok (Some [false]).
Proof. split; reflexivity. Qed.
Print Assumptions C56_mask_one_refuted.

(** ** C57: does the matrix see a pixel? *)
(** Coordinates in the map denote one pixel, and all stored elements are searched. *)
Theorem C57_intersects_partial : forall K (m : list (list (Z * K))) nx ny x y, 0 < nx -> 0 < ny -> 1 <= x <= nx -> 1 <= y <= ny ->
  let pixel := fits_index [nx; ny] [x; y] 1 in
  0 <= pixel < nx * ny /\ pixel mod nx = x - 1 /\ pixel / nx = y - 1 /\
  (intersects m pixel = true <-> exists row e, In row m /\ In e row /\ fst e = pixel).
Proof.
  intros K m nx ny x y Hx Hy Bx By. cbv zeta. cbn [fits_index].
  replace ((x - 1) * 1 + ((y - 1) * (1 * nx) + 0)) with ((x - 1) + (y - 1) * nx) by lia.
  split; [nia|]. split; [rewrite Z.mod_add, Z.mod_small by lia; reflexivity|]. split; [rewrite Z.div_add, Z.div_small by lia; lia|].
  unfold intersects. rewrite existsb_exists. setoid_rewrite existsb_exists. split.
  - intros [row [H [e [H1 H2]]]]. exists row, e. lia || (split; [exact H|]; split; [exact H1|]; lia).
  - intros [row [e [H [H1 H2]]]]. exists row. split; [exact H|]. exists e. split; [exact H1 | lia].
Qed.
Print Assumptions C57_intersects_partial.
Example C57_example : fits_index [4; 3] [2; 3] 1 = 9 /\ intersects [[(9, 1); (-1, 0)]] 9 = true.
Proof. split; reflexivity. Qed.
(** By detector and by sample. *)
Theorem C57_axes : forall K (dets : list (list (list (Z * K)))) nsamples pixel,
  (forall m, In m dets -> length m = nsamples) ->
  (forall d, (d < length dets)%nat -> (nth d (intersects_axis2 dets pixel) false = true <-> exists s e, (s < nsamples)%nat /\ In e (nth s (nth d dets []) []) /\ fst e = pixel)) /\
  (forall s, (s < nsamples)%nat -> (nth s (intersects_axis3 dets nsamples pixel) false = true <-> exists d e, (d < length dets)%nat /\ In e (nth s (nth d dets []) []) /\ fst e = pixel)).
Proof.
  intros K dets nsamples pixel L. split.
  - intros d Hd. unfold intersects_axis2. rewrite (nth_indep _ false ((fun m => existsb (fun row => existsb (fun e : Z * K => fst e =? pixel) row) m) [])) by now rewrite map_length.
    rewrite map_nth. rewrite existsb_exists. setoid_rewrite existsb_exists. assert (I : In (nth d dets []) dets) by now apply nth_In. specialize (L _ I). split.
    + intros [row [H [e [H1 H2]]]]. apply (In_nth _ _ []) in H as [s [Hs <-]]. exists s, e. split; [lia|]. split; [exact H1 | lia].
    + intros [s [e [H [H1 H2]]]]. exists (nth s (nth d dets []) []). split; [apply nth_In; lia|]. exists e. split; [exact H1 | lia].
  - intros s Hs. unfold intersects_axis3.
    set (g := fun s => existsb (fun m => existsb (fun e : Z * K => fst e =? pixel) (nth s m [])) dets).
    rewrite (nth_indep _ false (g 0%nat)) by now rewrite map_length, seq_length. rewrite map_nth, seq_nth by exact Hs. cbn [plus].
    unfold g. rewrite existsb_exists. setoid_rewrite existsb_exists. split.
    + intros [m [H [e [H1 H2]]]]. apply (In_nth _ _ []) in H as [d [Hd <-]]. exists d, e. split; [exact Hd|]. split; [exact H1 | lia].
    + intros [d [e [H [H1 H2]]]]. exists (nth d dets []). split; [now apply nth_In|]. exists e. split; [exact H1 | lia].
Qed.
Print Assumptions C57_axes.
(** Column 0 of the first row is the mark of the unused elements. *)
Theorem C57_outside_refuted : forall K nx ny (m : list (list (Z * K))), (exists row e, In row m /\ In e row /\ fst e = -1) ->
  intersects m (fits_index [nx; ny] [0; 1] 1) = true.
Proof.
  intros K nx ny m [row [e [H1 [H2 H3]]]]. unfold intersects. apply existsb_exists. exists row. split; [exact H1|]. apply existsb_exists. exists e. split; [exact H2|].
  cbn [fits_index]. lia.
Qed.
Print Assumptions C57_outside_refuted.

(** ** C58: computation of pointing matrices *)
(** Each sample lists the pixels of its region that are intersected, in their order, as
    many as fit; the required width is the largest number of such pixels. *)
Theorem C58_regions_partial : forall K (o : ops K) iszero abs nx ny (dets : list (roi * (Z -> Z -> K))) m new out, length m = length dets -> 0 <= new ->
  let pixels d := intersected iszero abs (fst (fst (fst d))) (snd (fst (fst d))) (fst (snd (fst d))) (snd (snd (fst d))) (snd d) nx ny in
  exists new' out' m', roi2pmatrix o iszero (Z.of_nat nx) (Z.of_nat ny) abs dets m new out = Ok (new', out', m') /\
    (forall d, In d dets -> zlen (pixels d) <= new') /\ (new' = new \/ exists d, In d dets /\ new' = zlen (pixels d)) /\
    (out' = true <-> out = true \/ exists d, In d dets /\ roi_out (Z.of_nat nx) (Z.of_nat ny) (fst d) = true) /\
    (forall i d row, nth_error dets i = Some d -> nth_error m i = Some row -> exists row', nth_error m' i = Some row' /\ length row' = length row /\
       ((length (pixels d) <= length row)%nat -> entries row' = pixels d)).
Proof.
  intros K o iszero abs nx ny dets m new out L Hn pixels. pose proof (roi2pmatrix_ok o iszero nx ny abs dets m new out L) as E. cbv zeta in E.
  do 3 eexists. split; [exact E|]. fold pixels. split; [|split; [|split]].
  - intros d Hd. clear - Hd. induction dets as [|d' dets IH]; [destruct Hd|]. cbn [map fold_right]. destruct Hd as [->|Hd]; [unfold pixels; lia|]. specialize (IH Hd). lia.
  - clear - Hn. induction dets as [|d dets IH]; [now left|]. cbn [map fold_right].
    match goal with |- Z.max ?a ?b = _ \/ _ => destruct (Z.max_spec a b) as [[_ Q]|[_ Q]]; rewrite Q end.
    + destruct IH as [IH|[d' [H1 H2]]]; [now left | right; exists d'; split; [now right | exact H2]].
    + right. exists d. split; [now left | reflexivity].
  - rewrite orb_true_iff, existsb_exists. split; [intros [H|H]; [now right | now left] | intros [H|H]; [now right | now left]].
  - intros i d row Hd Hr. assert (C : nth_error (combine dets m) i = Some (d, row)).
    { clear - Hd Hr. revert m i Hd Hr. induction dets as [|d' dets IH]; intros [|r m] [|i] Hd Hr; try discriminate; cbn in *; [congruence | now apply IH]. }
    eexists. split; [apply (map_nth_error _ i _ C)|]. cbn [fst snd]. fold (pixels d). split.
    + rewrite app_length, firstn_length, repeat_length. lia.
    + intros H. rewrite firstn_all2 by exact H. apply entries_ended.
      * apply Forall_forall. intros e He. apply intersected_valid in He. lia.
      * apply Forall_forall. intros e He. apply repeat_spec in He. now subst e.
Qed.
Print Assumptions C58_regions_partial.
Example C58_example : let area x y := if (x =? 1) && (y =? 1) then 0 else x - y in
  roi2pmatrix z_ops (Z.eqb 0) 4 3 Z.abs [(((1, 2), (0, 5)), area)] [[(7, 7); (7, 7); (7, 7); (7, 7); (7, 7)]] 0 false =
    Ok (4, true, [[(1, 1); (2, 2); (6, 1); (9, 1); (-1, 0)]]) /\
  roi2pmatrix z_ops (Z.eqb 0) 4 3 Z.abs [(((1, 2), (0, 5)), area)] [[(7, 7); (7, 7)]] 0 false = Ok (4, true, [[(1, 1); (2, 2)]]).
Proof. split; reflexivity. Qed.
(** The wrapper does not initialise the flag: it may be set although all regions are in
    the map. *)
Theorem C58_out_refuted : exists dets m, existsb (fun d => roi_out 2 2 (fst d)) dets = false /\
  (exists r, roi2pmatrix z_ops (Z.eqb 0) 2 2 Z.abs dets m 0 true = Ok (fst r, true, snd r)).
Proof. exists [(((0, 1), (0, 1)), fun _ _ => 1)], [[(0, 0)]]. split; [reflexivity|]. eexists (_, _). reflexivity. Qed.
Print Assumptions C58_out_refuted.

(** One pixel per sample: the pixel whose centre is the nearest (halves upwards), with
    weight one, or -1 outside of the map. *)
Theorem C58_nearest : forall K (o : ops K) nx ny xy out, Forall (fun c => 0 < snd (fst c) /\ 0 < snd (snd c)) xy ->
  let '(out', l) := xy2pmatrix o nx ny xy out in
  length l = length xy /\
  (out' = true <-> out = true \/ exists c, In c xy /\ ~ exists ix iy, 0 <= ix < nx /\ 0 <= iy < ny /\
     snd (fst c) * (2 * ix - 1) <= 2 * fst (fst c) < snd (fst c) * (2 * ix + 1) /\ snd (snd c) * (2 * iy - 1) <= 2 * fst (snd c) < snd (snd c) * (2 * iy + 1)) /\
  forall i c, nth_error xy i = Some c ->
    (forall ix iy, 0 <= ix < nx -> 0 <= iy < ny -> snd (fst c) * (2 * ix - 1) <= 2 * fst (fst c) < snd (fst c) * (2 * ix + 1) ->
       snd (snd c) * (2 * iy - 1) <= 2 * fst (snd c) < snd (snd c) * (2 * iy + 1) -> nth_error l i = Some (ix + iy * nx, k1 o)) /\
    ((~ exists ix iy, 0 <= ix < nx /\ 0 <= iy < ny /\
     snd (fst c) * (2 * ix - 1) <= 2 * fst (fst c) < snd (fst c) * (2 * ix + 1) /\ snd (snd c) * (2 * iy - 1) <= 2 * fst (snd c) < snd (snd c) * (2 * iy + 1)) ->
     nth_error l i = Some (-1, k0 o)).
Proof.
  intros K o nx ny xy out F. unfold xy2pmatrix. rewrite xy_fold_ok. cbn [app].
  assert (N : forall num den, 0 < den -> den * (2 * nint_up num den - 1) <= 2 * num < den * (2 * nint_up num den + 1)).
  { intros num den H. rewrite nint_up_ok by exact H. pose proof (Z.div_mod (2 * num + den) (2 * den) ltac:(lia)) as D. pose proof (Z.mod_pos_bound (2 * num + den) (2 * den) ltac:(lia)) as M.
    set (q := _ / _) in *. set (r := _ mod _) in *. clearbody q r. nia. }
  assert (U : forall den a b num, 0 < den -> den * (2 * a - 1) <= 2 * num < den * (2 * a + 1) -> den * (2 * b - 1) <= 2 * num < den * (2 * b + 1) -> a = b) by (intros; nia).
  set (outside := fun c : (Z * Z) * (Z * Z) => let ix := nint_up (fst (fst c)) (snd (fst c)) in let iy := nint_up (fst (snd c)) (snd (snd c)) in
      (ix <? 0) || (nx - 1 <? ix) || (iy <? 0) || (ny - 1 <? iy)).
  assert (O : forall c, In c xy -> (outside c = true <-> ~ exists ix iy, 0 <= ix < nx /\ 0 <= iy < ny /\
     snd (fst c) * (2 * ix - 1) <= 2 * fst (fst c) < snd (fst c) * (2 * ix + 1) /\ snd (snd c) * (2 * iy - 1) <= 2 * fst (snd c) < snd (snd c) * (2 * iy + 1))).
  { intros c Hc. rewrite Forall_forall in F. destruct (F c Hc) as [D1 D2]. unfold outside. cbv zeta.
    pose proof (N (fst (fst c)) _ D1) as N1. pose proof (N (fst (snd c)) _ D2) as N2. split.
    - intros H [ix [iy [A [B [C D]]]]]. pose proof (U _ _ _ _ D1 N1 C). pose proof (U _ _ _ _ D2 N2 D). lia.
    - intros H. destruct (_ || _) eqn:E; [reflexivity|]. exfalso. apply H. exists (nint_up (fst (fst c)) (snd (fst c))), (nint_up (fst (snd c)) (snd (snd c))).
      split; [lia|]. split; [lia|]. split; assumption. }
  split; [now rewrite map_length|]. split.
  - rewrite orb_true_iff. rewrite existsb_exists. split; (intros [H|[c [H1 H2]]]; [now left | right; exists c; split; [exact H1 | now apply O]]).
  - intros i c Hc. assert (I := nth_error_In _ _ Hc). rewrite Forall_forall in F. destruct (F c I) as [D1 D2]. split.
    + intros ix iy A B C D. rewrite (map_nth_error _ i xy Hc). cbv zeta.
      rewrite (U _ _ _ _ D1 (N (fst (fst c)) _ D1) C), (U _ _ _ _ D2 (N (fst (snd c)) _ D2) D).
      replace ((ix <? 0) || (nx - 1 <? ix) || (iy <? 0) || (ny - 1 <? iy)) with false by lia. reflexivity.
    + intros H. apply (O c I) in H. rewrite (map_nth_error _ i xy Hc). cbv zeta. unfold outside in H. cbv zeta in H. rewrite H. reflexivity.
Qed.
Print Assumptions C58_nearest.
Example C58_nearest_example : xy2pmatrix z_ops 4 3 [((5, 2), (-1, 2)); ((1, 3), (9, 4)); ((7, 2), (0, 1))] false = (true, [(3, 1); (8, 1); (-1, 0)]).
Proof. reflexivity. Qed.
