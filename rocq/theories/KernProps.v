(** Property C101: kernel masks by the former method and without compiled code. *)
From Coq Require Import Lia Permutation.
From Verif Require Import Base BaseFacts SparseModel SparseSpec RingFacts SparseExecFacts SparseFacts SparsePyFacts
  SparseOpModel SparseOpSpec SparseProps KernModel.
Open Scope nat_scope.

(** A weight times a rotation about the first axis vanishes as soon as its first value does. *)
Definition leading_value {K} (o : ops K) (data : list (list (elt K))) : Prop :=
  forall row e, In row data -> In e row -> nth 0 (e_val e) (k0 o) = k0 o -> forall v, In v (e_val e) -> v = k0 o.

(** The shape of the mask: that of the input without the dimension of the blocks; that of the
    columns if the operator is implicit. *)
Definition mask_shape {K} (S : sop K) (shape : list nat) : Prop :=
  (so_in S = None /\ shape = [mx_cols (so_mx S)]) \/
  (exists s, so_in S = Some s /\ (snd (mx_bs (so_mx S)) <= 1 -> shape = s) /\ (2 <= snd (mx_bs (so_mx S)) -> exists d, s = shape ++ [d])).
Lemma mask_shape_ok {K} (S : sop K) shape : mask_shape S shape -> kernel_shape S = shape.
Proof.
  unfold kernel_shape. intros [[-> ->]|[s [-> [H1 H2]]]]; [reflexivity|].
  destruct (Nat.ltb_spec 1 (snd (mx_bs (so_mx S)))) as [H|H].
  - destruct (H2 H) as [d ->]. apply removelast_last.
  - symmetry. now apply H1.
Qed.

(** What the mask must be. *)
Definition is_kernel {K} (o : ops K) (data : list (list (elt K))) (op : kop) (out r : list bool) : Prop :=
  length r = length out /\
  forall c b, nth_error out c = Some b -> exists k, (k = true <-> ~ seen o data c) /\
    nth_error r c = Some (match op with KAssign => k | KIand => b && k | KOther f => f b k end).

Section Facts.
Context {K : Type} (o : ops K) (nz : K -> bool) (NZ : forall v, nz v = false <-> v = k0 o).

(** An element that must be tested: some value is not zero. *)
Definition active (e : elt K) : Prop := exists v, In v (e_val e) /\ v <> k0 o.

Lemma nz_true v : nz v = true <-> v <> k0 o.
Proof.
  pose proof (NZ v) as [H1 H2]. destruct (nz v).
  - split; [intros _ E; specialize (H2 E); discriminate|reflexivity].
  - split; [discriminate|]. intros H. exfalso. apply H. now apply H1.
Qed.

Lemma tested_active (M : matrix K) : full_records M -> mx_kind M <> KBlock ->
  (mx_kind M = KRot3 -> leading_value o (mx_data M)) ->
  forall row e, In row (mx_data M) -> In e row ->
  exists b, tested o nz (mx_kind M) e = Ok b /\ (b = true <-> active e).
Proof.
  intros F NB L row e Hr He. unfold full_records in F. rewrite Forall_forall in F. specialize (F _ Hr).
  rewrite Forall_forall in F. specialize (F _ He). unfold tested, vals, active.
  destruct (mx_kind M) eqn:KD; try congruence; cbn [record_size] in F.
  - destruct (e_val e) as [|v [|? ?]]; try discriminate. eexists. split; [reflexivity|]. cbn [nth].
    rewrite nz_true. split; [intros H; exists v; cbn; auto|]. intros [w [[<-|[]] H]]. exact H.
  - destruct (e_val e) as [|v [|w [|? ?]]]; try discriminate. eexists. split; [reflexivity|]. cbn [nth].
    rewrite Bool.orb_true_iff, !nz_true. split.
    + intros [H|H]; [exists v|exists w]; cbn; auto.
    + intros [x [[<-|[<-|[]]] H]]; auto.
  - eexists. split; [reflexivity|]. rewrite nz_true. split.
    + intros H. exists (nth 0 (e_val e) (k0 o)). split; [|exact H].
      apply nth_In. lia.
    + intros [x [Hx H]] E. apply H. exact (L eq_refl row e Hr He E x Hx).
Qed.

Lemma set_nth_fold (cells : list (nat * nat)) mask c :
  length (unset cells mask) = length mask /\
  nth_error (unset cells mask) c =
    option_map (fun b => b && negb (existsb (Nat.eqb c) (map snd cells))) (nth_error mask c).
Proof.
  revert mask. induction cells as [|[i d] cells IH]; intros mask.
  - cbn. split; [reflexivity|]. destruct (nth_error mask c); cbn; [|reflexivity]. now rewrite Bool.andb_true_r.
  - unfold unset in *. cbn [fold_left snd map existsb]. destruct (IH (set_nth mask d false)) as [L E].
    rewrite L, E, set_nth_length. split; [reflexivity|].
    destruct (Nat.eqb_spec c d) as [->|N].
    + destruct (Nat.ltb_spec d (length mask)) as [H|H].
      * rewrite set_nth_same by exact H. destruct (nth_error mask d) eqn:X; [|apply nth_error_None in X; lia].
        cbn. now rewrite Bool.andb_false_r.
      * rewrite (proj2 (nth_error_None mask d)) by lia.
        rewrite (proj2 (nth_error_None _ d)) by (rewrite set_nth_length; lia). reflexivity.
    + rewrite set_nth_other by congruence. cbn [orb]. reflexivity.
Qed.

Lemma unset_iter_some k n (row : list (elt K)) :
  (forall e, In e row -> (e_idx e < Z.of_nat n)%Z) ->
  unset_iter o nz k n row = Some (flat_map (fun e =>
    if (e_idx e <? 0)%Z then [] else match tested o nz k e with Ok true => [Z.to_nat (e_idx e)] | _ => [] end) row).
Proof.
  intros H. unfold unset_iter. rewrite flat_map_concat_map.
  erewrite (concat_opt_some _ (map _ row)); [reflexivity|].
  rewrite map_map. apply map_ext_in. intros e He. specialize (H e He).
  destruct (e_idx e <? 0)%Z; [reflexivity|]. destruct (tested o nz k e) as [[|]|]; try reflexivity.
  destruct (Z.ltb_spec (e_idx e) (Z.of_nat n)); [reflexivity|lia].
Qed.

Lemma seen_active (data : list (list (elt K))) c :
  seen o data c <-> exists row e, In row data /\ In e row /\ e_idx e = Z.of_nat c /\ active e.
Proof.
  unfold seen, active. split.
  - intros (row & e & v & H1 & H2 & H3 & H4 & H5). exists row, e. eauto 8.
  - intros (row & e & H1 & H2 & H3 & v & H4 & H5). exists row, e, v. auto.
Qed.

Lemma compiled_mask (M : matrix K) sched n start : full_records M -> mx_kind M <> KBlock ->
  (mx_kind M = KRot3 -> leading_value o (mx_data M)) -> in_range n (mx_data M) -> scheduler sched ->
  exists its, all_opt (map (unset_iter o nz (mx_kind M) n) (mx_data M)) = Some its /\
    length (unset (sched its) start) = length start /\
    forall c b, nth_error start c = Some b -> exists k, (k = true <-> ~ seen o (mx_data M) c) /\
      nth_error (unset (sched its) start) c = Some (b && k).
Proof.
  intros F NB L R SC. pose proof (tested_active M F NB L) as T.
  set (g := fun e => if (e_idx e <? 0)%Z then [] else
     match tested o nz (mx_kind M) e with Ok true => [Z.to_nat (e_idx e)] | _ => [] end).
  assert (Rin : forall row e, In row (mx_data M) -> In e row -> (e_idx e < Z.of_nat n)%Z).
  { intros row e Hr He. unfold in_range in R. rewrite Forall_forall in R. specialize (R _ Hr).
    rewrite Forall_forall in R. exact (R _ He). }
  exists (map (flat_map g) (mx_data M)). split.
  { apply all_opt_some. rewrite map_map. apply map_ext_in. intros row Hr. apply unset_iter_some.
    intros e He. exact (Rin row e Hr He). }
  set (its := map (flat_map g) (mx_data M)).
  pose proof (merge_perm its (sched its) (SC its)) as P.
  split; [apply (set_nth_fold _ _ 0)|]. intros c b Hb.
  exists (negb (existsb (Nat.eqb c) (map snd (sched its)))). split.
  2:{ rewrite (proj2 (set_nth_fold _ _ c)), Hb. reflexivity. }
  assert (G : existsb (Nat.eqb c) (map snd (sched its)) = true <-> seen o (mx_data M) c).
  { rewrite existsb_exists, seen_active. split.
    - intros [d [Hd E]]. apply Nat.eqb_eq in E. subst d.
      apply (Permutation_in _ P) in Hd. unfold its in Hd. apply in_concat in Hd.
      destruct Hd as [l [Hl Hd]]. apply in_map_iff in Hl. destruct Hl as [row [<- Hr]].
      apply in_flat_map in Hd. destruct Hd as [e [He Hd]]. unfold g in Hd.
      destruct (Z.ltb_spec (e_idx e) 0); [destruct Hd|].
      destruct (T row e Hr He) as [t [Et Ht]]. rewrite Et in Hd. destruct t; [|destruct Hd].
      destruct Hd as [<-|[]]. exists row, e. repeat split; auto; [lia|now apply Ht].
    - intros (row & e & Hr & He & Hc & HA). exists c. split; [|apply Nat.eqb_refl].
      apply (Permutation_in _ (Permutation_sym P)). unfold its. apply in_concat.
      exists (flat_map g row). split; [now apply in_map|]. apply in_flat_map. exists e. split; [exact He|].
      unfold g. destruct (Z.ltb_spec (e_idx e) 0); [lia|].
      destruct (T row e Hr He) as [t [Et Ht]]. rewrite Et. rewrite (proj2 Ht HA). left. lia. }
  destruct (existsb _ _); cbn.
  - split; [discriminate|]. intros H. exfalso. apply H. now apply G.
  - split; [|reflexivity]. intros _ H. apply G in H. discriminate.
Qed.

Lemma fallback_mask (M : matrix K) n : full_records M -> mx_kind M <> KBlock -> 0 < n ->
  (mx_kind M = KRot3 -> leading_value o (mx_data M)) -> in_range n (mx_data M) ->
  exists kernel, fallback o nz (mx_kind M) (mx_data M) n = Ok kernel /\ length kernel = n /\
    forall c, c < n -> exists k, (k = true <-> ~ seen o (mx_data M) c) /\ nth_error kernel c = Some k.
Proof.
  intros F NB Hn L R. pose proof (tested_active M F NB L) as T.
  set (t := fun e => match tested o nz (mx_kind M) e with Ok b => b | Err _ => false end).
  assert (Tin : forall e, In e (concat (mx_data M)) -> tested o nz (mx_kind M) e = Ok (t e) /\ (t e = true <-> active e)
                          /\ (e_idx e < Z.of_nat n)%Z).
  { intros e He. apply in_concat in He. destruct He as [row [Hr He]].
    destruct (T row e Hr He) as [b [E1 E2]]. unfold t. rewrite E1. split; [reflexivity|]. split; [exact E2|].
    unfold in_range in R. rewrite Forall_forall in R. specialize (R _ Hr).
    rewrite Forall_forall in R. exact (R _ He). }
  unfold fallback.
  rewrite (map_res_pure _ (fun e => (t e, e_idx e))).
  2:{ intros e He. rewrite (proj1 (Tin e He)). reflexivity. }
  cbn [bind]. unfold empty_bins. destruct (Nat.eqb_spec n 0); [lia|].
  eexists. split; [reflexivity|]. split; [rewrite map_length, seq_length; reflexivity|].
  intros c Hc. eexists. split.
  2:{ rewrite nth_error_map, (nth_error_nth' _ 0) by (rewrite seq_length; exact Hc).
      rewrite seq_nth by exact Hc. reflexivity. }
  cbn [Nat.add].
  assert (G : existsb (in_bin n c) (map snd (filter fst (map (fun e => (t e, e_idx e)) (concat (mx_data M))))) = true
              <-> seen o (mx_data M) c).
  { rewrite existsb_exists, seen_active. split.
    - intros [x [Hx B]]. apply in_map_iff in Hx. destruct Hx as [[b y] [<- Hx]]. apply filter_In in Hx.
      destruct Hx as [Hx Hb]. cbn in Hb. subst b. apply in_map_iff in Hx. destruct Hx as [e [E He]].
      injection E as E1 <-. destruct (Tin e He) as [_ [HA HI]].
      apply in_concat in He. destruct He as [row [Hr He]]. exists row, e. repeat split; auto.
      + unfold in_bin in B. cbn [snd] in B. lia.
      + apply HA. exact E1.
    - intros (row & e & Hr & He & Hi & HA).
      assert (Hin : In e (concat (mx_data M))) by (apply in_concat; eauto).
      exists (e_idx e). split.
      + apply in_map_iff. exists (t e, e_idx e). split; [reflexivity|]. apply filter_In. split.
        * apply in_map_iff. eauto.
        * cbn. now apply (Tin e Hin).
      + unfold in_bin. rewrite Hi. lia. }
  destruct (existsb _ _); cbn.
  - split; [discriminate|]. intros H. exfalso. apply H. now apply G.
  - split; [|reflexivity]. intros _ H. apply G in H. discriminate.
Qed.

Lemma map2_nth {A B C} (f : A -> B -> C) l r c a b :
  nth_error l c = Some a -> nth_error r c = Some b -> nth_error (map2 f l r) c = Some (f a b).
Proof.
  revert r c. induction l as [|x l IH]; intros [|y r] [|c] H1 H2; try discriminate; cbn in *; [congruence|].
  now apply IH.
Qed.
Lemma map2_length {A B C} (f : A -> B -> C) l r : length l = length r -> length (map2 f l r) = length l.
Proof.
  revert r. induction l as [|x l IH]; intros [|y r] H; try discriminate; cbn in *; [reflexivity|]. rewrite IH; lia.
Qed.

Lemma seen_nothing c : ~ seen o [] c.
Proof. intros (row & e & v & [] & _). Qed.

Lemma unseen_empty (data : list (list (elt K))) c : length (concat data) = 0 -> ~ seen o data c.
Proof.
  intros H (row & e & v & Hr & He & _). assert (In e (concat data)) by (apply in_concat; eauto).
  destruct (concat data); [assumption|discriminate].
Qed.

Lemma kernel_old_ok compiled sched (S : sop K) out op :
  full_records (so_mx S) -> mx_kind (so_mx S) <> KBlock ->
  (mx_kind (so_mx S) = KRot3 -> leading_value o (mx_data (so_mx S))) ->
  in_range (length out) (mx_data (so_mx S)) -> scheduler sched ->
  length out = prodn (kernel_shape S) ->
  (compiled = true \/ kernel_shape S = [length out]) -> 0 < length out ->
  exists r, kernel_old o nz compiled sched S out op = Ok (Some r) /\ is_kernel o (mx_data (so_mx S)) op out r.
Proof.
  intros F NB L R SC LO SH PO. unfold kernel_old.
  destruct (Nat.eqb_spec (length (concat (mx_data (so_mx S)))) 0) as [E0|N0].
  { eexists. split; [reflexivity|]. split.
    - destruct op; [apply repeat_length|reflexivity|apply map_length].
    - intros c b Hb. exists true. split.
      { split; [|reflexivity]. intros _. apply unseen_empty. exact E0. }
      assert (Hc : c < length out) by (apply nth_error_Some; congruence).
      destruct op.
      + rewrite (nth_error_nth' _ true) by (rewrite repeat_length; exact Hc). now rewrite nth_repeat.
      + rewrite Hb, Bool.andb_true_r. reflexivity.
      + rewrite nth_error_map, Hb. reflexivity. }
  assert (NBb : match mx_kind (so_mx S) with KBlock => false | _ => true end = true)
    by (destruct (mx_kind (so_mx S)); congruence).
  rewrite NBb, Bool.andb_true_r. destruct compiled.
  - set (start := match op with KIand => out | _ => repeat true (length out) end).
    destruct (compiled_mask (so_mx S) sched (length out) start F NB L R SC) as [its [E [LU HU]]].
    rewrite E. eexists. split; [reflexivity|].
    assert (LS : length start = length out) by (unfold start; destruct op; rewrite ?repeat_length; reflexivity).
    rewrite LS in LU.
    assert (ST : forall c b, nth_error out c = Some b ->
      nth_error start c = Some (match op with KIand => b | _ => true end)).
    { intros c b Hb. assert (Hc : c < length out) by (apply nth_error_Some; congruence).
      unfold start. destruct op; auto;
        (rewrite (nth_error_nth' _ true) by (rewrite repeat_length; exact Hc); now rewrite nth_repeat). }
    split.
    + destruct op; [exact LU|exact LU|]. rewrite map2_length; [reflexivity|symmetry; exact LU].
    + intros c b Hb. destruct (HU c _ (ST c b Hb)) as [k [Hk E2]]. exists k. split; [exact Hk|].
      destruct op; [exact E2|exact E2|]. now apply map2_nth.
  - destruct SH as [?|SH]; [discriminate|].
    destruct (fallback_mask (so_mx S) (prodn (kernel_shape S))) as [kernel [E [LK HK]]]; auto; try lia.
    { rewrite <- LO. exact R. }
    rewrite E. cbn [bind]. unfold operate. rewrite SH. cbn [rev app]. rewrite LK, <- LO, Nat.eqb_refl. cbn [bind].
    eexists. split; [reflexivity|].
    rewrite <- LO in LK. split.
    + destruct op; [exact LK| |]; (rewrite map2_length; [reflexivity|symmetry; exact LK]).
    + intros c b Hb. assert (Hc : c < length out) by (apply nth_error_Some; congruence).
      destruct (HK c) as [k [Hk E2]]; [lia|]. exists k. split; [exact Hk|].
      destruct op; [exact E2| |]; now apply map2_nth.
Qed.
End Facts.

(** ** C101 *)

(** Scalar matrices and rotations: true exactly where no stored weight is seen, for every
    schedule, every operation between the former mask and the new one, with compiled code or
    (one dimension) without it.  Unlike fsr_kernel (C24_race_refuted), stored zeros do no harm. *)
Theorem C101_mask_partial : forall (K : Type) (o : ops K) (nz : K -> bool), (forall v, nz v = false <-> v = k0 o) ->
  forall compiled sched (S : sop K) shape out op,
  full_records (so_mx S) -> mx_kind (so_mx S) <> KBlock ->
  (mx_kind (so_mx S) = KRot3 -> leading_value o (mx_data (so_mx S))) ->
  in_range (length out) (mx_data (so_mx S)) -> scheduler sched ->
  mask_shape S shape -> length out = prodn shape ->
  (compiled = true \/ shape = [length out]) -> 0 < length out ->
  exists r, kernel_old o nz compiled sched S out op = Ok (Some r) /\ is_kernel o (mx_data (so_mx S)) op out r.
Proof.
  intros K o nz Hz compiled sched S shape out op F NB L R SC MS LO SH PO. rewrite <- (mask_shape_ok S shape MS) in LO, SH.
  now apply kernel_old_ok.
Qed.
Print Assumptions C101_mask_partial.

Definition nz_z (v : Z) : bool := negb (Z.eqb v 0).
Definition row_order (its : list (list nat)) : list (nat * nat) := sequential its.

(** FINDING 151.  Block matrices: the field r11 they do not have is read. *)
Theorem C101_blocks_refuted : forall (K : Type) (o : ops K) (nz : K -> bool) compiled sched (S : sop K) out op,
  mx_kind (so_mx S) = KBlock -> concat (mx_data (so_mx S)) <> [] ->
  kernel_old o nz compiled sched S out op = Err AttributeError.
Proof.
  intros K o nz compiled sched S out op KD H. unfold kernel_old. rewrite KD, Bool.andb_false_r.
  destruct (concat (mx_data (so_mx S))) as [|e l] eqn:E; [congruence|]. cbn [length Nat.eqb].
  unfold fallback. rewrite E. reflexivity.
Qed.
Print Assumptions C101_blocks_refuted.

(** FINDING 152.  Elements of three components whose first value is zero: the pixel is
    reported in the kernel, and its image is not zero. *)
Definition ex_rot0 : matrix Z := Matrix FSR KRot3 3 3 (3, 3) [[Elt 0 [0; 2; 1]%Z]].
Theorem C101_rotation_refuted : forall compiled,
  well_formed ex_rot0 /\ full_records ex_rot0 /\
  kernel_old z_ops nz_z compiled row_order (mk_sop ex_rot0 None None) [false] KAssign = Ok (Some [true]) /\
  matvec z_ops true (@in_order Z) ex_rot0 [0; 1; 0]%Z None = Ok (Some [0; 2; 1]%Z).
Proof.
  intros compiled. split; [|split; [|split]].
  - split; [reflexivity|]. exists 1, 1. repeat split; repeat constructor; reflexivity.
  - repeat constructor.
  - destruct compiled; reflexivity.
  - reflexivity.
Qed.
Print Assumptions C101_rotation_refuted.

(** FINDING 153.  Without compiled code, an operator whose input has several dimensions: the
    kernel has a single one and cannot be stored. *)
Theorem C101_shape_refuted :
  kernel_old z_ops nz_z false row_order (mk_sop (Matrix FSR KScalar 1 6 (1, 1) [[Elt 4 [5%Z]]]) (Some [3; 2]) None)
    (repeat false 6) KAssign = Err ValueError /\
  kernel_old z_ops nz_z true row_order (mk_sop (Matrix FSR KScalar 1 6 (1, 1) [[Elt 4 [5%Z]]]) (Some [3; 2]) None)
    (repeat false 6) KAssign = Ok (Some [true; true; true; true; false; true]).
Proof. split; reflexivity. Qed.
Print Assumptions C101_shape_refuted.

Example C101_example :
  (forall compiled,
   kernel_old z_ops nz_z compiled row_order (mk_sop ex_scalar None None) [false; false; false] KAssign = Ok (Some [false; true; false]) /\
   kernel_old z_ops nz_z compiled row_order (mk_sop ex_scalar None None) [true; false; true] KIand = Ok (Some [false; false; false]) /\
   kernel_old z_ops nz_z compiled row_order (mk_sop ex_scalar None None) [true; false; false] (KOther orb) = Ok (Some [true; true; false]) /\
   kernel_old z_ops nz_z compiled row_order (mk_sop ex_rot None None) [false; false] KAssign = Ok (Some [true; false])) /\
  full_records ex_scalar /\ in_range 3 (mx_data ex_scalar) /\ leading_value z_ops (mx_data ex_rot) /\
  mask_shape (mk_sop ex_rot None None) [2] /\
  (forall compiled, mask_shape (mk_sop (Matrix FSR KRot2 2 2 (2, 2) [[Elt 0 [3; 4]%Z]]) (Some [1; 2]) None) [1] /\
   kernel_old z_ops nz_z compiled row_order (mk_sop (Matrix FSR KRot2 2 2 (2, 2) [[Elt 0 [3; 4]%Z]]) (Some [1; 2]) None) [true] KAssign = Ok (Some [false])).
Proof.
  split; [intros [|]; repeat split; reflexivity|]. split; [repeat constructor|].
  split; [repeat constructor; lia|]. split; [|split; [right; exists [2; 3]; split; [reflexivity|]; split; [cbn; lia|intros _; exists 3; reflexivity]|]]; cycle 1.
  { intros compiled. split; [|destruct compiled; reflexivity]. right. exists [1; 2]. split; [reflexivity|]. split; [cbn; lia|]. intros _. exists 2. reflexivity. }
  intros row e Hr He H. cbn in Hr. destruct Hr as [<-|[]]. cbn in He. destruct He as [<-|[<-|[]]]; discriminate.
Qed.
