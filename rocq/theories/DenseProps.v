(** Property C100: products on either side, dense forms and shapes. *)
From Coq Require Import Lia Permutation Ring Arith.
From Verif Require Import Base BaseFacts SparseModel SparseSpec RingFacts SparseExecFacts SparseFacts SparsePyFacts
  SparseOpModel SparseProps DenseModel.
Open Scope nat_scope.

(** [D], a list of rows, is the m by n matrix A. *)
Definition is_matrix {K} (m n : nat) (A : nat -> nat -> K) (D : list (list K)) : Prop :=
  length D = m /\
  forall r, r < m -> exists row, nth_error D r = Some row /\ length row = n /\
    forall c, c < n -> nth_error row c = Some (A r c).

(** ** Helpers *)
Section Helpers.
Context {K : Type} (o : ops K) (RL : ring_laws o).
Let RT : ring_theory (k0 o) (k1 o) (kadd o) (kmul o) (fun a b => kadd o a (kopp o b)) (kopp o) eq := RL.
Add Ring Kring : RT.

Lemma nth_error_flat_map {A B} (f : A -> list B) b (l : list A) i p :
  (forall a, In a l -> length (f a) = b) -> p < b ->
  nth_error (flat_map f l) (i * b + p) =
  match nth_error l i with Some a => nth_error (f a) p | None => None end.
Proof.
  intros H Hp. revert i. induction l as [|a l IH]; intros i.
  - cbn [flat_map]. rewrite !(proj2 (nth_error_None _ _)) by (cbn; lia). reflexivity.
  - cbn [flat_map]. destruct i as [|i].
    + cbn [Nat.mul Nat.add nth_error]. rewrite nth_error_app1; [reflexivity|].
      rewrite (H a (or_introl eq_refl)). exact Hp.
    + cbn [nth_error]. rewrite nth_error_app2; rewrite (H a (or_introl eq_refl)); [|cbn; lia].
      replace (S i * b + p - b) with (i * b + p) by (cbn; lia).
      apply IH. intros x Hx. apply H. now right.
Qed.

Lemma flat_map_len {A B} (f : A -> list B) b (l : list A) :
  (forall a, In a l -> length (f a) = b) -> length (flat_map f l) = length l * b.
Proof.
  intros H. induction l as [|a l IH]; [reflexivity|].
  cbn [flat_map length]. rewrite app_length, (H a (or_introl eq_refl)). rewrite IH; [reflexivity|].
  intros x Hx. apply H. now right.
Qed.

Lemma nth_error_seq n i : i < n -> nth_error (seq 0 n) i = Some i.
Proof.
  intros H. rewrite (nth_error_nth' _ 0) by (rewrite seq_length; exact H). rewrite seq_nth by exact H. reflexivity.
Qed.

Lemma nth_error_map_seq {B} (f : nat -> B) n i : i < n -> nth_error (map f (seq 0 n)) i = Some (f i).
Proof. intros H. rewrite nth_error_map, nth_error_seq by exact H. reflexivity. Qed.

Lemma unit_vector_length n j : length (unit_vector o n j) = n.
Proof. unfold unit_vector. rewrite map_length, seq_length. reflexivity. Qed.

Lemma unit_vector_at n j c : c < n -> at_ o (unit_vector o n j) c = if Nat.eqb c j then k1 o else k0 o.
Proof.
  intros H. unfold at_. erewrite nth_error_nth; [reflexivity|]. unfold unit_vector.
  apply (nth_error_map_seq (fun i => if Nat.eqb i j then k1 o else k0 o)). exact H.
Qed.

Lemma mat_vec_unit n A j r : j < n -> mat_vec o n A (unit_vector o n j) r = A r j.
Proof.
  intros H. unfold mat_vec.
  rewrite (bigsum_ext o n _ (fun c => if Nat.eqb c j then A r c else k0 o)).
  - exact (bigsum_single o RL n j (A r) H).
  - intros c Hc. rewrite unit_vector_at by exact Hc. destruct (Nat.eqb c j); ring.
Qed.

Lemma kron_matrix m n e A D : is_matrix m n A D -> 0 < e ->
  is_matrix (m * e) (n * e)
    (fun r c => if Nat.eqb (r mod e) (c mod e) then A (r / e) (c / e) else k0 o)
    (kron o D (eye o e)).
Proof.
  intros [HL HD] He. unfold kron.
  assert (Lin : forall ra, In ra D ->
    length (map (fun rb => flat_map (fun a => map (kmul o a) rb) ra) (eye o e)) = e).
  { intros ra _. rewrite map_length. unfold eye. rewrite map_length, seq_length. reflexivity. }
  split; [rewrite (flat_map_len _ e _ Lin), HL; reflexivity|].
  intros r Hr.
  assert (Hq : r / e < m) by (apply Nat.div_lt_upper_bound; lia).
  assert (Hm : r mod e < e) by (apply Nat.mod_upper_bound; lia).
  destruct (HD _ Hq) as [row [E [LR HR]]].
  exists (flat_map (fun a => map (kmul o a) (unit_vector o e (r mod e))) row).
  assert (Lu : forall a, In a row -> length (map (kmul o a) (unit_vector o e (r mod e))) = e)
    by (intros; rewrite map_length; apply unit_vector_length).
  split; [|split].
  - rewrite (Nat.div_mod r e) at 1 by lia. rewrite (Nat.mul_comm e (r / e)).
    rewrite (nth_error_flat_map _ e _ _ _ Lin Hm), E.
    rewrite nth_error_map. unfold eye. rewrite nth_error_map_seq by exact Hm. reflexivity.
  - rewrite (flat_map_len _ e _ Lu), LR. reflexivity.
  - intros c Hc.
    assert (Hqc : c / e < n) by (apply Nat.div_lt_upper_bound; lia).
    assert (Hmc : c mod e < e) by (apply Nat.mod_upper_bound; lia).
    rewrite (Nat.div_mod c e) at 1 by lia. rewrite (Nat.mul_comm e (c / e)).
    rewrite (nth_error_flat_map _ e _ _ _ Lu Hmc), (HR _ Hqc).
    rewrite nth_error_map. unfold unit_vector. rewrite nth_error_map_seq by exact Hmc. cbn [option_map].
    f_equal. rewrite (Nat.eqb_sym (r mod e)). destruct (Nat.eqb (c mod e) (r mod e)); ring.
Qed.

Lemma base_dense flib sched (S : sop K) E shapein shapeout :
  well_formed (so_mx S) -> scheduler sched -> allowed_extra (so_mx S) E ->
  0 < mx_cols (so_mx S) -> 0 < mx_rows (so_mx S) ->
  reshapein S shapein = Some shapeout ->
  prodn shapein = E * mx_cols (so_mx S) -> prodn shapeout = E * mx_rows (so_mx S) ->
  exists D, base_todense o flib sched S shapein = Ok D /\
    is_matrix (prodn shapeout) (prodn shapein) (dense_of o (so_mx S) E) D.
Proof.
  intros W SC A C R HS Hin Hout. unfold base_todense. rewrite HS.
  set (n := prodn shapein) in *. set (m := prodn shapeout) in *.
  assert (G : forall js, (forall j, In j js -> j < n) ->
    exists cols, map_res (column o flib sched (so_mx S) n m) js = Ok cols /\ length cols = length js /\
      forall k j, nth_error js k = Some j -> exists c, nth_error cols k = Some c /\
        forall r, r < m -> nth r c (k0 o) = dense_of o (so_mx S) E r j).
  { induction js as [|j js IH]; intros Hj.
    - exists []. repeat split. intros [|k] j Hk; discriminate.
    - destruct IH as [cols [EC [LC HC]]]; [intros; apply Hj; now right|].
      assert (Hjn : j < n) by (apply Hj; now left).
      destruct (direct_assign o RL flib sched (so_mx S) E (unit_vector o n j) (repeat (k0 o) m) W SC A C R)
        as [c [E1 [L1 H1]]].
      { rewrite unit_vector_length. exact Hin. }
      { rewrite repeat_length. exact Hout. }
      exists (c :: cols). cbn [map_res]. unfold column at 1. rewrite E1. cbn [bind]. rewrite EC. cbn [bind].
      split; [reflexivity|]. split; [cbn; now rewrite LC|].
      intros [|k] j' Hk; cbn [nth_error] in *.
      + injection Hk as <-. exists c. split; [reflexivity|]. intros r Hr.
        specialize (H1 r). rewrite repeat_length in H1. specialize (H1 Hr).
        unfold at_ in H1. rewrite H1, <- Hin. apply mat_vec_unit. exact Hjn.
      + apply HC. exact Hk. }
  destruct (G (seq 0 n)) as [cols [EC [LC HC]]].
  { intros j Hj. apply in_seq in Hj. lia. }
  rewrite EC. cbn [bind]. eexists. split; [reflexivity|]. rewrite seq_length in LC.
  split; [rewrite map_length, seq_length; reflexivity|].
  intros r Hr. exists (map (fun c => nth r c (k0 o)) cols).
  split; [|split].
  - apply (nth_error_map_seq (fun i => map (fun c => nth i c (k0 o)) cols)). exact Hr.
  - rewrite map_length. exact LC.
  - intros c Hc. rewrite nth_error_map. destruct (HC c c) as [col [E1 H1]]; [apply nth_error_seq; exact Hc|].
    rewrite E1. cbn. rewrite H1 by exact Hr. reflexivity.
Qed.

Lemma dense_extra (M : matrix K) e r c : mx_kind M = KScalar -> 0 < e ->
  dense_of o M e r c = if Nat.eqb (r mod e) (c mod e) then dense_of o M 1 (r / e) (c / e) else k0 o.
Proof.
  intros HK He. unfold dense_of, fmt_of. rewrite HK. unfold dense.
  assert (G : forall a b, dense_row o (Hom e) (mx_data M) a b =
     if Nat.eqb (a mod e) (b mod e) then dense_row o (Hom 1) (mx_data M) (a / e) (b / e) else k0 o).
  { intros a b. unfold dense_row. cbn [frow fcol]. rewrite !Nat.div_1_r.
    unfold block_entry. rewrite !Nat.mod_1_r.
    destruct (Nat.eqb (a mod e) (b mod e)).
    - reflexivity.
    - apply (sum_over_0 o RL). intros x _. destruct (_ =? _)%Z; reflexivity. }
  destruct (mx_axis M); [|apply G].
  rewrite G. rewrite (Nat.eqb_sym (c mod e)). reflexivity.
Qed.

Lemma dense_transpose (M : matrix K) E r c : class_blocks (mx_kind M) (mx_bs M) ->
  dense_of o (transpose M) E r c = dense_of o M E c r.
Proof.
  intros _. unfold dense_of, fmt_of, transpose. cbn. destruct (mx_axis M), (mx_kind M); reflexivity.
Qed.
End Helpers.

Lemma prodn_app s t : prodn (s ++ t) = prodn s * prodn t.
Proof. unfold prodn. induction s; cbn; [lia|]. rewrite IHs. ring. Qed.

Lemma is_matrix_ext {K} m n (A B : nat -> nat -> K) D :
  (forall r c, r < m -> c < n -> A r c = B r c) -> is_matrix m n A D -> is_matrix m n B D.
Proof.
  intros H [L G]. split; [exact L|]. intros r Hr. destruct (G r Hr) as [row [E [LR HR]]].
  exists row. split; [exact E|]. split; [exact LR|]. intros c Hc. rewrite HR by exact Hc. now rewrite H.
Qed.

(** ** C100 *)

(** The dense form of an operator of implicit input shape (r, [1...], e): the rows of the
    matrix act on e columns side by side. *)
Theorem C100_dense_partial : forall (K : Type) (o : ops K), ring_laws o ->
  forall flib sched (M : matrix K) ones e,
  well_formed M -> scheduler sched -> mx_kind M = KScalar -> 0 < mx_cols M -> 0 < mx_rows M ->
  prodn ones = 1 -> 1 <= e ->
  exists D, todense o flib sched (mk_sop M None None) (mx_cols M :: ones ++ [e]) = Ok D /\
    is_matrix (mx_rows M * e) (mx_cols M * e)
      (fun r c => if Nat.eqb (r mod e) (c mod e) then dense_of o M 1 (r / e) (c / e) else k0 o) D.
Proof.
  intros K o RL flib sched M ones e W SC HK C R HO He.
  assert (HM : so_mx (mk_sop M None None) = M) by (unfold mk_sop; rewrite HK; reflexivity).
  assert (HI : so_in (mk_sop M None None) = None) by (unfold mk_sop; rewrite HK; reflexivity).
  assert (HR : forall rest, reshapein (mk_sop M None None) (mx_cols M :: rest) = Some (mx_rows M :: rest)).
  { intros rest. unfold reshapein, mk_sop. rewrite HK. cbn [so_mx so_bin so_bout]. rewrite HK. reflexivity. }
  assert (HP : prodn (mx_cols M :: ones ++ [e]) = mx_cols M * e).
  { change (mx_cols M * prodn (ones ++ [e]) = mx_cols M * e). rewrite prodn_app, HO. cbn. lia. }
  unfold todense. rewrite HM, HI, HP.
  destruct (Nat.eqb_spec (mx_cols M) 0); [lia|].
  rewrite (Nat.mul_comm (mx_cols M) e), Nat.div_mul by lia. cbn [andb].
  destruct (Nat.ltb_spec 1 e) as [H1|H1].
  - assert (RLst : removelast (mx_cols M :: ones ++ [e]) = mx_cols M :: ones).
    { change (mx_cols M :: ones ++ [e]) with ((mx_cols M :: ones) ++ [e]).
      apply removelast_last. }
    rewrite RLst.
    destruct (base_dense o RL flib sched (mk_sop M None None) 1 (mx_cols M :: ones) (mx_rows M :: ones))
      as [D [E HD]]; rewrite ?HM in *; auto.
    + unfold allowed_extra. rewrite HK. lia.
    + change (prodn (mx_cols M :: ones)) with (mx_cols M * prodn ones). rewrite HO. lia.
    + change (prodn (mx_rows M :: ones)) with (mx_rows M * prodn ones). rewrite HO. lia.
    + rewrite E. cbn [bind]. eexists. split; [reflexivity|].
      change (prodn (mx_rows M :: ones)) with (mx_rows M * prodn ones) in HD.
      change (prodn (mx_cols M :: ones)) with (mx_cols M * prodn ones) in HD.
      rewrite HO, !Nat.mul_1_r in HD. rewrite (Nat.mul_comm e). apply (kron_matrix o RL); [exact HD|lia].
  - assert (e = 1) by lia. subst e.
    destruct (base_dense o RL flib sched (mk_sop M None None) 1 (mx_cols M :: ones ++ [1]) (mx_rows M :: ones ++ [1]))
      as [D [E HD]]; rewrite ?HM in *; auto.
    + unfold allowed_extra. rewrite HK. lia.
    + rewrite HP. lia.
    + change (mx_rows M * prodn (ones ++ [1]) = 1 * mx_rows M). rewrite prodn_app, HO. cbn. lia.
    + exists D. split; [exact E|]. rewrite HP in HD.
      replace (prodn (mx_rows M :: ones ++ [1])) with (mx_rows M * 1) in HD
        by (change (mx_rows M * 1 = mx_rows M * prodn (ones ++ [1])); rewrite prodn_app, HO; cbn; lia).
      rewrite (Nat.mul_comm 1). eapply is_matrix_ext; [|exact HD].
      intros r c _ _. cbn beta. rewrite !Nat.mod_1_r, !Nat.div_1_r. reflexivity.
Qed.
Print Assumptions C100_dense_partial.

(** Explicit shapes, and operators made of blocks. *)
Theorem C100_dense_explicit : forall (K : Type) (o : ops K), ring_laws o ->
  forall flib sched (S : sop K) E shapein shapeout,
  well_formed (so_mx S) -> scheduler sched -> allowed_extra (so_mx S) E ->
  0 < mx_cols (so_mx S) -> 0 < mx_rows (so_mx S) ->
  so_in S = Some shapein -> reshapein S shapein = Some shapeout ->
  prodn shapein = E * mx_cols (so_mx S) -> prodn shapeout = E * mx_rows (so_mx S) ->
  exists D, todense o flib sched S shapein = Ok D /\
    is_matrix (prodn shapeout) (prodn shapein) (dense_of o (so_mx S) E) D.
Proof.
  intros K o RL flib sched S E shapein shapeout W SC A C R HI HS Hin Hout.
  unfold todense. destruct (Nat.eqb_spec (mx_cols (so_mx S)) 0); [lia|]. rewrite HI. cbn [andb].
  now apply base_dense.
Qed.
Print Assumptions C100_dense_explicit.

(** The dense form applied to a vector is the operator applied to it. *)
Theorem C100_dense_applies : forall (K : Type) (o : ops K), ring_laws o ->
  forall flib sched (M : matrix K) e x,
  well_formed M -> scheduler sched -> mx_kind M = KScalar -> 0 < mx_cols M -> 0 < mx_rows M ->
  1 <= e -> length x = e * mx_cols M ->
  exists D y, todense o flib sched (mk_sop M None None) [mx_cols M; e] = Ok D /\
    direct o flib sched M x (repeat (k0 o) (e * mx_rows M)) Assign = Ok (Some y) /\
    length y = length D /\
    forall r row, nth_error D r = Some row ->
      nth_error y r = Some (bigsum o (length x) (fun c => kmul o (nth c row (k0 o)) (nth c x (k0 o)))).
Proof.
  intros K o RL flib sched M e x W SC HK C R He Lx.
  destruct (C100_dense_partial K o RL flib sched M [] e W SC HK C R eq_refl He) as [D [E HD]].
  destruct (direct_assign o RL flib sched M e x (repeat (k0 o) (e * mx_rows M)) W SC) as [y [Ey [Ly Hy]]]; auto.
  { unfold allowed_extra. rewrite HK. exact He. }
  { apply repeat_length. }
  rewrite repeat_length in *. exists D, y. split; [exact E|]. split; [exact Ey|].
  destruct HD as [LD HD]. split; [rewrite Ly, LD; lia|].
  intros r row Hrow.
  assert (Hr : r < mx_rows M * e) by (rewrite <- LD; apply nth_error_Some; congruence).
  destruct (HD r Hr) as [row' [E' [L' H']]]. assert (row' = row) by congruence. subst row'.
  rewrite (nth_error_nth' y (k0 o)) by lia. f_equal.
  specialize (Hy r ltac:(lia)). unfold at_ in Hy. rewrite Hy. unfold mat_vec. rewrite Lx.
  apply bigsum_ext. intros c Hc. unfold at_. f_equal.
  rewrite (dense_extra o RL) by (auto; lia). symmetry.
  erewrite nth_error_nth; [|apply H'; lia]. reflexivity.
Qed.
Print Assumptions C100_dense_applies.

(** x * A, a vector on the left. *)
Theorem C100_left : forall (K : Type) (o : ops K), ring_laws o ->
  forall flib sched (M : matrix K) x,
  well_formed M -> scheduler sched -> 0 < mx_rows M -> length x = mx_rows M ->
  exists y, rmul o flib sched M (Vector x) = Ok (Some (PVector (Some y))) /\ length y = mx_cols M /\
    forall c, c < mx_cols M ->
      at_ o y c = bigsum o (mx_rows M) (fun r => kmul o (at_ o x r) (dense_of o M 1 r c)).
Proof.
  intros K o RL flib sched M x W SC R Lx.
  destruct (matvec_none o RL flib sched (transpose M) 1 x) as [y [E [Ly Hy]]]; auto.
  { apply wf_transpose. exact W. }
  { unfold allowed_extra, transpose. cbn. destruct (mx_kind M); lia. }
  { cbn. lia. }
  exists y. unfold rmul, mul. rewrite E. cbn [bind]. split; [reflexivity|].
  cbn [transpose mx_rows mx_cols] in *. rewrite Nat.mul_1_l in *. split; [exact Ly|].
  intros c Hc. rewrite (Hy c Hc). unfold mat_vec.
  replace (at_ o (repeat (k0 o) (mx_cols M)) c) with (k0 o).
  2:{ unfold at_. symmetry. apply nth_repeat. }
  destruct RL as [Z1 Z2 Z3 Z4 Z5 Z6 Z7 Z8 Z9]. rewrite Z1. rewrite Nat.mul_1_l. apply bigsum_ext. intros r Hr.
  rewrite dense_transpose by (apply W). apply Z5.
Qed.
Print Assumptions C100_left.

(** A number on either side; arrays of two dimensions or more are refused. *)
Theorem C100_sides : forall (K : Type) (o : ops K) flib sched (M : matrix K) k n,
  rmul o flib sched M (Scalar k) = mul o flib sched M (Scalar k) /\
  rmul o flib sched M (Array n) = Ok None /\ mul o flib sched M (Array n) = Ok None.
Proof. repeat split. Qed.
Print Assumptions C100_sides.

(** The input shape computed from the output shape, and back. *)
Theorem C100_shapes : forall (K : Type) (M : matrix K) shapein shapeout S rest,
  mx_kind M = KScalar -> S = mk_sop M shapein shapeout ->
  exists s, reshapein S (so_bin S ++ rest) = Some s /\ reshapeout S s = Some (so_bin S ++ rest) /\
    reshapeout S (so_bout S ++ rest) = Some (so_bin S ++ rest).
Proof.
  intros K M shapein shapeout S rest HK ->. exists (so_bout (mk_sop M shapein shapeout) ++ rest).
  assert (HM : so_mx (mk_sop M shapein shapeout) = M) by (unfold mk_sop; rewrite HK; reflexivity).
  unfold reshapein, reshapeout. rewrite HM, HK.
  rewrite !skipn_app, !skipn_all, !Nat.sub_diag. cbn [skipn app]. auto.
Qed.
Print Assumptions C100_shapes.

(** The shapes that the matrices themselves give to the arguments: a vector for a vector, columns for columns. *)
Theorem C100_matrix_shapes : forall rows cols e, 0 < rows ->
  (rows <> 1 -> reshapeout_mx rows cols [rows] = Ok [cols]) /\ (1 <= e -> reshapeout_mx rows cols [rows; e] = Ok [cols; e]).
Proof.
  intros rows cols e R. unfold reshapeout_mx. destruct (Nat.eqb_spec rows 0); [lia|]. split.
  - intros N. cbn [prodn fold_right rev app]. rewrite Nat.mul_1_r, Nat.div_same by lia. cbn. destruct (Nat.eqb_spec rows 1); [lia|reflexivity].
  - intros He. replace (prodn [rows; e]) with (e * rows) by (cbn; lia). rewrite Nat.div_mul by lia.
    destruct (Nat.ltb_spec 1 e); [reflexivity|]. replace e with 1 by lia. reflexivity.
Qed.
Print Assumptions C100_matrix_shapes.
(** A matrix of one row: the vector is taken for a column. *)
Theorem C100_one_row_refuted : forall cols, reshapeout_mx 1 cols [1] = Ok [cols; 1].
Proof. reflexivity. Qed.
Print Assumptions C100_one_row_refuted.

(** FINDING 150.  Two dimensions or more after those of the matrix: only the last one is
    removed before the product by the identity, and the dense form has k times too many rows
    and columns, k the product of the other dimensions. *)
Theorem C100_planes_refuted : forall (K : Type) (o : ops K), ring_laws o ->
  forall flib sched (M : matrix K) rest e,
  well_formed M -> scheduler sched -> mx_kind M = KScalar -> 0 < mx_cols M -> 0 < mx_rows M ->
  1 < prodn rest -> 1 <= e ->
  exists D, todense o flib sched (mk_sop M None None) (mx_cols M :: rest ++ [e]) = Ok D /\
    length D = prodn rest * (mx_rows M * prodn (rest ++ [e])) /\
    length D <> mx_rows M * prodn (rest ++ [e]).
Proof.
  intros K o RL flib sched M rest e W SC HK C R HO He.
  assert (HM : so_mx (mk_sop M None None) = M) by (unfold mk_sop; rewrite HK; reflexivity).
  assert (HI : so_in (mk_sop M None None) = None) by (unfold mk_sop; rewrite HK; reflexivity).
  assert (HR : forall rest, reshapein (mk_sop M None None) (mx_cols M :: rest) = Some (mx_rows M :: rest)).
  { intros t. unfold reshapein, mk_sop. rewrite HK. cbn [so_mx so_bin so_bout]. rewrite HK. reflexivity. }
  assert (HP : prodn (mx_cols M :: rest ++ [e]) = (prodn rest * e) * mx_cols M).
  { change (mx_cols M * prodn (rest ++ [e]) = (prodn rest * e) * mx_cols M). rewrite prodn_app. cbn. lia. }
  unfold todense. rewrite HM, HI, HP.
  destruct (Nat.eqb_spec (mx_cols M) 0); [lia|].
  rewrite Nat.div_mul by lia. cbn [andb].
  assert (G : 1 < prodn rest * e).
  { destruct e as [|e]; [lia|]. rewrite Nat.mul_succ_r. lia. }
  destruct (Nat.ltb_spec 1 (prodn rest * e)) as [_|]; [|lia].
  change (mx_cols M :: rest ++ [e]) with ((mx_cols M :: rest) ++ [e]).
  rewrite removelast_last.
  destruct (base_dense o RL flib sched (mk_sop M None None) (prodn rest) (mx_cols M :: rest) (mx_rows M :: rest))
    as [D [E HD]]; rewrite ?HM in *; auto.
  - unfold allowed_extra. rewrite HK. lia.
  - change (prodn (mx_cols M :: rest)) with (mx_cols M * prodn rest). lia.
  - change (prodn (mx_rows M :: rest)) with (mx_rows M * prodn rest). lia.
  - rewrite E. cbn [bind]. eexists. split; [reflexivity|].
    assert (L : length (kron o D (eye o (prodn rest * e))) = prodn rest * (mx_rows M * prodn (rest ++ [e]))).
    { destruct (kron_matrix o RL _ _ (prodn rest * e) _ _ HD) as [L _]; [lia|]. rewrite L.
      change (prodn (mx_rows M :: rest)) with (mx_rows M * prodn rest). rewrite prodn_app. cbn [prodn fold_right]. ring. }
    split; [exact L|]. rewrite L.
    assert (0 < mx_rows M * prodn (rest ++ [e])).
    { rewrite prodn_app. cbn [prodn fold_right]. rewrite Nat.mul_1_r. apply Nat.mul_pos_pos; lia. }
    clear - H HO. destruct (prodn rest) as [|[|k]]; lia.
Qed.
Print Assumptions C100_planes_refuted.

Example C100_example :
  todense z_ops true (@in_order Z) (mk_sop ex_scalar None None) [3; 2] =
    Ok [[7; 0; 0; 0; 5; 0]; [0; 7; 0; 0; 0; 5]; [0; 0; 0; 0; 4; 0]; [0; 0; 0; 0; 0; 4]]%Z /\
  todense z_ops true (@in_order Z) (mk_sop ex_rot None None) [2; 3] =
    Ok [[0; 0; 0; 3; 0; 0]; [0; 0; 0; 0; 3; -5]; [0; 0; 0; 0; 5; 3]]%Z /\
  rmul z_ops true (@in_order Z) ex_scalar (Vector [2; 3]%Z) = Ok (Some (PVector (Some [14; 0; 22]%Z))) /\
  (exists D, todense z_ops true (@in_order Z) (mk_sop ex_scalar None None) [3; 2; 2] = Ok D /\ length D = 16).
Proof. repeat split; try reflexivity. eexists. split; reflexivity. Qed.
