(** Lemmas on the files written and read by several processes. *)
From Coq Require Import Lia Ascii Permutation.
From Verif Require Import Base BaseFacts PTFacts PTMpiModel PTMpiFacts MpiModel MpiSpec MpiFacts.
Open Scope nat_scope.

Lemma nth_error_ext {A} (l r : list A) : (forall i, nth_error l i = nth_error r i) -> l = r.
Proof.
  revert r. induction l as [|x l IH]; intros [|y r] H; auto.
  - specialize (H 0). discriminate.
  - specialize (H 0). discriminate.
  - f_equal; [specialize (H 0); cbn in H; congruence|]. apply IH. intros i. apply (H (S i)).
Qed.
Lemma write_at_length f off d : off + length d <= length f -> length (write_at f off d) = length f.
Proof. intros H. unfold write_at. rewrite !app_length, firstn_length, skipn_length. lia. Qed.
Lemma write_at_in f off d p : off + length d <= length f -> off <= p < off + length d -> nth_error (write_at f off d) p = nth_error d (p - off).
Proof.
  intros H P. unfold write_at. rewrite nth_error_app2; rewrite firstn_length; [|lia]. rewrite nth_error_app1 by lia. f_equal. lia.
Qed.
Lemma nth_error_skipn' {A} (l : list A) k p : nth_error (skipn k l) p = nth_error l (k + p).
Proof. revert l. induction k as [|k IH]; intros [|x l]; cbn; auto. destruct p; reflexivity. Qed.
Lemma nth_error_firstn' {A} (l : list A) k p : p < k -> nth_error (firstn k l) p = nth_error l p.
Proof. revert l p. induction k as [|k IH]; intros [|x l] [|p] H; cbn; auto; try lia. apply IH. lia. Qed.
Lemma write_at_out f off d p : off + length d <= length f -> ~ off <= p < off + length d -> nth_error (write_at f off d) p = nth_error f p.
Proof.
  intros H P. unfold write_at. destruct (le_lt_dec off p) as [C|C].
  - rewrite nth_error_app2; rewrite firstn_length; [|lia]. rewrite nth_error_app2 by lia. rewrite nth_error_skipn'. f_equal. lia.
  - rewrite nth_error_app1 by (rewrite firstn_length; lia). apply nth_error_firstn', C.
Qed.

(** Writes in any order of disjoint parts. *)
Definition all_writes (base : nat) (off : nat -> nat) (data : nat -> list ascii) (order : list nat) (f : list ascii) : list ascii :=
  fold_left (fun f r => write_at f (base + off r) (data r)) order f.
Lemma all_writes_length base off data order f : (forall r, In r order -> base + off r + length (data r) <= length f) -> length (all_writes base off data order f) = length f.
Proof.
  revert f. induction order as [|r o IH]; intros f H; [reflexivity|]. cbn [all_writes fold_left]. fold (all_writes base off data o (write_at f (base + off r) (data r))).
  assert (L : length (write_at f (base + off r) (data r)) = length f) by (apply write_at_length, H; left; auto).
  rewrite IH; [exact L|]. intros q Q. rewrite L. apply H. right. exact Q.
Qed.
Lemma all_writes_out base off data order f p : (forall r, In r order -> base + off r + length (data r) <= length f) ->
  (forall r, In r order -> ~ base + off r <= p < base + off r + length (data r)) -> nth_error (all_writes base off data order f) p = nth_error f p.
Proof.
  revert f. induction order as [|r o IH]; intros f H N; [reflexivity|]. cbn [all_writes fold_left]. fold (all_writes base off data o (write_at f (base + off r) (data r))).
  assert (L : length (write_at f (base + off r) (data r)) = length f) by (apply write_at_length, H; left; auto).
  rewrite IH; [|intros q Q; rewrite L; apply H; right; exact Q|intros q Q; apply N; right; exact Q].
  apply write_at_out; [apply H; left; auto|]. apply N. left. auto.
Qed.
Lemma all_writes_in base off data order f p r : NoDup order -> In r order -> (forall r, In r order -> base + off r + length (data r) <= length f) ->
  base + off r <= p < base + off r + length (data r) ->
  (forall q, In q order -> q <> r -> ~ base + off q <= p < base + off q + length (data q)) ->
  nth_error (all_writes base off data order f) p = nth_error (data r) (p - (base + off r)).
Proof.
  revert f. induction order as [|x o IH]; intros f N I H P D; [destruct I|]. inversion N as [|? ? N1 N2]; subst.
  cbn [all_writes fold_left]. fold (all_writes base off data o (write_at f (base + off x) (data x))).
  assert (L : length (write_at f (base + off x) (data x)) = length f) by (apply write_at_length, H; left; auto).
  destruct I as [->|I].
  - rewrite all_writes_out; [apply write_at_in; auto; apply H; left; auto|intros q Q; rewrite L; apply H; right; exact Q|].
    intros q Q. apply D; [right; exact Q|]. intros ->. contradiction.
  - apply IH; auto; [intros q Q; rewrite L; apply H; right; exact Q|]. intros q Q. apply D. right. exact Q.
Qed.

Lemma nth_error_concat {A} (ds : list (list A)) r j : r < length ds -> j < length (nth r ds []) ->
  nth_error (concat ds) (length (concat (firstn r ds)) + j) = nth_error (nth r ds []) j.
Proof.
  revert r. induction ds as [|d ds IH]; intros r R J; cbn [length] in R; [lia|]. destruct r as [|r]; cbn [nth firstn concat] in *.
  - cbn [length plus]. apply nth_error_app1, J.
  - rewrite app_length, <- Nat.add_assoc, nth_error_app2 by lia. replace (length d + _ - length d) with (length (concat (firstn r ds)) + j) by lia. apply IH; [lia|exact J].
Qed.
Lemma concat_cover {A} (ds : list (list A)) p : p < length (concat ds) ->
  exists r, r < length ds /\ length (concat (firstn r ds)) <= p < length (concat (firstn r ds)) + length (nth r ds []).
Proof.
  revert p. induction ds as [|d ds IH]; intros p P; cbn [concat] in P; [cbn in P; lia|]. rewrite app_length in P.
  destruct (le_lt_dec (length d) p) as [C|C].
  - destruct (IH (p - length d) ltac:(lia)) as [r [R1 R2]]. exists (S r). cbn [length firstn concat nth]. rewrite app_length. split; lia.
  - exists 0. cbn. split; lia.
Qed.
Lemma concat_firstn_mono {A} (ds : list (list A)) q r : q < r -> q < length ds -> length (concat (firstn q ds)) + length (nth q ds []) <= length (concat (firstn r ds)).
Proof.
  revert q r. induction ds as [|d ds IH]; intros q r H Q; cbn [length] in Q; [lia|]. destruct r as [|r]; [lia|]. destruct q as [|q]; cbn [firstn concat nth]; rewrite !app_length; cbn [length]; [lia|].
  specialize (IH q r ltac:(lia) ltac:(lia)). lia.
Qed.
Lemma concat_firstn_le {A} (ds : list (list A)) r : r < length ds -> length (concat (firstn r ds)) + length (nth r ds []) <= length (concat ds).
Proof.
  intros R. pose proof (concat_firstn_mono ds r (length ds) R R) as H. rewrite firstn_all in H. exact H.
Qed.

Lemma F2_length {A B} (P : A -> B -> Prop) l r : Forall2 P l r -> length r = length l.
Proof. induction 1; cbn; congruence. Qed.
Lemma F2_nth {A} (P : A -> list ascii -> Prop) l r k x : Forall2 P l r -> nth_error l k = Some x -> P x (nth k r []).
Proof. intros F. revert k. induction F as [|a b l r H F IH]; intros [|k] E; cbn in *; try discriminate; [injection E as <-; exact H|auto]. Qed.
Lemma firstn_S_nth {A} (l : list (list A)) k : k < length l -> firstn (S k) l = firstn k l ++ [nth k l []].
Proof. revert k. induction l as [|x l IH]; intros [|k] H; cbn in H; try lia; [reflexivity|]. cbn [firstn nth app]. f_equal. apply IH. lia. Qed.

(** ** Rows *)
Section W.
Context (rows : list Z) (rowbytes : nat) (datas : list (list ascii)).
Hypothesis (Hs : 0 < length rows) (Hn : (0 <= sumZ rows)%Z).
Hypothesis (Hc : forall r, (0 <= r < zlen rows)%Z -> check_rows rows r = Ok tt).
Hypothesis (Hd : Forall2 (fun n d => length d = Z.to_nat n * rowbytes) rows datas).

Lemma zlen_pos : (0 < zlen rows)%Z.
Proof. unfold zlen. lia. Qed.
Lemma row_nth r : r < length rows -> nth_error rows r = Some (split_start (sumZ rows) (zlen rows) (Z.of_nat r + 1) - split_start (sumZ rows) (zlen rows) (Z.of_nat r))%Z.
Proof.
  intros R. specialize (Hc (Z.of_nat r)). unfold check_rows in Hc. unfold zlen at 1 in Hc. specialize (Hc ltac:(lia)).
  destruct (nth_error rows r) as [x|] eqn:E; [|apply nth_error_None in E; lia].
  assert (G : get rows (Z.of_nat r) = Ok x) by (apply get_ok; rewrite Nat2Z.id; split; [lia|exact E]). rewrite G in Hc. cbn [bind] in Hc.
  destruct (Z.eqb_spec x (split_start (sumZ rows) (zlen rows) (Z.of_nat r + 1) - split_start (sumZ rows) (zlen rows) (Z.of_nat r))) as [Q|Q]; [f_equal; exact Q|discriminate].
Qed.
Lemma datas_length : length datas = length rows.
Proof. exact (F2_length _ _ _ Hd). Qed.
Lemma data_length r : r < length rows -> length (nth r datas []) =
  Z.to_nat (split_start (sumZ rows) (zlen rows) (Z.of_nat r + 1) - split_start (sumZ rows) (zlen rows) (Z.of_nat r)) * rowbytes.
Proof.
  intros R. exact (F2_nth _ _ _ r _ Hd (row_nth r R)).
Qed.
Lemma offset_sum r : r <= length rows -> length (concat (firstn r datas)) = rank_offset rows rowbytes (Z.of_nat r).
Proof.
  pose proof zlen_pos as Zp. induction r as [|r IH]; intros R; [cbn; unfold rank_offset; cbn [Z.of_nat]; rewrite split_start_0; [lia|exact Zp]|].
  assert (E : firstn (S r) datas = firstn r datas ++ [nth r datas []]).
  { apply firstn_S_nth. rewrite datas_length. lia. }
  rewrite E, concat_app, app_length, IH by lia. cbn [concat]. rewrite app_nil_r, data_length by lia. unfold rank_offset. rewrite Nat2Z.inj_succ.
  replace (Z.succ (Z.of_nat r)) with (Z.of_nat r + 1)%Z by lia.
  pose proof (split_start_mono (sumZ rows) (zlen rows) (Z.of_nat r) Hn Zp).
  pose proof (split_start_bounds (sumZ rows) (zlen rows) (Z.of_nat r) Hn Zp ltac:(unfold zlen; lia)). rewrite <- Nat.mul_add_distr_r. f_equal. lia.
Qed.
Lemma total_length : length (concat datas) = Z.to_nat (sumZ rows) * rowbytes.
Proof.
  rewrite <- (firstn_all datas), datas_length, offset_sum by lia. unfold rank_offset. change (Z.of_nat (length rows)) with (zlen rows). rewrite split_start_m by exact zlen_pos. reflexivity.
Qed.

Lemma write_file_ok head unset order : length unset = Z.to_nat (sumZ rows) * rowbytes -> Permutation order (seq 0 (length rows)) ->
  write_file head unset rows rowbytes datas order = head ++ concat datas ++ repeat zero (Z.to_nat (padding (sumZ rows * Z.of_nat rowbytes))).
Proof.
  intros Lu P. unfold write_file. rewrite app_assoc. f_equal.
  change (fold_left _ order (head ++ unset)) with (all_writes (length head) (fun r => rank_offset rows rowbytes (Z.of_nat r)) (fun r => nth r datas []) order (head ++ unset)).
  assert (No : NoDup order) by (apply (Permutation_NoDup (Permutation_sym P)), seq_NoDup).
  assert (In_o : forall r, In r order <-> r < length rows).
  { intros r. split; intros H; [apply (Permutation_in _ P), in_seq in H; lia|apply (Permutation_in _ (Permutation_sym P)), in_seq; lia]. }
  pose proof total_length as TL. pose proof datas_length as DL.
  assert (B : forall r, In r order -> length head + rank_offset rows rowbytes (Z.of_nat r) + length (nth r datas []) <= length (head ++ unset)).
  { intros r H. apply In_o in H. rewrite <- offset_sum by lia. rewrite app_length. pose proof (concat_firstn_le datas r ltac:(lia)). lia. }
  apply nth_error_ext. intros p. destruct (le_lt_dec (length head) p) as [C|C].
  - destruct (le_lt_dec (length (concat datas)) (p - length head)) as [D|D].
    + assert (N1 : nth_error (head ++ concat datas) p = None) by (apply nth_error_None; rewrite app_length; lia).
      rewrite N1. apply nth_error_None. rewrite all_writes_length by exact B. rewrite app_length. lia.
    + destruct (concat_cover datas (p - length head) D) as [r [R1 R2]]. rewrite (nth_error_app2 head) by exact C.
      rewrite (all_writes_in _ _ _ order _ p r); auto; cbn beta.
      * rewrite <- offset_sum by lia. rewrite <- nth_error_concat by lia. f_equal. lia.
      * apply In_o. lia.
      * rewrite <- offset_sum by lia. lia.
      * intros q Q Nq. apply In_o in Q. rewrite <- offset_sum by lia. destruct (Nat.lt_trichotomy q r) as [X|[X|X]]; [|lia|].
        -- pose proof (concat_firstn_mono datas q r X ltac:(lia)). lia.
        -- pose proof (concat_firstn_mono datas r q X ltac:(lia)). lia.
  - rewrite (nth_error_app1 head) by exact C. rewrite all_writes_out; [apply nth_error_app1, C|exact B|]. intros r _. lia.
Qed.
End W.

Lemma check_rows_counts rows : 0 < length rows -> ((forall r, (0 <= r < zlen rows)%Z -> check_rows rows r = Ok tt) <-> rows = split_counts (sumZ rows) (zlen rows)).
Proof.
  intros L. split.
  - intros H. apply nth_error_ext. intros i. unfold split_counts. destruct (le_lt_dec (length rows) i) as [C|C].
    + rewrite (proj2 (nth_error_None _ _) C). symmetry. apply nth_error_None. rewrite map_length, iota_map_seq, map_length, seq_length. unfold zlen. lia.
    + rewrite nth_error_map, iota_nth_error by (unfold zlen; lia). cbn [option_map]. rewrite (row_nth rows L H i C). reflexivity.
  - intros E r R. unfold check_rows. rewrite E at 1. unfold split_counts. assert (G : get (map (fun r => (split_start (sumZ rows) (zlen rows) (r + 1) - split_start (sumZ rows) (zlen rows) r)%Z) (iota (zlen rows))) r = Ok (split_start (sumZ rows) (zlen rows) (r + 1) - split_start (sumZ rows) (zlen rows) r)%Z).
    { apply get_ok. split; [lia|]. rewrite nth_error_map, iota_nth_error by lia. rewrite Z2Nat.id by lia. reflexivity. }
    rewrite G. cbn [bind]. rewrite Z.eqb_refl. reflexivity.
Qed.
Lemma padding_mod x : ((x + padding x) mod BLOCK_SIZE = 0 /\ 0 < padding x <= BLOCK_SIZE)%Z.
Proof. unfold padding, BLOCK_SIZE. split; [|lia]. replace (x + (2880 - x mod 2880))%Z with ((x / 2880 + 1) * 2880)%Z by lia. apply Z.mod_mul. lia. Qed.

Lemma read_pieces {A} (data : list A) size : (0 < size)%Z -> map (read_rows data size) (iota size) = pieces data size.
Proof.
  intros S. unfold pieces. rewrite iota_map_seq, map_map. apply map_ext_in. intros j J. apply in_seq in J. unfold read_rows, sublist.
  replace (Z.of_nat (Datatypes.S j)) with (Z.of_nat j + 1)%Z by lia. cbn zeta. f_equal.
  pose proof (zlen_nonneg data) as P. pose proof (split_start_bounds (zlen data) size (Z.of_nat j) P S ltac:(lia)).
  pose proof (split_start_mono (zlen data) size (Z.of_nat j) P S). lia.
Qed.

Lemma first_hdu_ok hdus i k : (forall j, i <= j < k -> exists b, nth_error hdus j = Some (0%Z, b)) -> i <= k -> (exists n, n <> 0%Z /\ nth_error hdus k = Some (n, true)) ->
  forall fuel, k - i < fuel -> first_hdu fuel hdus i = Ok k.
Proof.
  intros H L [n [N E]] fuel. revert i H L. induction fuel as [|f IH]; intros i H L F; [lia|]. cbn [first_hdu]. destruct (Nat.eq_dec i k) as [->|D].
  - rewrite E, (proj2 (Z.eqb_neq _ _) N). reflexivity.
  - destruct (H i ltac:(lia)) as [b ->]. cbn [Z.eqb]. apply IH; [intros j J; apply H; lia|lia|lia].
Qed.
Lemma first_hdu_loops hdus i n : n <> 0%Z -> nth_error hdus i = Some (n, false) -> forall fuel, first_hdu fuel hdus i = Err RuntimeError.
Proof.
  intros N E. induction fuel as [|f IH]; [reflexivity|]. cbn [first_hdu]. rewrite E, (proj2 (Z.eqb_neq _ _) N). exact IH.
Qed.
