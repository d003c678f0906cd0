(** C97: observations. *)
From Coq Require Import Lia.
From Verif Require Import Base BaseFacts SparseModel SparseSpec PTModel AcqModel AcqSpec ObsModel.
Open Scope nat_scope.

(** What is documented: the operation applied to the buffer and to H(x) + n, for each detector and sampling. *)
Definition observed {K D S} (o : ops K) (signal noise : D -> S -> K) (op : operation) (d : D) (s : S) (old : K) : K :=
  let v := kadd o (signal d s) (noise d s) in
  match op with Assign => v | Iadd => kadd o old v | Isub => kadd o old (kopp o v) | Imul => kmul o old v end.

Lemma skipn_twice {A} (l : list A) i j : skipn i (skipn j l) = skipn (i + j) l.
Proof. revert l. induction j as [|j IH]; intros l; [now rewrite Nat.add_0_r|]. destruct l; [now rewrite !skipn_nil|]. rewrite Nat.add_succ_r. apply IH. Qed.
Lemma chain_le a n bs : chain a n bs -> a <= n.
Proof. revert a. induction bs as [|[x y] bs IH]; intros a; cbn [chain]; [lia|]. intros (_ & L & H). apply IH in H. lia. Qed.
Lemma skipn_firstn_chain {A} (l : list A) a b c : a <= b -> b <= c -> firstn (b - a) (skipn a l) ++ firstn (c - b) (skipn b l) = firstn (c - a) (skipn a l).
Proof.
  intros H1 H2. replace (skipn b l) with (skipn (b - a) (skipn a l)) by (rewrite skipn_twice; f_equal; lia). replace (c - a) with ((b - a) + (c - b)) by lia.
  generalize (skipn a l) as q. intros q. generalize (c - b) as k. generalize (b - a) as j. clear. intros j k. revert q. induction j as [|j IH]; intros q; [reflexivity|]. destruct q; [now rewrite !firstn_nil|]. cbn. now rewrite IH.
Qed.
Lemma signal_row_chain {K D S} (signal : D -> S -> K) samps d bs a : chain a (length samps) bs -> signal_row signal samps bs d = map (signal d) (skipn a samps).
Proof.
  unfold signal_row. revert a. induction bs as [|[x y] bs IH]; intros a H; cbn [chain] in H.
  - subst a. now rewrite skipn_all.
  - destruct H as (-> & L & H). pose proof (chain_le _ _ _ H). cbn [map concat]. rewrite (IH _ H), <- map_app. f_equal. unfold in_block. cbn [fst snd].
    rewrite <- (firstn_all2 (n := length samps - y) (skipn y samps)) by (rewrite skipn_length; lia). rewrite skipn_firstn_chain by lia. apply firstn_all2. rewrite skipn_length. lia.
Qed.
Lemma zip_length {K} (f : K -> K -> K) a b : length a = length b -> length (zip_with f a b) = length a.
Proof. revert b. induction a as [|x a IH]; intros [|y b] H; try easy. cbn in *. now rewrite IH by lia. Qed.
Lemma zip_app {K} (f : K -> K -> K) a b c d : length a = length c -> zip_with f (a ++ b) (c ++ d) = zip_with f a c ++ zip_with f b d.
Proof. revert c. induction a as [|x a IH]; intros [|y c] H; try easy. cbn in *. now rewrite IH by lia. Qed.
(** The noise of consecutive blocks is added to each sampling. *)
Lemma noise_row_chain {K D S} (o : ops K) (f : D -> S -> K) op samps d bs a row : chain a (length samps) bs -> length row = length samps ->
  noise_row o f op samps bs d row = Ok (firstn a row ++ zip_with (apply_op o op) (skipn a row) (map (f d) (skipn a samps))).
Proof.
  unfold noise_row. revert a row. induction bs as [|[x y] bs IH]; intros a row H L; cbn [chain] in H.
  - subst a. cbn [fold_left]. rewrite <- L, firstn_all, skipn_all. cbn. now rewrite app_nil_r.
  - destruct H as (-> & Hxy & H). pose proof (chain_le _ _ _ H) as Hy. cbn [fold_left bind]. unfold noise_block at 2. cbn [fst snd]. unfold in_block. cbn [fst snd].
    rewrite map_length, !firstn_length, !skipn_length, L, Nat.eqb_refl. cbn [bind]. replace (Nat.min (y - a) (length samps - a)) with (y - a) by lia. replace (a + (y - a)) with y by lia.
    set (mid := zip_with _ _ _). assert (Lm : length mid = y - a) by (unfold mid; rewrite zip_length; rewrite ?map_length, !firstn_length, !skipn_length; lia).
    assert (Lf : length (firstn a row) = a) by (rewrite firstn_length; lia).
    rewrite (IH y).
    + f_equal. rewrite app_assoc. rewrite firstn_app, skipn_app, !app_length, Lf, Lm. replace (y - (a + (y - a))) with 0 by lia. rewrite (firstn_all2 (n := y) (firstn a row ++ mid)) by (rewrite app_length; lia).
      rewrite (skipn_all2 (n := y) (firstn a row ++ mid)) by (rewrite app_length; lia). cbn [firstn skipn app]. rewrite app_nil_r, <- app_assoc. f_equal.
      replace (skipn a row) with (firstn (y - a) (skipn a row) ++ skipn y row).
      2:{ rewrite <- (firstn_skipn (y - a) (skipn a row)) at 2. f_equal. rewrite skipn_twice. f_equal. lia. }
      replace (skipn a samps) with (firstn (y - a) (skipn a samps) ++ skipn y samps).
      2:{ rewrite <- (firstn_skipn (y - a) (skipn a samps)) at 2. f_equal. rewrite skipn_twice. f_equal. lia. }
      rewrite map_app, zip_app by (rewrite map_length, !firstn_length, !skipn_length; lia). reflexivity.
    + exact H.
    + rewrite !app_length, Lf, Lm, skipn_length. lia.
Qed.

Definition shaped {K} (n m : nat) (x : list (list K)) : Prop := length x = n /\ Forall (fun r => length r = m) x.
Lemma map_res_ok {A B} (f : A -> res B) (g : A -> B) l : (forall x, In x l -> f x = Ok (g x)) -> map_res f l = Ok (map g l).
Proof. induction l as [|x l IH]; intros H; [reflexivity|]. cbn [map_res map]. rewrite H by now left. cbn [bind]. rewrite IH by (intros; apply H; now right). reflexivity. Qed.
Section Value.
Context {K D S : Type} (o : ops K) (signal f : D -> S -> K).
Definition row_value (samps : list S) (noiseless : bool) (op : operation) (d : D) (old : list K) : list K :=
  let v := zip_with (apply_op o op) old (map (signal d) samps) in if noiseless then v else zip_with (kadd o) v (map (f d) samps).
Lemma combine_length_eq {A B} (a : list A) (b : list B) : length a = length b -> length (combine a b) = length a.
Proof. intros H. rewrite combine_length. lia. Qed.
Lemma map_combine {A B C} (h : A * B -> C) (g : A -> B) l : map h (combine l (map g l)) = map (fun x => h (x, g x)) l.
Proof. induction l as [|x l IH]; [reflexivity|]. cbn. now rewrite IH. Qed.
Lemma combine_map_r {A B C} (g : B -> C) (a : list A) b : combine a (map g b) = map (fun p => (fst p, g (snd p))) (combine a b).
Proof. revert b. induction a as [|x a IH]; intros [|y b]; [reflexivity..|]. cbn. now rewrite IH. Qed.
Lemma combine_swap {A B} (a : list A) (b : list B) : combine a b = map (fun p => (snd p, fst p)) (combine b a).
Proof. revert b. induction a as [|x a IH]; intros [|y b]; [reflexivity..|]. cbn. now rewrite IH. Qed.
Lemma noise_add dets samps bs x : chain 0 (length samps) bs -> shaped (length dets) (length samps) x ->
  get_noise o (Some f) dets samps bs x Iadd = Ok (map (fun p => zip_with (kadd o) (snd p) (map (f (fst p)) samps)) (combine dets x)).
Proof.
  intros C [L F]. unfold get_noise. apply map_res_ok. intros [d row] Hin. cbn [fst snd]. apply in_combine_r in Hin. rewrite Forall_forall in F.
  rewrite (noise_row_chain o f Iadd samps d bs 0 row C (F row Hin)). reflexivity.
Qed.
Lemma observation_value dets samps bs noiseless x op : chain 0 (length samps) bs -> shaped (length dets) (length samps) x ->
  get_observation o signal (Some f) dets samps bs noiseless (Some x) op = Ok (map (fun p => row_value samps noiseless op (fst p) (snd p)) (combine dets x)).
Proof.
  intros C [L F]. unfold get_observation. cbv zeta.
  assert (Hx : map (signal_row signal samps bs) dets = map (fun d => map (signal d) samps) dets) by (apply map_ext; intros d; now rewrite (signal_row_chain signal samps d bs 0 C)). rewrite Hx.
  rewrite map_length, L, Nat.eqb_refl. cbn [andb]. rewrite combine_map_r, (combine_swap x dets), !map_map. cbn [fst snd].
  rewrite (proj2 (forallb_forall _ _)).
  2:{ intros q Hq. apply in_map_iff in Hq. destruct Hq as ([d row] & <- & Hin). cbn [fst snd]. apply in_combine_r in Hin. rewrite Forall_forall in F. rewrite map_length, (F row Hin). apply Nat.eqb_refl. }
  cbn [bind]. destruct noiseless; [reflexivity|].
  rewrite noise_add; [|exact C|].
  - f_equal. rewrite combine_map_r, map_map. cbn [fst snd].
    clear Hx C F. revert x L. induction dets as [|d dets IH]; intros [|row x] L; try easy. cbn [combine map fst snd]. f_equal. apply IH. cbn in L. lia.
  - split; [rewrite map_length; apply combine_length_eq; lia|]. rewrite Forall_forall in *. intros r Hr. apply in_map_iff in Hr. destruct Hr as ([d row] & <- & Hin). cbn [fst snd]. apply in_combine_r in Hin.
    rewrite zip_length; rewrite (F row Hin); [reflexivity|]. now rewrite map_length.
Qed.
Lemma observation_new dets samps bs noiseless : chain 0 (length samps) bs ->
  get_observation o signal (Some f) dets samps bs noiseless None Assign =
  Ok (map (fun d => if noiseless then map (signal d) samps else zip_with (kadd o) (map (signal d) samps) (map (f d) samps)) dets).
Proof.
  intros C. unfold get_observation. cbv zeta.
  assert (Hx : map (signal_row signal samps bs) dets = map (fun d => map (signal d) samps) dets) by (apply map_ext; intros d; now rewrite (signal_row_chain signal samps d bs 0 C)). rewrite Hx.
  cbn [bind]. destruct noiseless; [reflexivity|]. rewrite noise_add; [|exact C|].
  - f_equal. now rewrite map_combine.
  - split; [now rewrite map_length|]. apply Forall_forall. intros r Hr. apply in_map_iff in Hr. destruct Hr as (d & <- & _). now rewrite map_length.
Qed.
Lemma zip_nth (g : K -> K -> K) a b j x y : nth_error a j = Some x -> nth_error b j = Some y -> nth_error (zip_with g a b) j = Some (g x y).
Proof. revert b j. induction a as [|u a IH]; intros [|v b] [|j] Hx Hy; try easy; cbn in *; [now injection Hx as ->; injection Hy as ->|now apply IH]. Qed.
End Value.

(** Value of the detector i and the sampling j. *)
Definition value {K} (r : list (list K)) (i j : nat) : option K := match nth_error r i with Some row => nth_error row j | None => None end.
Lemma value_map {K A} (f : A -> list K) l i j x : nth_error l i = Some x -> value (map f l) i j = nth_error (f x) j.
Proof. intros H. unfold value. now rewrite (map_nth_error f i l H). Qed.
Lemma combine_nth_error {A B} (a : list A) (b : list B) i x y : nth_error a i = Some x -> nth_error b i = Some y -> nth_error (combine a b) i = Some (x, y).
Proof. revert b i. induction a as [|u a IH]; intros [|v b] [|i] Ha Hb; try easy; cbn in *; [now injection Ha as ->; injection Hb as ->|now apply IH]. Qed.

(** For consecutive blocks: the observation in a new table, replacing a table, or added to it. *)
Theorem C97_observation_partial {K D S} (o : ops K) (R : ring_laws o) (signal noise : D -> S -> K) dets samps bs out op :
  chain 0 (length samps) bs -> op = Assign \/ op = Iadd -> shaped (length dets) (length samps) out ->
  exists r q, get_observation o signal (Some noise) dets samps bs false (Some out) op = Ok r /\
    get_observation o signal (Some noise) dets samps bs false None Assign = Ok q /\
    shaped (length dets) (length samps) r /\ shaped (length dets) (length samps) q /\
    forall i j d s old, nth_error dets i = Some d -> nth_error samps j = Some s -> value out i j = Some old ->
      value r i j = Some (observed o signal noise op d s old) /\ value q i j = Some (kadd o (signal d s) (noise d s)).
Proof.
  intros C Hop Sh. eexists _, _. split; [now apply observation_value|]. split; [now apply observation_new|]. destruct Sh as [L F].
  split; [|split].
  - split; [rewrite map_length; apply combine_length_eq; lia|]. rewrite Forall_forall in *. intros r Hr. apply in_map_iff in Hr. destruct Hr as ([d row] & <- & Hin). cbn [fst snd]. apply in_combine_r in Hin.
    unfold row_value. rewrite !zip_length; rewrite ?map_length; rewrite ?zip_length; rewrite ?map_length; now apply F.
  - split; [now rewrite map_length|]. apply Forall_forall. intros r Hr. apply in_map_iff in Hr. destruct Hr as (d & <- & _). rewrite zip_length; now rewrite !map_length.
  - intros i j d s old Hd Hs Ho. unfold value in Ho. destruct (nth_error out i) as [row|] eqn:Er; [|discriminate]. split.
    + rewrite (value_map _ _ i j _ (combine_nth_error _ _ _ _ _ Hd Er)). cbn [fst snd]. unfold row_value.
      erewrite zip_nth; [|eapply zip_nth; [exact Ho|exact (map_nth_error (signal d) j samps Hs)]|exact (map_nth_error (noise d) j samps Hs)].
      f_equal. unfold observed. destruct Hop as [-> | ->]; cbn [apply_op]; [reflexivity|]. symmetry. apply (Radd_assoc R).
    + rewrite (value_map _ _ i j _ Hd). apply zip_nth; [exact (map_nth_error (signal d) j samps Hs)|exact (map_nth_error (noise d) j samps Hs)].
Qed.
Print Assumptions C97_observation_partial.
Example C97_observation_case : get_observation z_ops (fun d s => 10 * d + s)%Z (Some (fun d s => 100 * s)%Z) [1; 2]%Z [5; 6; 7]%Z [(0, 2); (2, 3)] false (Some [[1; 1; 1]; [2; 2; 2]]%Z) Iadd
  = Ok [[516; 617; 718]; [527; 628; 729]]%Z /\ chain 0 3 [(0, 2); (2, 3)].
Proof. split; [reflexivity|cbn; lia]. Qed.
(** Without noise, every operation. *)
Theorem C97_noiseless {K D S} (o : ops K) (signal f : D -> S -> K) dets samps bs out op :
  chain 0 (length samps) bs -> shaped (length dets) (length samps) out ->
  exists r, get_observation o signal (Some f) dets samps bs true (Some out) op = Ok r /\
    forall i j d s old, nth_error dets i = Some d -> nth_error samps j = Some s -> value out i j = Some old ->
      value r i j = Some (match op with Assign => signal d s | Iadd => kadd o old (signal d s) | Isub => kadd o old (kopp o (signal d s)) | Imul => kmul o old (signal d s) end).
Proof.
  intros C Sh. eexists. split; [now apply observation_value|]. intros i j d s old Hd Hs Ho. unfold value in Ho. destruct (nth_error out i) as [row|] eqn:Er; [|discriminate].
  rewrite (value_map _ _ i j _ (combine_nth_error _ _ _ _ _ Hd Er)). cbn [fst snd]. unfold row_value. erewrite zip_nth; [|exact Ho|exact (map_nth_error (signal d) j samps Hs)]. now destruct op.
Qed.
Print Assumptions C97_noiseless.
Example C97_noiseless_case : get_observation z_ops (fun d s => 10 * d + s)%Z (Some (fun d s => 100 * s)%Z) [1]%Z [5; 6]%Z [(0, 1); (1, 2)] true (Some [[1; 2]]%Z) Imul = Ok [[15; 32]]%Z.
Proof. reflexivity. Qed.
(** The operations other than the assignment and the addition are not applied to the noise. *)
Theorem C97_operation_refuted {D S} (signal noise : D -> S -> Z) dets samps bs out :
  chain 0 (length samps) bs -> shaped (length dets) (length samps) out ->
  exists r q, get_observation z_ops signal (Some noise) dets samps bs false (Some out) Isub = Ok r /\ get_observation z_ops signal (Some noise) dets samps bs false (Some out) Imul = Ok q /\
    forall i j d s old, nth_error dets i = Some d -> nth_error samps j = Some s -> value out i j = Some old -> (noise d s <> 0)%Z ->
      value r i j <> Some (observed z_ops signal noise Isub d s old) /\ (old <> 1%Z -> value q i j <> Some (observed z_ops signal noise Imul d s old)).
Proof.
  intros C Sh. eexists _, _. split; [now apply observation_value|]. split; [now apply observation_value|]. intros i j d s old Hd Hs Ho N. unfold value in Ho. destruct (nth_error out i) as [row|] eqn:Er; [|discriminate].
  rewrite !(value_map _ _ i j _ (combine_nth_error _ _ _ _ _ Hd Er)). cbn [fst snd]. unfold row_value.
  split; [|intros N1]; (erewrite zip_nth; [|eapply zip_nth; [exact Ho|exact (map_nth_error (signal d) j samps Hs)]|exact (map_nth_error (noise d) j samps Hs)]); cbn; intros E; injection E as E; [lia|].
  assert (E' : (noise d s * (1 - old) = 0)%Z) by lia. apply Z.mul_eq_0 in E'. lia.
Qed.
Print Assumptions C97_operation_refuted.
Example C97_operation_case : get_observation z_ops (fun d s => s)%Z (Some (fun d s => 100)%Z) [1]%Z [5]%Z [(0, 1)] false (Some [[1000]]%Z) Isub = Ok [[1095]]%Z.
Proof. reflexivity. Qed.
Lemma noise_block_at {K D S} (o : ops K) (f : D -> S -> K) op samps d b pre view post : length pre = fst b -> length view = snd b - fst b -> length (in_block samps b) = length view ->
  noise_block o f op samps d (pre ++ view ++ post) b = Ok (pre ++ zip_with (apply_op o op) view (map (f d) (in_block samps b)) ++ post).
Proof.
  intros Lp Lv Ln. unfold noise_block. rewrite <- Lv, <- Lp. rewrite skipn_app, skipn_all, Nat.sub_diag. cbn [skipn app]. rewrite firstn_app, firstn_all, Nat.sub_diag. cbn [firstn]. rewrite app_nil_r.
  rewrite map_length, Ln, Nat.eqb_refl. cbn [bind]. f_equal. rewrite firstn_app, firstn_all, Nat.sub_diag. cbn [firstn]. rewrite app_nil_r. f_equal. f_equal.
  rewrite app_assoc, <- app_length, skipn_app, skipn_all, Nat.sub_diag. reflexivity.
Qed.
(** A partition of the samplings whose blocks are not in increasing order: the model is in the order of the blocks, the noise in
    that of the samplings, so that samplings receive the noise of others. *)
Theorem C97_blocks_refuted {K D S} (o : ops K) (signal noise : D -> S -> K) d (l1 l2 : list S) : length l1 = length l2 ->
  let m := length l1 in
  get_observation o signal (Some noise) [d] (l1 ++ l2) [(m, m + m); (0, m)] false None Assign =
  Ok [zip_with (kadd o) (map (signal d) (l2 ++ l1)) (map (noise d) (l1 ++ l2))].
Proof.
  intros L m. assert (A : in_block (l1 ++ l2) (m, m + m) = l2).
  { unfold in_block. cbn [fst snd]. rewrite skipn_app, skipn_all2, Nat.sub_diag by (unfold m; lia). cbn [app skipn]. apply firstn_all2. unfold m. lia. }
  assert (B : in_block (l1 ++ l2) (0, m) = l1).
  { unfold in_block. cbn [fst snd skipn]. rewrite Nat.sub_0_r. unfold m. rewrite firstn_app, Nat.sub_diag, firstn_all. cbn. apply app_nil_r. }
  unfold get_observation, signal_row. cbn [map concat]. rewrite A, B, app_nil_r. cbn [bind get_noise combine map_res fst snd]. unfold noise_row. cbn [fold_left bind].
  pose proof (noise_block_at o noise Iadd (l1 ++ l2) d (m, m + m) (map (signal d) l2) (map (signal d) l1) []) as N1. rewrite app_nil_r in N1. rewrite N1; rewrite ?A, ?map_length; cbn [fst snd]; try lia. cbn [bind].
  pose proof (noise_block_at o noise Iadd (l1 ++ l2) d (0, m) [] (map (signal d) l2)) as N2. cbn [app] in N2. rewrite N2; rewrite ?B, ?map_length; cbn [fst snd length]; try lia. cbn [bind]. rewrite !map_app, zip_app by (rewrite !map_length; lia). now rewrite app_nil_r.
Qed.
Print Assumptions C97_blocks_refuted.
Example C97_blocks_case : get_observation z_ops (fun d s => s)%Z (Some (fun d s => 10 * s)%Z) [1]%Z [1; 2; 3; 4]%Z [(2, 4); (0, 2)] false None Assign = Ok [[13; 24; 31; 42]]%Z.
Proof. reflexivity. Qed.
(** The classes that do not define get_noise with a default: no observation unless noiseless. *)
Theorem C97_no_noise_model_refuted {K D S} (o : ops K) (signal : D -> S -> K) dets samps b bs :
  get_observation o signal None dets samps (b :: bs) false None Assign = Err ValueError /\ exists r, get_observation o signal None dets samps (b :: bs) true None Assign = Ok r.
Proof. split; [reflexivity|eexists; reflexivity]. Qed.
Print Assumptions C97_no_noise_model_refuted.
(** A missing value given to the unpack of an acquisition is ignored. *)
Theorem C97_unpack_refuted {A} (default : A) t x garbage : (forall m m', acq_unpack default t x m garbage = acq_unpack default t x m' garbage) /\
  forall a b c v, acq_unpack default (Table [3%Z] (IArr [0; 2]%Z) []) [a; b] (Some v) [c; c; c] = Ok [a; default; b] /\ unpack (Table [3%Z] (IArr [0; 2]%Z) []) [a; b] v [c; c; c] = Ok [a; v; b].
Proof. split; [reflexivity|]. intros a b c v. split; reflexivity. Qed.
Print Assumptions C97_unpack_refuted.
Example C97_unpack_case : acq_unpack 0%Z (Table [3%Z] (IArr [0; 2]%Z) []) [7; 8]%Z (Some (-1)%Z) [9; 9; 9]%Z = Ok [7; 0; 8]%Z.
Proof. reflexivity. Qed.
