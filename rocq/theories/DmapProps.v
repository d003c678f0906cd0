(** C108: operators of distributed acquisitions. *)
From Coq Require Import Lia Permutation Ring.
From Verif Require Import Base BaseFacts SparseModel SparseSpec RingFacts DcommModel DcommProps DmapModel.
From Verif Require AcqModel AcqSpec ObsProps.
Open Scope nat_scope.

Section Spec.
Context {K : Type} (o : ops K) (resp : nat -> nat -> nat -> K) (npix : nat).
(** The response of each detector at each sampling to the sky, and the sky that sees each value once. *)
Definition seen (x : list K) (d s : nat) : K := bigsum o npix (fun p => kmul o (resp d s p) (nth p x (k0 o))).
Definition array (dets samps : list nat) (f : nat -> nat -> K) : list (list K) := map (fun d => map (f d) samps) dets.
Definition pixel (dets samps : list nat) (f : nat -> nat -> K) (p : nat) : K :=
  sum_over o dets (fun d => sum_over o samps (fun s => kmul o (resp d s p) (f d s))).
End Spec.
(** The blocks follow each other up to the number of samplings at least: slices of the whole sampling will do. *)
Definition tiles (bs : list (nat * nat)) (n : nat) : Prop := exists m, n <= m /\ AcqSpec.chain 0 m bs.

Lemma blocks_chain (samps : list nat) bs a m : length samps <= m -> AcqSpec.chain a m bs -> concat (map (AcqModel.in_block samps) bs) = skipn a samps.
Proof.
  intros L. revert a. induction bs as [|[x y] bs IH]; intros a H; cbn [AcqSpec.chain] in H.
  - subst a. now rewrite skipn_all2.
  - destruct H as (-> & Hay & H). cbn [map concat]. rewrite (IH _ H). unfold AcqModel.in_block. cbn [fst snd].
    replace (skipn y samps) with (skipn (y - a) (skipn a samps)) by (rewrite ObsProps.skipn_twice; f_equal; lia). apply firstn_skipn.
Qed.
Lemma tiles_blocks (samps : list nat) bs : tiles bs (length samps) -> concat (map (AcqModel.in_block samps) bs) = samps.
Proof. intros (m & L & H). exact (blocks_chain samps bs 0 m L H). Qed.
Lemma map_concat_blocks {A B} (f : A -> B) l : map f (concat l) = concat (map (map f) l).
Proof. induction l as [|x l IH]; [reflexivity|]. cbn. now rewrite map_app, IH. Qed.
Lemma combine_maps {A B} (f : A -> B) l : combine l (map f l) = map (fun x => (x, f x)) l.
Proof. induction l as [|x l IH]; [reflexivity|]. cbn. now rewrite IH. Qed.

(** ** Shares of the processes *)
Lemma pieces_concat n m k : k <= m -> 0 < m -> concat (map (piece n m) (seq 0 k)) = seq 0 (Z.to_nat (split_start (Z.of_nat n) (Z.of_nat m) (Z.of_nat k))).
Proof.
  intros L M. induction k as [|k IH]; [cbn; rewrite split_start_0 by lia; reflexivity|].
  rewrite seq_S, map_app, concat_app, IH by lia. cbn [map concat Nat.add]. rewrite app_nil_r. unfold piece. cbn zeta.
  pose proof (BaseFacts.split_start_mono (Z.of_nat n) (Z.of_nat m) (Z.of_nat k) ltac:(lia) ltac:(lia)) as A.
  replace (Z.of_nat (S k)) with (Z.of_nat k + 1)%Z by lia. set (a := split_start _ _ (Z.of_nat k)) in *. set (b := split_start _ _ (Z.of_nat k + 1)) in *.
  change (seq (Z.to_nat a)) with (seq (0 + Z.to_nat a)). rewrite <- seq_app. f_equal. lia.
Qed.
Lemma shares_all n m : 0 < m -> concat (map (share n m) (seq 0 m)) = seq 0 n.
Proof.
  intros M. replace (map (share n m) (seq 0 m)) with (map (piece n m) (seq 0 m)).
  - rewrite pieces_concat by lia. rewrite split_start_m by lia. f_equal. lia.
  - apply map_ext_in. intros r R. apply in_seq in R. apply piece_share. lia.
Qed.

Section Proofs.
Context {K : Type} (o : ops K) (RL : ring_laws o) (resp : nat -> nat -> nat -> K) (npix : nat).
Let RT : ring_theory (k0 o) (k1 o) (kadd o) (kmul o) (fun a b => kadd o a (kopp o b)) (kopp o) eq := RL.
Add Ring Kring : RT.
Lemma value_seen x d s : value o resp npix x d s = seen o resp npix x d s.
Proof. unfold value, seen. apply (ksum_map_seq o RL). Qed.
Lemma direct_array dets samps bs x : tiles bs (length samps) -> direct o resp npix dets samps bs x = array dets samps (seen o resp npix x).
Proof.
  intros T. unfold direct, array. apply map_ext. intros d. transitivity (map (seen o resp npix x d) (concat (map (AcqModel.in_block samps) bs))); [|now rewrite (tiles_blocks samps bs T)].
  rewrite map_concat_blocks, map_map. f_equal.
  apply map_ext. intros b. apply map_ext. intros s. apply value_seen.
Qed.
Lemma nth_map_seq (f : nat -> K) p : p < npix -> nth p (map f (seq 0 npix)) (k0 o) = f p.
Proof. intros H. rewrite (nth_indep _ _ (f 0)) by (now rewrite map_length, seq_length). rewrite map_nth, seq_nth by exact H. reflexivity. Qed.
Lemma vec_add_map f g : vec_add o npix (map f (seq 0 npix)) (map g (seq 0 npix)) = map (fun p => kadd o (f p) (g p)) (seq 0 npix).
Proof. unfold vec_add. apply map_ext_in. intros p P. apply in_seq in P. rewrite !nth_map_seq by lia. reflexivity. Qed.
Lemma back_block_pixel dets samps f : back_block o resp npix dets samps (array dets samps f) = map (pixel o resp dets samps f) (seq 0 npix).
Proof.
  unfold back_block, array, pixel. apply map_ext. intros p. rewrite combine_maps, map_map. cbn [fst snd].
  rewrite (ksum_sum_over o), (sum_over_map o). apply (sum_over_ext o). intros d _. rewrite combine_maps, map_map. cbn [fst snd].
  rewrite (ksum_sum_over o), (sum_over_map o). reflexivity.
Qed.
Lemma back_from_pixel dets samps f bs a m : length samps <= m -> AcqSpec.chain a m bs ->
  back_from o resp npix dets samps bs (array dets (skipn a samps) f) = map (pixel o resp dets (skipn a samps) f) (seq 0 npix).
Proof.
  intros L. revert a. induction bs as [|[x y] bs IH]; intros a H; cbn [AcqSpec.chain] in H.
  - subst a. rewrite skipn_all2 by exact L. cbn [back_from]. unfold vec_0.
    assert (E : forall n b, repeat (k0 o) n = map (fun _ : nat => k0 o) (seq b n)) by (induction n as [|n IHn]; intros b; [reflexivity|]; cbn; now rewrite (IHn (S b))).
    rewrite (E npix 0). apply map_ext. intros p. symmetry. unfold pixel. apply (sum_over_0 o RL). reflexivity.
  - destruct H as (-> & Hay & H). cbn [back_from]. cbn zeta. unfold AcqModel.in_block. cbn [fst snd].
    set (u := firstn (y - a) (skipn a samps)).
    assert (U : skipn a samps = u ++ skipn y samps).
    { unfold u. replace (skipn y samps) with (skipn (y - a) (skipn a samps)) by (rewrite ObsProps.skipn_twice; f_equal; lia). now rewrite firstn_skipn. }
    rewrite U. unfold array at 1 2. rewrite !map_map.
    rewrite (map_ext (fun d => firstn (length u) (map (f d) (u ++ skipn y samps))) (fun d => map (f d) u)).
    2:{ intros d. rewrite map_app, firstn_app, map_length, Nat.sub_diag. cbn [firstn]. rewrite app_nil_r. apply firstn_all2. rewrite map_length. lia. }
    rewrite (map_ext (fun d => skipn (length u) (map (f d) (u ++ skipn y samps))) (fun d => map (f d) (skipn y samps))).
    2:{ intros d. rewrite map_app, skipn_app, map_length, Nat.sub_diag. cbn [skipn]. rewrite skipn_all2; [reflexivity|]. rewrite map_length. lia. }
    change (map (fun d => map (f d) u) dets) with (array dets u f). change (map (fun d => map (f d) (skipn y samps)) dets) with (array dets (skipn y samps) f).
    rewrite back_block_pixel, (IH _ H), vec_add_map. apply map_ext. intros p. unfold pixel. rewrite <- (sum_over_add o RL). apply (sum_over_ext o).
    intros d _. rewrite (sum_over_app o RL). reflexivity.
Qed.
Lemma back_pixel dets samps f bs : tiles bs (length samps) -> back_from o resp npix dets samps bs (array dets samps f) = map (pixel o resp dets samps f) (seq 0 npix).
Proof. intros (m & L & H). exact (back_from_pixel dets samps f bs 0 m L H). Qed.
Lemma reduce_sum (g : nat -> nat -> K) t : reduce o npix (fun q => map (g q) (seq 0 npix)) t = map (fun p => sum_over o (leaves t) (fun q => g q p)) (seq 0 npix).
Proof.
  induction t as [q|a IHa b IHb]; cbn [reduce leaves].
  - apply map_ext. intros p. cbn [sum_over]. ring.
  - rewrite IHa, IHb, vec_add_map. apply map_ext. intros p. symmetry. apply (sum_over_app o RL).
Qed.
Lemma reduce_ext (f g : nat -> list K) t : (forall q, In q (leaves t) -> f q = g q) -> reduce o npix f t = reduce o npix g t.
Proof. induction t as [q|a IHa b IHb]; cbn [reduce leaves]; intros H; [apply H; now left|]. rewrite IHa, IHb; auto; intros q Q; apply H, in_or_app; auto. Qed.

(** Sum over the processes of a grid. *)
Lemma grid_sum ni ns nd n (f : nat -> nat -> K) : 0 < ni -> 0 < ns ->
  sum_over o (seq 0 (ni * ns)) (fun q => sum_over o (share nd ni (q mod ni)) (fun d => sum_over o (share n ns (q / ni)) (f d))) =
  bigsum o nd (fun d => bigsum o n (f d)).
Proof.
  intros Ni Ns. rewrite (sum_over_seq o RL). cbn [Nat.add]. rewrite Nat.mul_comm, (bigsum_blocks o RL).
  transitivity (bigsum o ns (fun j => bigsum o ni (fun i => sum_over o (share nd ni i) (fun d => sum_over o (share n ns j) (f d))))).
  { apply (bigsum_ext o). intros j J. apply (bigsum_ext o). intros i I. rewrite Nat.add_comm, Nat.mod_add, Nat.mod_small by lia.
    rewrite Nat.div_add, Nat.div_small by lia. reflexivity. }
  rewrite (bigsum_swap o RL).
  transitivity (bigsum o ni (fun i => sum_over o (share nd ni i) (fun d => sum_over o (seq 0 n) (f d)))).
  { apply (bigsum_ext o). intros i I. rewrite <- (sum_over_bigsum_swap o RL). apply (sum_over_ext o). intros d _.
    rewrite <- (shares_all n ns Ns), (sum_over_concat o RL), (sum_over_map o), (sum_over_seq o RL). reflexivity. }
  transitivity (sum_over o (seq 0 nd) (fun d => sum_over o (seq 0 n) (f d))).
  { rewrite <- (shares_all nd ni Ni), (sum_over_concat o RL), (sum_over_map o), (sum_over_seq o RL). reflexivity. }
  rewrite (sum_over_seq o RL). apply (bigsum_ext o). intros d _. rewrite (sum_over_seq o RL). reflexivity.
Qed.
(** Arrays put together. *)
Lemma hstack_hd (l : list (list (list K))) : hstack l = map (fun k => concat (map (fun m => nth k m []) l)) (seq 0 (length (hd [] l))).
Proof. destruct l; reflexivity. Qed.
Lemma hstack_arrays dets (ls : list (list nat)) (f : nat -> nat -> K) : ls <> [] -> hstack (map (fun l => array dets l f) ls) = array dets (concat ls) f.
Proof.
  intros N. rewrite hstack_hd. replace (length (hd [] (map (fun l => array dets l f) ls))) with (length dets) by (destruct ls; [congruence|]; cbn; unfold array; now rewrite map_length).
  revert N. generalize ls as L. intros L N.
  transitivity (map (fun k => map (f (nth k dets 0)) (concat L)) (seq 0 (length dets))).
  - apply map_ext_in. intros k Hk. apply in_seq in Hk. rewrite map_map, map_concat_blocks. f_equal. apply map_ext. intros l. unfold array.
    rewrite (nth_indep _ _ (map (f 0) l)) by (rewrite map_length; lia). rewrite (map_nth (fun d => map (f d) l)). reflexivity.
  - unfold array. clear N. assert (G : forall dets : list nat, map (fun k => map (f (nth k dets 0)) (concat L)) (seq 0 (length dets)) = map (fun d => map (f d) (concat L)) dets).
    { induction dets0 as [|d ds IH]; [reflexivity|]. cbn [length seq map nth]. f_equal. rewrite <- seq_shift, map_map. exact IH. }
    apply G.
Qed.
Lemma assemble_arrays ni ns nd n (f : nat -> nat -> K) : 0 < ni -> 0 < ns ->
  assemble ni ns (fun q => array (share nd ni (q mod ni)) (share n ns (q / ni)) f) = array (seq 0 nd) (seq 0 n) f.
Proof.
  intros Ni Ns. unfold assemble.
  transitivity (concat (map (fun i => array (share nd ni i) (seq 0 n) f) (seq 0 ni))).
  - f_equal. apply map_ext_in. intros i I. apply in_seq in I.
    transitivity (array (share nd ni i) (concat (map (share n ns) (seq 0 ns))) f); [|now rewrite shares_all]. rewrite <- hstack_arrays by (destruct ns; [lia|discriminate]). f_equal. rewrite map_map. apply map_ext_in. intros j J.
    rewrite (Nat.add_comm (j * ni)), Nat.mod_add, Nat.mod_small, Nat.div_add, Nat.div_small by lia. reflexivity.
  - transitivity (array (concat (map (share nd ni) (seq 0 ni))) (seq 0 n) f); [|now rewrite shares_all]. unfold array. rewrite map_concat_blocks, map_map. reflexivity.
Qed.
End Proofs.

(** ** C108 *)
(** What a process of the grid holds. *)
Definition held (ni ns nd n : nat) (bs : nat -> list (nat * nat)) (q : nat) : list nat * list nat * list (nat * nat) :=
  (share nd ni (q mod ni), share n ns (q / ni), bs q).
(** The observations of the processes, put together, are those of one process. *)
Theorem C108_direct : forall K (o : ops K) resp npix ni ns nd n bs bs0 scene x, ring_laws o -> 0 < ni -> 0 < ns -> length scene <= 1 ->
  (forall q, q < ni * ns -> tiles (bs q) (length (share n ns (q / ni)))) -> tiles bs0 n ->
  exists local, (forall q, q < ni * ns -> apply o resp npix scene (held ni ns nd n bs) x q = Ok (local q)) /\
    apply o resp npix scene (fun _ => (seq 0 nd, seq 0 n, bs0)) x 0 = Ok (assemble ni ns local) /\
    assemble ni ns local = array (seq 0 nd) (seq 0 n) (seen o resp npix x).
Proof.
  intros K o resp npix ni ns nd n bs bs0 scene x RL Ni Ns C T T0.
  exists (fun q => array (share nd ni (q mod ni)) (share n ns (q / ni)) (seen o resp npix x)). unfold apply, held, distribute.
  rewrite (proj2 (Nat.ltb_ge _ _)) by lia. cbn [bind]. split; [|split].
  - intros q Q. rewrite (direct_array o RL) by auto. reflexivity.
  - rewrite (direct_array o RL) by (now rewrite seq_length). rewrite (assemble_arrays resp ni ns nd n _ Ni Ns). reflexivity.
  - apply (assemble_arrays resp); auto.
Qed.
Print Assumptions C108_direct.
(** The map that each process obtains from the transpose is the map of one process, in whatever order the processes are added. *)
Theorem C108_transpose : forall K (o : ops K) resp npix ni ns nd n bs bs0 scene f t, ring_laws o -> 0 < ni -> 0 < ns -> length scene <= 1 ->
  (forall q, q < ni * ns -> tiles (bs q) (length (share n ns (q / ni)))) -> tiles bs0 n -> Permutation (leaves t) (seq 0 (ni * ns)) ->
  let local := fun q => array (share nd ni (q mod ni)) (share n ns (q / ni)) f in
  apply_transpose o resp npix scene (held ni ns nd n bs) local t =
    apply_transpose o resp npix scene (fun _ => (seq 0 nd, seq 0 n, bs0)) (fun _ => array (seq 0 nd) (seq 0 n) f) (Leaf 0) /\
  apply_transpose o resp npix scene (held ni ns nd n bs) local t =
    Ok (map (fun p => bigsum o nd (fun d => bigsum o n (fun s => kmul o (resp d s p) (f d s)))) (seq 0 npix)).
Proof.
  intros K o resp npix ni ns nd n bs bs0 scene f t RL Ni Ns C T T0 P local. unfold apply_transpose, held, distribute. rewrite (proj2 (Nat.ltb_ge _ _)) by lia. cbn [bind].
  assert (A : reduce o npix (fun q => back_from o resp npix (share nd ni (q mod ni)) (share n ns (q / ni)) (bs q) (local q)) t =
              map (fun p => bigsum o nd (fun d => bigsum o n (fun s => kmul o (resp d s p) (f d s)))) (seq 0 npix)).
  { rewrite (reduce_ext o npix _ (fun q => map (pixel o resp (share nd ni (q mod ni)) (share n ns (q / ni)) f) (seq 0 npix))).
    2:{ intros q Q. apply (Permutation_in _ P), in_seq in Q. apply (back_pixel o RL). apply T. lia. }
    rewrite (reduce_sum o RL resp npix (fun q => pixel o resp (share nd ni (q mod ni)) (share n ns (q / ni)) f)). apply map_ext. intros p.
    rewrite (sum_over_perm o RL _ _ _ P). unfold pixel. apply (grid_sum o RL resp ni ns nd n (fun d s => kmul o (resp d s p) (f d s)) Ni Ns). }
  split; [|now rewrite A]. rewrite A. cbn [reduce]. rewrite (back_pixel o RL) by (now rewrite seq_length). f_equal. unfold pixel.
  apply map_ext. intros p. symmetry. rewrite (sum_over_seq o RL). apply (bigsum_ext o). intros d _. rewrite (sum_over_seq o RL). reflexivity.
Qed.
Print Assumptions C108_transpose.
(** It is the adjoint, for the scalar product summed over the processes. *)
Theorem C108_adjoint : forall K (o : ops K) resp npix ni ns nd n bs scene x f t m, ring_laws o -> 0 < ni -> 0 < ns -> length scene <= 1 ->
  (forall q, q < ni * ns -> tiles (bs q) (length (share n ns (q / ni)))) -> Permutation (leaves t) (seq 0 (ni * ns)) ->
  apply_transpose o resp npix scene (held ni ns nd n bs) (fun q => array (share nd ni (q mod ni)) (share n ns (q / ni)) f) t = Ok m ->
  sum_over o (seq 0 (ni * ns)) (fun q => sum_over o (share nd ni (q mod ni)) (fun d => sum_over o (share n ns (q / ni)) (fun s => kmul o (seen o resp npix x d s) (f d s)))) =
  bigsum o npix (fun p => kmul o (nth p x (k0 o)) (nth p m (k0 o))).
Proof.
  intros K o resp npix ni ns nd n bs scene x f t m RL Ni Ns C T P E.
  destruct (C108_transpose K o resp npix ni ns nd n bs [(0, n)] scene f t RL Ni Ns C T) as [_ A]; auto.
  { exists n. split; [lia|]. cbn. lia. }
  rewrite A in E. injection E as <-. rewrite (grid_sum o RL resp ni ns nd n (fun d s => kmul o (seen o resp npix x d s) (f d s)) Ni Ns).
  transitivity (bigsum o npix (fun p => bigsum o nd (fun d => bigsum o n (fun s => kmul o (nth p x (k0 o)) (kmul o (resp d s p) (f d s)))))).
  2:{ apply (bigsum_ext o). intros p Hp. rewrite (nth_map_seq o npix) by exact Hp. rewrite <- (bigsum_mul_l o RL). apply (bigsum_ext o). intros d _.
      rewrite <- (bigsum_mul_l o RL). reflexivity. }
  symmetry. rewrite (bigsum_swap o RL). apply (bigsum_ext o). intros d _. rewrite (bigsum_swap o RL). apply (bigsum_ext o). intros s _.
  symmetry. unfold seen. rewrite <- (bigsum_mul_r o RL). apply (bigsum_ext o). intros p _.
  destruct RL as [_ _ _ _ Cm As _ _ _]. rewrite (Cm (resp d s p) (nth p x (k0 o))), As. reflexivity.
Qed.
Print Assumptions C108_adjoint.
(** A distributed scene is refused. *)
Theorem C108_scene : forall K (o : ops K) resp npix scene h x y rank t, 2 <= length scene ->
  apply o resp npix scene h x rank = Err ValueError /\ apply_transpose o resp npix scene h y t = Err ValueError.
Proof. intros K o resp npix scene h x y rank t L. unfold apply, apply_transpose, distribute. rewrite (proj2 (Nat.ltb_lt _ _)) by lia. split; reflexivity. Qed.
Print Assumptions C108_scene.
(** An acquisition whose detectors or samplings have been selected: the map is that of what the processes of its communicator hold. *)
Theorem C108_selected : forall K (o : ops K) resp npix scene h (y : nat -> list (list K)) f comm t, ring_laws o -> length scene <= 1 -> Permutation (leaves t) comm ->
  (forall q, In q comm -> let '(dets, samps, bs) := h q in tiles bs (length samps) /\ y q = array dets samps f) ->
  apply_transpose o resp npix scene h y t =
    Ok (map (fun p => sum_over o comm (fun q => let '(dets, samps, _) := h q in pixel o resp dets samps f p)) (seq 0 npix)).
Proof.
  intros K o resp npix scene h y f comm t RL C P H. unfold apply_transpose, distribute. rewrite (proj2 (Nat.ltb_ge _ _)) by lia. cbn [bind]. f_equal.
  rewrite (reduce_ext o npix _ (fun q => map (fun p => let '(dets, samps, _) := h q in pixel o resp dets samps f p) (seq 0 npix))).
  - rewrite (reduce_sum o RL resp npix (fun q p => let '(dets, samps, _) := h q in pixel o resp dets samps f p)). apply map_ext. intros p. apply (sum_over_perm o RL _ _ _ P).
  - intros q Q. specialize (H q (Permutation_in _ P Q)). destruct (h q) as [[dets samps] bs]. destruct H as [T ->]. apply (back_pixel o RL), T.
Qed.
Print Assumptions C108_selected.
(** Two processes for the detectors, two for the samplings: three detectors, three samplings, blocks of the whole sampling. *)
Definition resp0 (d s p : nat) : Z := if p =? (d + s) mod 3 then Z.of_nat (d + 1) else 0%Z.
Definition f0 (d s : nat) : Z := Z.of_nat (10 * d + s).
Definition bs0 (q : nat) : list (nat * nat) := [(0, 1); (1, 3)].
Example C108_example : ring_laws z_ops /\ (forall q, q < 4 -> tiles (bs0 q) (length (share 3 2 (q / 2)))) /\
  Permutation (leaves (Node (Node (Leaf 3) (Leaf 0)) (Node (Leaf 1) (Leaf 2)))) (seq 0 4) /\
  map (fun q => apply z_ops resp0 3 [0] (held 2 2 3 3 bs0) [1; 10; 100]%Z q) (seq 0 4) =
    [Ok [[1; 10]; [20; 200]]; Ok [[300; 3]]; Ok [[100]; [2]]; Ok [[30]]]%Z /\
  apply_transpose z_ops resp0 3 [0] (held 2 2 3 3 bs0) (fun q => array (share 3 2 (q mod 2)) (share 3 2 (q / 2)) f0) (Node (Node (Leaf 3) (Leaf 0)) (Node (Leaf 1) (Leaf 2))) = Ok [87; 87; 84]%Z.
Proof.
  split; [exact z_ring|]. split.
  { intros q Q. exists 3. split; [|cbn; lia]. do 4 (destruct q as [|q]; [vm_compute; lia|]). lia. }
  split; [|split; vm_compute; reflexivity].
  cbn. apply Permutation_sym. apply (Permutation_trans (l' := [3; 0; 1; 2])); [|reflexivity].
  apply (Permutation_trans (l' := [0; 3; 1; 2])); [|constructor]. apply perm_skip. apply (Permutation_trans (l' := [1; 3; 2])); [apply perm_skip, perm_swap|apply perm_swap].
Qed.
(** The processes then have different maps, each of its own detectors: the selection [acq[:1]] is not that of the first detector. *)
Theorem C108_selected_refuted : exists st st' a b m m', program 2 1 4 3 0 [(0, Range 0 1, Colon)] = Ok st /\ program 2 1 4 3 1 [(0, Range 0 1, Colon)] = Ok st' /\
  nth_error (acqs st) 1 = Some a /\ nth_error (acqs st') 1 = Some b /\ a_comm a = [0] /\ a_comm b = [1] /\
  let h := fun st x => (match nth_error (tabs st) (a_det x) with Some t => elems t | None => [] end, match nth_error (tabs st) (a_samp x) with Some t => elems t | None => [] end, [(0, 3)]) in
  apply_transpose z_ops resp0 3 [0] (fun _ => h st a) (fun _ => array (fst (fst (h st a))) (snd (fst (h st a))) f0) (Leaf 0) = Ok m /\
  apply_transpose z_ops resp0 3 [0] (fun _ => h st' b) (fun _ => array (fst (fst (h st' b))) (snd (fst (h st' b))) f0) (Leaf 1) = Ok m' /\
  m <> m' /\ fst (fst (h st a)) = [0] /\ fst (fst (h st' b)) = [2].
Proof. do 6 eexists. repeat split; try (vm_compute; reflexivity). vm_compute. discriminate. Qed.
Print Assumptions C108_selected_refuted.
