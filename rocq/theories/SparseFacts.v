(** The kernels compute the product by the dense matrix. *)
From Coq Require Import Lia Permutation Ring.
From Verif Require Import Base BaseFacts SparseModel SparseSpec RingFacts SparseExecFacts.
Open Scope nat_scope.

(** ** Lists of options *)
Lemma concat_opt_some {A} (l : list (option (list A))) (r : list (list A)) :
  l = map Some r -> concat_opt l = Some (concat r).
Proof. intros ->. induction r; cbn; [reflexivity|]. rewrite IHr; reflexivity. Qed.

Lemma all_opt_some {A} (l : list (option A)) (r : list A) : l = map Some r -> all_opt l = Some r.
Proof. intros ->. induction r; cbn; [reflexivity|]. rewrite IHr; reflexivity. Qed.

Lemma mapi_map {A B C} (g : nat -> A -> B) (h : B -> C) i l :
  map h (mapi g i l) = mapi (fun k a => h (g k a)) i l.
Proof. revert i; induction l; intros; cbn; [reflexivity|]. rewrite IHl; reflexivity. Qed.

Lemma mapi_ext {A B} (g h : nat -> A -> B) i l :
  (forall k a, In a l -> g k a = h k a) -> mapi g i l = mapi h i l.
Proof.
  revert i; induction l; intros i H; cbn; [reflexivity|].
  rewrite IHl, H by (intros; auto using in_eq, in_cons). reflexivity.
Qed.

Lemma mapi_nth {A B} (g : nat -> A -> B) i l k :
  nth_error (mapi g i l) k = option_map (g (i + k)) (nth_error l k).
Proof.
  revert i k; induction l; intros i [|k]; cbn; try reflexivity.
  - rewrite Nat.add_0_r; reflexivity.
  - rewrite IHl. f_equal. f_equal. lia.
Qed.

Lemma mapi_length {A B} (g : nat -> A -> B) i l : length (mapi g i l) = length l.
Proof. revert i; induction l; intros; cbn; auto. Qed.

Lemma nth_map_d {A B} (f : A -> B) l d d' n : n < length l -> nth n (map f l) d' = f (nth n l d).
Proof. revert n; induction l; intros [|n] H; cbn in *; try lia; auto. apply IHl; lia. Qed.

Lemma flat_map_ext_in {A B} (f g : A -> list B) l :
  (forall a, In a l -> f a = g a) -> flat_map f l = flat_map g l.
Proof. induction l; cbn; intros H; [reflexivity|]. rewrite IHl, H by auto; reflexivity. Qed.

Lemma divmod_block k b p : p < b -> (k * b + p) / b = k /\ (k * b + p) mod b = p.
Proof.
  intros H. split.
  - rewrite Nat.div_add_l by lia. rewrite Nat.div_small; lia.
  - rewrite Nat.add_comm, Nat.mod_add by lia. apply Nat.mod_small; lia.
Qed.

Section Facts.
Context {K : Type} (o : ops K).
Notation elt := (elt K).

(** ** Statements as lists, without laws *)
Definition row_stmts (f : fmt) (x : list K) (i : nat) (row : list elt) : list (nat * list K) :=
  flat_map (fun e => if (e_idx e <? 0)%Z then []
                     else cells (i * frow f) (fsr_stmts o f (vals o e) (comps o x (fcol f) (Z.to_nat (e_idx e))))) row.

Lemma flat_map_flat_map {A B C} (f : B -> list C) (g : A -> list B) l :
  flat_map f (flat_map g l) = flat_map (fun a => flat_map f (g a)) l.
Proof. induction l; cbn; [reflexivity|]. rewrite flat_map_app, IHl; reflexivity. Qed.

Lemma fsr_iter_some f n x i row : Forall (fun e => (e_idx e < Z.of_nat n)%Z) row ->
  fsr_iter o f n x i row = Some (flat_map (@rw K) (row_stmts f x i row)).
Proof.
  intros H. unfold fsr_iter, row_stmts. rewrite flat_map_flat_map.
  rewrite flat_map_concat_map. apply concat_opt_some. rewrite map_map. apply map_ext_in.
  intros e He. rewrite Forall_forall in H. specialize (H e He).
  unfold guarded. destruct (Z.ltb_spec (e_idx e) 0); [reflexivity|].
  destruct (Z.ltb_spec (e_idx e) (Z.of_nat n)); [|lia]. reflexivity.
Qed.

Lemma fsr_kernel_some f n data x : in_range n data ->
  fsr_kernel o f n data x = Some (map (flat_map (@rw K)) (mapi (row_stmts f x) 0 data)).
Proof.
  intros H. unfold fsr_kernel. apply all_opt_some. rewrite map_map, mapi_map.
  apply mapi_ext. intros k row Hr. apply fsr_iter_some.
  unfold in_range in H. rewrite Forall_forall in H. auto.
Qed.

Lemma cells_length base (ss : list (list K)) : length (cells base ss) = length ss.
Proof. revert base; induction ss; intros; cbn; auto. Qed.

Lemma cells_in base (ss : list (list K)) c ts : In (c, ts) (cells base ss) ->
  base <= c < base + length ss /\ ts = nth (c - base) ss [].
Proof.
  revert base; induction ss as [|s r IH]; intros base H; cbn in *; [contradiction|].
  destruct H as [H|H].
  - inversion H; subst. rewrite Nat.sub_diag. split; [lia|reflexivity].
  - apply IH in H. destruct H as [H ->]. split; [lia|].
    destruct (c - base) as [|d] eqn:E; [lia|]. cbn. f_equal. lia.
Qed.

Lemma fsr_stmts_length f V X : supported f -> length (fsr_stmts o f V X) = frow f.
Proof.
  destruct f as [e|m n| |]; cbn [supported]; intros H; try reflexivity.
  - cbn. rewrite map_length, seq_length. reflexivity.
  - destruct H as [H1 [H2 H3]].
    destruct m as [|[|[|[|m]]]]; try lia; destruct n as [|[|[|[|n]]]]; try lia; try reflexivity; congruence.
Qed.

Lemma fsc_stmts_length f V X : supported f -> length (fsc_stmts o f V X) = fcol f.
Proof.
  destruct f as [e|m n| |]; cbn [supported]; intros H; try reflexivity.
  - cbn. rewrite map_length, seq_length. reflexivity.
  - destruct H as [H1 [H2 H3]].
    destruct m as [|[|[|[|m]]]]; try lia; destruct n as [|[|[|[|n]]]]; try lia; try reflexivity; congruence.
Qed.

Lemma supported_pos f : supported f -> 0 < frow f /\ 0 < fcol f.
Proof. destruct f; cbn; lia. Qed.

Lemma row_stmts_cells f x i row : supported f ->
  Forall (fun ct => i * frow f <= fst ct < (i + 1) * frow f) (row_stmts f x i row).
Proof.
  intros S. apply Forall_forall. intros [c ts] H. unfold row_stmts in H.
  apply in_flat_map in H. destruct H as [e [_ H]].
  destruct (e_idx e <? 0)%Z; [contradiction|].
  apply cells_in in H. rewrite fsr_stmts_length in H by auto. cbn. lia.
Qed.

(** Row kernels: the result of any interleaving, with no law on the numbers. *)
Lemma fsr_exec f n data x its tr out :
  supported f -> in_range n data -> length out = length data * frow f ->
  fsr_kernel o f n data x = Some its -> merge its tr ->
  exists m, exec o tr out = Some m /\ length m = length out /\
    forall i p v, i < length data -> p < frow f -> nth_error out (i * frow f + p) = Some v ->
      nth_error m (i * frow f + p) = Some (seq_cell o (row_stmts f x i (nth i data [])) (i * frow f + p) v).
Proof.
  intros S R L E HM. rewrite (fsr_kernel_some _ _ _ _ R) in E. inversion E; subst its; clear E.
  pose proof (supported_pos f S) as [PR PC].
  destruct (exec_owned o (fun c => c / frow f) _ (mapi (row_stmts f x) 0 data) tr out HM eq_refl)
    as [m [Em [Lm F]]].
  - intros i ss Hs. rewrite mapi_nth in Hs. cbn in Hs.
    destruct (nth_error data i) as [row|] eqn:Er; [|discriminate]. cbn in Hs; inversion Hs; subst.
    assert (i < length data) by (apply nth_error_Some; congruence).
    eapply Forall_impl; [|apply row_stmts_cells, S]. cbn. intros [c ts] Hc; cbn in *.
    split; [|rewrite L; nia].
    symmetry. apply Nat.div_unique with (c - i * frow f); [lia|]. nia.
  - exists m. split; [exact Em|]. split; [exact Lm|]. intros i p v Hi Hp Hv.
    apply (F i _ (i * frow f + p) v); [|apply (divmod_block i _ p Hp)|exact Hv].
    rewrite mapi_nth. cbn. destruct (nth_error data i) as [row|] eqn:Er.
    + cbn. rewrite (nth_error_nth _ _ _ Er). reflexivity.
    + apply nth_error_None in Er; lia.
Qed.

(** ** Over a ring *)
Variable RL : ring_laws o.
Let RT : ring_theory (k0 o) (k1 o) (kadd o) (kmul o) (fun a b => kadd o a (kopp o b)) (kopp o) eq := RL.
Add Ring Kring3 : RT.

Lemma seq_cell_contr ss c x : seq_cell o ss c x = kadd o x (ups_contr o ss c).
Proof.
  unfold seq_cell, ups_contr. revert x; induction ss as [|[c' ts] r IH]; intros x; cbn [fold_left sum_over fst snd]; [ring|].
  rewrite IH. destruct (c' =? c); [rewrite (addl_ksum o RL)|]; ring.
Qed.

Lemma ups_contr_app l r c : ups_contr o (l ++ r) c = kadd o (ups_contr o l c) (ups_contr o r c).
Proof. apply (sum_over_app o RL). Qed.

Lemma ups_contr_cells base ss c :
  ups_contr o (cells base ss) c =
  if (base <=? c) && (c <? base + length ss) then ksum o (nth (c - base) ss []) else k0 o.
Proof.
  unfold ups_contr. revert base; induction ss as [|s r IH]; intros base; cbn [cells sum_over fst snd length].
  - destruct (base <=? c) eqn:A, (c <? base + 0) eqn:B; cbn; auto. lia.
  - rewrite IH. destruct (Nat.eqb_spec base c) as [->|D].
    + rewrite Nat.sub_diag. replace (S c <=? c) with false by lia.
      replace ((c <=? c) && (c <? c + S (length r))) with true by lia. cbn [andb nth]. ring.
    + replace (base + S (length r)) with (S base + length r) by lia.
      replace (S base <=? c) with (base <=? c) by lia.
      destruct (base <=? c) eqn:A; [|cbn [andb]; ring].
      destruct (c <? S base + length r) eqn:B; [|cbn [andb]; ring].
      destruct (c - base) as [|d] eqn:E; [lia|]. cbn [nth andb]. replace (c - S base) with d by lia. ring.
Qed.

(** Statements of a block are the product by the dense block. *)
Lemma block_row f v X p : supported f -> p < frow f ->
  ksum o (nth p (fsr_stmts o f (at_ o v) X) []) =
  bigsum o (fcol f) (fun q => kmul o (block_entry o f v p q) (X q)).
Proof.
  destruct f as [e|m n| |]; cbn [supported frow fcol block_entry]; intros S Hp.
  - cbn [fsr_stmts]. rewrite (nth_map_d _ _ 0) by (rewrite seq_length; auto).
    rewrite seq_nth by auto. cbn.
    rewrite (bigsum_ext o e _ (fun q => if q =? p then kmul o (at_ o v 0) (X q) else k0 o)).
    + rewrite (bigsum_single o RL) by auto. ring.
    + intros q _. rewrite (Nat.eqb_sym p q), (if_mul_r o RL). reflexivity.
  - destruct S as [H1 [H2 H3]].
    destruct m as [|[|[|[|m]]]]; try lia; destruct n as [|[|[|[|n]]]]; try lia; try congruence;
    destruct p as [|[|[|p]]]; try lia; cbn; unfold ksum, fval; cbn; ring.
  - destruct p as [|[|p]]; try lia; cbn; unfold ksum; cbn; ring.
  - destruct p as [|[|[|p]]]; try lia; cbn; unfold ksum; cbn; ring.
Qed.

Lemma block_col f v X p : supported f -> p < fcol f ->
  ksum o (nth p (fsc_stmts o f (at_ o v) X) []) =
  bigsum o (frow f) (fun q => kmul o (block_entry o f v q p) (X q)).
Proof.
  destruct f as [e|m n| |]; cbn [supported frow fcol block_entry]; intros S Hp.
  - cbn [fsc_stmts]. rewrite (nth_map_d _ _ 0) by (rewrite seq_length; auto).
    rewrite seq_nth by auto. cbn.
    rewrite (bigsum_ext o e _ (fun q => if q =? p then kmul o (at_ o v 0) (X q) else k0 o)).
    + rewrite (bigsum_single o RL) by auto. ring.
    + intros q _. rewrite (if_mul_r o RL). reflexivity.
  - destruct S as [H1 [H2 H3]].
    destruct m as [|[|[|[|m]]]]; try lia; destruct n as [|[|[|[|n]]]]; try lia; try congruence;
    destruct p as [|[|[|p]]]; try lia; cbn; unfold ksum, fval; cbn; ring.
  - destruct p as [|[|p]]; try lia; cbn; unfold ksum; cbn; ring.
  - destruct p as [|[|[|p]]]; try lia; cbn; unfold ksum; cbn; ring.
Qed.

Lemma py_block_row f v X p : p < frow f ->
  py_fsr_term o f (at_ o v) X p = bigsum o (fcol f) (fun q => kmul o (block_entry o f v p q) (X q)).
Proof.
  destruct f as [e|m n| |]; cbn [frow fcol block_entry py_fsr_term]; intros Hp.
  - rewrite (bigsum_ext o e _ (fun q => if q =? p then kmul o (at_ o v 0) (X q) else k0 o)).
    + rewrite (bigsum_single o RL) by auto. ring.
    + intros q _. rewrite (Nat.eqb_sym p q), (if_mul_r o RL). reflexivity.
  - rewrite (ksum_map_seq o RL). reflexivity.
  - destruct p as [|[|p]]; try lia; cbn; ring.
  - destruct p as [|[|[|p]]]; try lia; cbn; ring.
Qed.

Lemma py_block_col f v X p : p < fcol f ->
  py_fsc_term o f (at_ o v) X p = bigsum o (frow f) (fun q => kmul o (block_entry o f v q p) (X q)).
Proof.
  destruct f as [e|m n| |]; cbn [frow fcol block_entry py_fsc_term]; intros Hp.
  - rewrite (bigsum_ext o e _ (fun q => if q =? p then kmul o (at_ o v 0) (X q) else k0 o)).
    + rewrite (bigsum_single o RL) by auto. ring.
    + intros q _. rewrite (if_mul_r o RL). reflexivity.
  - rewrite (ksum_map_seq o RL). reflexivity.
  - destruct p as [|[|p]]; try lia; cbn; ring.
  - destruct p as [|[|[|p]]]; try lia; cbn; ring.
Qed.

(** Contribution of a stored element to a component of its output block. *)
Definition elt_row (f : fmt) (x : list K) (p : nat) (e : elt) : K :=
  if (e_idx e <? 0)%Z then k0 o
  else bigsum o (fcol f) (fun q => kmul o (block_entry o f (e_val e) p q) (at_ o x (Z.to_nat (e_idx e) * fcol f + q))).

Lemma row_contr f x i row p : supported f -> p < frow f ->
  ups_contr o (row_stmts f x i row) (i * frow f + p) = sum_over o row (elt_row f x p).
Proof.
  intros S Hp. unfold row_stmts, elt_row. induction row as [|e r IH]; [reflexivity|].
  cbn [flat_map sum_over]. rewrite ups_contr_app, IH. f_equal.
  destruct (e_idx e <? 0)%Z; [reflexivity|].
  rewrite ups_contr_cells, fsr_stmts_length by auto.
  replace ((i * frow f <=? i * frow f + p) && (i * frow f + p <? i * frow f + frow f)) with true by lia.
  replace (i * frow f + p - i * frow f) with p by lia. exact (block_row f (e_val e) _ p S Hp).
Qed.

Lemma dense_row_product f data n x i p :
  0 < fcol f -> p < frow f -> in_range n data ->
  mat_vec o (n * fcol f) (dense_row o f data) x (i * frow f + p) =
  sum_over o (nth i data []) (elt_row f x p).
Proof.
  intros PC Hp R. unfold mat_vec, dense_row.
  destruct (divmod_block i (frow f) p Hp) as [D1 D2]; rewrite D1, D2; clear D1 D2.
  rewrite (bigsum_blocks o RL).
  assert (RR : Forall (fun e => (e_idx e < Z.of_nat n)%Z) (nth i data [])).
  { destruct (nth_in_or_default i data []) as [H | ->]; [|constructor].
    unfold in_range in R. rewrite Forall_forall in R. auto. }
  set (row := nth i data []) in *. clearbody row.
  transitivity (bigsum o n (fun k => bigsum o (fcol f) (fun q => sum_over o row (fun e =>
     if (e_idx e =? Z.of_nat k)%Z then kmul o (block_entry o f (e_val e) p q) (at_ o x (k * fcol f + q)) else k0 o)))).
  { apply bigsum_ext; intros k Hk. apply bigsum_ext; intros q Hq.
    destruct (divmod_block k (fcol f) q Hq) as [D1 D2]; rewrite D1, D2; clear D1 D2.
    rewrite <- (sum_over_mul_r o RL). apply sum_over_ext. intros e _. apply (if_mul_r o RL). }
  rewrite (bigsum_ext o n _ (fun k => sum_over o row (fun e => bigsum o (fcol f) (fun q =>
     if (e_idx e =? Z.of_nat k)%Z then kmul o (block_entry o f (e_val e) p q) (at_ o x (k * fcol f + q)) else k0 o)))).
  2:{ intros k _. symmetry. apply (sum_over_bigsum_swap o RL). }
  rewrite <- (sum_over_bigsum_swap o RL). apply sum_over_ext. intros e He.
  rewrite Forall_forall in RR. specialize (RR e He). unfold elt_row.
  destruct (Z.ltb_spec (e_idx e) 0) as [Hn|Hn].
  - apply (bigsum_0 o RL). intros k _. apply (bigsum_0 o RL). intros q _.
    destruct (Z.eqb_spec (e_idx e) (Z.of_nat k)); [lia|reflexivity].
  - set (k0' := Z.to_nat (e_idx e)).
    rewrite (bigsum_ext o n _ (fun k => if k =? k0' then bigsum o (fcol f) (fun q =>
       kmul o (block_entry o f (e_val e) p q) (at_ o x (k * fcol f + q))) else k0 o)).
    + apply (bigsum_single o RL n k0'). unfold k0'; lia.
    + intros k _. replace (k =? k0') with (e_idx e =? Z.of_nat k)%Z by (unfold k0'; lia).
      destruct (e_idx e =? Z.of_nat k)%Z; [reflexivity|]. apply (bigsum_0 o RL); reflexivity.
Qed.

(** FSR compiled kernels. *)
Lemma fsr_correct f n data x its tr out :
  supported f -> in_range n data -> length out = length data * frow f ->
  fsr_kernel o f n data x = Some its -> merge its tr ->
  exists m, exec o tr out = Some m /\
    adds_product o (length data * frow f) (n * fcol f) (dense o FSR f data) x out m.
Proof.
  intros S R L E HM. pose proof (supported_pos f S) as [PR PC].
  destruct (fsr_exec f n data x its tr out S R L E HM) as [m [Em [Lm F]]].
  exists m. split; [exact Em|]. split; [congruence|]. intros r Hr.
  assert (Hd : r = (r / frow f) * frow f + r mod frow f) by (rewrite Nat.mul_comm; apply Nat.div_mod; lia).
  assert (Hp : r mod frow f < frow f) by (apply Nat.mod_upper_bound; lia).
  set (i := r / frow f) in *. set (p := r mod frow f) in *.
  assert (Hi : i < length data) by nia.
  destruct (nth_error out (i * frow f + p)) as [v|] eqn:Ev; [|apply nth_error_None in Ev; nia].
  pose proof (F i p v Hi Hp Ev) as Fm. rewrite Hd. change (dense o FSR f data) with (dense_row o f data).
  rewrite dense_row_product by auto. unfold at_.
  rewrite (nth_error_nth _ _ _ Fm), (nth_error_nth _ _ _ Ev).
  rewrite seq_cell_contr, row_contr by auto. reflexivity.
Qed.

(** ** Column format *)
Definition elt_col (f : fmt) (x : list K) (i k p : nat) (e : elt) : K :=
  if (e_idx e =? Z.of_nat k)%Z
  then bigsum o (frow f) (fun q => kmul o (block_entry o f (e_val e) q p) (at_ o x (i * frow f + q)))
  else k0 o.

Lemma dense_col_product f data n x k p :
  0 < frow f -> p < fcol f -> k < n ->
  mat_vec o (length data * frow f) (dense o FSC f data) x (k * fcol f + p) =
  bigsum o (length data) (fun i => sum_over o (nth i data []) (elt_col f x i k p)).
Proof.
  intros PR Hp Hk. unfold mat_vec. cbn [dense]. unfold dense_row.
  destruct (divmod_block k (fcol f) p Hp) as [D1 D2]; rewrite D1, D2; clear D1 D2.
  rewrite (bigsum_blocks o RL). apply bigsum_ext. intros i Hi.
  transitivity (bigsum o (frow f) (fun q => sum_over o (nth i data []) (fun e =>
     if (e_idx e =? Z.of_nat k)%Z then kmul o (block_entry o f (e_val e) q p) (at_ o x (i * frow f + q)) else k0 o))).
  { apply bigsum_ext; intros q Hq. destruct (divmod_block i (frow f) q Hq) as [D1 D2]; rewrite D1, D2; clear D1 D2.
    rewrite <- (sum_over_mul_r o RL). apply sum_over_ext. intros e _. apply (if_mul_r o RL). }
  rewrite <- (sum_over_bigsum_swap o RL). apply sum_over_ext. intros e _. unfold elt_col.
  destruct (e_idx e =? Z.of_nat k)%Z; [reflexivity|]. apply (bigsum_0 o RL); reflexivity.
Qed.

(** Iterations given as lists of atomic actions whose contributions are the
    element products: shared by the compiled column kernels and the fallbacks. *)
Lemma exec_col f data n x its tr out :
  0 < frow f -> 0 < fcol f -> length out = n * fcol f -> length its = length data ->
  (forall i l, nth_error its i = Some l ->
     Forall (fun a => is_atomic a /\ Forall (fun c => c < length out) (footprint a)) l /\
     forall k p, k < n -> p < fcol f ->
       sum_over o l (fun a => contr o a (k * fcol f + p)) = sum_over o (nth i data []) (elt_col f x i k p)) ->
  merge its tr ->
  exists m, exec o tr out = Some m /\
    adds_product o (n * fcol f) (length data * frow f) (dense o FSC f data) x out m.
Proof.
  intros PR PC L Li H HM.
  destruct (exec_atomic o RL its tr out HM) as [m [Em [Lm F]]].
  { apply Forall_forall. intros l Hl. apply In_nth_error in Hl. destruct Hl as [i Hi].
    apply (H i l Hi). }
  exists m. split; [exact Em|]. split; [congruence|]. intros r Hr.
  assert (Hd : r = (r / fcol f) * fcol f + r mod fcol f) by (rewrite Nat.mul_comm; apply Nat.div_mod; lia).
  assert (Hp : r mod fcol f < fcol f) by (apply Nat.mod_upper_bound; lia).
  rewrite F by lia. f_equal. revert Hd Hp. generalize (r / fcol f) (r mod fcol f). intros k p -> Hp.
  assert (Hk : k < n) by nia.
  rewrite (dense_col_product f data n x k p PR Hp Hk).
  rewrite (sum_over_nth o RL its []), Li. apply bigsum_ext. intros i Hi.
  destruct (nth_error its i) as [l|] eqn:E; [|apply nth_error_None in E; lia].
  rewrite (nth_error_nth _ _ _ E). apply (H i l E); auto.
Qed.

Definition col_acts (f : fmt) (x : list K) (i : nat) (row : list elt) : list (list (act K)) :=
  map (fun e => if (e_idx e <? 0)%Z then []
                else fsc_elt_acts o f (Z.to_nat (e_idx e)) (vals o e) (comps o x (frow f) i)) row.

Lemma fsc_kernel_some f n data x : in_range n data ->
  fsc_kernel o f n data x = Some (mapi (fun i row => concat (col_acts f x i row)) 0 data).
Proof.
  intros H. unfold fsc_kernel. apply all_opt_some. rewrite mapi_map.
  apply mapi_ext. intros k row Hr. unfold fsc_iter. apply concat_opt_some.
  unfold col_acts. rewrite map_map. apply map_ext_in. intros e He.
  unfold in_range in H. rewrite Forall_forall in H. specialize (H row Hr).
  rewrite Forall_forall in H. specialize (H e He).
  unfold guarded. destruct (Z.ltb_spec (e_idx e) 0); [reflexivity|].
  destruct (Z.ltb_spec (e_idx e) (Z.of_nat n)); [|lia]. reflexivity.
Qed.

Lemma elt_acts_contr f k V X c :
  sum_over o (fsc_elt_acts o f k V X) (fun a => contr o a c) =
  ups_contr o (cells (k * fcol f) (fsc_stmts o f V X)) c.
Proof.
  unfold fsc_elt_acts. destruct (fsc_separate f).
  - rewrite (sum_over_map o). unfold ups_contr. apply sum_over_ext. intros [c' ts] _.
    cbn. unfold ups_contr. cbn. ring.
  - cbn. ring.
Qed.

Lemma elt_acts_ok f k V X N : supported f -> k * fcol f + fcol f <= N ->
  Forall (fun a => is_atomic a /\ Forall (fun c => c < N) (footprint a)) (fsc_elt_acts o f k V X).
Proof.
  intros S H. assert (Q : Forall (fun ct : nat * list K => fst ct < N) (cells (k * fcol f) (fsc_stmts o f V X))).
  { apply Forall_forall. intros [c ts] Hc. apply cells_in in Hc. rewrite fsc_stmts_length in Hc by auto. cbn. lia. }
  unfold fsc_elt_acts. destruct (fsc_separate f).
  - rewrite Forall_map. eapply Forall_impl; [|exact Q]. cbn. intros [c ts] Hc. split; [exact I|]. repeat constructor. exact Hc.
  - repeat constructor. cbn. rewrite Forall_map. exact Q.
Qed.

Lemma fsc_correct f n data x its tr out :
  supported f -> in_range n data -> length out = n * fcol f ->
  fsc_kernel o f n data x = Some its -> merge its tr ->
  exists m, exec o tr out = Some m /\
    adds_product o (n * fcol f) (length data * frow f) (dense o FSC f data) x out m.
Proof.
  intros S R L E HM. pose proof (supported_pos f S) as [PR PC].
  rewrite (fsc_kernel_some _ _ _ _ R) in E. inversion E; subst its; clear E.
  eapply (exec_col f data n x _ tr out PR PC L); [apply mapi_length| |exact HM].
  intros i l Hl. rewrite mapi_nth in Hl. cbn in Hl.
  destruct (nth_error data i) as [row|] eqn:Er; [|discriminate]. cbn in Hl; inversion Hl; subst l; clear Hl.
  assert (Rr : Forall (fun e => (e_idx e < Z.of_nat n)%Z) row).
  { unfold in_range in R. rewrite Forall_forall in R. apply R. eapply nth_error_In; eauto. }
  rewrite (nth_error_nth _ _ _ Er). split.
  - apply Forall_concat. unfold col_acts. rewrite Forall_map. eapply Forall_impl; [|exact Rr].
    cbn. intros e He. destruct (Z.ltb_spec (e_idx e) 0); [constructor|].
    apply elt_acts_ok; auto. rewrite L. nia.
  - intros k p Hk Hp. rewrite (sum_over_concat o RL). unfold col_acts. rewrite (sum_over_map o).
    apply sum_over_ext. intros e He. rewrite Forall_forall in Rr. specialize (Rr e He). unfold elt_col.
    destruct (Z.ltb_spec (e_idx e) 0).
    + cbn. destruct (Z.eqb_spec (e_idx e) (Z.of_nat k)); [lia|reflexivity].
    + rewrite elt_acts_contr, ups_contr_cells, fsc_stmts_length by auto.
      destruct (Z.eqb_spec (e_idx e) (Z.of_nat k)) as [Ek|Ek].
      * rewrite Ek, Nat2Z.id.
        replace ((k * fcol f <=? k * fcol f + p) && (k * fcol f + p <? k * fcol f + fcol f)) with true by lia.
        replace (k * fcol f + p - k * fcol f) with p by lia. exact (block_col f (e_val e) _ p S Hp).
      * destruct ((Z.to_nat (e_idx e) * fcol f <=? k * fcol f + p) &&
                  (k * fcol f + p <? Z.to_nat (e_idx e) * fcol f + fcol f)) eqn:B; [exfalso|reflexivity].
        apply andb_prop in B. destruct B as [B1 B2].
        apply Nat.leb_le in B1. apply Nat.ltb_lt in B2. apply Ek.
        assert (Z.to_nat (e_idx e) = k) by nia. lia.
Qed.

(** ** Fallbacks *)
Lemma py_fsc_correct f n data x its tr out :
  0 < frow f -> 0 < fcol f -> in_range n data -> length out = n * fcol f ->
  py_fsc_kernel o f n data x = Some its -> merge its tr ->
  exists m, exec o tr out = Some m /\
    adds_product o (n * fcol f) (length data * frow f) (dense o FSC f data) x out m.
Proof.
  intros PR PC R L E HM.
  set (ss := fun (e : elt) i => map (fun p => [py_fsc_term o f (vals o e) (comps o x (frow f) i) p]) (seq 0 (fcol f))).
  assert (E' : py_fsc_kernel o f n data x = Some (mapi (fun i row => concat (map (fun e =>
     if (e_idx e <? 0)%Z then [] else [Atomic (cells (Z.to_nat (e_idx e) * fcol f) (ss e i))]) row)) 0 data)).
  { unfold py_fsc_kernel. apply all_opt_some. rewrite mapi_map. apply mapi_ext. intros k row Hr.
    unfold py_fsc_iter. apply concat_opt_some. rewrite map_map. apply map_ext_in. intros e He.
    unfold in_range in R. rewrite Forall_forall in R. specialize (R row Hr).
    rewrite Forall_forall in R. specialize (R e He). unfold guarded.
    destruct (Z.ltb_spec (e_idx e) 0); [reflexivity|].
    destruct (Z.ltb_spec (e_idx e) (Z.of_nat n)); [|lia]. reflexivity. }
  rewrite E' in E. inversion E; subst its; clear E E'.
  eapply (exec_col f data n x _ tr out PR PC L); [apply mapi_length| |exact HM].
  intros i l Hl. rewrite mapi_nth in Hl. cbn [Nat.add] in Hl.
  destruct (nth_error data i) as [row|] eqn:Er; [|discriminate]. cbn [option_map] in Hl; inversion Hl; subst l; clear Hl.
  assert (Rr : Forall (fun e => (e_idx e < Z.of_nat n)%Z) row).
  { unfold in_range in R. rewrite Forall_forall in R. apply R. eapply nth_error_In; eauto. }
  assert (Ls : forall e, length (ss e i) = fcol f) by (intros; unfold ss; rewrite map_length, seq_length; reflexivity).
  rewrite (nth_error_nth _ _ _ Er). split.
  - apply Forall_concat. rewrite Forall_map. eapply Forall_impl; [|exact Rr].
    intros e He. destruct (Z.ltb_spec (e_idx e) 0); [constructor|].
    constructor; [|constructor]. split; [exact I|]. cbn [footprint]. rewrite Forall_map.
    apply Forall_forall. intros [c ts] Hc. apply cells_in in Hc. rewrite Ls in Hc. destruct Hc as [Hc _]. cbn [fst]. rewrite L. cbn beta in He. assert (Hk : Z.to_nat (e_idx e) < n) by lia. revert Hc Hk. generalize (Z.to_nat (e_idx e)). clear. intros k Hc Hk. nia.
  - intros k p Hk Hp. rewrite (sum_over_concat o RL), (sum_over_map o).
    apply sum_over_ext. intros e He. rewrite Forall_forall in Rr. specialize (Rr e He). unfold elt_col.
    destruct (Z.ltb_spec (e_idx e) 0).
    + cbn. destruct (Z.eqb_spec (e_idx e) (Z.of_nat k)); [lia|reflexivity].
    + cbn [sum_over contr]. rewrite ups_contr_cells, Ls.
      destruct (Z.eqb_spec (e_idx e) (Z.of_nat k)) as [Ek|Ek].
      * rewrite Ek, Nat2Z.id.
        replace ((k * fcol f <=? k * fcol f + p) && (k * fcol f + p <? k * fcol f + fcol f)) with true by lia.
        replace (k * fcol f + p - k * fcol f) with p by lia.
        unfold ss. rewrite (nth_map_d _ _ 0) by (rewrite seq_length; auto). rewrite seq_nth by auto.
        cbn [ksum fold_right Nat.add].
        pose proof (py_block_col f (e_val e) (comps o x (frow f) i) p Hp) as B.
        unfold ksum. cbn [fold_right]. change (vals o e) with (at_ o (e_val e)). rewrite B.
        unfold comps, at_. ring.
      * destruct ((Z.to_nat (e_idx e) * fcol f <=? k * fcol f + p) &&
                  (k * fcol f + p <? Z.to_nat (e_idx e) * fcol f + fcol f)) eqn:B; [exfalso|ring].
        apply andb_prop in B. destruct B as [B1 B2].
        apply Nat.leb_le in B1. apply Nat.ltb_lt in B2. apply Ek.
        assert (Z.to_nat (e_idx e) = k) by nia. lia.
Qed.

Lemma py_fsr_correct f n data x its tr out :
  0 < frow f -> 0 < fcol f -> in_range n data -> length out = length data * frow f ->
  py_fsr_kernel o f n data x = Some its -> merge its tr ->
  exists m, exec o tr out = Some m /\
    adds_product o (length data * frow f) (n * fcol f) (dense o FSR f data) x out m.
Proof.
  intros PR PC R L E HM.
  set (ss := fun (row : list elt) => map (fun p => [ksum o (map (fun e =>
      py_fsr_term o f (vals o e) (comps o x (fcol f) (Z.to_nat (e_idx e))) p)
      (filter (fun e => (0 <=? e_idx e)%Z) row))]) (seq 0 (frow f))).
  assert (E' : py_fsr_kernel o f n data x = Some (mapi (fun i row => [Atomic (cells (i * frow f) (ss row))]) 0 data)).
  { unfold py_fsr_kernel. apply all_opt_some. rewrite mapi_map. apply mapi_ext. intros k row Hr.
    unfold py_fsr_iter. replace (forallb _ _) with true; [reflexivity|]. symmetry.
    apply forallb_forall. intros e He. apply filter_In in He.
    unfold in_range in R. rewrite Forall_forall in R. specialize (R row Hr).
    rewrite Forall_forall in R. specialize (R e (proj1 He)). lia. }
  rewrite E' in E. inversion E; subst its; clear E E'.
  assert (Ls : forall row, length (ss row) = frow f) by (intros; unfold ss; rewrite map_length, seq_length; reflexivity).
  destruct (exec_atomic o RL _ tr out HM) as [m [Em [Lm F]]].
  { apply Forall_forall. intros l Hl. apply In_nth_error in Hl. destruct Hl as [i Hi].
    rewrite mapi_nth in Hi. cbn [Nat.add] in Hi. destruct (nth_error data i) as [row|] eqn:Er; [|discriminate].
    cbn [option_map] in Hi; inversion Hi; subst l.
    assert (i < length data) by (apply nth_error_Some; congruence).
    constructor; [|constructor]. split; [exact I|]. cbn [footprint]. rewrite Forall_map.
    apply Forall_forall. intros [c ts] Hc. apply cells_in in Hc. rewrite Ls in Hc. cbn. rewrite L. nia. }
  exists m. split; [exact Em|]. split; [congruence|]. intros r Hr.
  assert (Hd : r = (r / frow f) * frow f + r mod frow f) by (rewrite Nat.mul_comm; apply Nat.div_mod; lia).
  assert (Hp : r mod frow f < frow f) by (apply Nat.mod_upper_bound; lia).
  rewrite F by lia. f_equal. revert Hd Hp. generalize (r / frow f) (r mod frow f). intros i p -> Hp.
  assert (Hi : i < length data) by nia. change (dense o FSR f data) with (dense_row o f data).
  rewrite dense_row_product by auto.
  rewrite (sum_over_nth o RL _ []), mapi_length.
  rewrite (bigsum_ext o _ _ (fun j => if j =? i then sum_over o (nth i data []) (elt_row f x p) else k0 o)).
  - apply (bigsum_single o RL _ i (fun _ => sum_over o (nth i data []) (elt_row f x p)) Hi).
  - intros j Hj. destruct (nth_error data j) as [row|] eqn:Er; [|apply nth_error_None in Er; lia].
    rewrite (nth_error_nth (mapi _ 0 data) j [] (x := [Atomic (cells (j * frow f) (ss row))])).
    2:{ rewrite mapi_nth, Er. reflexivity. }
    cbn [sum_over contr]. rewrite ups_contr_cells, Ls.
    destruct (Nat.eqb_spec j i) as [->|D].
    + rewrite (nth_error_nth _ _ _ Er).
      replace ((i * frow f <=? i * frow f + p) && (i * frow f + p <? i * frow f + frow f)) with true by lia.
      replace (i * frow f + p - i * frow f) with p by lia.
      unfold ss. rewrite (nth_map_d _ _ 0) by (rewrite seq_length; auto). rewrite seq_nth by auto.
      unfold ksum at 1. cbn [fold_right Nat.add].
      rewrite (ksum_sum_over o), (sum_over_map o), (sum_over_filter o RL).
      rewrite (sum_over_ext o row _ (elt_row f x p)); [ring|].
      intros e _. unfold elt_row. destruct (Z.leb_spec 0 (e_idx e)), (Z.ltb_spec (e_idx e) 0); try lia; [|reflexivity].
      exact (py_block_row f (e_val e) _ p Hp).
    + destruct ((j * frow f <=? i * frow f + p) && (i * frow f + p <? j * frow f + frow f)) eqn:B; [exfalso|ring].
      apply andb_prop in B. destruct B as [B1 B2].
      apply Nat.leb_le in B1. apply Nat.ltb_lt in B2. apply D. nia.
Qed.
End Facts.
