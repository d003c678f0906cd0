(** Lemmas for pointing matrices. *)
From Coq Require Import Lia Permutation Ring.
From Verif Require Import Base BaseFacts SparseModel SparseSpec RingFacts NumModel NumFacts PmModel PmSpec.
Open Scope Z_scope.

Lemma valid_entries {K} n (row : list (Z * K)) : (forall e, In e row -> -1 <= fst e < Z.of_nat n) -> Forall (fun e => 0 <= fst e < Z.of_nat n) (entries row).
Proof.
  induction row as [|e row IH]; cbn [entries]; intros H; [constructor|].
  destruct (Z.eqb_spec (fst e) (-1)); [constructor|]. constructor.
  - specialize (H e ltac:(now left)). lia.
  - apply IH. intros e' He. apply H. now right.
Qed.
Lemma isvalid_ok {K} n (m : list (list (Z * K))) : isvalid (Z.of_nat n) m = true <-> valid n m.
Proof.
  unfold isvalid, valid. rewrite forallb_forall. setoid_rewrite forallb_forall.
  split; intros H row Hr e He; specialize (H row Hr e He); lia.
Qed.

Section Pm.
Context {K : Type} (o : ops K) (RL : ring_laws o).
Local Notation "a + b" := (kadd o a b).
Local Notation "a * b" := (kmul o a b).
Local Notation "0" := (k0 o).
Let RT : ring_theory (k0 o) (k1 o) (kadd o) (kmul o) (fun a b => kadd o a (kopp o b)) (kopp o) eq := RL.
Add Ring Kring : RT.
Notation in_range n := (Forall (fun e : Z * K => (0 <= fst e < Z.of_nat n)%Z)).

Lemma get_at (x : list K) i : (0 <= i < zlen x)%Z -> get x i = Ok (at_ o x (Z.to_nat i)).
Proof.
  intros H. apply get_ok. split; [lia|]. unfold at_. apply nth_error_nth'. unfold zlen in H. lia.
Qed.
Lemma at_ext (x y : list K) : length x = length y -> (forall j, (j < length x)%nat -> at_ o x j = at_ o y j) -> x = y.
Proof. intros L H. apply (nth_ext x y (k0 o) (k0 o) L). exact H. Qed.
Lemma at_set_same (x : list K) i v : (0 <= i < zlen x)%Z -> at_ o (set_at x i v) (Z.to_nat i) = v.
Proof.
  intros H. pose proof (get_set_at_same x i v H) as E. rewrite get_at in E by now rewrite zlen_set_at. now injection E.
Qed.
Lemma at_set_other (x : list K) i j v : i <> Z.of_nat j -> at_ o (set_at x i v) j = at_ o x j.
Proof.
  intros H. unfold at_. destruct (Nat.lt_ge_cases j (length x)) as [L|L].
  - pose proof (get_set_at_other x i (Z.of_nat j) v H) as E.
    rewrite (get_at x) in E by (unfold zlen; lia). rewrite get_at in E by (rewrite zlen_set_at; unfold zlen; lia).
    rewrite Nat2Z.id in E. now injection E.
  - rewrite !nth_overflow; try reflexivity; try lia. assert (length (set_at x i v) = length x) by (pose proof (zlen_set_at x i v); unfold zlen in *; lia). lia.
Qed.

(** ** Sums over stored elements *)
Definition hits (es : list (Z * K)) (j : nat) : K := sum_over o es (fun e => if (fst e =? Z.of_nat j)%Z then snd e else 0).
Lemma hits_sum n es g : in_range n es -> sum_over o es (fun e => snd e * g (Z.to_nat (fst e))) = bigsum o n (fun j => hits es j * g j).
Proof.
  intros F. unfold hits. rewrite (bigsum_ext o n _ (fun j => sum_over o es (fun e => (if (fst e =? Z.of_nat j)%Z then snd e else 0) * g j))).
  - rewrite <- (sum_over_bigsum_swap o RL es n (fun e j => (if (fst e =? Z.of_nat j)%Z then snd e else 0) * g j)). apply sum_over_ext. intros e He. rewrite Forall_forall in F. specialize (F e He).
    rewrite (bigsum_ext o n _ (fun j => if Nat.eqb j (Z.to_nat (fst e)) then snd e * g j else 0)).
    + now rewrite (bigsum_single o RL) by lia.
    + intros j Hj. replace (Nat.eqb j (Z.to_nat (fst e))) with (fst e =? Z.of_nat j)%Z by (destruct (Nat.eqb_spec j (Z.to_nat (fst e))); lia).
      destruct (_ =? _)%Z; ring.
  - intros j _. rewrite <- (sum_over_mul_r o RL). reflexivity.
Qed.

Lemma direct_row_ok n row x acc : length x = n -> (forall e, In e row -> (-1 <= fst e < Z.of_nat n)%Z) ->
  direct_row o row x acc = Ok (acc + sum_over o (entries row) (fun e => snd e * at_ o x (Z.to_nat (fst e)))).
Proof.
  intros L. revert acc. induction row as [|[i v] row IH]; intros acc H; cbn [direct_row entries fst].
  - cbn. f_equal. ring.
  - destruct (Z.eqb_spec i (-1)) as [E|E]; [cbn; f_equal; ring|].
    specialize (H (i, v) ltac:(now left)) as Hi. cbn [fst] in Hi.
    rewrite get_at by (unfold zlen; lia). cbn [bind]. rewrite IH by (intros e He; apply H; now right).
    cbn [sum_over fst snd]. f_equal. ring.
Qed.
Lemma direct_row_coef n row x : length x = n -> (forall e, In e row -> (-1 <= fst e < Z.of_nat n)%Z) ->
  direct_row o row x 0 = Ok (bigsum o n (fun j => coef o row j * at_ o x j)).
Proof.
  intros L H. rewrite (direct_row_ok n row x 0 L H). rewrite (hits_sum n); [|now apply valid_entries].
  f_equal. unfold hits, coef. ring.
Qed.
Lemma pmatrix_direct_ok m x : valid (length x) m -> pmatrix_direct o m x = Ok (map (fun i => projected o m x i) (seq 0 (length m))).
Proof.
  intros V. unfold pmatrix_direct.
  rewrite (map_res_pure _ (fun row => bigsum o (length x) (fun j => coef o row j * at_ o x j))).
  - f_equal. unfold projected. apply (nth_ext _ _ 0 0); [now rewrite !map_length, seq_length|].
    intros i Hi. rewrite map_length in Hi.
    rewrite (nth_indep _ 0 (bigsum o (length x) (fun j => coef o [] j * at_ o x j))) by now rewrite map_length.
    rewrite (map_nth (fun row => bigsum o (length x) (fun j => coef o row j * at_ o x j))).
    rewrite (nth_indep _ 0 (bigsum o (length x) (fun j => coef o (nth 0%nat m []) j * at_ o x j))) by now rewrite map_length, seq_length.
    rewrite (map_nth (fun i => bigsum o (length x) (fun j => coef o (nth i m []) j * at_ o x j))). rewrite seq_nth by exact Hi. reflexivity.
  - intros row Hr. apply direct_row_coef; [reflexivity | now apply V].
Qed.

(** ** Events *)
Lemma run_events_ok n evs : forall mem, length mem = n -> in_range n evs ->
  exists mem', run_events o mem evs = Ok mem' /\ length mem' = n /\ forall j, (j < n)%nat -> at_ o mem' j = at_ o mem j + hits evs j.
Proof.
  induction evs as [|[i t] evs IH]; intros mem L F; cbn [run_events].
  - exists mem. split; [reflexivity|]. split; [exact L|]. intros j _. unfold hits. cbn. ring.
  - apply Forall_cons_iff in F as [Hi F]. cbn [fst] in Hi. rewrite get_at by (unfold zlen; lia). cbn [bind].
    destruct (IH (set_at mem i (at_ o mem (Z.to_nat i) + t))) as [mem' [E [L' H]]]; [|exact F|].
    + pose proof (zlen_set_at mem i (at_ o mem (Z.to_nat i) + t)) as Z0. unfold zlen in Z0. lia.
    + exists mem'. split; [exact E|]. split; [exact L'|]. intros j Hj. rewrite H by exact Hj. unfold hits. cbn [sum_over fst snd].
      destruct (Z.eqb_spec i (Z.of_nat j)) as [->|N].
      * rewrite Nat2Z.id. pose proof (at_set_same mem (Z.of_nat j) (at_ o mem j + t) ltac:(unfold zlen; lia)) as Q.
        rewrite Nat2Z.id in Q. rewrite Q. ring.
      * rewrite at_set_other by exact N. ring.
Qed.
Lemma run_events_any n evs evs' mem : length mem = n -> in_range n evs -> Permutation evs evs' ->
  exists mem', run_events o mem evs' = Ok mem' /\ length mem' = n /\ forall j, (j < n)%nat -> at_ o mem' j = at_ o mem j + hits evs j.
Proof.
  intros L F P. destruct (run_events_ok n evs' mem L) as [mem' [E [L' H]]].
  - rewrite Forall_forall in *. intros e He. apply F. now apply (Permutation_in _ (Permutation_sym P)).
  - exists mem'. split; [exact E|]. split; [exact L'|]. intros j Hj. rewrite H by exact Hj. f_equal. unfold hits. symmetry. now apply sum_over_perm.
Qed.
Lemma row_events_eq f row : row_events f row = map (fun e : Z * K => (fst e, f (snd e))) (entries row).
Proof. induction row as [|[i v] row IH]; cbn [row_events entries fst]; [reflexivity|]. destruct (i =? -1)%Z; cbn; [reflexivity | now rewrite IH]. Qed.
Lemma hits_map_mul es t j : hits (map (fun e => (fst e, snd e * t)) es) j = hits es j * t.
Proof.
  unfold hits. rewrite sum_over_map. rewrite <- (sum_over_mul_r o RL). apply sum_over_ext. intros e _. cbn [fst snd]. destruct (_ =? _)%Z; ring.
Qed.
Lemma hits_app a b j : hits (a ++ b) j = hits a j + hits b j.
Proof. unfold hits. now apply sum_over_app. Qed.
Lemma hits_flat_map {A} (f : A -> list (Z * K)) l j : hits (flat_map f l) j = sum_over o l (fun a => hits (f a) j).
Proof. unfold hits. now apply sum_over_flat_map. Qed.
Lemma sum_over_combine {A B} (l : list A) (r : list B) (da : A) (db : B) f : length l = length r ->
  sum_over o (combine l r) f = bigsum o (length l) (fun i => f (nth i l da, nth i r db)).
Proof.
  intros L. rewrite (sum_over_nth o RL (combine l r) (da, db)). rewrite combine_length, <- L, Nat.min_id.
  apply bigsum_ext. intros i _. now rewrite combine_nth.
Qed.

Lemma transpose_hits m t j : length m = length t -> hits (transpose_events o m t) j = back o m (at_ o t) j.
Proof.
  intros L. unfold transpose_events. rewrite hits_flat_map. rewrite (sum_over_combine m t [] 0) by exact L. unfold back.
  apply bigsum_ext. intros i _. cbn [fst snd]. rewrite row_events_eq. now rewrite (hits_map_mul (entries (nth i m []))).
Qed.
Lemma transpose_range n m t : valid n m -> in_range n (transpose_events o m t).
Proof.
  intros V. apply Forall_forall. intros e He. unfold transpose_events in He. apply in_flat_map in He as [[row tt] [H1 H2]].
  cbn [fst snd] in H2. rewrite row_events_eq in H2. apply in_map_iff in H2 as [e' [<- H2]]. cbn [fst].
  apply in_combine_l in H1. pose proof (valid_entries n row (V row H1)) as F. rewrite Forall_forall in F. now apply F.
Qed.

(** ** One pixel per sample *)
Lemma first_column_ok m : Forall (fun row => length row = 1%nat) m -> map (fun e => [e]) (first_column (K := K) m) = m.
Proof.
  unfold first_column. induction m as [|row m IH]; intros F; [reflexivity|]. apply Forall_cons_iff in F as [F1 F2].
  destruct row as [|e [|]]; try discriminate. cbn. f_equal. now apply IH.
Qed.
Lemma transpose_one_eq c t : Forall (fun e : Z * K => (-1 <= fst e)%Z) c -> transpose_one_events o c t = transpose_events o (map (fun e => [e]) c) t.
Proof.
  revert t. induction c as [|[i v] c IH]; intros [|a t] F; try reflexivity. apply Forall_cons_iff in F as [F1 F2]. cbn [fst] in F1.
  unfold transpose_one_events, transpose_events in *. cbn [map combine flat_map fst snd row_events].
  rewrite (IH t F2). destruct (Z.eqb_spec i (-1)) as [->|N]; [reflexivity|]. replace (0 <=? i)%Z with true by lia. reflexivity.
Qed.
Lemma direct_one_ok c x t : length c = length t -> Forall (fun e : Z * K => (0 <= fst e < zlen x)%Z) c ->
  pmatrix_direct_one o c x t = pmatrix_direct o (map (fun e => [e]) c) x.
Proof.
  revert t. induction c as [|[i v] c IH]; intros [|a t] L F; try discriminate; [reflexivity|].
  apply Forall_cons_iff in F as [F1 F2]. cbn [fst] in F1. cbn [pmatrix_direct_one map]. unfold pmatrix_direct. cbn [map_res].
  replace (0 <=? i)%Z with true by lia. cbn [direct_row]. replace (i =? -1)%Z with false by lia.
  rewrite get_at by lia. cbn [bind].
  rewrite (IH t) by (injection L; auto). unfold pmatrix_direct. destruct (map_res _ _); [cbn [bind]; do 2 f_equal; ring | reflexivity].
Qed.

(** ** ptp *)
Lemma cell_range n i j : (0 <= i < Z.of_nat n)%Z -> (0 <= j < Z.of_nat n)%Z -> cell (Z.of_nat n) i j = (i + j * Z.of_nat n)%Z.
Proof. intros A B. unfold cell. replace ((0 <=? i) && (i <? Z.of_nat n) && (0 <=? j) && (j <? Z.of_nat n))%Z with true by lia. reflexivity. Qed.
Lemma row_events_id row : row_events (fun v => v) row = entries (K := K) row.
Proof. rewrite row_events_eq. rewrite <- (map_id (entries row)) at 2. apply map_ext. now intros []. Qed.
Lemma ptp_range n m : valid n m -> in_range (n * n)%nat (ptp_events o (Z.of_nat n) m).
Proof.
  intros V. apply Forall_forall. intros e He. unfold ptp_events in He. apply in_flat_map in He as [row [H1 H2]].
  rewrite row_events_id in H2. pose proof (valid_entries n row (V row H1)) as F. rewrite Forall_forall in F.
  apply in_flat_map in H2 as [e1 [H2 H3]]. apply in_map_iff in H3 as [e2 [<- H3]]. cbn [fst].
  pose proof (F e1 H2) as A. pose proof (F e2 H3) as B. rewrite cell_range by assumption. nia.
Qed.
Lemma ptp_hits n m i j : valid n m -> (i < n)%nat -> (j < n)%nat ->
  hits (ptp_events o (Z.of_nat n) m) (i + j * n)%nat = bigsum o (length m) (fun s => coef o (nth s m []) i * coef o (nth s m []) j).
Proof.
  intros V Hi Hj. unfold ptp_events. rewrite hits_flat_map. rewrite (sum_over_nth o RL m []). apply bigsum_ext. intros s Hs.
  assert (In (nth s m []) m) as I by now apply nth_In. set (row := nth s m []) in *. clearbody row.
  pose proof (valid_entries n row (V row I)) as F. rewrite Forall_forall in F.
  rewrite row_events_id. rewrite hits_flat_map. unfold coef at 1. rewrite <- (sum_over_mul_r o RL).
  apply sum_over_ext. intros e1 H1. unfold hits. rewrite sum_over_map. cbn [fst snd].
  destruct (Z.eqb_spec (fst e1) (Z.of_nat i)) as [E|E].
  - unfold coef. rewrite <- (sum_over_mul_l o RL). apply sum_over_ext. intros e2 H2.
    pose proof (F e1 H1). pose proof (F e2 H2). rewrite cell_range by assumption.
    destruct (Z.eqb_spec (fst e2) (Z.of_nat j)) as [E2|E2].
    + replace (_ =? _)%Z with true by (rewrite E, E2; lia). reflexivity.
    + replace (fst e1 + fst e2 * Z.of_nat n =? Z.of_nat (i + j * n))%Z with false by nia. ring.
  - rewrite (sum_over_0 o RL); [ring|]. intros e2 H2. pose proof (F e1 H1). pose proof (F e2 H2). rewrite cell_range by assumption.
    replace (fst e1 + fst e2 * Z.of_nat n =? Z.of_nat (i + j * n))%Z with false; [reflexivity|].
    symmetry. apply Z.eqb_neq. intros Q.
    assert (Q1 : ((fst e1 + fst e2 * Z.of_nat n) mod Z.of_nat n = fst e1)%Z) by (rewrite Z.mod_add, Z.mod_small by lia; reflexivity).
    assert (Q2 : (Z.of_nat (i + j * n) mod Z.of_nat n = Z.of_nat i)%Z) by (rewrite Nat2Z.inj_add, Nat2Z.inj_mul, Z.mod_add, Z.mod_small by lia; reflexivity).
    rewrite Q in Q1. rewrite Q1 in Q2. contradiction.
Qed.

(** ** Mask *)
Definition seen (rows : list (list (Z * K))) (j : nat) : Prop := exists row e, In row rows /\ In e (entries row) /\ fst e = Z.of_nat j /\ snd e <> 0.
Context (iszero : K -> bool) (Hz : forall v, iszero v = true <-> v = k0 o).
Lemma mask_row_ok n row : forall mask, length mask = n -> (forall e, In e row -> (-1 <= fst e < Z.of_nat n)%Z) ->
  exists mask', mask_row iszero row mask = Ok mask' /\ length mask' = n /\
    forall j, (j < n)%nat -> (nth j mask' true = true <-> nth j mask true = true /\ ~ seen [row] j).
Proof.
  induction row as [|[i v] row IH]; intros mask L H; cbn [mask_row].
  - exists mask. split; [reflexivity|]. split; [exact L|]. intros j _. split; [|tauto]. intros T. split; [exact T|]. intros [r [e [[<-|[]] [[] _]]]].
  - destruct (Z.eqb_spec i (-1)) as [E|E].
    + exists mask. split; [reflexivity|]. split; [exact L|]. intros j _. split; [|tauto]. intros T. split; [exact T|].
      intros [r [e [[<-|[]] [A _]]]]. cbn [entries fst] in A. rewrite E in A. destruct A.
    + specialize (H (i, v) ltac:(now left)) as Hi. cbn [fst] in Hi.
      assert (H' : forall e, In e row -> (-1 <= fst e < Z.of_nat n)%Z) by (intros e He; apply H; now right).
      assert (S : forall j, seen [(i, v) :: row] j <-> i = Z.of_nat j /\ v <> 0 \/ seen [row] j).
      { intros j. unfold seen. split.
        - intros [r [e [[<-|[]] [A [B C]]]]]. cbn [entries fst] in A. replace (i =? -1)%Z with false in A by lia.
          destruct A as [<-|A]; [left; auto | right; exists row, e; cbn; auto].
        - intros [[A B]|[r [e [[<-|[]] [A B]]]]].
          + exists ((i, v) :: row), (i, v). cbn [In entries fst snd]. replace (i =? -1)%Z with false by lia. cbn [In]. auto.
          + exists ((i, v) :: row), e. cbn [In entries fst snd]. replace (i =? -1)%Z with false by lia. cbn [In]. tauto. }
      destruct (iszero v) eqn:Ez.
      * apply Hz in Ez. destruct (IH mask L H') as [m' [E1 [E2 E3]]]. exists m'. split; [exact E1|]. split; [exact E2|].
        intros j Hj. rewrite E3 by exact Hj. rewrite S. tauto.
      * assert (Nz : v <> 0) by (intros ->; rewrite (proj2 (Hz 0) eq_refl) in Ez; discriminate).
        destruct (get_total mask i) as [b Eb]; [unfold zlen; lia|]. rewrite Eb. cbn [bind].
        destruct (IH (set_at mask i false)) as [m' [E1 [E2 E3]]]; [|exact H'|].
        { pose proof (zlen_set_at mask i false) as Q. unfold zlen in Q. lia. }
        exists m'. split; [exact E1|]. split; [exact E2|]. intros j Hj. rewrite E3 by exact Hj. rewrite S.
        assert (X : nth j (set_at mask i false) true = if (i =? Z.of_nat j)%Z then false else nth j mask true).
        { unfold set_at. replace (i <? 0)%Z with false by lia. destruct (Z.eqb_spec i (Z.of_nat j)) as [->|Nj].
          - rewrite Nat2Z.id. apply nth_error_nth. apply set_nth_same. lia.
          - assert (nth_error (set_nth mask (Z.to_nat i) false) j = nth_error mask j) as Q by (apply set_nth_other; lia).
            destruct (nth_error mask j) as [y|] eqn:Ey.
            + rewrite (nth_error_nth _ _ true Q), (nth_error_nth _ _ true Ey). reflexivity.
            + apply nth_error_None in Ey. lia. }
        rewrite X. destruct (Z.eqb_spec i (Z.of_nat j)); split; try tauto; intros [A B]; discriminate || (exfalso; tauto).
Qed.
Lemma pmatrix_mask_ok n m : forall mask, length mask = n -> valid n m ->
  exists mask', pmatrix_mask iszero m mask = Ok mask' /\ length mask' = n /\
    forall j, (j < n)%nat -> (nth j mask' true = true <-> nth j mask true = true /\ ~ seen m j).
Proof.
  induction m as [|row m IH]; intros mask L V; cbn [pmatrix_mask].
  - exists mask. split; [reflexivity|]. split; [exact L|]. intros j _. split; [|tauto]. intros T. split; [exact T|]. intros [r [e [[] _]]].
  - destruct (mask_row_ok n row mask L (V row ltac:(now left))) as [m1 [E1 [L1 H1]]]. rewrite E1. cbn [bind].
    destruct (IH m1 L1) as [m2 [E2 [L2 H2]]]; [intros r Hr; apply V; now right|].
    exists m2. split; [exact E2|]. split; [exact L2|]. intros j Hj. rewrite H2, H1 by exact Hj.
    assert (seen (row :: m) j <-> seen [row] j \/ seen m j).
    { unfold seen. split.
      - intros [r [e [[<-|A] B]]]; [left; exists row, e; cbn; auto | right; exists r, e; auto].
      - intros [[r [e [[<-|[]] B]]]|[r [e [A B]]]]; [exists row, e; cbn; auto | exists r, e; cbn; auto]. }
    tauto.
Qed.

(** ** Packing *)
(** Rank of a pixel among those that are kept. *)
Definition rank (mask : list bool) (i : nat) : nat := length (filter negb (firstn i mask)).
Lemma pack_table_ok mask : forall p i, (i < length mask)%nat -> nth_error (pack_table p mask) i = Some (if nth i mask true then None else Some (p + Z.of_nat (rank mask i))%Z).
Proof.
  induction mask as [|b mask IH]; intros p i H; [cbn in H; lia|]. destruct i as [|i].
  - destruct b; cbn; [reflexivity|]. now rewrite Z.add_0_r.
  - cbn [length] in H. destruct b; cbn [pack_table nth_error nth]; rewrite IH by lia; unfold rank; cbn [firstn filter negb]; [reflexivity|].
    destruct (nth i mask true); [reflexivity|]. cbn [length]. do 2 f_equal. lia.
Qed.
Lemma packed_at (x : list K) : forall mask i, length x = length mask -> (i < length mask)%nat -> nth i mask true = false ->
  nth (rank mask i) (packed x mask) 0 = nth i x 0 /\ (rank mask i < length (packed x mask))%nat.
Proof.
  induction x as [|a x IH]; intros [|b mask] [|i] L H Hm; try (cbn in *; lia); try discriminate.
  - cbn [nth] in Hm. subst b. unfold packed, rank. cbn. split; [reflexivity | lia].
  - cbn [nth length] in *. destruct (IH mask i ltac:(lia) ltac:(lia) Hm) as [A B].
    unfold rank, packed in *. cbn [combine filter snd firstn]. destruct b; cbn [negb map fst nth length]; split; auto; lia.
Qed.
Lemma zeroed_at (x : list K) : forall mask i, length x = length mask -> (i < length mask)%nat -> nth i (zeroed o x mask) 0 = if nth i mask true then 0 else nth i x 0.
Proof.
  induction x as [|a x IH]; intros [|b mask] [|i] L H; try (cbn in *; lia); try reflexivity.
  cbn [length] in *. unfold zeroed in *. cbn [combine map nth]. apply IH; lia.
Qed.
Definition kept (mask : list bool) (e : Z * K) : bool := negb (iszero (snd e)) && negb (nth (Z.to_nat (fst e)) mask true).
Definition renumber (mask : list bool) (e : Z * K) : Z * K := (Z.of_nat (rank mask (Z.to_nat (fst e))), snd e).
Lemma entries_ended row pad : Forall (fun e : Z * K => fst e <> (-1)%Z) row -> Forall (fun e : Z * K => fst e = (-1)%Z) pad ->
  entries (row ++ pad) = row.
Proof.
  intros A B. induction A as [|e row N A IH]; cbn [app entries].
  - destruct B as [|e pad E B]; cbn [entries]; [reflexivity|]. rewrite E. reflexivity.
  - destruct (Z.eqb_spec (fst e) (-1)); [contradiction|]. now rewrite IH.
Qed.
Lemma pack_row_ok n mask : length mask = n -> forall row pad before fuel,
  Forall (fun e : Z * K => (-1 <= fst e < Z.of_nat n)%Z) row -> Forall (fun e : Z * K => fst e = (-1)%Z) pad -> (length row < fuel)%nat ->
  exists rest, pack_row o iszero fuel (pack_table 0 mask) mask before (row ++ pad) =
     Ok (before ++ map (renumber mask) (filter (kept mask) (entries row)) ++ rest) /\
     (length (before ++ row ++ pad) = length (before ++ map (renumber mask) (filter (kept mask) (entries row)) ++ rest)) /\
     entries rest = [].
Proof.
  intros L. induction row as [|[i v] row IH]; intros pad before fuel F P Lf; (destruct fuel as [|fuel]; [cbn in Lf; lia|]).
  - cbn [app entries filter map]. exists pad. destruct P as [|e pad E P]; [cbn [pack_row app]; split; [now rewrite app_nil_r | auto]|].
    destruct e as [i v]. cbn [fst] in E. subst i. cbn. auto.
  - apply Forall_cons_iff in F as [Fi F]. cbn [fst] in Fi. cbn [app pack_row entries fst].
    destruct (Z.eqb_spec i (-1)) as [E|E].
    + exists ((i, v) :: row ++ pad). cbn [filter map app]. subst i. split; [reflexivity|]. split; [reflexivity|]. reflexivity.
    + cbn [length] in Lf. cbn [filter].
      destruct (get_total mask i) as [b Eb]; [unfold zlen; lia|].
      assert (Enth : nth (Z.to_nat i) mask true = b) by (apply get_ok in Eb as [_ Eb]; now apply nth_error_nth).
      destruct (bool_dec (kept mask (i, v)) true) as [Hk|Hk].
      * rewrite Hk. unfold kept in Hk. cbn [fst snd] in Hk. rewrite Enth in Hk.
        destruct (iszero v) eqn:Ez; [discriminate|]. destruct b; [discriminate|]. rewrite Eb. cbn [bind].
        assert (get (pack_table 0 mask) i = Ok (Some (Z.of_nat (rank mask (Z.to_nat i))))) as ->.
        { apply get_ok. split; [lia|]. rewrite pack_table_ok by lia. now rewrite Enth. }
        cbn [bind]. destruct (IH pad (before ++ [(Z.of_nat (rank mask (Z.to_nat i)), v)]) fuel F P ltac:(lia)) as [rest [E1 [E2 E3]]].
        exists rest. cbn [map]. split; [rewrite E1, <- app_assoc; reflexivity|]. split; [|exact E3].
        rewrite <- !app_assoc in E2. cbn [app] in E2. rewrite !app_length in *. cbn [length] in *. rewrite !app_length in *. lia.
      * apply not_true_is_false in Hk. rewrite Hk. unfold kept in Hk. cbn [fst snd] in Hk. rewrite Enth in Hk.
        assert ((if iszero v then Ok true else get mask i) = Ok true) as ->.
        { destruct (iszero v); [reflexivity|]. rewrite Eb. now destruct b. }
        cbn [bind]. rewrite <- app_assoc.
        destruct (IH (pad ++ [((-1)%Z, 0)]) before fuel F) as [rest [E1 [E2 E3]]]; [|lia|].
        { apply Forall_app. split; [exact P|]. constructor; [reflexivity | constructor]. }
        exists rest. split; [exact E1|]. split; [|exact E3]. rewrite <- E2. rewrite !app_length. cbn [length]. rewrite !app_length. cbn [length]. lia.
Qed.
Lemma pack_row_entries n mask row : length mask = n -> (forall e, In e row -> (-1 <= fst e < Z.of_nat n)%Z) ->
  exists row', pack_row o iszero (S (length row)) (pack_table 0 mask) mask [] row = Ok row' /\ length row' = length row /\
    entries row' = map (renumber mask) (filter (kept mask) (entries row)).
Proof.
  intros L V. rewrite <- Forall_forall in V. destruct (pack_row_ok n mask L row [] [] (S (length row)) V ltac:(constructor) ltac:(lia)) as [rest [E1 [E2 E3]]].
  rewrite !app_nil_r in E1. cbn [app] in E1, E2. rewrite app_nil_r in E2. eexists. split; [exact E1|]. split; [now rewrite <- E2|].
  set (l := map (renumber mask) (filter (kept mask) (entries row))).
  assert (A : Forall (fun e : Z * K => fst e <> (-1)%Z) l) by (apply Forall_forall; intros e He; apply in_map_iff in He as [e' [<- _]]; cbn; lia).
  clear - A E3. induction A as [|e l N A IH]; cbn [app entries]; [exact E3|]. destruct (Z.eqb_spec (fst e) (-1)); [contradiction|]. now rewrite IH.
Qed.
Lemma pmatrix_pack_ok mask m : valid (length mask) m ->
  exists m', pmatrix_pack o iszero m mask = Ok m' /\
    Forall2 (fun row row' => length row' = length row /\ entries row' = map (renumber mask) (filter (kept mask) (entries row))) m m'.
Proof.
  intros V. unfold pmatrix_pack. induction m as [|row m IH]; cbn [map_res].
  - exists []. split; [reflexivity | constructor].
  - destruct (pack_row_entries (length mask) mask row eq_refl (V row ltac:(now left))) as [row' [E1 E2]]. rewrite E1. cbn [bind].
    destruct IH as [m' [E3 E4]]; [intros r Hr; apply V; now right|]. rewrite E3. cbn [bind]. exists (row' :: m'). split; [reflexivity | constructor; auto].
Qed.

(** The length of the packed map, for the validity of the packed matrix. *)
Lemma packed_row_direct mask row row' x : length x = length mask -> (forall e, In e row -> (-1 <= fst e < Z.of_nat (length mask))%Z) ->
  entries row' = map (renumber mask) (filter (kept mask) (entries row)) ->
  direct_row o row' (packed x mask) 0 = direct_row o row (zeroed o x mask) 0.
Proof.
  intros L V E.
  assert (Lz : length (zeroed o x mask) = length mask) by (unfold zeroed; rewrite map_length, combine_length; lia).
  rewrite (direct_row_ok (length mask) row (zeroed o x mask) 0 Lz V).
  assert (G : forall row acc, Forall (fun e : Z * K => (0 <= fst e < zlen (packed x mask))%Z) (entries row) ->
            direct_row o row (packed x mask) acc = Ok (acc + sum_over o (entries row) (fun e => snd e * at_ o (packed x mask) (Z.to_nat (fst e))))).
  { clear row V E Lz row'. induction row as [|[i v] row IH]; intros acc F; cbn [direct_row entries fst] in *.
    - cbn. f_equal. ring.
    - destruct (Z.eqb_spec i (-1)); [cbn; f_equal; ring|]. apply Forall_cons_iff in F as [F1 F2]. cbn [fst] in F1.
      rewrite get_at by exact F1. cbn [bind]. rewrite IH by exact F2. cbn [sum_over fst snd]. f_equal. ring. }
  pose proof (valid_entries (length mask) row V) as F. rewrite Forall_forall in F.
  rewrite G.
  - f_equal. f_equal. rewrite E, sum_over_map, (sum_over_filter o RL). apply sum_over_ext. intros e He. specialize (F e He).
    cbn [renumber fst snd]. rewrite Nat2Z.id. unfold at_. rewrite zeroed_at by lia.
    unfold kept. destruct (iszero (snd e)) eqn:Ez.
    + apply Hz in Ez. rewrite Ez. cbn. ring.
    + cbn [negb andb]. destruct (nth (Z.to_nat (fst e)) mask true) eqn:Em; cbn [negb]; [ring|].
      destruct (packed_at x mask (Z.to_nat (fst e)) L ltac:(lia) Em) as [Q _]. now rewrite Q.
  - rewrite E. apply Forall_forall. intros e He. apply in_map_iff in He as [e' [<- He]]. apply filter_In in He as [He Hk].
    specialize (F e' He). cbn [renumber fst]. unfold kept in Hk. apply andb_prop in Hk as [_ Hk]. apply negb_true_iff in Hk.
    destruct (packed_at x mask (Z.to_nat (fst e')) L ltac:(lia) Hk) as [_ Q]. unfold zlen. lia.
Qed.
Lemma packed_length (x : list K) mask : length x = length mask -> length (packed x mask) = length (filter negb mask).
Proof.
  revert mask. induction x as [|a x IH]; intros [|b mask] L; try discriminate; [reflexivity|]. unfold packed in *. cbn [combine filter snd].
  injection L as L. destruct b; cbn [negb map length]; rewrite (IH mask L); reflexivity.
Qed.
End Pm.
