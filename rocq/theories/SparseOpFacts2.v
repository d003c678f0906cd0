(** P.T*P, hit maps, kernel masks, construction. *)
From Coq Require Import Lia Permutation Ring.
From Verif Require Import Base BaseFacts SparseModel SparseSpec RingFacts SparseExecFacts SparseFacts SparsePyFacts SparseOpModel SparseOpSpec SparseOpFacts.
Open Scope nat_scope.

Lemma map2_length {A B C} (f : A -> B -> C) l r : length l = length r -> length (map2 f l r) = length l.
Proof. revert r; induction l; intros [|b r] H; cbn in *; try discriminate; auto. Qed.

Lemma map2_nth {A B C} (f : A -> B -> C) l r da db dc i : length l = length r -> i < length l ->
  nth i (map2 f l r) dc = f (nth i l da) (nth i r db).
Proof.
  revert r i; induction l; intros [|b r] [|i] H Hi; cbn in *; try discriminate; try lia; auto.
  apply IHl; lia.
Qed.

Section Op.
Context {K : Type} (o : ops K).
Variable RL : ring_laws o.
Let RT : ring_theory (k0 o) (k1 o) (kadd o) (kmul o) (fun a b => kadd o a (kopp o b)) (kopp o) eq := RL.
Add Ring Kring6 : RT.

Definition diag_kind (k : kind) : Prop := k <> KBlock.

Definition ptp_fmt (k : kind) : fmt := match k with KRot2 => Rot2 | KRot3 => Rot3 | _ => Hom 1 end.

Definition diag_term (k : kind) (e : elt K) (p : nat) : K := ksum o (nth p (ptp_stmts o k (vals o e)) []).

(** The blocks have orthogonal columns. *)
Lemma block_orthogonal k (e : elt K) p p' : p < ptp_block k -> p' < ptp_block k ->
  bigsum o (ptp_block k) (fun q => kmul o (block_entry o (ptp_fmt k) (e_val e) q p) (block_entry o (ptp_fmt k) (e_val e) q p'))
  = if p' =? p then diag_term k e p else k0 o.
Proof.
  unfold diag_term, vals. unfold at_. intros H H'.
  destruct k; cbn in H, H'; destruct p as [|[|[|p]]]; try lia; destruct p' as [|[|[|p']]]; try lia;
    cbn; unfold at_; ring.
Qed.

Lemma ptp_stmts_length k (V : nat -> K) : length (ptp_stmts o k V) = ptp_block k.
Proof. destruct k; reflexivity. Qed.

Lemma ptp_exec k n (data : list (list (elt K))) sched : in_range n data -> scheduler sched ->
  exists its d, ptp_kernel o k (n * ptp_block k) data = Some its /\
    exec o (sched its) (repeat (k0 o) (n * ptp_block k)) = Some d /\ length d = n * ptp_block k /\
    forall c p, c < n -> p < ptp_block k ->
      at_ o d (c * ptp_block k + p) =
      sum_over o (concat data) (fun e => if (e_idx e =? Z.of_nat c)%Z then diag_term k e p else k0 o).
Proof.
  intros R S. set (b := ptp_block k). assert (B : 0 < b) by (unfold b; destruct k; cbn; lia).
  set (acts := fun e : elt K => if (e_idx e <? 0)%Z then [] else
     [Atomic (cells (Z.to_nat (e_idx e) * b) (ptp_stmts o k (vals o e)))]).
  assert (RR : Forall (fun e : elt K => (e_idx e < Z.of_nat n)%Z) (concat data)).
  { apply Forall_forall. intros e He. apply in_concat in He. destruct He as [row [H1 H2]].
    unfold in_range in R. rewrite Forall_forall in R. specialize (R row H1). rewrite Forall_forall in R. auto. }
  exists (map acts (concat data)).
  destruct (exec_atomic o RL (map acts (concat data)) (sched (map acts (concat data))) (repeat (k0 o) (n * b)))
    as [d [E [L F]]]; [apply S| |].
  { rewrite Forall_map. eapply Forall_impl; [|exact RR]. cbn. intros e He. unfold acts.
    destruct (Z.ltb_spec (e_idx e) 0); [constructor|]. repeat constructor. cbn.
    rewrite repeat_length, Forall_map. apply Forall_forall. intros [c ts] Hc.
    apply cells_in in Hc. rewrite ptp_stmts_length in Hc. fold b in Hc. cbn. nia. }
  exists d. split; [|split; [exact E|]].
  { unfold ptp_kernel. fold b. rewrite Nat.div_mul by lia. apply all_opt_map. intros e He. unfold guarded, acts.
    rewrite Forall_forall in RR. specialize (RR e He). destruct (e_idx e <? 0)%Z; [reflexivity|].
    destruct (Z.ltb_spec (e_idx e) (Z.of_nat n)); [reflexivity|lia]. }
  rewrite repeat_length in L. split; [exact L|]. intros c p Hc Hp.
  rewrite F by (rewrite repeat_length; nia). rewrite repeat_at, (sum_over_map o).
  rewrite (sum_over_ext o _ _ (fun e => if (e_idx e =? Z.of_nat c)%Z then diag_term k e p else k0 o)); [ring|].
  intros e _. unfold acts. destruct (Z.ltb_spec (e_idx e) 0) as [N|N].
  - destruct (Z.eqb_spec (e_idx e) (Z.of_nat c)); [lia|reflexivity].
  - cbn [sum_over contr]. rewrite (ups_contr_cells o RL), ptp_stmts_length. fold b.
    destruct (Z.eqb_spec (e_idx e) (Z.of_nat c)) as [Q|Q].
    + rewrite Q, Nat2Z.id. replace ((c * b <=? c * b + p) && (c * b + p <? c * b + b)) with true by lia.
      replace (c * b + p - c * b) with p by lia. unfold diag_term. ring.
    + replace ((Z.to_nat (e_idx e) * b <=? c * b + p) && (c * b + p <? Z.to_nat (e_idx e) * b + b)) with false by nia.
      ring.
Qed.

Lemma sum_over_concat_nth {A} (ls : list (list A)) f :
  sum_over o (concat ls) f = bigsum o (length ls) (fun i => sum_over o (nth i ls []) f).
Proof. rewrite (sum_over_concat o RL). apply (sum_over_nth o RL ls []). Qed.

Lemma ptp_spec sched flib flib' sched1 sched2 (S : sop K) shp x :
  well_formed (so_mx S) -> mx_axis (so_mx S) = FSR -> mx_kind (so_mx S) <> KBlock ->
  Forall (fun row => length row = 1) (mx_data (so_mx S)) ->
  so_in S = Some shp -> prodn shp = mx_cols (so_mx S) ->
  scheduler sched -> scheduler sched1 -> scheduler sched2 ->
  0 < mx_cols (so_mx S) -> 0 < mx_rows (so_mx S) -> length x = mx_cols (so_mx S) ->
  exists d y z, rule_ptp o sched S = Some (Some d) /\ length d = length x /\
    matvec o flib sched1 (so_mx S) x None = Ok (Some y) /\
    matvec o flib' sched2 (transpose (so_mx S)) y None = Ok (Some z) /\
    z = map2 (kmul o) d x.
Proof.
  intros W AX KD ONE Hin Hshp Hs Hs1 Hs2 PC PR Lx. set (M := so_mx S) in *.
  pose proof W as [C [nr [nc [Hr [Hc D]]]]]. rewrite AX in D. destruct D as [D1 D2].
  assert (A : allowed_extra M 1) by (unfold allowed_extra; destruct (mx_kind M); lia).
  set (k := mx_kind M) in *.
  assert (Fm : fmt_of M 1 = ptp_fmt k).
  { unfold fmt_of, k in *. destruct (mx_kind M); try reflexivity. congruence. }
  assert (BF : frow (ptp_fmt k) = ptp_block k /\ fcol (ptp_fmt k) = ptp_block k) by (destruct k; split; reflexivity).
  destruct BF as [BF1 BF2].
  assert (Bs : fst (mx_bs M) = ptp_block k /\ snd (mx_bs M) = ptp_block k).
  { destruct k; cbn in C; try (rewrite C; split; reflexivity). congruence. }
  destruct Bs as [Bs1 Bs2]. rewrite Bs1 in Hr. rewrite Bs2 in Hc. set (b := ptp_block k) in *.
  assert (B : 0 < b) by (unfold b; destruct k; cbn; lia).
  destruct (ptp_exec k nc (mx_data M) sched D2 Hs) as [its [d [E1 [E2 [Ld Fd]]]]]. fold b in E1, E2, Ld, Fd.
  destruct (rows_product o RL flib sched1 M 1 x W AX Hs1 A PC ltac:(lia)) as [y [Ey [Ly [Ly' Fy]]]].
  rewrite Fm, BF1 in *.
  assert (A' : allowed_extra (transpose M) 1) by exact A.
  destruct (matvec_none o RL flib' sched2 (transpose M) 1 y (wf_transpose M W) Hs2 A') as [z [Ez Hz]];
    [cbn; lia|cbn; nia|].
  exists d, y, z. split; [|split; [lia|split; [exact Ey|split; [exact Ez|]]]].
  { unfold rule_ptp. fold M. rewrite AX. fold k. rewrite Hin.
    assert (O1 : one_per_row (mx_data M) = true).
    { unfold one_per_row. apply forallb_forall. intros row Hrow. rewrite Forall_forall in ONE.
      rewrite (ONE row Hrow). reflexivity. }
    rewrite O1, Hshp, Hc. revert E1 KD. generalize k. intros k' E1 KD.
    destruct k'; try congruence; rewrite E1, E2; reflexivity. }
  assert (Lz : length z = nc * b) by (rewrite (proj1 Hz); cbn; nia).
  apply (list_ext_blocks o nc b); [exact Lz|rewrite map2_length; lia|].
  intros c p Hcc Hp. unfold at_ at 2. rewrite (map2_nth (kmul o) d x (k0 o) (k0 o)) by nia.
  change (nth (c * b + p) d (k0 o)) with (at_ o d (c * b + p)). change (nth (c * b + p) x (k0 o)) with (at_ o x (c * b + p)).
  rewrite Fd by auto.
  rewrite (adds_product_zero o RL _ _ _ _ _ _ _ Hz) by (cbn; nia).
  unfold dense_of. rewrite fmt_transpose, Fm.
  replace (mx_axis (transpose M)) with FSC by (cbn; rewrite AX; reflexivity).
  change (mx_data (transpose M)) with (mx_data M). change (mx_cols (transpose M)) with (mx_rows M).
  replace (1 * mx_rows M) with (length (mx_data M) * frow (ptp_fmt k)) by (rewrite BF1; nia).
  replace (c * b + p) with (c * fcol (ptp_fmt k) + p) at 1 by (rewrite BF2; reflexivity).
  rewrite (dense_col_product o RL _ _ nc) by (rewrite ?BF1, ?BF2; auto).
  rewrite sum_over_concat_nth, <- (bigsum_mul_r o RL). apply bigsum_ext. intros i Hi.
  rewrite <- (sum_over_mul_r o RL). apply sum_over_ext. intros e He. unfold elt_col.
  destruct (Z.eqb_spec (e_idx e) (Z.of_nat c)) as [Q|Q]; [|ring].
  rewrite BF1.
  assert (Row : nth i (mx_data M) [] = [e]).
  { rewrite Forall_forall in ONE. specialize (ONE _ (nth_In _ [] Hi)).
    destruct (nth i (mx_data M) []) as [|e' [|]]; cbn in ONE; try lia. destruct He as [->|[]]. reflexivity. }
  transitivity (bigsum o b (fun q => bigsum o b (fun q' =>
     kmul o (kmul o (block_entry o (ptp_fmt k) (e_val e) q p) (block_entry o (ptp_fmt k) (e_val e) q q')) (at_ o x (c * b + q'))))).
  { apply bigsum_ext. intros q Hq. rewrite Fy by auto. rewrite Row. cbn [sum_over]. unfold elt_row.
    destruct (Z.ltb_spec (e_idx e) 0); [lia|]. rewrite BF2, Q, Nat2Z.id.
    replace (kadd o _ (k0 o)) with (bigsum o b (fun q0 => kmul o (block_entry o (ptp_fmt k) (e_val e) q q0) (at_ o x (c * b + q0)))) by ring.
    rewrite <- (bigsum_mul_l o RL). apply bigsum_ext. intros q' _. ring. }
  rewrite (bigsum_swap o RL).
  rewrite (bigsum_ext o b _ (fun q' => if q' =? p then kmul o (diag_term k e p) (at_ o x (c * b + q')) else k0 o)).
  - apply (bigsum_single o RL); auto.
  - intros q' Hq'. rewrite (bigsum_mul_r o RL). unfold b. rewrite block_orthogonal by auto.
    rewrite (if_mul_r o RL). reflexivity.
Qed.

(** ** Hit maps *)
Lemma pT1_scalar flib sched norm (S : sop K) extra out op :
  well_formed (so_mx S) -> mx_axis (so_mx S) = FSR -> mx_kind (so_mx S) = KScalar ->
  match so_out S with Some s => prodn s = extra * mx_rows (so_mx S) | None => extra = 1 end ->
  1 <= extra -> scheduler sched -> 0 < mx_cols (so_mx S) -> 0 < mx_rows (so_mx S) ->
  length out = extra * mx_cols (so_mx S) -> op = Assign \/ op = IAdd ->
  exists r, pT1 o flib sched norm S out op = Ok (Some r) /\ length r = length out /\
    forall c, c < length out ->
      at_ o r c = kadd o (previous o op out c)
                         (bigsum o (extra * mx_rows (so_mx S)) (fun i => dense_of o (so_mx S) extra i c)).
Proof.
  intros W AX KD Hout E1 Hs PC PR Lo Hop. set (M := so_mx S) in *.
  assert (A : allowed_extra (transpose M) extra) by (unfold allowed_extra; cbn; rewrite KD; exact E1).
  assert (N : match so_out S with Some s => prodn s | None => mx_rows M end = extra * mx_rows M).
  { destruct (so_out S); [exact Hout|]. subst. lia. }
  assert (Ones : forall n i, i < n -> at_ o (ones o n) i = k1 o).
  { intros n i. unfold ones, at_. revert i; induction n; intros [|i] H; cbn; try lia; auto. apply IHn; lia. }
  assert (MV : forall c, mat_vec o (extra * mx_rows M) (dense_of o (transpose M) extra) (ones o (extra * mx_rows M)) c
               = bigsum o (extra * mx_rows M) (fun i => dense_of o M extra i c)).
  { intros c. unfold mat_vec. apply bigsum_ext. intros i Hi. rewrite Ones by auto. rewrite dense_transpose. ring. }
  unfold pT1. fold M. rewrite KD, N.
  destruct Hop as [-> | ->].
  - destruct (direct_assign o RL flib sched (transpose M) extra (ones o (extra * mx_rows M)) out) as [r [E [L F]]];
      auto using wf_transpose; [apply repeat_length|].
    exists r. split; [exact E|]. split; [exact L|]. intros c Hcc. rewrite F by auto.
    change (mx_cols (transpose M)) with (mx_rows M). rewrite MV. cbn [previous]. ring.
  - destruct (direct_iadd o RL flib sched (transpose M) extra (ones o (extra * mx_rows M)) out) as [r [E [L F]]];
      auto using wf_transpose; [apply repeat_length|].
    exists r. split; [exact E|]. split; [exact L|]. intros c Hcc. rewrite F by auto.
    change (mx_cols (transpose M)) with (mx_rows M). rewrite MV. cbn [previous]. ring.
Qed.

Lemma firsts_at n b (t : list K) c : c < n -> at_ o (firsts o n b t) c = at_ o t (c * b).
Proof.
  revert t c; induction n; intros t [|c] H; cbn [firsts]; try lia; cbn; auto.
  unfold at_ in *. rewrite IHn by lia. rewrite nth_skipn_add. reflexivity.
Qed.
Lemma firsts_length n b (t : list K) : length (firsts o n b t) = n.
Proof. revert t; induction n; intros; cbn; auto. Qed.

Lemma pT1_first flib sched norm (S : sop K) out op n :
  well_formed (so_mx S) -> mx_axis (so_mx S) = FSR ->
  mx_kind (so_mx S) = KRot3 \/ mx_kind (so_mx S) = KBlock -> 1 < snd (mx_bs (so_mx S)) ->
  match so_out S with Some s => prodn s = mx_rows (so_mx S) | None => True end ->
  scheduler sched -> 0 < mx_rows (so_mx S) ->
  mx_cols (so_mx S) = n * snd (mx_bs (so_mx S)) -> length out = n -> op = Assign \/ op = IAdd ->
  exists r, pT1 o flib sched norm S out op = Ok (Some r) /\ length r = length out /\
    forall c, c < length out ->
      at_ o r c = kadd o (previous o op out c)
                    (bigsum o (mx_rows (so_mx S)) (fun i => dense_of o (so_mx S) 1 i (c * snd (mx_bs (so_mx S))))).
Proof.
  intros W AX KD B2 Hout Hs PR Hc Lo Hop. set (M := so_mx S) in *.
  assert (A : allowed_extra (transpose M) 1) by (unfold allowed_extra; cbn; destruct KD as [-> | ->]; auto).
  assert (N : match so_out S with Some s => prodn s | None => mx_rows M end = mx_rows M)
    by (destruct (so_out S); auto).
  assert (Ones : forall n i, i < n -> at_ o (ones o n) i = k1 o).
  { intros n' i. unfold ones, at_. revert i; induction n'; intros [|i] H; cbn; try lia; auto. apply IHn'; lia. }
  destruct (matvec_none o RL flib sched (transpose M) 1 (ones o (mx_rows M)) (wf_transpose M W) Hs A) as [t [Et Ht]];
    [exact PR|unfold ones; rewrite repeat_length; cbn; lia|].
  assert (F : forall c, c < n -> at_ o (firsts o n (snd (mx_bs M)) t) c =
             bigsum o (mx_rows M) (fun i => dense_of o M 1 i (c * snd (mx_bs M)))).
  { intros c Hcn. rewrite firsts_at by auto.
    rewrite (adds_product_zero o RL _ _ _ _ _ _ _ Ht) by (cbn; fold M in Hc; nia).
    unfold mat_vec. change (mx_cols (transpose M)) with (mx_rows M). rewrite Nat.mul_1_l.
    apply bigsum_ext. intros i Hi. rewrite Ones by auto. rewrite dense_transpose. ring. }
  unfold pT1. fold M. rewrite N.
  assert (Hb1 : (snd (mx_bs M) =? 1) = false) by (apply Nat.eqb_neq; lia).
  destruct KD as [KD|KD]; rewrite KD, Et, Hb1; cbn [bind]; rewrite Lo;
  (destruct Hop as [-> | ->]; eexists; (split; [reflexivity|]);
   [split; [cbn; apply firsts_length|]; intros c Hcn; cbn [fill]; rewrite F by lia; cbn [previous]; ring
   |split; [cbn [fill]; rewrite map2_length; rewrite ?firsts_length; auto|]; intros c Hcn; cbn [fill];
    unfold at_ at 1; rewrite (map2_nth (kadd o) _ _ (k0 o) (k0 o)) by (rewrite ?firsts_length; lia);
    change (nth c (firsts o n (snd (mx_bs M)) t) (k0 o)) with (at_ o (firsts o n (snd (mx_bs M)) t) c);
    rewrite F by lia; reflexivity]).
Qed.

Lemma add_hits_spec hits : forall out, Forall (fun h => (fst h < Z.of_nat (length out))%Z) hits ->
  exists r, add_hits o hits out = Ok r /\ length r = length out /\
    forall c, c < length out ->
      at_ o r c = kadd o (at_ o out c) (sum_over o hits (fun h => if (fst h =? Z.of_nat c)%Z then snd h else k0 o)).
Proof.
  induction hits as [|[i d] r IH]; intros out H; cbn [add_hits].
  - exists out. split; [reflexivity|]. split; [reflexivity|]. intros c _. cbn [sum_over]. ring.
  - inversion H as [|x l H1 H2]; subst. cbn [fst] in H1. destruct (Z.ltb_spec i 0) as [N|N].
    + destruct (IH out H2) as [m [E [L F]]]. exists m. split; [exact E|]. split; [exact L|].
      intros c Hc. rewrite F by auto. cbn [sum_over fst snd]. destruct (Z.eqb_spec i (Z.of_nat c)); [lia|ring].
    + destruct (nth_error out (Z.to_nat i)) as [x|] eqn:E; [|apply nth_error_None in E; lia].
      unfold update. rewrite E.
      destruct (IH (set_nth out (Z.to_nat i) (kadd o x d))) as [m [Em [L F]]].
      { rewrite set_nth_length. exact H2. }
      exists m. split; [exact Em|]. rewrite set_nth_length in L, F. split; [exact L|].
      intros c Hc. rewrite F by auto. cbn [sum_over fst snd].
      destruct (Z.eqb_spec i (Z.of_nat c)) as [Q|Q].
      * assert (X : at_ o out c = x). { unfold at_. apply nth_error_nth. rewrite <- E. f_equal. lia. }
        assert (Y : at_ o (set_nth out (Z.to_nat i) (kadd o x d)) c = kadd o x d).
        { unfold at_. apply nth_error_nth. replace (Z.to_nat i) with c by lia.
          rewrite nth_error_set_nth. replace (c <? length out) with true by lia. rewrite Nat.eqb_refl. reflexivity. }
        rewrite X, Y. ring.
      * assert (Y : at_ o (set_nth out (Z.to_nat i) (kadd o x d)) c = at_ o out c).
        { unfold at_. destruct (nth_error out c) as [y|] eqn:Ey; [|apply nth_error_None in Ey; lia].
          rewrite (nth_error_nth _ _ _ Ey). apply nth_error_nth. rewrite set_nth_other; auto. lia. }
        rewrite Y. ring.
Qed.

Lemma pT1_rot2 flib sched norm (S : sop K) out op n :
  well_formed (so_mx S) -> mx_axis (so_mx S) = FSR -> mx_kind (so_mx S) = KRot2 ->
  mx_cols (so_mx S) = n * 2 -> length out = n -> op = Assign \/ op = IAdd ->
  exists r, pT1 o flib sched norm S out op = Ok (Some r) /\ length r = length out /\
    forall c, c < length out ->
      at_ o r c = kadd o (previous o op out c)
        (sum_over o (concat (mx_data (so_mx S))) (fun e =>
           if (e_idx e =? Z.of_nat c)%Z then norm (at_ o (e_val e) 0) (at_ o (e_val e) 1) else k0 o)).
Proof.
  intros W AX KD Hc Lo Hop. destruct W as [C [nr [nc [Hr [Hc' D]]]]]. rewrite AX in D. rewrite KD in C. cbn in C.
  rewrite C in Hc'. cbn in Hc'. assert (nc = n) by lia. subst nc.
  unfold pT1. rewrite KD.
  set (hits := map _ (concat (mx_data (so_mx S)))).
  assert (HH : forall out' : list K, length out' = n -> Forall (fun h => (fst h < Z.of_nat (length out'))%Z) hits).
  { intros out' L. unfold hits. rewrite Forall_map. apply Forall_forall. intros e He. cbn.
    apply in_concat in He. destruct He as [row [H1 H2]]. destruct D as [_ D]. unfold in_range in D.
    rewrite Forall_forall in D. specialize (D row H1). rewrite Forall_forall in D. specialize (D e H2). lia. }
  destruct Hop as [-> | ->].
  - destruct (add_hits_spec hits (repeat (k0 o) (length out))) as [r [E [L F]]]; [apply HH; rewrite repeat_length; exact Lo|].
    rewrite E. exists r. split; [reflexivity|]. rewrite repeat_length in L, F. split; [exact L|].
    intros c Hcc. rewrite F by auto. unfold hits. rewrite repeat_at, (sum_over_map o). reflexivity.
  - destruct (add_hits_spec hits out) as [r [E [L F]]]; [apply HH; exact Lo|].
    rewrite E. exists r. split; [reflexivity|]. split; [exact L|].
    intros c Hcc. rewrite F by auto. unfold hits. rewrite (sum_over_map o). reflexivity.
Qed.

Lemma pT1_kernel_spec n w (data : list (list (elt K))) sched out :
  in_range n data -> length out = n -> scheduler sched ->
  exists its r, pT1_kernel n w data = Some its /\ exec o (sched its) out = Some r /\ length r = n /\
    forall c, c < n -> at_ o r c = kadd o (at_ o out c)
      (sum_over o (concat data) (fun e => if (e_idx e =? Z.of_nat c)%Z then w e else k0 o)).
Proof.
  intros R L S. set (acts := fun e : elt K => if (e_idx e <? 0)%Z then [] else [Atomic [(Z.to_nat (e_idx e), [w e])]]).
  set (its := map (fun row => concat (map acts row)) data).
  assert (EK : pT1_kernel n w data = Some its).
  { unfold pT1_kernel, its. apply all_opt_map. intros row Hr. apply concat_opt_some. rewrite map_map. apply map_ext_in.
    intros e He. unfold in_range in R. rewrite Forall_forall in R. specialize (R row Hr). rewrite Forall_forall in R.
    specialize (R e He). unfold guarded, acts. destruct (e_idx e <? 0)%Z; [reflexivity|].
    destruct (Z.ltb_spec (e_idx e) (Z.of_nat n)); [reflexivity|lia]. }
  destruct (exec_atomic o RL its (sched its) out) as [r [E [Lr F]]]; [apply S| |].
  { unfold its. rewrite Forall_map. apply Forall_forall. intros row Hr. apply Forall_forall. intros a Ha.
    apply in_concat in Ha. destruct Ha as [l [H1 H2]]. apply in_map_iff in H1. destruct H1 as [e [<- He]].
    unfold in_range in R. rewrite Forall_forall in R. specialize (R row Hr). rewrite Forall_forall in R.
    specialize (R e He). unfold acts in H2. destruct (Z.ltb_spec (e_idx e) 0); [contradiction|].
    destruct H2 as [<-|[]]. split; [exact I|]. cbn. repeat constructor. lia. }
  exists its, r. split; [exact EK|]. split; [exact E|]. split; [congruence|]. intros c Hc. rewrite F by lia.
  f_equal. unfold its. rewrite (sum_over_map o), (sum_over_concat o RL). apply sum_over_ext. intros row _.
  rewrite (sum_over_concat o RL), (sum_over_map o). apply sum_over_ext. intros e _. unfold acts.
  destruct (Z.ltb_spec (e_idx e) 0) as [N|N].
  - destruct (Z.eqb_spec (e_idx e) (Z.of_nat c)); [lia|reflexivity].
  - cbn [sum_over contr]. unfold ups_contr. cbn [sum_over fst snd ksum fold_right].
    destruct (Nat.eqb_spec (Z.to_nat (e_idx e)) c), (Z.eqb_spec (e_idx e) (Z.of_nat c)); try lia; unfold ksum; cbn; ring.
Qed.
End Op.
