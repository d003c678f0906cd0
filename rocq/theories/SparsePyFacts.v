(** The Python layer: products, transposes, application. *)
From Coq Require Import Lia Permutation Ring.
From Verif Require Import Base BaseFacts SparseModel SparseSpec RingFacts SparseExecFacts SparseFacts.
Open Scope nat_scope.


Section Py.
Context {K : Type} (o : ops K).

Lemma in_range_nil n : @in_range K n []. Proof. constructor. Qed.

Lemma wf_transpose (M : matrix K) : well_formed M -> well_formed (transpose M).
Proof.
  intros [C [nr [nc [Hr [Hc H]]]]]. split.
  - cbn. destruct (mx_kind M); cbn in *; try (rewrite C; reflexivity).
    destruct C as [C1 [C2 C3]]. split; [exact C2|]. split; [exact C1|].
    intros E. apply C3. destruct (mx_bs M); cbn in *. inversion E; reflexivity.
  - cbn. exists nc, nr. split; [exact Hc|]. split; [exact Hr|]. destruct (mx_axis M); exact H.
Qed.

Lemma transpose_transpose (M : matrix K) : transpose (transpose M) = M.
Proof. destruct M as [a k r c [b1 b2] d]. destruct a; reflexivity. Qed.

Lemma fmt_transpose (M : matrix K) e : fmt_of (transpose M) e = fmt_of M e.
Proof. destruct M as [a k r c [b1 b2] d]. destruct a, k; reflexivity. Qed.

Lemma dense_transpose (M : matrix K) e r c : dense_of o (transpose M) e r c = dense_of o M e c r.
Proof.
  unfold dense_of. rewrite fmt_transpose. destruct M as [a k rr cc bs d]. destruct a; reflexivity.
Qed.

Lemma wf_fmt (M : matrix K) extra : well_formed M -> allowed_extra M extra ->
  supported (fmt_of M extra).
Proof.
  intros [C _] A. unfold fmt_of, allowed_extra in *. destruct (mx_kind M); cbn in *; auto.
  destruct C as [C1 [C2 C3]]. destruct (mx_bs M) as [b1 b2]; cbn in *.
  destruct (mx_axis M); cbn; repeat split; try lia; intros E; apply C3; inversion E; reflexivity.
Qed.

(** Dimensions of the kernel. *)
Lemma wf_dims (M : matrix K) extra nr nc : class_blocks (mx_kind M) (mx_bs M) -> allowed_extra M extra ->
  mx_rows M = nr * fst (mx_bs M) -> mx_cols M = nc * snd (mx_bs M) ->
  match mx_axis M with
  | FSR => nr * frow (fmt_of M extra) = extra * mx_rows M /\ nc * fcol (fmt_of M extra) = extra * mx_cols M
           /\ mx_cols M / snd (mx_bs M) = nc
  | FSC => nc * frow (fmt_of M extra) = extra * mx_cols M /\ nr * fcol (fmt_of M extra) = extra * mx_rows M
           /\ mx_rows M / fst (mx_bs M) = nr
  end.
Proof.
  intros C A Hr Hc. unfold fmt_of, allowed_extra in *.
  assert (P : 0 < fst (mx_bs M) /\ 0 < snd (mx_bs M)).
  { destruct (mx_kind M); cbn in C; try (rewrite C; cbn; lia). lia. }
  assert (D1 : mx_cols M / snd (mx_bs M) = nc) by (rewrite Hc; apply Nat.div_mul; lia).
  assert (D2 : mx_rows M / fst (mx_bs M) = nr) by (rewrite Hr; apply Nat.div_mul; lia).
  destruct (mx_kind M); cbn in C; [rewrite C in Hr, Hc| |rewrite C in Hr, Hc|rewrite C in Hr, Hc]; cbn in Hr, Hc;
  destruct (mx_axis M); cbn [frow fcol fst snd]; (split; [|split; [|assumption]]); subst; nia.
Qed.

Lemma repeat_at n c : at_ o (repeat (k0 o) n) c = k0 o.
Proof.
  unfold at_. revert n; induction c; intros [|n]; cbn; auto.
Qed.

Lemma div_mul_exact a b : 0 < b -> (a * b) / b = a.
Proof. intros; apply Nat.div_mul; lia. Qed.

Section Ring.
Variable RL : ring_laws o.
Let RT : ring_theory (k0 o) (k1 o) (kadd o) (kmul o) (fun a b => kadd o a (kopp o b)) (kopp o) eq := RL.
Add Ring Kring4 : RT.

Lemma kernel_exec flib sched (M : matrix K) extra v out :
  well_formed M -> scheduler sched -> allowed_extra M extra -> 0 < mx_cols M ->
  length v = extra * mx_cols M -> length out = extra * mx_rows M ->
  exists r,
    match kernel_of o flib M v with
    | Some its => exec o (trace_of flib sched its) out
    | None => None
    end = Some r /\
    adds_product o (extra * mx_rows M) (extra * mx_cols M) (dense_of o M extra) v out r.
Proof.
  intros W S A PCols Lv Lo. pose proof W as [C [nr [nc [Hr [Hc D]]]]].
  assert (E : extra_size M (length v) = extra).
  { unfold extra_size, allowed_extra in *. destruct (mx_kind M); auto.
    rewrite Lv. apply div_mul_exact; auto. }
  unfold kernel_of, dense_of. rewrite E.
  pose proof (wf_fmt M extra W A) as SF. pose proof (supported_pos _ SF) as [PR PC].
  pose proof (wf_dims M extra nr nc C A Hr Hc) as DM.
  set (f := fmt_of M extra) in *.
  destruct (mx_axis M).
  - destruct D as [DL DR]. destruct DM as [D1 [D2 D3]]. rewrite D3.
    rewrite <- D1, <- D2, <- DL.
    destruct flib; cbn [trace_of].
    + destruct (fsc_kernel o f nr (mx_data M) v) as [its|] eqn:EK.
      * apply (fsc_correct o RL f nr (mx_data M) v its (sched its) out); auto; lia.
      * rewrite fsc_kernel_some in EK by auto. discriminate.
    + destruct (py_fsc_kernel o f nr (mx_data M) v) as [its|] eqn:EK.
      * eapply (py_fsc_correct o RL f nr (mx_data M) v its _ out); auto; try lia. apply merge_in_order.
      * exfalso. revert EK. unfold py_fsc_kernel.
        erewrite (all_opt_some _ (mapi (fun i row => concat (map (fun e =>
          if (e_idx e <? 0)%Z then [] else [Atomic (cells (Z.to_nat (e_idx e) * fcol f)
             (map (fun p => [py_fsc_term o f (vals o e) (comps o v (frow f) i) p]) (seq 0 (fcol f))))]) row)) 0 (mx_data M)));
          [discriminate|].
        rewrite mapi_map. apply mapi_ext. intros k row Hrow. unfold py_fsc_iter. apply concat_opt_some.
        rewrite map_map. apply map_ext_in. intros e He.
        unfold in_range in DR. rewrite Forall_forall in DR. specialize (DR row Hrow).
        rewrite Forall_forall in DR. specialize (DR e He). unfold guarded.
        destruct (Z.ltb_spec (e_idx e) 0); [reflexivity|].
        destruct (Z.ltb_spec (e_idx e) (Z.of_nat nr)); [|lia]. reflexivity.
  - destruct D as [DL DR]. destruct DM as [D1 [D2 D3]]. rewrite D3.
    rewrite <- D1, <- D2, <- DL.
    destruct flib; cbn [trace_of].
    + destruct (fsr_kernel o f nc (mx_data M) v) as [its|] eqn:EK.
      * apply (fsr_correct o RL f nc (mx_data M) v its (sched its) out); auto; lia.
      * rewrite fsr_kernel_some in EK by auto. discriminate.
    + destruct (py_fsr_kernel o f nc (mx_data M) v) as [its|] eqn:EK.
      * eapply (py_fsr_correct o RL f nc (mx_data M) v its _ out); auto; try lia. apply merge_in_order.
      * exfalso. revert EK. unfold py_fsr_kernel.
        erewrite (all_opt_some _ (mapi (fun i row => [Atomic (cells (i * frow f)
           (map (fun p => [ksum o (map (fun e => py_fsr_term o f (vals o e) (comps o v (fcol f) (Z.to_nat (e_idx e))) p)
             (filter (fun e => (0 <=? e_idx e)%Z) row))]) (seq 0 (frow f))))]) 0 (mx_data M))); [discriminate|].
        rewrite mapi_map. apply mapi_ext. intros k row Hrow. unfold py_fsr_iter.
        replace (forallb _ _) with true; [reflexivity|]. symmetry.
        apply forallb_forall. intros e He. apply filter_In in He.
        unfold in_range in DR. rewrite Forall_forall in DR. specialize (DR row Hrow).
        rewrite Forall_forall in DR. specialize (DR e (proj1 He)). lia.
Qed.

Lemma validatein_ok (M : matrix K) extra n : allowed_extra M extra -> 0 < mx_cols M ->
  n = extra * mx_cols M -> validatein M n = Ok tt.
Proof.
  unfold validatein, allowed_extra. intros A P ->. destruct (mx_kind M).
  - destruct (Nat.eqb_spec (mx_cols M) 0); [lia|]. rewrite Nat.mod_mul by lia. reflexivity.
  - subst. rewrite Nat.mul_1_l, Nat.eqb_refl; reflexivity.
  - subst. rewrite Nat.mul_1_l, Nat.eqb_refl; reflexivity.
  - subst. rewrite Nat.mul_1_l, Nat.eqb_refl; reflexivity.
Qed.

Lemma validateout_ok (M : matrix K) extra n : allowed_extra M extra -> 0 < mx_rows M ->
  n = extra * mx_rows M -> validateout M n = Ok tt.
Proof.
  unfold validateout, allowed_extra. intros A P ->. destruct (mx_kind M).
  - destruct (Nat.eqb_spec (mx_rows M) 0); [lia|]. rewrite Nat.mod_mul by lia. reflexivity.
  - subst. rewrite Nat.mul_1_l, Nat.eqb_refl; reflexivity.
  - subst. rewrite Nat.mul_1_l, Nat.eqb_refl; reflexivity.
  - subst. rewrite Nat.mul_1_l, Nat.eqb_refl; reflexivity.
Qed.

Lemma outsize_ok (M : matrix K) extra n : 0 < mx_cols M ->
  n = extra * mx_cols M -> outsize M n = Ok (extra * mx_rows M).
Proof.
  unfold outsize. intros P ->. destruct (Nat.eqb_spec (mx_cols M) 0); [lia|].
  replace (extra * mx_cols M * mx_rows M) with (extra * mx_rows M * mx_cols M) by nia.
  rewrite div_mul_exact by auto. reflexivity.
Qed.

Lemma matvec_some flib sched (M : matrix K) extra v out :
  well_formed M -> scheduler sched -> allowed_extra M extra -> 0 < mx_cols M -> 0 < mx_rows M ->
  length v = extra * mx_cols M -> length out = extra * mx_rows M ->
  exists r, matvec o flib sched M v (Some out) = Ok (Some r) /\
    adds_product o (extra * mx_rows M) (extra * mx_cols M) (dense_of o M extra) v out r.
Proof.
  intros W S A P PR Lv Lo.
  destruct (kernel_exec flib sched M extra v out W S A P Lv Lo) as [r [E H]].
  exists r. split; [|exact H]. unfold matvec.
  rewrite (validatein_ok M extra _ A P Lv). cbn [bind].
  rewrite (outsize_ok M extra _ P Lv). cbn [bind].
  rewrite Lo, Nat.eqb_refl. rewrite (validateout_ok M extra _ A PR eq_refl). cbn [bind].
  rewrite E. reflexivity.
Qed.

Lemma matvec_none flib sched (M : matrix K) extra v :
  well_formed M -> scheduler sched -> allowed_extra M extra -> 0 < mx_cols M ->
  length v = extra * mx_cols M ->
  exists r, matvec o flib sched M v None = Ok (Some r) /\
    adds_product o (extra * mx_rows M) (extra * mx_cols M) (dense_of o M extra) v
      (repeat (k0 o) (extra * mx_rows M)) r.
Proof.
  intros W S A P Lv.
  destruct (kernel_exec flib sched M extra v (repeat (k0 o) (extra * mx_rows M)) W S A P Lv) as [r [E H]];
    [apply repeat_length|].
  exists r. split; [|exact H]. unfold matvec.
  rewrite (validatein_ok M extra _ A P Lv). cbn [bind].
  rewrite (outsize_ok M extra _ P Lv). cbn [bind].
  rewrite E. reflexivity.
Qed.

Lemma adds_product_at nr nc A x out r i : adds_product o nr nc A x out r -> i < nr ->
  at_ o r i = kadd o (at_ o out i) (mat_vec o nc A x i).
Proof. intros [_ H]; auto. Qed.

Lemma adds_product_zero nr nc A x n r i : adds_product o nr nc A x (repeat (k0 o) n) r -> i < nr ->
  at_ o r i = mat_vec o nc A x i.
Proof. intros [_ H] Hi. rewrite H, repeat_at by auto. ring. Qed.

Lemma list_ext_at (l r : list K) : length l = length r ->
  (forall i, i < length l -> at_ o l i = at_ o r i) -> l = r.
Proof.
  intros L H. apply nth_ext with (d := k0 o) (d' := k0 o); auto.
Qed.

Lemma adds_product_unique nr nc A x out r r' :
  adds_product o nr nc A x out r -> adds_product o nr nc A x out r' -> r = r'.
Proof.
  intros [L H] [L' H']. apply list_ext_at; [congruence|]. intros i Hi.
  rewrite H, H' by congruence. reflexivity.
Qed.

(** Exchange of sums. *)
Lemma adjoint nr nc A B x y r s :
  adds_product o nr nc A x (repeat (k0 o) nr) r ->
  adds_product o nc nr B y (repeat (k0 o) nc) s ->
  length x = nc -> (forall i j, B i j = A j i) ->
  inner o r y = inner o x s.
Proof.
  intros HR HS Lx T. unfold inner. rewrite (proj1 HR), Lx.
  rewrite (bigsum_ext o nr _ (fun i => bigsum o nc (fun c => kmul o (kmul o (A i c) (at_ o x c)) (at_ o y i)))).
  2:{ intros i Hi. rewrite (adds_product_zero _ _ _ _ _ _ _ HR Hi). unfold mat_vec.
      rewrite <- (bigsum_mul_r o RL). reflexivity. }
  rewrite (bigsum_swap o RL). apply bigsum_ext. intros c Hc.
  rewrite (adds_product_zero _ _ _ _ _ _ _ HS Hc). unfold mat_vec.
  rewrite <- (bigsum_mul_l o RL). apply bigsum_ext. intros i Hi. rewrite T. ring.
Qed.

Lemma allowed_transpose (M : matrix K) e : allowed_extra (transpose M) e <-> allowed_extra M e.
Proof. reflexivity. Qed.

Lemma transpose_adjoint flib flib' sched sched' (M : matrix K) extra x y :
  well_formed M -> scheduler sched -> scheduler sched' -> allowed_extra M extra ->
  0 < mx_cols M -> 0 < mx_rows M ->
  length x = extra * mx_cols M -> length y = extra * mx_rows M ->
  exists a b, matvec o flib sched M x None = Ok (Some a) /\
    matvec o flib' sched' (transpose M) y None = Ok (Some b) /\
    length a = length y /\ length b = length x /\
    inner o a y = inner o x b.
Proof.
  intros W S S' A PC PR Lx Ly.
  destruct (matvec_none flib sched M extra x W S A PC Lx) as [a [Ea Ha]].
  destruct (matvec_none flib' sched' (transpose M) extra y) as [b [Eb Hb]]; auto using wf_transpose.
  exists a, b. split; [exact Ea|]. split; [exact Eb|].
  split; [rewrite (proj1 Ha); auto|]. split; [rewrite (proj1 Hb); auto|].
  cbn [transpose mx_rows mx_cols] in Hb.
  exact (adjoint _ _ _ _ x y a b Ha Hb Lx (dense_transpose M extra)).
Qed.

(** Multiplication by a scalar. *)
Lemma block_entry_scale f v k p q :
  block_entry o f (map (fun a => kmul o a k) v) p q = kmul o (block_entry o f v p q) k.
Proof.
  assert (H : forall i, at_ o (map (fun a => kmul o a k) v) i = kmul o (at_ o v i) k).
  { intros i. unfold at_. revert i; induction v; intros [|i]; cbn; auto; ring. }
  unfold block_entry. destruct f; rewrite ?H.
  - destruct (p =? q); ring.
  - reflexivity.
  - destruct p as [|[|p]], q as [|[|q]]; rewrite ?H; ring.
  - destruct p as [|[|[|p]]], q as [|[|[|q]]]; rewrite ?H; ring.
Qed.

Lemma dense_scale (M : matrix K) k extra r c :
  dense_of o (scale o M k) extra r c = kmul o (dense_of o M extra r c) k.
Proof.
  assert (F : fmt_of (scale o M k) extra = fmt_of M extra) by (destruct M; reflexivity).
  unfold dense_of. rewrite F. cbn [scale mx_axis mx_data].
  assert (G : forall r c, dense_row o (fmt_of M extra) (map (map (fun e => Elt (e_idx e) (map (fun v => kmul o v k) (e_val e)))) (mx_data M)) r c
                        = kmul o (dense_row o (fmt_of M extra) (mx_data M) r c) k).
  { intros r' c'. unfold dense_row.
    change (@nil (elt K)) with (map (fun e : elt K => Elt (e_idx e) (map (fun v => kmul o v k) (e_val e))) []) at 1.
    rewrite map_nth, (sum_over_map o), <- (sum_over_mul_r o RL). apply sum_over_ext. intros e _. cbn [e_idx e_val].
    rewrite block_entry_scale. destruct (e_idx e =? _)%Z; ring. }
  destruct (mx_axis M); cbn [dense]; apply G.
Qed.

Lemma wf_scale (M : matrix K) k : well_formed M -> well_formed (scale o M k).
Proof.
  intros [C [nr [nc [Hr [Hc D]]]]]. split; [exact C|]. exists nr, nc. split; [exact Hr|]. split; [exact Hc|].
  assert (R : forall n, in_range n (mx_data M) -> in_range n (mx_data (scale o M k))).
  { intros n H. unfold in_range in *. cbn. rewrite Forall_map. eapply Forall_impl; [|exact H].
    cbn. intros l Hl. rewrite Forall_map. exact Hl. }
  cbn [scale mx_axis mx_data] in *. rewrite map_length.
  destruct (mx_axis M); split; try apply R; apply D.
Qed.
Lemma scale_product flib sched (M : matrix K) k extra v :
  well_formed M -> scheduler sched -> allowed_extra M extra -> 0 < mx_cols M ->
  length v = extra * mx_cols M ->
  exists r s, matvec o flib sched M v None = Ok (Some r) /\ matvec o flib sched (scale o M k) v None = Ok (Some s) /\
    s = map (fun a => kmul o a k) r.
Proof.
  intros W S A C Lv.
  destruct (matvec_none flib sched M extra v W S A C Lv) as [r [E H]].
  destruct (matvec_none flib sched (scale o M k) extra v (wf_scale M k W) S A C Lv) as [s [E' H']].
  exists r, s. split; [exact E|]. split; [exact E'|].
  apply list_ext_at; [rewrite map_length, (proj1 H), (proj1 H'); reflexivity|].
  intros i Hi. rewrite (proj1 H') in Hi.
  rewrite (adds_product_zero _ _ _ _ _ _ _ H' Hi).
  assert (N : at_ o (map (fun a => kmul o a k) r) i = kmul o (at_ o r i) k).
  { unfold at_. rewrite (nth_map_d _ r (k0 o)); [reflexivity|]. rewrite (proj1 H). exact Hi. }
  rewrite N, (adds_product_zero _ _ _ _ _ _ _ H Hi). unfold mat_vec.
  cbn [scale mx_cols]. rewrite <- (bigsum_mul_r o RL). apply bigsum_ext. intros c _.
  rewrite dense_scale. ring.
Qed.

Lemma direct_assign flib sched (M : matrix K) extra v out :
  well_formed M -> scheduler sched -> allowed_extra M extra -> 0 < mx_cols M -> 0 < mx_rows M ->
  length v = extra * mx_cols M -> length out = extra * mx_rows M ->
  exists r, direct o flib sched M v out Assign = Ok (Some r) /\ length r = length out /\
    forall i, i < length out -> at_ o r i = mat_vec o (extra * mx_cols M) (dense_of o M extra) v i.
Proof.
  intros W S A C R Lv Lo. unfold direct.
  destruct (matvec_some flib sched M extra v (repeat (k0 o) (length out)) W S A C R Lv) as [r [E H]];
    [rewrite repeat_length; exact Lo|].
  exists r. split; [exact E|]. split; [rewrite (proj1 H), Lo; reflexivity|].
  intros i Hi. rewrite Lo in Hi. exact (adds_product_zero _ _ _ _ _ _ _ H Hi).
Qed.

Lemma direct_iadd flib sched (M : matrix K) extra v out :
  well_formed M -> scheduler sched -> allowed_extra M extra -> 0 < mx_cols M -> 0 < mx_rows M ->
  length v = extra * mx_cols M -> length out = extra * mx_rows M ->
  exists r, direct o flib sched M v out IAdd = Ok (Some r) /\ length r = length out /\
    forall i, i < length out ->
      at_ o r i = kadd o (at_ o out i) (mat_vec o (extra * mx_cols M) (dense_of o M extra) v i).
Proof.
  intros W S A C R Lv Lo. unfold direct.
  destruct (matvec_some flib sched M extra v out W S A C R Lv Lo) as [r [E H]].
  exists r. split; [exact E|]. split; [rewrite (proj1 H), Lo; reflexivity|].
  intros i Hi. rewrite Lo in Hi. apply H; exact Hi.
Qed.
End Ring.

(** Row kernels give the same result under every schedule, with no law at all. *)
Lemma fsr_reproducible sched sched' (M : matrix K) extra v out :
  well_formed M -> mx_axis M = FSR -> scheduler sched -> scheduler sched' -> allowed_extra M extra ->
  0 < mx_cols M -> length v = extra * mx_cols M ->
  matvec o true sched M v out = matvec o true sched' M v out.
Proof.
  intros W AX S S' A P Lv. unfold matvec.
  destruct (validatein M (length v)); cbn [bind]; [|reflexivity].
  rewrite (outsize_ok M extra _ P Lv). cbn [bind].
  set (buf := match out with None => _ | Some b => _ end).
  destruct buf as [buf'|] eqn:B; cbn [bind]; [|reflexivity].
  assert (Lb : length buf' = extra * mx_rows M).
  { subst buf. destruct out as [b|].
    - destruct (Nat.eqb_spec (length b) (extra * mx_rows M)); [|discriminate].
      destruct (validateout M (length b)); cbn in B; inversion B; subst; auto.
    - inversion B. apply repeat_length. }
  f_equal. pose proof W as [C [nr [nc [Hr [Hc D]]]]]. rewrite AX in D. destruct D as [DL DR].
  assert (E : extra_size M (length v) = extra).
  { unfold extra_size, allowed_extra in *. destruct (mx_kind M); auto.
    rewrite Lv. apply div_mul_exact; auto. }
  unfold kernel_of. rewrite E.
  pose proof (wf_fmt M extra W A) as SF. pose proof (supported_pos _ SF) as [PR PC].
  pose proof (wf_dims M extra nr nc C A Hr Hc) as DM.
  rewrite AX in *. destruct DM as [D1 [D2 D3]]. rewrite D3.
  set (f := fmt_of M extra) in *.
  destruct (fsr_kernel o f nc (mx_data M) v) as [its|] eqn:EK; [|reflexivity]. cbn [trace_of].
  assert (Lb' : length buf' = length (mx_data M) * frow f) by lia.
  destruct (fsr_exec o f nc (mx_data M) v its (sched its) buf' SF DR Lb' EK (S its)) as [m [Em [Lm F]]].
  destruct (fsr_exec o f nc (mx_data M) v its (sched' its) buf' SF DR Lb' EK (S' its)) as [m' [Em' [Lm' F']]].
  rewrite Em, Em'. f_equal. apply nth_ext with (d := k0 o) (d' := k0 o); [congruence|].
  intros r Hr'. rewrite Lm, Lb' in Hr'.
  assert (Hd : r = (r / frow f) * frow f + r mod frow f) by (rewrite Nat.mul_comm; apply Nat.div_mod; lia).
  assert (Hp : r mod frow f < frow f) by (apply Nat.mod_upper_bound; lia).
  revert Hd Hp. generalize (r / frow f) (r mod frow f). intros i p -> Hp.
  assert (Hi : i < length (mx_data M)) by nia.
  destruct (nth_error buf' (i * frow f + p)) as [x|] eqn:Ex; [|apply nth_error_None in Ex; nia].
  rewrite (nth_error_nth _ _ _ (F i p x Hi Hp Ex)), (nth_error_nth _ _ _ (F' i p x Hi Hp Ex)). reflexivity.
Qed.
End Py.
