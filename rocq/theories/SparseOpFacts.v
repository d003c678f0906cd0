(** Restriction, corestriction, P.T*P. *)
From Coq Require Import Lia Permutation Ring.
From Verif Require Import Base BaseFacts SparseModel SparseSpec RingFacts SparseExecFacts SparseFacts SparsePyFacts SparseOpModel SparseOpSpec.
Open Scope nat_scope.

Lemma kept_firstn_lt mask c : nth c mask false = true -> kept (firstn c mask) < kept mask.
Proof.
  revert c; induction mask as [|[|] m IH]; intros [|c] H; cbn in *; try discriminate; try lia.
  - specialize (IH c H); lia.
  - specialize (IH c H); lia.
Qed.

Lemma wrap_id bits z : (1 < bits)%Z -> (0 <= z < 2 ^ (bits - 1))%Z -> wrap bits z = z.
Proof.
  intros B H. unfold wrap. assert (E : (2 ^ bits = 2 * 2 ^ (bits - 1))%Z).
  { rewrite <- Z.pow_succ_r by lia. f_equal; lia. }
  rewrite E. rewrite Z.mod_small; lia.
Qed.

Lemma new_index_spec bits mask : (1 < bits)%Z -> forall c0,
  (0 <= c0)%Z -> (c0 + Z.of_nat (kept mask) < 2 ^ (bits - 1))%Z ->
  snd (new_index bits mask c0) = (c0 + Z.of_nat (kept mask))%Z /\
  length (fst (new_index bits mask c0)) = length mask /\
  forall k, k < length mask ->
    nth_error (fst (new_index bits mask c0)) k =
    Some (if nth k mask false then (c0 + Z.of_nat (kept (firstn k mask)))%Z else (-1)%Z).
Proof.
  intros B. induction mask as [|b m IH]; intros c0 P H.
  - cbn in *. split; [lia|]. split; [reflexivity|]. intros; lia.
  - destruct b.
    + cbn [kept] in H. cbn [new_index]. rewrite wrap_id by lia.
      destruct (new_index bits m (c0 + 1)) as [l n] eqn:E.
      destruct (IH (c0 + 1)%Z) as [H1 [H2 H3]]; try lia. rewrite E in *. cbn [fst snd] in *.
      split; [cbn [kept]; lia|]. split; [cbn; lia|]. intros [|k] Hk; cbn [nth_error nth firstn kept]; [f_equal; lia|].
      cbn in Hk. rewrite H3 by lia. destruct (nth k m false); f_equal; lia.
    + cbn [kept] in H. cbn [new_index].
      destruct (new_index bits m c0) as [l n] eqn:E.
      destruct (IH c0) as [H1 [H2 H3]]; try lia. rewrite E in *. cbn [fst snd] in *.
      split; [cbn [kept]; lia|]. split; [cbn; lia|]. intros [|k] Hk; cbn [nth_error nth firstn kept]; [reflexivity|].
      cbn in Hk. rewrite H3 by lia. reflexivity.
Qed.

Section Expand.
Context {K : Type} (o : ops K).

Lemma expand_length b mask (v : list K) : length v = kept mask * b ->
  length (expand (k0 o) b mask v) = length mask * b.
Proof.
  revert v; induction mask as [|[|] m IH]; intros v H; cbn [expand kept length] in *; [reflexivity| |].
  - rewrite app_length, IH, firstn_length by (rewrite skipn_length; nia). nia.
  - rewrite app_length, IH, repeat_length by auto. nia.
Qed.

Lemma at_app_l (l r : list K) i : i < length l -> at_ o (l ++ r) i = at_ o l i.
Proof. intros; unfold at_; apply app_nth1; auto. Qed.
Lemma at_app_r (l r : list K) i : at_ o (l ++ r) (length l + i) = at_ o r i.
Proof. unfold at_. rewrite app_nth2 by lia. f_equal; lia. Qed.

Lemma nth_firstn_lt {A} (l : list A) n i d : i < n -> nth i (firstn n l) d = nth i l d.
Proof. revert n i; induction l; intros [|n] [|i] H; cbn; try lia; auto. apply IHl; lia. Qed.
Lemma nth_skipn_add {A} (l : list A) n i d : nth i (skipn n l) d = nth (n + i) l d.
Proof. revert n; induction l; intros [|n]; cbn; auto. destruct i; reflexivity. Qed.

Lemma expand_at b mask (v : list K) c q : length v = kept mask * b -> c < length mask -> q < b ->
  at_ o (expand (k0 o) b mask v) (c * b + q) =
  if nth c mask false then at_ o v (kept (firstn c mask) * b + q) else k0 o.
Proof.
  revert v c; induction mask as [|[|] m IH]; intros v c L Hc Hq; cbn [expand kept length] in *; [lia| |].
  - assert (LF : length (firstn b v) = b) by (rewrite firstn_length; nia).
    destruct c as [|c]; cbn [nth firstn kept].
    + cbn [Nat.mul Nat.add]. rewrite at_app_l by lia. unfold at_. apply nth_firstn_lt; auto.
    + replace (S c * b + q) with (length (firstn b v) + (c * b + q)) by nia.
      rewrite at_app_r, IH by (rewrite ?skipn_length; nia). destruct (nth c m false); [|reflexivity].
      unfold at_. rewrite nth_skipn_add. f_equal. nia.
  - destruct c as [|c]; cbn [nth firstn kept].
    + cbn [Nat.mul Nat.add]. rewrite at_app_l by (rewrite repeat_length; lia). apply repeat_at.
    + replace (S c * b + q) with (length (repeat (k0 o) b) + (c * b + q)) by (rewrite repeat_length; nia).
      rewrite at_app_r, IH by (auto; nia). reflexivity.
Qed.

Lemma compress_length b mask (v : list K) : length v = length mask * b ->
  length (compress b mask v) = kept mask * b.
Proof.
  revert v; induction mask as [|[|] m IH]; intros v H; cbn [compress kept length] in *; [reflexivity| |].
  - rewrite app_length, IH, firstn_length by (rewrite skipn_length; nia). nia.
  - rewrite IH by (rewrite skipn_length; nia). reflexivity.
Qed.

(** Putting back what was packed. *)
Lemma expand_compress_at b mask (v : list K) c q : length v = length mask * b -> c < length mask -> q < b ->
  at_ o (expand (k0 o) b mask (compress b mask v)) (c * b + q) =
  if nth c mask false then at_ o v (c * b + q) else k0 o.
Proof.
  revert v c; induction mask as [|[|] m IH]; intros v c L Hc Hq; cbn [expand compress length] in *; [lia| |].
  - assert (LF : length (firstn b v) = b) by (rewrite firstn_length; nia).
    assert (F : forall w, firstn b (firstn b v ++ w) = firstn b v /\ skipn b (firstn b v ++ w) = w).
    { intros w. generalize dependent (firstn b v). intros u LF. split.
      - rewrite <- LF, firstn_app, Nat.sub_diag, firstn_all. cbn. apply app_nil_r.
      - rewrite <- LF, skipn_app, Nat.sub_diag, skipn_all. reflexivity. }
    destruct (F (compress b m (skipn b v))) as [F1 F2]. rewrite F1, F2.
    destruct c as [|c]; cbn [nth].
    + cbn [Nat.mul Nat.add]. rewrite at_app_l by lia. unfold at_. apply nth_firstn_lt; auto.
    + replace (S c * b + q) with (length (firstn b v) + (c * b + q)) at 1 by nia.
      rewrite at_app_r, IH by (rewrite ?skipn_length; nia). destruct (nth c m false); [|reflexivity].
      unfold at_. rewrite nth_skipn_add. f_equal. nia.
  - destruct c as [|c]; cbn [nth].
    + cbn [Nat.mul Nat.add]. rewrite at_app_l by (rewrite repeat_length; lia). apply repeat_at.
    + replace (S c * b + q) with (length (repeat (k0 o) b) + (c * b + q)) at 1 by (rewrite repeat_length; nia).
      rewrite at_app_r, IH by (rewrite ?skipn_length; nia). destruct (nth c m false); [|reflexivity].
      unfold at_. rewrite nth_skipn_add. f_equal. nia.
Qed.
End Expand.

Section Op.
Context {K : Type} (o : ops K).
Variable RL : ring_laws o.
Let RT : ring_theory (k0 o) (k1 o) (kadd o) (kmul o) (fun a b => kadd o a (kopp o b)) (kopp o) eq := RL.
Add Ring Kring5 : RT.

(** Row formats: each component of the product is a sum over the stored row. *)
Lemma rows_product flib sched (M : matrix K) extra v :
  well_formed M -> mx_axis M = FSR -> scheduler sched -> allowed_extra M extra -> 0 < mx_cols M ->
  length v = extra * mx_cols M ->
  exists r, matvec o flib sched M v None = Ok (Some r) /\
    length r = length (mx_data M) * frow (fmt_of M extra) /\ length r = extra * mx_rows M /\
    forall i p, i < length (mx_data M) -> p < frow (fmt_of M extra) ->
      at_ o r (i * frow (fmt_of M extra) + p) =
      sum_over o (nth i (mx_data M) []) (elt_row o (fmt_of M extra) v p).
Proof.
  intros W AX S A P Lv. destruct (matvec_none o RL flib sched M extra v W S A P Lv) as [r [E H]].
  exists r. split; [exact E|]. pose proof W as [C [nr [nc [Hr [Hc D]]]]].
  pose proof (wf_dims M extra nr nc C A Hr Hc) as Dm. rewrite AX in D, Dm. destruct D as [D1 D2].
  destruct Dm as [Dm1 [Dm2 Dm3]].
  split; [rewrite (proj1 H); nia|]. split; [apply H|]. intros i p Hi Hp.
  rewrite (adds_product_zero o RL _ _ _ _ _ _ _ H) by nia.
  unfold dense_of. rewrite AX, <- Dm2. change (dense o FSR) with (dense_row o).
  apply (dense_row_product o RL); auto. apply (supported_pos _ (wf_fmt M extra W A)).
Qed.

(** ** Restriction *)
Lemma all_opt_map {A B} (f : A -> option B) (g : A -> B) l :
  (forall a, In a l -> f a = Some (g a)) -> all_opt (map f l) = Some (map g l).
Proof. intros H. apply all_opt_some. rewrite map_map. apply map_ext_in; exact H. Qed.

Definition renum (mask : list bool) (e : elt K) : elt K :=
  if (e_idx e <? 0)%Z then e
  else Elt (if nth (Z.to_nat (e_idx e)) mask false
            then Z.of_nat (kept (firstn (Z.to_nat (e_idx e)) mask)) else (-1)%Z) (e_val e).

Lemma restrict_data_some bits mask (data : list (list (elt K))) :
  (1 < bits)%Z -> (Z.of_nat (kept mask) < 2 ^ (bits - 1))%Z -> in_range (length mask) data ->
  restrict_data (fst (new_index bits mask 0)) data = Some (map (map (renum mask)) data).
Proof.
  intros B Hk R. destruct (new_index_spec bits mask B 0 ltac:(lia) ltac:(lia)) as [_ [_ H]].
  unfold restrict_data. apply all_opt_map. intros row Hr. apply all_opt_map. intros e He.
  unfold in_range in R. rewrite Forall_forall in R. specialize (R row Hr). rewrite Forall_forall in R.
  specialize (R e He). unfold restrict_elt, renum. destruct (Z.ltb_spec (e_idx e) 0); [reflexivity|].
  rewrite H by lia. reflexivity.
Qed.

Definition restricted (M : matrix K) (mask : list bool) : matrix K :=
  Matrix FSR (mx_kind M) (mx_rows M) (kept mask * snd (mx_bs M)) (mx_bs M) (map (map (renum mask)) (mx_data M)).

Lemma restricted_wf (M : matrix K) mask : well_formed M -> mx_axis M = FSR ->
  well_formed (restricted M mask).
Proof.
  intros [C [nr [nc [Hr [Hc D]]]]] AX. rewrite AX in D. split; [exact C|].
  exists nr, (kept mask). cbn [restricted mx_rows mx_cols mx_bs mx_axis mx_data].
  split; [exact Hr|]. split; [reflexivity|]. split; [rewrite map_length; apply D|].
  unfold in_range. rewrite Forall_map. apply Forall_forall. intros row _. rewrite Forall_map.
  apply Forall_forall. intros e _. unfold renum. destruct (Z.ltb_spec (e_idx e) 0); [lia|]. cbn [e_idx].
  destruct (nth (Z.to_nat (e_idx e)) mask false) eqn:E; [|lia]. apply kept_firstn_lt in E. lia.
Qed.

Lemma elt_row_renum f (x v : list K) mask p (e : elt K) :
  (e_idx e < Z.of_nat (length mask))%Z ->
  (forall c q, c < length mask -> q < fcol f -> at_ o x (c * fcol f + q) =
     if nth c mask false then at_ o v (kept (firstn c mask) * fcol f + q) else k0 o) ->
  elt_row o f v p (renum mask e) = elt_row o f x p e.
Proof.
  intros R H. unfold elt_row, renum. destruct (Z.ltb_spec (e_idx e) 0) as [N|N].
  { destruct (Z.ltb_spec (e_idx e) 0); [reflexivity|lia]. }
  cbn [e_idx e_val]. set (c := Z.to_nat (e_idx e)) in *. assert (Hc : c < length mask) by (unfold c; lia).
  destruct (nth c mask false) eqn:E.
  - destruct (Z.ltb_spec (Z.of_nat (kept (firstn c mask))) 0); [lia|].
    rewrite Nat2Z.id. apply bigsum_ext. intros q Hq. rewrite (H c q Hc Hq), E. reflexivity.
  - cbn [Z.ltb Z.compare]. symmetry. apply (bigsum_0 o RL). intros q Hq. rewrite (H c q Hc Hq), E. ring.
Qed.

Lemma fmt_restricted (M : matrix K) mask extra : mx_axis M = FSR -> fmt_of (restricted M mask) extra = fmt_of M extra.
Proof. intros AX. unfold fmt_of; cbn. rewrite AX. reflexivity. Qed.

Lemma list_ext_blocks n b (r s : list K) : length r = n * b -> length s = n * b ->
  (forall i p, i < n -> p < b -> at_ o r (i * b + p) = at_ o s (i * b + p)) -> r = s.
Proof.
  intros L1 L2 H. apply (list_ext_at o); [congruence|]. intros j Hj.
  assert (0 < b) by (destruct b; nia).
  rewrite (Nat.div_mod j b), (Nat.mul_comm b) by lia.
  apply H; [apply Nat.div_lt_upper_bound; nia|apply Nat.mod_upper_bound; lia].
Qed.

Lemma fcol_fmt (M : matrix K) extra : class_blocks (mx_kind M) (mx_bs M) -> mx_axis M = FSR -> allowed_extra M extra ->
  fcol (fmt_of M extra) = extra * snd (mx_bs M) /\ frow (fmt_of M extra) = extra * fst (mx_bs M).
Proof.
  intros C AX A. unfold fmt_of, allowed_extra in *. rewrite AX.
  destruct (mx_kind M); cbn in *; rewrite ?C; subst; cbn; lia.
Qed.

Lemma restricted_product flib flib' sched sched' (M : matrix K) mask extra v x :
  well_formed M -> mx_axis M = FSR -> scheduler sched -> scheduler sched' -> allowed_extra M extra ->
  mx_cols M = length mask * snd (mx_bs M) -> 0 < kept mask ->
  length v = extra * (kept mask * snd (mx_bs M)) -> length x = extra * mx_cols M ->
  (forall c q, c < length mask -> q < extra * snd (mx_bs M) -> at_ o x (c * (extra * snd (mx_bs M)) + q) =
     if nth c mask false then at_ o v (kept (firstn c mask) * (extra * snd (mx_bs M)) + q) else k0 o) ->
  exists r, matvec o flib sched (restricted M mask) v None = Ok (Some r) /\
    matvec o flib' sched' M x None = Ok (Some r).
Proof.
  intros W AX S S' A Hc Hk Lv Lx H. pose proof (restricted_wf M mask W AX) as W'.
  pose proof W as [C [nr [nc [Hr [Hc' D]]]]]. rewrite AX in D. destruct D as [D1 D2].
  destruct (fcol_fmt M extra C AX A) as [Fc Fr].
  assert (KM : kept mask <= length mask) by (clear; induction mask as [|[|] m IH]; cbn; lia).
  assert (B : 0 < snd (mx_bs M)) by (destruct (mx_kind M); cbn in C; rewrite ?C; cbn; lia).
  assert (NC : nc = length mask) by nia. subst nc.
  destruct (rows_product flib sched (restricted M mask) extra v W' eq_refl S A) as [r [E [L1 [L2 F]]]];
    [cbn; nia|exact Lv|].
  destruct (rows_product flib' sched' M extra x W AX S' A) as [s [E' [L1' [L2' F']]]]; [nia|exact Lx|].
  rewrite (fmt_restricted M mask extra AX) in *. cbn [restricted mx_data] in L1, F. rewrite map_length in L1, F.
  exists r. split; [exact E|]. rewrite E'. f_equal. f_equal.
  apply (list_ext_blocks (length (mx_data M)) (frow (fmt_of M extra))); auto.
  intros i p Hi Hp. rewrite F, F' by auto.
  change (@nil (elt K)) with (map (renum mask) []) at 2. rewrite map_nth, (sum_over_map o).
  apply sum_over_ext. intros e He. symmetry.
  apply elt_row_renum; [|rewrite Fc; exact H].
  unfold in_range in D2. rewrite Forall_forall in D2. specialize (D2 _ (nth_In _ [] Hi)).
  rewrite Forall_forall in D2. apply D2; exact He.
Qed.

(** The shape of mask expected by [restrict]. *)
Lemma restrict_ok bits (S : sop K) mshape mask :
  well_formed (so_mx S) -> mx_axis (so_mx S) = FSR -> mask_shape S = Some mshape ->
  mx_cols (so_mx S) = length mask * snd (mx_bs (so_mx S)) -> 0 < snd (mx_bs (so_mx S)) ->
  (1 < bits)%Z -> (Z.of_nat (kept mask) < 2 ^ (bits - 1))%Z ->
  exists S', restrict bits S mshape mask = Ok (Some S') /\ so_mx S' = restricted (so_mx S) mask.
Proof.
  intros W AX MS Hc B0 B Hk. pose proof W as [C [nr [nc [Hr [Hc' D]]]]]. rewrite AX in D.
  assert (NC : nc = length mask) by nia. subst nc.
  unfold restrict. rewrite AX. unfold mask_shape in MS.
  assert (E : match mx_kind (so_mx S), so_in S with
              | KScalar, _ => Ok (so_bin S)
              | _, Some s => Ok (removelast s)
              | _, None => Err TypeError
              end = Ok mshape).
  { destruct (mx_kind (so_mx S)), (so_in S); congruence. }
  rewrite E. cbn [bind]. destruct (list_eq_dec Nat.eq_dec mshape mshape); [|congruence]. cbn [negb].
  pose proof (restrict_data_some bits mask (mx_data (so_mx S)) B Hk (proj2 D)) as RD.
  destruct (new_index_spec bits mask B 0 ltac:(lia) ltac:(lia)) as [N _].
  destruct (new_index bits mask 0) as [ni ncol]. cbn [fst snd] in *. rewrite RD.
  destruct (Z.ltb_spec ncol 0); [lia|].
  eexists; split; [reflexivity|]. unfold restricted. replace (Z.to_nat ncol) with (kept mask) by lia.
  destruct (mx_kind (so_mx S)); reflexivity.
Qed.

Lemma restrict_spec bits (S : sop K) mshape mask :
  well_formed (so_mx S) -> mx_axis (so_mx S) = FSR -> mask_shape S = Some mshape ->
  mx_cols (so_mx S) = length mask * snd (mx_bs (so_mx S)) -> 0 < kept mask ->
  (1 < bits)%Z -> (Z.of_nat (kept mask) < 2 ^ (bits - 1))%Z ->
  exists S', restrict bits S mshape mask = Ok (Some S') /\
    well_formed (so_mx S') /\ mx_rows (so_mx S') = mx_rows (so_mx S) /\
    mx_cols (so_mx S') = kept mask * snd (mx_bs (so_mx S)) /\
    forall flib flib' sched sched' extra v,
      scheduler sched -> scheduler sched' -> allowed_extra (so_mx S) extra ->
      length v = extra * mx_cols (so_mx S') ->
      exists r, matvec o flib sched (so_mx S') v None = Ok (Some r) /\
        matvec o flib' sched' (so_mx S) (expand (k0 o) (extra * snd (mx_bs (so_mx S))) mask v) None = Ok (Some r).
Proof.
  intros W AX MS Hc Hk B Hb.
  assert (B0 : 0 < snd (mx_bs (so_mx S))).
  { destruct W as [C _]. destruct (mx_kind (so_mx S)); cbn in C; rewrite ?C; cbn; lia. }
  destruct (restrict_ok bits S mshape mask W AX MS Hc B0 B Hb) as [S' [E EM]].
  exists S'. rewrite EM. split; [exact E|]. split; [apply restricted_wf; auto|]. split; [reflexivity|].
  split; [reflexivity|]. intros flib flib' sched sched' extra v Hs Hs' A Lv.
  cbn [restricted mx_cols] in Lv.
  apply restricted_product with (extra := extra); auto.
  - rewrite expand_length by nia. nia.
  - intros c q H1 H2. apply expand_at; auto. nia.
Qed.

(** ** Corestriction of scalar matrices *)
Lemma count_kept mask : count mask = kept mask.
Proof. unfold count. induction mask as [|[|] m IH]; cbn; auto. Qed.

Lemma select_nth {A} mask (l : list A) (d : A) : length l = length mask ->
  forall i, i < kept mask -> exists j, j < length l /\ nth j mask false = true /\
    kept (firstn j mask) = i /\ nth i (select mask l) d = nth j l d.
Proof.
  revert l; induction mask as [|[|] m IH]; intros [|a l] L i Hi; cbn in *; try lia; try discriminate.
  - destruct i as [|i].
    + exists 0. repeat split; auto; lia.
    + destruct (IH l ltac:(lia) i ltac:(lia)) as [j [H1 [H2 [H3 H4]]]]. exists (S j). cbn. repeat split; auto; lia.
  - destruct (IH l ltac:(lia) i Hi) as [j [H1 [H2 [H3 H4]]]]. exists (S j). cbn. repeat split; auto; lia.
Qed.

Lemma select_length {A} mask (l : list A) : length l = length mask -> length (select mask l) = kept mask.
Proof. revert l; induction mask as [|[|] m IH]; intros [|a l] L; cbn in *; try discriminate; auto. Qed.

Lemma select_incl {A} mask (l : list A) a : In a (select mask l) -> In a l.
Proof.
  revert l; induction mask as [|[|] m IH]; intros [|b l] H; cbn in *; try contradiction.
  - destruct H; auto.
  - auto.
Qed.

Lemma compress_at b mask (v : list K) j q : length v = length mask * b -> nth j mask false = true -> q < b ->
  at_ o (compress b mask v) (kept (firstn j mask) * b + q) = at_ o v (j * b + q).
Proof.
  revert v j; induction mask as [|[|] m IH]; intros v j L Hj Hq; cbn [compress length] in *.
  - destruct j; discriminate.
  - assert (LF : length (firstn b v) = b) by (rewrite firstn_length; nia).
    destruct j as [|j]; cbn [nth firstn kept] in *.
    + cbn [Nat.mul Nat.add]. rewrite at_app_l by lia. unfold at_. apply nth_firstn_lt; auto.
    + replace (S (kept (firstn j m)) * b + q) with (length (firstn b v) + (kept (firstn j m) * b + q)) by nia.
      rewrite at_app_r, IH by (rewrite ?skipn_length; auto; nia).
      unfold at_. rewrite nth_skipn_add. f_equal; nia.
  - destruct j as [|j]; cbn [nth firstn kept] in *; [discriminate|].
    rewrite IH by (rewrite ?skipn_length; auto; nia). unfold at_. rewrite nth_skipn_add. f_equal; nia.
Qed.

Lemma flat_repeat_1 {A} (l : list A) : flat_map (fun b => repeat b 1) l = l.
Proof. induction l; cbn in *; congruence. Qed.

Lemma corestrict_spec (S : sop K) mask :
  well_formed (so_mx S) -> mx_axis (so_mx S) = FSR -> mx_kind (so_mx S) = KScalar ->
  length mask = mx_rows (so_mx S) -> 0 < mx_cols (so_mx S) ->
  exists S', corestrict S mask = Ok S' /\
    well_formed (so_mx S') /\ mx_rows (so_mx S') = kept mask /\ mx_cols (so_mx S') = mx_cols (so_mx S) /\
    forall flib flib' sched sched' extra v,
      scheduler sched -> scheduler sched' -> 1 <= extra ->
      length v = extra * mx_cols (so_mx S) ->
      exists r s, matvec o flib sched (so_mx S) v None = Ok (Some r) /\
        matvec o flib' sched' (so_mx S') v None = Ok (Some s) /\ s = compress extra mask r.
Proof.
  intros W AX KD L P. pose proof W as [C [nr [nc [Hr [Hc D]]]]]. rewrite AX in D. rewrite KD in C. cbn in C.
  unfold corestrict. rewrite AX, KD, C. cbn [fst snd]. rewrite flat_repeat_1.
  rewrite C in Hr, Hc. cbn [fst snd] in Hr, Hc. destruct D as [D1 D2].
  assert (LD : length (mx_data (so_mx S)) = length mask) by lia.
  rewrite LD, Nat.eqb_refl. cbn [negb]. rewrite (select_length mask) by exact LD. rewrite count_kept, Nat.eqb_refl.
  cbn [negb]. eexists; split; [reflexivity|]. cbn [so_mx mx_rows mx_cols].
  set (M' := Matrix FSR KScalar (kept mask * 1) (mx_cols (so_mx S)) (1, 1) (select mask (mx_data (so_mx S)))).
  assert (W' : well_formed M').
  { split; [reflexivity|]. exists (kept mask), nc. cbn. split; [reflexivity|]. split; [lia|].
    split; [apply select_length; exact LD|]. unfold in_range in *. rewrite Forall_forall in *.
    intros row Hrow. apply D2. eapply select_incl; exact Hrow. }
  split; [exact W'|]. split; [lia|]. split; [reflexivity|].
  intros flib flib' sched sched' extra v Hs Hs' E1 Lv.
  assert (A : allowed_extra (so_mx S) extra) by (unfold allowed_extra; rewrite KD; exact E1).
  destruct (rows_product flib sched (so_mx S) extra v W AX Hs A P Lv) as [r [E [R1 [R2 F]]]].
  destruct (rows_product flib' sched' M' extra v W' eq_refl Hs' E1 P Lv) as [s [E' [R1' [R2' F']]]].
  exists r, s. split; [exact E|]. split; [exact E'|].
  assert (Fm : fmt_of (so_mx S) extra = Hom extra) by (unfold fmt_of; rewrite KD; reflexivity).
  change (fmt_of M' extra) with (Hom extra) in *. rewrite Fm in *. cbn [frow] in *. cbn [M' mx_data] in R1', F'.
  rewrite (select_length mask) in * by exact LD.
  apply (list_ext_blocks (kept mask) extra); auto.
  { apply compress_length. lia. }
  intros i p Hi Hp. rewrite F' by auto.
  destruct (select_nth mask (mx_data (so_mx S)) [] LD i Hi) as [j [J1 [J2 [J3 J4]]]].
  rewrite J4, <- F, <- J3 by auto. symmetry. apply compress_at; auto. lia.
Qed.

Lemma kept_app l m : kept (l ++ m) = kept l + kept m.
Proof. induction l as [|[|] l IH]; cbn; lia. Qed.
Lemma kept_true n : kept (repeat true n) = n.
Proof. induction n; cbn; lia. Qed.
Lemma kept_false n : kept (repeat false n) = 0.
Proof. induction n; cbn; lia. Qed.

(** Rotations: the mask is repeated although data has one record per block row. *)
Lemma corestrict_rotation (S : sop K) mask : mx_axis (so_mx S) = FSR ->
  mx_kind (so_mx S) = KRot2 \/ mx_kind (so_mx S) = KRot3 -> class_blocks (mx_kind (so_mx S)) (mx_bs (so_mx S)) ->
  0 < kept mask -> exists e, corestrict S mask = Err e.
Proof.
  intros AX KD C Hk. unfold corestrict. rewrite AX.
  assert (L : forall b, kept (flat_map (fun x => repeat x b) mask) = kept mask * b).
  { intros b. induction mask as [|[|] m IH] in |- *; cbn [flat_map kept]; [reflexivity| |];
      rewrite kept_app, IH; [rewrite kept_true|rewrite kept_false]; lia. }
  destruct KD as [KD|KD]; rewrite KD in *; cbn in C; rewrite C; cbn [fst snd];
  (destruct (Nat.eqb_spec (length (flat_map (fun b : bool => repeat b (fst (mx_bs (so_mx S)))) mask)) (length (mx_data (so_mx S)))) as [E|E];
     rewrite C in E; cbn [fst] in E; [|rewrite (proj2 (Nat.eqb_neq _ _) E); cbn; eauto]);
  rewrite E, Nat.eqb_refl; cbn [negb]; rewrite select_length, L, count_kept by (rewrite E; reflexivity).
  - destruct (Nat.eqb_spec (kept mask * 2 * 2) (kept mask * 2)); [lia|]. cbn; eauto.
  - destruct (Nat.eqb_spec (kept mask * 3 * 3) (kept mask * 3)); [lia|]. cbn; eauto.
Qed.
End Op.
