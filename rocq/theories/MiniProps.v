(** C94: minimaps and scaled projections. *)
From Coq Require Import Lia Permutation Ring ZifyBool.
From Verif Require Import Base BaseFacts SparseModel SparseSpec RingFacts SparseExecFacts NumModel NumFacts NumProps PmModel PmSpec PmFacts PmProps MiniModel.
Open Scope Z_scope.

Lemma minval_le l i : In i l -> minval l <= i.
Proof. induction l as [|a l IH]; [easy|]. unfold minval in *. cbn [fold_right]. intros [->|H]; [lia|]. specialize (IH H). lia. Qed.
Lemma maxval_ge l i : In i l -> i <= maxval l.
Proof. induction l as [|a l IH]; [easy|]. unfold maxval in *. cbn [fold_right]. intros [->|H]; [lia|]. specialize (IH H). lia. Qed.
Lemma minval_in l : l <> [] -> (forall i, In i l -> i <= huge) -> In (minval l) l.
Proof.
  induction l as [|a l IH]; [easy|]. intros _ H. cbn [minval fold_right]. destruct l as [|b l].
  - cbn [fold_right]. specialize (H a (or_introl eq_refl)). left. lia.
  - destruct (Z.min_spec a (fold_right Z.min huge (b :: l))) as [[_ ->]|[_ ->]]; [now left|]. right. apply IH; [easy|]. intros i Hi. apply H. now right.
Qed.
Lemma maxval_in l : l <> [] -> (forall i, In i l -> - huge - 1 <= i) -> In (maxval l) l.
Proof.
  induction l as [|a l IH]; [easy|]. intros _ H. cbn [maxval fold_right]. destruct l as [|b l].
  - cbn [fold_right]. specialize (H a (or_introl eq_refl)). left. lia.
  - destruct (Z.max_spec a (fold_right Z.max (- huge - 1) (b :: l))) as [[_ ->]|[_ ->]]; [|now left]. right. apply IH; [easy|]. intros i Hi. apply H. now right.
Qed.
Lemma cell_bounds a b w h : 0 <= a < w -> 0 <= b < h -> 0 <= a + b * w < w * h.
Proof. intros Ha Hb. assert (b * w <= (h - 1) * w) by (apply Z.mul_le_mono_nonneg_r; lia). assert (0 <= b * w) by (apply Z.mul_nonneg_nonneg; lia). split; [lia|]. rewrite Z.mul_sub_distr_r in H. lia. Qed.
Lemma cell_unique a b c d w : 0 <= a < w -> 0 <= c < w -> a + b * w = c + d * w -> a = c /\ b = d.
Proof. intros Ha Hc H. destruct (Z.div_mod_unique w b d a c); lia. Qed.

Section P.
Context {K : Type} (o : ops K) (RL : ring_laws o) (iszero : K -> bool) (kdiv : K -> K -> K).
Let RT : ring_theory (k0 o) (k1 o) (kadd o) (kmul o) (fun a b => kadd o a (kopp o b)) (kopp o) (@eq K) := RL.
Add Ring KRing : RT.
Definition localized (nx : Z) (m : list (list (Z * K))) : list (list (Z * K)) :=
  map (map (fun e => if fst e =? -1 then e else (local nx (frame_roi nx m) (fst e), snd e))) m.
Lemma indices_in m row e : In row m -> In e row -> fst e <> -1 -> In (fst e) (indices (K := K) m).
Proof. intros H1 H2 H3. unfold indices. apply filter_In. split; [|lia]. apply in_map. apply in_concat. eauto. Qed.
Lemma local_range nx m i : 0 < nx -> 0 <= i -> In i (indices (K := K) m) ->
  let r := frame_roi nx m in
  local nx r i = (i mod nx - fst (fst r)) + (i / nx - fst (snd r)) * (snd (fst r) - fst (fst r) + 1) /\
  fst (fst r) <= i mod nx <= snd (fst r) /\ fst (snd r) <= i / nx <= snd (snd r).
Proof.
  intros Hn Hi Hin r. unfold local. rewrite Z.rem_mod_nonneg, Z.quot_div_nonneg by lia. split; [reflexivity|]. unfold r, frame_roi. cbn [fst snd].
  assert (A : In (i mod nx) (map (fun i => i mod nx) (indices m))) by now apply (in_map (fun i => i mod nx)).
  assert (B : In (i / nx) (map (fun i => Z.quot i nx) (indices m))) by (rewrite <- Z.quot_div_nonneg by lia; now apply (in_map (fun i => Z.quot i nx))).
  split; split; auto using minval_le, maxval_ge.
Qed.
Lemma entries_localized nx (m : list (list (Z * K))) row : 0 < nx -> (forall e, In e row -> -1 <= fst e) -> In row m ->
  entries (map (fun e : Z * K => if fst e =? -1 then e else (local nx (frame_roi nx m) (fst e), snd e)) row) = map (fun e : Z * K => (local nx (frame_roi nx m) (fst e), snd e)) (entries row).
Proof.
  intros Hn F Hin. assert (G : incl row row) by apply incl_refl. set (g := fun e : Z * K => if fst e =? -1 then e else (local nx (frame_roi nx m) (fst e), snd e)). revert G.
  assert (A : forall q, incl q row -> entries (map g q) = map (fun e : Z * K => (local nx (frame_roi nx m) (fst e), snd e)) (entries q)); [|apply A].
  induction q as [|e q IH]; intros G; [reflexivity|]. unfold g in *. clear g.
  cbn [map entries]. destruct (Z.eqb_spec (fst e) (-1)) as [E|E]; [rewrite (proj2 (Z.eqb_eq _ _) E); reflexivity|]. cbn [fst map].
  assert (Hi : 0 <= fst e) by (specialize (F e (G e (or_introl eq_refl))); lia).
  destruct (local_range nx m (fst e) Hn Hi (indices_in m row e Hin (G e (or_introl eq_refl)) E)) as (E1 & B1 & B2).
  destruct (cell_bounds (fst e mod nx - fst (fst (frame_roi nx m))) (fst e / nx - fst (snd (frame_roi nx m))) (snd (fst (frame_roi nx m)) - fst (fst (frame_roi nx m)) + 1) (snd (snd (frame_roi nx m)) - fst (snd (frame_roi nx m)) + 1)) as [L _]; [lia|lia|].
  rewrite <- E1 in L. replace (local nx (frame_roi nx m) (fst e) =? -1) with false by lia. f_equal. apply IH. intros e' H'. apply G. now right.
Qed.

Lemma localized_valid nx m : 0 < nx -> (forall row, In row m -> forall e, In e row -> -1 <= fst e) ->
  let r := frame_roi nx m in
  forall size, (snd (fst r) - fst (fst r) + 1) * (snd (snd r) - fst (snd r) + 1) <= Z.of_nat size -> valid size (localized nx m).
Proof.
  intros Hn F r size Hs row Hr e He. unfold localized in Hr. apply in_map_iff in Hr. destruct Hr as (row0 & <- & Hr). apply in_map_iff in He. destruct He as (e0 & <- & He).
  pose proof (F row0 Hr e0 He). destruct (Z.eqb_spec (fst e0) (-1)) as [E|E]; [lia|]. cbn [fst].
  destruct (local_range nx m (fst e0) Hn ltac:(lia) (indices_in m row0 e0 Hr He E)) as (E1 & B1 & B2).
  pose proof (cell_bounds (fst e0 mod nx - fst (fst (frame_roi nx m))) (fst e0 / nx - fst (snd (frame_roi nx m))) (snd (fst (frame_roi nx m)) - fst (fst (frame_roi nx m)) + 1) (snd (snd (frame_roi nx m)) - fst (snd (frame_roi nx m)) + 1) ltac:(lia) ltac:(lia)) as L.
  rewrite <- E1 in L. fold r in L, Hs |- *. lia.
Qed.
Lemma local_inj nx m i x y : 0 < nx -> 0 <= i -> In i (indices (K := K) m) -> let r := frame_roi nx m in
  fst (fst r) <= x <= snd (fst r) -> 0 <= x < nx -> local nx r i = (x - fst (fst r)) + (y - fst (snd r)) * (snd (fst r) - fst (fst r) + 1) <-> i = x + y * nx.
Proof.
  intros Hn Hi Hin r Hx Hx2. destruct (local_range nx m i Hn Hi Hin) as (E & B1 & B2). fold r in E, B1, B2. rewrite E. split.
  - intros H. apply cell_unique in H; [|lia|lia]. destruct H as [H1 H2]. assert (Ex : i mod nx = x) by lia. assert (Ey : i / nx = y) by lia. pose proof (Z.div_mod i nx ltac:(lia)) as D. rewrite Ex, Ey in D. rewrite D. ring.
  - intros ->. rewrite Z.mod_add, Z.mod_small, Z.div_add, Z.div_small by lia. reflexivity.
Qed.
Lemma coef_localized nx m row x y : 0 < nx -> (forall e, In e row -> -1 <= fst e) -> In row m -> let r := frame_roi nx m in
  fst (fst r) <= x <= snd (fst r) -> 0 <= x < nx -> fst (snd r) <= y -> 0 <= y ->
  coef o (map (fun e : Z * K => if fst e =? -1 then e else (local nx (frame_roi nx m) (fst e), snd e)) row) (Z.to_nat ((x - fst (fst r)) + (y - fst (snd r)) * (snd (fst r) - fst (fst r) + 1))) = coef o row (Z.to_nat (x + y * nx)).
Proof.
  intros Hn F Hin r Hx Hx2 Hy Hy0. unfold coef. rewrite entries_localized by assumption. rewrite sum_over_map. apply sum_over_ext. intros e He. cbn [fst snd].
  assert (I : In e row /\ fst e <> -1). { clear -He. induction row as [|a row IH]; [easy|]. cbn [entries] in He. destruct (Z.eqb_spec (fst a) (-1)); [easy|]. destruct He as [->|He]; [split; [now left|assumption]|]. destruct (IH He). split; [now right|assumption]. }
  destruct I as [I1 I2]. pose proof (F e I1). assert (0 <= x + y * nx) by (assert (0 <= y * nx) by (apply Z.mul_nonneg_nonneg; lia); lia).
  assert (0 <= (x - fst (fst r)) + (y - fst (snd r)) * (snd (fst r) - fst (fst r) + 1)). { assert (0 <= (y - fst (snd r)) * (snd (fst r) - fst (fst r) + 1)) by (apply Z.mul_nonneg_nonneg; lia). lia. }
  rewrite !Z2Nat.id by assumption. pose proof (local_inj nx m (fst e) x y Hn ltac:(lia) (indices_in m row e Hin I1 I2) Hx Hx2) as J. fold r in J.
  fold r. destruct (Z.eqb_spec (local nx r (fst e)) ((x - fst (fst r)) + (y - fst (snd r)) * (snd (fst r) - fst (fst r) + 1))) as [E|E], (Z.eqb_spec (fst e) (x + y * nx)) as [E2|E2]; try reflexivity; exfalso; tauto.
Qed.
End P.

(** The part of the frame seen by the minimap: every pixel of a detector lies in the region, whose bounds are those
    of pixels, and the minimap holds the weighted means of the pixels of the region, None where the weights are zero. *)
Theorem C94_minimap : forall (K : Type) (o : ops K), ring_laws o -> forall iszero kdiv nx m timeline mask size,
  0 < nx -> (forall row, In row m -> forall e, In e row -> -1 <= fst e) -> length timeline = length m -> length mask = length m ->
  let r := frame_roi nx m in let xmin := fst (fst r) in let xmax := snd (fst r) in let ymin := fst (snd r) in let ymax := snd (snd r) in
  (xmax - xmin + 1) * (ymax - ymin + 1) <= Z.of_nat size ->
  exists out, minimap o iszero kdiv nx m timeline mask size = Ok (r, out) /\ length out = size /\
  (forall row e, In row m -> In e row -> fst e <> -1 -> exists x y, fst e = x + y * nx /\ 0 <= x < nx /\ xmin <= x <= xmax /\ ymin <= y <= ymax) /\
  forall x y, xmin <= x <= xmax -> 0 <= x < nx -> ymin <= y <= ymax -> 0 <= y ->
    let unmasked i := negb (nth i mask true) in
    let total := back o m (fun i => if unmasked i then at_ o timeline i else k0 o) (Z.to_nat (x + y * nx)) in
    let weight := back o m (fun i => if unmasked i then k1 o else k0 o) (Z.to_nat (x + y * nx)) in
    nth_error out (Z.to_nat ((x - xmin) + (y - ymin) * (xmax - xmin + 1))) = Some (if iszero weight then None else Some (kdiv total weight)).
Proof.
  intros K o RL iszero kdiv nx m timeline mask size Hn F Lt Lm r xmin xmax ymin ymax Hs. pose proof (RL : ring_theory _ _ _ _ _ _ _) as RT.
  set (m' := localized nx m). assert (V : valid size m') by (apply localized_valid; assumption).
  assert (Lm' : length m' = length m) by (unfold m', localized; apply map_length).
  assert (U : forall f : K -> K -> K, (forall a b, f a b = kmul o b a) \/ (forall a b, f a b = b) -> map (fun e : Z * K => (local nx r (fst e), snd e)) (flat_map (fun rt => row_events (f (snd rt)) (fst rt)) (unmasked_samples m timeline (Some mask))) =
    flat_map (fun rt => row_events (f (snd rt)) (fst rt)) (unmasked_samples m' timeline (Some mask))).
  { intros f _. unfold unmasked_samples, m', localized. fold r. set (g := map (fun e : Z * K => if fst e =? -1 then e else (local nx r (fst e), snd e))).
    assert (A : forall q tl mk, (forall row, In row q -> In row m) -> map (fun e : Z * K => (local nx r (fst e), snd e)) (flat_map (fun rt => row_events (f (snd rt)) (fst rt)) (map fst (filter (fun rb => negb (snd rb)) (combine (combine q tl) mk)))) =
      flat_map (fun rt => row_events (f (snd rt)) (fst rt)) (map fst (filter (fun rb => negb (snd rb)) (combine (combine (map g q) tl) mk)))); [|apply A; auto].
    induction q as [|row q IH]; intros tl mk G; [reflexivity|]. destruct tl as [|t tl]; [reflexivity|]. destruct mk as [|b mk]; [reflexivity|].
    cbn [map combine filter snd]. specialize (IH tl mk (fun row H => G row (or_intror H))). destruct b; cbn [negb]; [exact IH|]. cbn [map flat_map fst snd]. rewrite map_app, IH. f_equal.
    rewrite !row_events_eq. unfold g, r. rewrite (entries_localized nx m row Hn (F row (G row (or_introl eq_refl))) (G row (or_introl eq_refl))). rewrite !map_map. reflexivity. }
  destruct (C56_backprojection K o RL m' timeline (Some mask) (repeat (k0 o) size) (repeat (k0 o) size) (back_map_events o m' timeline (Some mask)) (back_weight_events m' timeline (Some mask))) as (map1 & weight1 & E1 & E2 & H);
    [rewrite repeat_length; exact V|reflexivity|lia|intros mk E; injection E as <-; lia|apply Permutation_refl|apply Permutation_refl|].
  rewrite repeat_length in H.
  unfold minimap. replace (nx =? 0) with false by lia. cbv zeta. fold r.
  rewrite (U (fun t v => kmul o t v) (or_introl (fun a b => Rmul_comm RT a b))), (U (fun _ v => v) (or_intror (fun a b => eq_refl))).
  assert (EM : flat_map (fun rt => row_events (fun v => kmul o (snd rt) v) (fst rt)) (unmasked_samples m' timeline (Some mask)) = back_map_events o m' timeline (Some mask)).
  { unfold back_map_events. apply flat_map_ext. intros [row t]. cbn [fst snd]. rewrite !row_events_eq. apply map_ext. intros e. f_equal. apply (Rmul_comm RT). }
  rewrite EM. rewrite E1. cbn [bind]. unfold back_weight_events in E2. rewrite E2. cbn [bind].
  assert (L1 : length map1 = size). { destruct (run_events_any o RL size (back_map_events o m' timeline (Some mask)) (back_map_events o m' timeline (Some mask)) (repeat (k0 o) size) (repeat_length _ _)) as (q & Eq & Lq & _); [|apply Permutation_refl|rewrite Eq in E1; injection E1 as <-; exact Lq].
    apply Forall_forall. intros e He. unfold back_map_events in He. apply in_flat_map in He. destruct He as ([row a] & H1 & H2). cbn [fst] in H2. rewrite row_events_eq in H2. apply in_map_iff in H2. destruct H2 as (e' & <- & H2). cbn [fst].
    assert (I : In row m'). { unfold unmasked_samples in H1. apply in_map_iff in H1. destruct H1 as ([x b] & Ex & H1). cbn [fst] in Ex. subst x. apply filter_In in H1. destruct H1 as [H1 _]. apply in_combine_l in H1. now apply in_combine_l in H1. }
    pose proof (valid_entries size row (V row I)) as G. rewrite Forall_forall in G. now apply G. }
  assert (L2 : length weight1 = size). { destruct (run_events_any o RL size (back_weight_events m' timeline (Some mask)) (back_weight_events m' timeline (Some mask)) (repeat (k0 o) size) (repeat_length _ _)) as (q & Eq & Lq & _); [|apply Permutation_refl|unfold back_weight_events in Eq; rewrite Eq in E2; injection E2 as <-; exact Lq].
    apply Forall_forall. intros e He. unfold back_weight_events in He. apply in_flat_map in He. destruct He as ([row a] & H1 & H2). cbn [fst] in H2. rewrite row_events_eq in H2. apply in_map_iff in H2. destruct H2 as (e' & <- & H2). cbn [fst].
    assert (I : In row m'). { unfold unmasked_samples in H1. apply in_map_iff in H1. destruct H1 as ([x b] & Ex & H1). cbn [fst] in Ex. subst x. apply filter_In in H1. destruct H1 as [H1 _]. apply in_combine_l in H1. now apply in_combine_l in H1. }
    pose proof (valid_entries size row (V row I)) as G. rewrite Forall_forall in G. now apply G. }
  eexists. split; [reflexivity|]. split; [rewrite map_length, combine_length; lia|]. split.
  - intros row e Hr He Hne. destruct (local_range nx m (fst e) Hn ltac:(specialize (F row Hr e He); lia) (indices_in m row e Hr He Hne)) as (_ & B1 & B2).
    exists (fst e mod nx), (fst e / nx). split; [rewrite Z.add_comm, Z.mul_comm; apply Z.div_mod; lia|]. split; [apply Z.mod_pos_bound; lia|]. split; assumption.
  - intros x y Hx Hx2 Hy Hy0. cbv zeta. set (total := back o m (fun i => if negb (nth i mask true) then at_ o timeline i else k0 o) _). set (weight := back o m (fun i => if negb (nth i mask true) then k1 o else k0 o) _). set (q := Z.to_nat (_ + _ * (_ - _ + 1))).
    assert (Hq : (q < size)%nat). { destruct (cell_bounds (x - xmin) (y - ymin) (xmax - xmin + 1) (ymax - ymin + 1)); [lia|lia|]. unfold q. lia. }
    destruct (H q Hq) as [HM HW]. assert (Z0 : at_ o (repeat (k0 o) size) q = k0 o) by (unfold at_; apply nth_repeat). rewrite Z0, !(Radd_0_l RT) in *.
    assert (B : forall t, back o m' t q = back o m t (Z.to_nat (x + y * nx))).
    { intros t. unfold back. rewrite Lm'. apply bigsum_ext. intros i Hi. f_equal. unfold m', localized. rewrite nth_indep with (d' := map (fun e : Z * K => if fst e =? -1 then e else (local nx (frame_roi nx m) (fst e), snd e)) []) by (now rewrite map_length).
      rewrite (map_nth (map (fun e : Z * K => if fst e =? -1 then e else (local nx (frame_roi nx m) (fst e), snd e)))). assert (Ir : In (nth i m []) m) by now apply nth_In.
      apply (coef_localized o nx m (nth i m []) x y Hn (F _ Ir) Ir); try assumption; fold r xmin xmax ymin; lia. }
    rewrite !B in HM, HW. fold weight in HW. fold total in HM. rewrite nth_error_map.
    assert (C : nth_error (combine map1 weight1) q = Some (at_ o map1 q, at_ o weight1 q)).
    { unfold at_. rewrite <- combine_nth by congruence. apply nth_error_nth'. rewrite combine_length. lia. }
    rewrite C. cbn [option_map fst snd]. rewrite HM, HW. reflexivity.
Qed.
Print Assumptions C94_minimap.
Example C94_minimap_case : minimap z_ops (Z.eqb 0) Z.div 10 [[(32, 2); (33, 1)]; [(44, 3); (-1, 0)]; [(32, 1); (-1, 5)]] [5; 7; 20] [false; false; false] 6 =
  Ok (((2, 4), (3, 4)), [Some 10; Some 5; None; None; None; Some 7]).
Proof. reflexivity. Qed.
(** A detector that is masked enlarges the region. *)
Example C94_masked_case : fst (fst (frame_roi 10 [[(32, 1)]; [(99, 1)]])) = 2 /\ snd (fst (frame_roi 10 [[(32, 1)]; [(99, 1)]])) = 9.
Proof. split; reflexivity. Qed.
(** The bounds are those of pixels of the frame, which fit in 32 bits. *)
Theorem C94_bounds : forall (K : Type) nx (m : list (list (Z * K))), 0 < nx -> indices m <> [] -> (forall i, In i (indices m) -> 0 <= i <= huge) ->
  let r := frame_roi nx m in
  (exists i, In i (indices m) /\ i mod nx = fst (fst r)) /\ (exists i, In i (indices m) /\ i mod nx = snd (fst r)) /\
  (exists i, In i (indices m) /\ i / nx = fst (snd r)) /\ (exists i, In i (indices m) /\ i / nx = snd (snd r)).
Proof.
  intros K nx m Hn Hne F r. unfold r, frame_roi. cbn [fst snd].
  assert (Q : map (fun i => Z.quot i nx) (indices m) = map (fun i => i / nx) (indices m)) by (apply map_ext_in; intros i Hi; apply Z.quot_div_nonneg; [apply F, Hi|lia]).
  rewrite Q. assert (M : forall f : Z -> Z, (forall i, 0 <= i <= huge -> 0 <= f i <= huge) ->
    (exists i, In i (indices m) /\ f i = minval (map f (indices m))) /\ (exists i, In i (indices m) /\ f i = maxval (map f (indices m)))).
  { intros f Hf. assert (N : map f (indices m) <> []) by (destruct (indices m); [easy|discriminate]).
    assert (B : forall j, In j (map f (indices m)) -> 0 <= j <= huge) by (intros j Hj; apply in_map_iff in Hj; destruct Hj as (i & <- & Hi); apply Hf, F, Hi).
    split.
    - destruct (proj1 (in_map_iff f (indices m) _) (minval_in _ N (fun j Hj => proj2 (B j Hj)))) as (i & E & Hi). eauto.
    - assert (W : forall j, In j (map f (indices m)) -> - huge - 1 <= j) by (intros j Hj; specialize (B j Hj); unfold huge; lia).
      destruct (proj1 (in_map_iff f (indices m) _) (maxval_in _ N W)) as (i & E & Hi). eauto. }
  destruct (M (fun i => i mod nx)) as [A1 A2].
  { intros i Hi. pose proof (Z.mod_pos_bound i nx Hn). pose proof (Z.mod_le i nx ltac:(lia) Hn). lia. }
  destruct (M (fun i => i / nx)) as [A3 A4].
  { intros i Hi. split; [apply Z.div_pos; lia|]. pose proof (Z.div_le_upper_bound i nx i Hn). assert (i <= nx * i) by (rewrite <- (Z.mul_1_l i) at 1; apply Z.mul_le_mono_nonneg_r; lia). lia. }
  auto.
Qed.
Print Assumptions C94_bounds.
Example C94_bounds_case : frame_roi 10 [[(32, 2); (33, 1)]; [(44, 3); (-1, 0)]] = ((2, 4), (3, 4)).
Proof. reflexivity. Qed.

(** The region of a polygon: the pixel k, from k - 1/2 to k + 1/2, is in it along an axis if and only if it begins
    before the largest coordinate and ends after the smallest. *)
Lemma qmin_ok a l : 0 < snd a -> Forall (fun q => 0 < snd q) l -> In (qmin a l) (a :: l) /\ forall q, In q (a :: l) -> fst (qmin a l) * snd q <= fst q * snd (qmin a l).
Proof.
  unfold qmin. revert a. induction l as [|b l IH]; intros a Ha F; [split; [now left|]; intros q [<-|[]]; apply Z.le_refl|].
  inversion F as [|? ? Hb F2]; subst. cbn [fold_left]. destruct (qle a b) eqn:Q; unfold qle in Q; [apply Z.leb_le in Q|apply Z.leb_gt in Q]; rename Q into L.
  - destruct (IH a Ha F2) as [I M]. split; [destruct I as [I|I]; [now left|right; now right]|]. intros q [<-|[<-|H]]; [apply M; now left| |apply M; now right].
    assert (P : 0 < snd (fold_left (fun m x => if qle m x then m else x) l a)) by (destruct I as [<-|I]; [assumption|rewrite Forall_forall in F2; now apply F2]).
    specialize (M a (or_introl eq_refl)). set (r := fold_left _ l a) in *. apply Z.mul_le_mono_pos_r with (snd a); [assumption|].
    apply Z.le_trans with (fst a * snd r * snd b); [replace (fst r * snd b * snd a) with (fst r * snd a * snd b) by ring; apply Z.mul_le_mono_nonneg_r; lia|].
    replace (fst a * snd r * snd b) with (fst a * snd b * snd r) by ring. replace (fst b * snd r * snd a) with (fst b * snd a * snd r) by ring. apply Z.mul_le_mono_nonneg_r; lia.
  - destruct (IH b Hb F2) as [I M]. split; [now right|]. intros q [<-|H]; [|apply M; exact H].
    assert (P : 0 < snd (fold_left (fun m x => if qle m x then m else x) l b)) by (destruct I as [<-|I]; [assumption|rewrite Forall_forall in F2; now apply F2]).
    specialize (M b (or_introl eq_refl)). set (r := fold_left _ l b) in *. apply Z.mul_le_mono_pos_r with (snd b); [assumption|].
    apply Z.le_trans with (fst b * snd r * snd a); [replace (fst r * snd a * snd b) with (fst r * snd b * snd a) by ring; apply Z.mul_le_mono_nonneg_r; lia|].
    replace (fst b * snd r * snd a) with (fst b * snd a * snd r) by ring. replace (fst a * snd r * snd b) with (fst a * snd b * snd r) by ring. apply Z.mul_le_mono_nonneg_r; lia.
Qed.
Definition qneg (q : Z * Z) : Z * Z := (- fst q, snd q).
Lemma qmax_qmin l : forall a, qneg (qmax a l) = qmin (qneg a) (map qneg l).
Proof.
  unfold qmax, qmin. induction l as [|b l IH]; intros a; [reflexivity|]. cbn [map fold_left]. rewrite IH. f_equal.
  assert (E : qle b a = qle (qneg a) (qneg b)) by (unfold qle, qneg; cbn [fst snd]; lia). rewrite E. destruct (qle (qneg a) (qneg b)); reflexivity.
Qed.
Lemma qmax_ok a l : 0 < snd a -> Forall (fun q => 0 < snd q) l -> In (qmax a l) (a :: l) /\ forall q, In q (a :: l) -> fst q * snd (qmax a l) <= fst (qmax a l) * snd q.
Proof.
  intros Ha F. destruct (qmin_ok (qneg a) (map qneg l) Ha) as [I M]; [rewrite Forall_map; exact F|]. rewrite <- qmax_qmin in I, M. split.
  - change (qneg a :: map qneg l) with (map qneg (a :: l)) in I. apply in_map_iff in I. destruct I as (q & E & Hq). replace (qmax a l) with q; [exact Hq|].
    destruct q as [q1 q2], (qmax a l) as [m1 m2]. unfold qneg in E. cbn [fst snd] in E. injection E as E1 E2. f_equal; lia.
  - intros q Hq. specialize (M (qneg q)). change (qneg a :: map qneg l) with (map qneg (a :: l)) in M. specialize (M (in_map qneg _ _ Hq)). unfold qneg in M. cbn [fst snd] in M. lia.
Qed.
Lemma axis a l k : 0 < snd a -> Forall (fun q => 0 < snd q) l ->
  (up (qmin a l) <= k <= down (qmax a l) <-> (exists q, In q (a :: l) /\ 2 * fst q < (2 * k + 1) * snd q) /\ (exists q, In q (a :: l) /\ (2 * k - 1) * snd q < 2 * fst q)).
Proof.
  intros Ha F. destruct (qmin_ok a l Ha F) as [I M], (qmax_ok a l Ha F) as [I2 M2].
  assert (P : forall q, In q (a :: l) -> 0 < snd q) by (intros q [<-|H]; [assumption|rewrite Forall_forall in F; now apply F]).
  unfold up, down. destruct (C55_roundings (fst (qmin a l)) (snd (qmin a l)) (P _ I)) as [_ U]. destruct (C55_roundings (fst (qmax a l)) (snd (qmax a l)) (P _ I2)) as [D _].
  destruct (proj1 (U _) eq_refl) as [U1 U2]. destruct (proj1 (D _) eq_refl) as [D1 D2].
  set (u := nint_up _ _) in *. set (d := nint_down _ _) in *. pose proof (P _ I) as P1. pose proof (P _ I2) as P2. set (lo := qmin a l) in *. set (hi := qmax a l) in *.
  assert (A : u <= k <-> 2 * fst lo < (2 * k + 1) * snd lo).
  { split; intros H.
    - apply Z.lt_le_trans with (snd lo * (2 * u + 1)); [exact U2|]. rewrite (Z.mul_comm (snd lo)). apply Z.mul_le_mono_nonneg_r; lia.
    - destruct (Z.le_gt_cases u k) as [G|G]; [exact G|exfalso]. assert ((2 * k + 1) * snd lo <= (2 * u - 1) * snd lo) by (apply Z.mul_le_mono_nonneg_r; lia). rewrite (Z.mul_comm (snd lo)) in U1. lia. }
  assert (B : k <= d <-> (2 * k - 1) * snd hi < 2 * fst hi).
  { split; intros H.
    - apply Z.le_lt_trans with (snd hi * (2 * d - 1)); [|exact D1]. rewrite (Z.mul_comm (snd hi)). apply Z.mul_le_mono_nonneg_r; lia.
    - destruct (Z.le_gt_cases k d) as [G|G]; [exact G|exfalso]. assert ((2 * d + 1) * snd hi <= (2 * k - 1) * snd hi) by (apply Z.mul_le_mono_nonneg_r; lia). rewrite (Z.mul_comm (snd hi)) in D2. lia. }
  rewrite A, B. split.
  - intros [H1 H2]. split; [exists lo|exists hi]; auto.
  - intros [(q & Hq & H1) (w & Hw & H2)]. split.
    + specialize (M q Hq). specialize (P q Hq). apply Z.mul_lt_mono_pos_r with (snd q); [assumption|]. apply Z.le_lt_trans with (2 * fst q * snd lo); [lia|].
      replace ((2 * k + 1) * snd lo * snd q) with ((2 * k + 1) * snd q * snd lo) by ring. apply Z.mul_lt_mono_pos_r; assumption.
    + specialize (M2 w Hw). specialize (P w Hw). apply Z.mul_lt_mono_pos_r with (snd w); [assumption|]. apply Z.lt_le_trans with (2 * fst w * snd hi); [|lia].
      replace ((2 * k - 1) * snd hi * snd w) with ((2 * k - 1) * snd w * snd hi) by ring. apply Z.mul_lt_mono_pos_r; assumption.
Qed.
Theorem C94_region v vs kx ky : Forall (fun p => 0 < snd (fst p) /\ 0 < snd (snd p)) (v :: vs) ->
  let r := xy2roi v vs in
  let before (f : (Z * Z) * (Z * Z) -> Z * Z) k := exists p, In p (v :: vs) /\ (2 * k - 1) * snd (f p) < 2 * fst (f p) in
  let after (f : (Z * Z) * (Z * Z) -> Z * Z) k := exists p, In p (v :: vs) /\ 2 * fst (f p) < (2 * k + 1) * snd (f p) in
  (fst (fst r) <= kx <= snd (fst r) <-> after fst kx /\ before fst kx) /\ (fst (snd r) <= ky <= snd (snd r) <-> after snd ky /\ before snd ky).
Proof.
  intros F r before after. inversion F as [|? ? [H1 H2] F2]; subst.
  assert (X : forall (f : (Z * Z) * (Z * Z) -> Z * Z) (P : Z * Z -> Prop), (exists q, In q (f v :: map f vs) /\ P q) <-> (exists p, In p (v :: vs) /\ P (f p))).
  { intros f P. change (f v :: map f vs) with (map f (v :: vs)). split; [intros (q & Hq & Hp); apply in_map_iff in Hq; destruct Hq as (p & <- & Hq); eauto|intros (p & Hp & H); exists (f p); split; [now apply in_map|exact H]]. }
  unfold r, xy2roi, before, after. cbn [fst snd]. split.
  - rewrite axis; [|assumption|rewrite Forall_map; eapply Forall_impl; [|exact F2]; cbn; tauto].
    rewrite (X fst (fun q => 2 * fst q < (2 * kx + 1) * snd q)), (X fst (fun q => (2 * kx - 1) * snd q < 2 * fst q)). reflexivity.
  - rewrite axis; [|assumption|rewrite Forall_map; eapply Forall_impl; [|exact F2]; cbn; tauto].
    rewrite (X snd (fun q => 2 * fst q < (2 * ky + 1) * snd q)), (X snd (fun q => (2 * ky - 1) * snd q < 2 * fst q)). reflexivity.
Qed.
Print Assumptions C94_region.
Example C94_region_case : xy2roi ((1, 2), (0, 1)) [((5, 2), (3, 4)); ((7, 4), (-2, 1))] = ((1, 2), (-2, 1)).
Proof. reflexivity. Qed.

(** ** Scaled projections *)
Open Scope nat_scope.
Lemma fits_ones s : fits_in (rev s) (rev (s ++ [1])) = forallb (Nat.eqb 1) s.
Proof.
  rewrite rev_app_distr. cbn [rev app]. rewrite <- (rev_involutive s) at 3. set (l := rev s). clearbody l. 
  assert (R : forallb (Nat.eqb 1) (rev l) = forallb (Nat.eqb 1) l).
  { induction l as [|a l IH]; [reflexivity|]. cbn [rev]. rewrite forallb_app, IH. cbn [forallb]. rewrite andb_true_r. apply andb_comm. }
  rewrite R. clear R. assert (G : forall p, p = 1 -> fits_in l (p :: l) = forallb (Nat.eqb 1) l); [|now apply G].
  induction l as [|a l IH]; intros p Hp; [reflexivity|]. cbn [fits_in forallb]. destruct (Nat.eqb_spec a 1) as [->|N].
  - cbn [orb andb Nat.eqb]. now apply IH.
  - subst p. replace (Nat.eqb a 1) with false by (symmetry; now apply Nat.eqb_neq). replace (Nat.eqb 1 a) with false by (symmetry; apply Nat.eqb_neq; lia). reflexivity.
Qed.
Section P2.
Context {K : Type} (o : ops K) (RL : ring_laws o).
Let RT2 : ring_theory (k0 o) (k1 o) (kadd o) (kmul o) (fun a b => kadd o a (kopp o b)) (kopp o) (@eq K) := RL.
Add Ring KRing2 : RT2.
Lemma coef_scaled (e : Z * K) d j : coef o [(fst e, kmul o (snd e) d)] j = kmul o d (coef o [e] j).
Proof.
  unfold coef. cbn [entries fst snd]. destruct (fst e =? -1)%Z; cbn [sum_over fst snd]; [ring|]. destruct (fst e =? Z.of_nat j)%Z; ring.
Qed.
End P2.
(** A homothety scales the matrix, and the projection. *)
Theorem C94_homothety : forall (K : Type) (o : ops K), ring_laws o -> forall shape b d (m : list (Z * K)) x,
  b <> Rightward -> exists m', rule_diagonal o shape 1 b [] [d] m = Ok (Some m') /\ length m' = length m /\
  forall s, s < length m -> projected o (map (fun e => [e]) m') x s = kmul o d (projected o (map (fun e => [e]) m) x s).
Proof.
  intros K o RL shape b d m x Hb. pose proof (RL : ring_theory _ _ _ _ _ _ _) as RT.
  assert (E : rule_diagonal o shape 1 b [] [d] m = Ok (Some (map (fun e => (fst e, kmul o (snd e) d)) m))) by (destruct b; [reflexivity..|easy]).
  eexists. split; [exact E|]. split; [apply map_length|]. intros s Hs. unfold projected.
  rewrite <- (bigsum_mul_l o RL). apply bigsum_ext. intros j Hj. rewrite (Rmul_assoc RT). f_equal.
  rewrite map_map. assert (N : forall f : Z * K -> list (Z * K), nth s (map f m) [] = f (nth s m (0%Z, k0 o))).
  { intros f. rewrite nth_indep with (d' := f (0%Z, k0 o)) by now rewrite map_length. apply map_nth. }
  rewrite !N. apply (coef_scaled o RL).
Qed.
Print Assumptions C94_homothety.
(** With several pixels per sample, or broadcasting to the right, nothing is replaced. *)
Theorem C94_not_replaced : forall (K : Type) (o : ops K) shape npps b dshape data m, npps <> 1 \/ b = Rightward -> rule_diagonal o shape npps b dshape data m = Ok None.
Proof. intros K o shape npps b dshape data m H. unfold rule_diagonal. destruct (Nat.eqb_spec npps 1); [|reflexivity]. destruct H as [H|H]; [easy|]. now rewrite H. Qed.
Print Assumptions C94_not_replaced.
(** Wrong: a diagonal matrix of the shape of the samples is refused, unless there is only one sample. *)
Theorem C94_diagonal_refuted : forall (K : Type) (o : ops K) shape data m, (exists n, In n shape /\ n <> 1) -> rule_diagonal o shape 1 Disabled shape data m = Err ValueError.
Proof.
  intros K o shape data m (n & Hn & N). unfold rule_diagonal. cbn [Nat.eqb negb]. rewrite fits_ones. replace (forallb (Nat.eqb 1) shape) with false; [reflexivity|].
  symmetry. apply not_true_is_false. intros F. rewrite forallb_forall in F. apply N. specialize (F n Hn). apply Nat.eqb_eq in F. now symmetry.
Qed.
Print Assumptions C94_diagonal_refuted.
Example C94_diagonal_case : rule_diagonal z_ops [2; 3] 1 Disabled [2; 3] [1; 2; 3; 4; 5; 6]%Z [] = Err ValueError /\ rule_diagonal z_ops [2; 3] 1 Scalar [] [5]%Z [(0, 2); (1, 3)]%Z = Ok (Some [(0, 10); (1, 15)]%Z).
Proof. split; reflexivity. Qed.
