(** C79: spectra of noise and their interpolation. *)
From Coq Require Import Reals Lra List Lia ZArith.
From Verif Require Import Base BaseFacts SparseModel SparseSpec NoiseModel NoiseSpec NoiseFacts PsdModel PsdSpec PsdFacts PsdProps.
Import ListNotations.
Open Scope R_scope.

(** ** 1/f spectra *)
Lemma fftfreq_item n fs k : 0 < fs -> (1 <= k < n)%nat -> Rabs (at0 (fftfreq n (1 / fs)) k) = frequency_of n fs k.
Proof.
  intros Hfs Hk. assert (HN : 0 < INR n) by (apply INR_pos; lia). unfold fftfreq. rewrite at0_tab by lia. unfold frequency_of.
  replace (1 / (INR n * (1 / fs))) with (fs / INR n) by (field; lra).
  assert (Hp : 0 < fs / INR n) by (apply Rdiv_lt_0_compat; assumption).
  pose proof (Nat.div_mod (n - 1) 2 ltac:(lia)). pose proof (Nat.mod_upper_bound (n - 1) 2 ltac:(lia)).
  destruct (Nat.ltb_spec k ((n - 1) / 2 + 1)).
  - rewrite Nat.min_l by lia. rewrite Rabs_pos_eq; [unfold Rdiv; ring|]. apply Rmult_le_pos; [apply pos_INR|lra].
  - rewrite Nat.min_r by lia. rewrite <- Rabs_Ropp. rewrite minus_INR by lia. assert (INR k < INR n) by (apply lt_INR; lia).
    rewrite Rabs_pos_eq; [unfold Rdiv; ring|]. replace (- ((INR k - INR n) * (fs / INR n))) with ((INR n - INR k) * (fs / INR n)) by ring.
    apply Rmult_le_pos; lra.
Qed.
Lemma frequency_pos n fs k : 0 < fs -> (1 <= k < n)%nat -> 0 < frequency_of n fs k.
Proof.
  intros Hfs Hk. unfold frequency_of. apply Rdiv_lt_0_compat; [|apply INR_pos; lia]. apply Rmult_lt_0_compat; [|assumption]. apply INR_pos. lia.
Qed.
Lemma psd_1f_length n fs sigma fknee fslope : length (psd_1f n fs sigma fknee fslope) = n.
Proof. unfold psd_1f. now rewrite map_length, seq_length. Qed.
Lemma psd_1f_nth n fs sigma fknee fslope k : (k < n)%nat -> nth_error (psd_1f n fs sigma fknee fslope) k =
  Some (let ratio := if (k =? 0)%nat then 0 else fknee / at0 (fftfreq n (1 / fs)) k in option_map (fun p => sigma ^ 2 * (1 + p) / fs) (npow (Rabs ratio) fslope)).
Proof. intros Hk. rewrite nth_error_nth' with (d := None) by (now rewrite psd_1f_length). unfold psd_1f. now rewrite nth_tab. Qed.

(** The spectrum is the white level, raised by the power of the ratio of the knee and the
    frequency; the zero frequency has the white level. *)
Theorem C79_one_over_f : forall n fs sigma fknee fslope, 0 < fs -> fknee <> 0 ->
  length (psd_1f n fs sigma fknee fslope) = n /\
  (forall k, (1 <= k < n)%nat ->
     nth_error (psd_1f n fs sigma fknee fslope) k = Some (Some (sigma ^ 2 * (1 + Rpower (Rabs fknee / frequency_of n fs k) fslope) / fs))) /\
  (0 < fslope -> (0 < n)%nat -> nth_error (psd_1f n fs sigma fknee fslope) 0 = Some (Some (sigma ^ 2 / fs))).
Proof.
  intros n fs sigma fknee fslope Hfs Hk. split; [apply psd_1f_length|]. split.
  - intros k H. rewrite psd_1f_nth by lia. destruct (Nat.eqb_spec k 0); [lia|]. cbv zeta. rewrite <- (fftfreq_item n fs k) by assumption.
    assert (Hf : 0 < Rabs (at0 (fftfreq n (1 / fs)) k)) by (rewrite fftfreq_item by assumption; now apply frequency_pos).
    assert (at0 (fftfreq n (1 / fs)) k <> 0) by (intros E; rewrite E, Rabs_R0 in Hf; lra).
    assert (Q : Rabs (fknee / at0 (fftfreq n (1 / fs)) k) = Rabs fknee / Rabs (at0 (fftfreq n (1 / fs)) k)) by (unfold Rdiv; rewrite Rabs_mult, Rabs_inv; reflexivity).
    rewrite Q. unfold npow.
    destruct (Rlt_dec _ _) as [_|N]; [reflexivity|]. exfalso. apply N. apply Rdiv_lt_0_compat; [now apply Rabs_pos_lt|assumption].
  - intros Hs Hn. rewrite psd_1f_nth by assumption. cbn [Nat.eqb]. cbv zeta. rewrite Rabs_R0. unfold npow.
    destruct (Rlt_dec 0 0); [lra|]. destruct (Rlt_dec 0 fslope); [|lra]. cbn. do 2 f_equal. unfold Rdiv. ring.
Qed.
Print Assumptions C79_one_over_f.
Example C79_one_over_f_case : 0 < 8 /\ 1 <> 0 /\ frequency_of 8 8 6 = 2 /\ exists p, nth_error (psd_1f 8 8 4 1 1) 6 = Some (Some p) /\ p = 3.
Proof.
  split; [lra|]. split; [lra|]. assert (F : frequency_of 8 8 6 = 2) by (unfold frequency_of; cbn [Nat.min Nat.sub INR]; field). split; [exact F|].
  eexists. split; [apply (C79_one_over_f 8 8 4 1 1); [lra|lra|lia]|]. rewrite F, Rabs_R1. rewrite Rpower_1 by lra. field.
Qed.
(** Without knee, the total power is the variance. *)
Theorem C79_white : forall n fs sigma fslope, (0 < n)%nat -> 0 < fs -> 0 < fslope ->
  exists p, psd_1f n fs sigma 0 fslope = map Some p /\ length p = n /\ (forall k, (k < n)%nat -> item p k = sigma ^ 2 / fs) /\
    sum_over 0 n (fun k => item p k * (fs / INR n)) = sigma ^ 2.
Proof.
  intros n fs sigma fslope Hn Hfs Hs. pose proof (INR_pos n Hn). exists (map (fun _ => sigma ^ 2 / fs) (seq 0 n)).
  assert (Hi : forall k, (k < n)%nat -> item (map (fun _ => sigma ^ 2 / fs) (seq 0 n)) k = sigma ^ 2 / fs) by (intros; unfold item; now rewrite nth_tab).
  split; [|split; [now rewrite map_length, seq_length|split; [exact Hi|]]].
  - unfold psd_1f. rewrite map_map. apply map_ext. intros k. cbv zeta. assert (E : (if (k =? 0)%nat then 0 else 0 / at0 (fftfreq n (1 / fs)) k) = 0) by (destruct (k =? 0)%nat; unfold Rdiv; ring).
    rewrite E, Rabs_R0. unfold npow. destruct (Rlt_dec 0 0); [lra|]. destruct (Rlt_dec 0 fslope); [|lra]. cbn. f_equal. unfold Rdiv. ring.
  - rewrite sum_over_0. rewrite (rsum_ext n _ (fun _ => sigma ^ 2 / fs * (fs / INR n))) by (intros; now rewrite Hi). rewrite rsum_const. field. lra.
Qed.
Print Assumptions C79_white.
Example C79_white_case : (0 < 5)%nat /\ 0 < 2 /\ 0 < 1.
Proof. repeat split; lia || lra. Qed.
(** The documented level, the variance over the increment of frequency, is not the one of the
    spectrum: they differ by the number of samples. *)
Theorem C79_documented_refuted : forall n fs sigma fslope, (2 <= n)%nat -> 0 < fs -> 0 < fslope -> sigma <> 0 ->
  exists p, psd_1f n fs sigma 0 fslope = map Some p /\ forall k, (k < n)%nat ->
    let B := fs / INR n in item p k <> sigma ^ 2 / B /\ INR n * item p k = sigma ^ 2 / B.
Proof.
  intros n fs sigma fslope Hn Hfs Hs H0. destruct (C79_white n fs sigma fslope ltac:(lia) Hfs Hs) as (p & E & _ & Hi & _). exists p. split; [exact E|].
  intros k Hk B. rewrite Hi by assumption. assert (HN : 0 < INR n) by (apply INR_pos; lia).
  assert (E2 : INR n * (sigma ^ 2 / fs) = sigma ^ 2 / B) by (unfold B; field; lra). split; [|exact E2]. rewrite <- E2.
  assert (0 < sigma ^ 2) by (apply Rsqr_pos_lt in H0; unfold Rsqr in H0; cbn; lra).
  assert (0 < sigma ^ 2 / fs) by (apply Rdiv_lt_0_compat; assumption). assert (2 <= INR n) by (change 2 with (INR 2); apply le_INR; assumption).
  intros C. nra.
Qed.
Print Assumptions C79_documented_refuted.
Example C79_documented_case : (2 <= 4)%nat /\ 0 < 3 /\ 0 < 1 /\ 5 <> 0.
Proof. repeat split; lia || lra. Qed.

(** ** Interpolation *)
Lemma advance_total x z : forall fuel ix, (length x - ix < fuel)%nat -> (1 <= ix < length x)%nat -> exists ix', advance fuel x z ix = Ok ix' /\ (ix <= ix' < length x)%nat.
Proof.
  induction fuel as [|f IH]; intros ix Hf Hi; [lia|]. cbn [advance]. unfold item_at.
  destruct (nth_error x ix) eqn:E; [|apply nth_error_None in E; lia]. cbn [bind].
  destruct (ltb r z && (ix <? length x - 1)%nat) eqn:C; [|exists ix; split; [reflexivity|lia]].
  apply andb_prop in C. destruct C as [_ C]. apply Nat.ltb_lt in C. destruct (IH (S ix)) as (ix' & H & Hix); [lia|lia|]. exists ix'. split; [exact H|lia].
Qed.
Lemma interp_from_total x y : (2 <= length x)%nat -> length y = length x -> forall zs ix, (1 <= ix < length x)%nat -> exists v, interp_from x y ix zs = Ok v /\ length v = length zs.
Proof.
  intros Hx Hy. induction zs as [|z zs IH]; intros ix Hi; [exists []; split; reflexivity|]. cbn [interp_from].
  destruct (advance_total x z (S (length x)) ix) as (ix' & E & Hix); [lia|lia|]. rewrite E. cbn [bind]. unfold value_at, item_at.
  rewrite !nth_error_at0 by lia. cbn [bind]. destruct (IH ix') as (v & Ev & Hv); [lia|]. rewrite Ev. cbn [bind]. eexists. split; [reflexivity|]. cbn. lia.
Qed.
Lemma interp_total z x y : (2 <= length x)%nat -> length y = length x -> exists v, interp z x y = Ok v /\ length v = length z.
Proof.
  intros Hx Hy. unfold interp, item_at. rewrite !nth_error_at0 by lia. cbn [bind]. apply interp_from_total; lia.
Qed.
Lemma interp_line x y a c : (2 <= length x)%nat -> length y = length x -> (forall i, (S i < length x)%nat -> at0 x i <> at0 x (S i)) ->
  (forall i, (i < length x)%nat -> at0 y i = c + a * at0 x i) ->
  forall zs, interp zs x y = Ok (map (fun z => c + a * z) zs).
Proof.
  intros Hx Hy Hinc Hl zs. unfold interp, item_at. rewrite !nth_error_at0 by lia. cbn [bind].
  enough (G : forall ix, (1 <= ix < length x)%nat -> interp_from x y ix zs = Ok (map (fun z => c + a * z) zs)) by (apply G; lia).
  induction zs as [|z zs IH]; intros ix Hi; [reflexivity|]. cbn [interp_from].
  destruct (advance_total x z (S (length x)) ix) as (ix' & E & Hix); [lia|lia|]. rewrite E. cbn [bind]. unfold value_at, item_at.
  rewrite !nth_error_at0 by lia. cbn [bind]. rewrite (IH ix') by lia. cbn [bind map]. do 2 f_equal. rewrite !Hl by lia.
  assert (D : at0 x (ix' - 1) <> at0 x ix') by (replace ix' with (S (ix' - 1)) at 2 by lia; apply Hinc; lia). field. lra.
Qed.
Lemma inner_length l : length (inner_part l) = (length l - 2)%nat.
Proof. unfold inner_part, part_of. rewrite firstn_length, skipn_length. lia. Qed.
Lemma nth_firstn_in {A} (d : A) : forall l m i, (i < m)%nat -> nth i (firstn m l) d = nth i l d.
Proof. induction l as [|a l IH]; intros [|m] [|i] H; cbn; try reflexivity; try lia. apply IH. lia. Qed.
Lemma inner_at l i : (i < length l - 2)%nat -> at0 (inner_part l) i = at0 l (S i).
Proof.
  intros H. unfold inner_part, part_of, at0. destruct l as [|a l]; [cbn in H; lia|]. cbn [skipn length] in *.
  cbn [nth]. apply nth_firstn_in. lia.
Qed.
Lemma at0_map f l k : (k < length l)%nat -> at0 (map f l) k = f (at0 l k).
Proof. intros. unfold at0. now rewrite (nth_map_in f l k 0 0). Qed.

Lemma all_positive_at l : (forall k, (k < length l)%nat -> 0 < at0 l k) -> all_positive l = true.
Proof.
  intros H. apply forallb_forall. intros x Hx. destruct (In_nth l x 0 Hx) as (k & Hk & <-). unfold ltb. specialize (H k Hk). unfold at0 in H.
  destruct (Rlt_dec 0 (nth k l 0)); [reflexivity|contradiction].
Qed.
Lemma all_positive_forall l : Forall (fun x => 0 < x) l -> all_positive l = true.
Proof. intros H. apply all_positive_at. intros k Hk. apply (proj1 (Forall_forall _ l) H). now apply nth_In. Qed.
(** Interpolation of a power law gives the power law at the positive frequencies, with half of
    it for the last one, and the first value for the first one. *)
Theorem C79_power_law : forall A alpha bandwidth f0 f psd, 0 < A -> 0 < bandwidth -> Forall (fun x => 0 < x) f -> f <> [] ->
  (4 <= length psd)%nat -> (forall k, (1 <= k < length psd - 1)%nat -> item psd k = A * Rpower (INR k * bandwidth) alpha) ->
  exists p, logloginterp_psd (f0 :: f) bandwidth psd = Ok p /\ length p = S (length f) /\ item p 0 = item psd 0 /\
    (forall k, (1 <= k < length f)%nat -> item p k = A * Rpower (item (f0 :: f) k) alpha) /\
    item p (length f) = A * Rpower (item (f0 :: f) (length f)) alpha / 2.
Proof.
  intros A alpha b f0 f psd HA Hb Hf Hne Hl Hp. unfold logloginterp_psd. unfold item_at at 1. rewrite nth_error_at0 by lia. cbn [bind item_at nth_error tl].
  set (fr := map (fun k => INR k * b) (seq 0 (length psd))).
  assert (Hfl : length fr = length psd) by (unfold fr; now rewrite map_length, seq_length).
  assert (Hfa : forall k, (k < length psd)%nat -> at0 fr k = INR k * b) by (intros; unfold fr; now apply at0_tab).
  assert (Hpos : forall k, (1 <= k < length psd)%nat -> 0 < INR k * b) by (intros; apply Rmult_lt_0_compat; [apply INR_pos; lia|assumption]).
  rewrite (all_positive_forall f Hf), !all_positive_at; cbn [andb negb].
  2:{ intros k Hk. rewrite inner_length in Hk. rewrite inner_at by lia. change (at0 psd (S k)) with (item psd (S k)). rewrite Hp by lia.
      apply Rmult_lt_0_compat; [assumption|]. unfold Rpower. apply exp_pos. }
  2:{ intros k Hk. rewrite inner_length in Hk. rewrite inner_at by lia. rewrite Hfa by lia. apply Hpos. lia. }
  rewrite (interp_line (map ln (inner_part fr)) (map ln (inner_part psd)) alpha (ln A)).
  - cbn [bind]. eexists. split; [reflexivity|]. rewrite map_map.
    rewrite (map_map ln). rewrite (map_ext_in _ (fun x => A * Rpower x alpha)).
    2:{ intros x Hx. rewrite exp_plus, exp_ln by assumption. reflexivity. }
    destruct (exists_last Hne) as (f' & z & ->). rewrite map_app. cbn [map]. unfold halve_last.
    assert (R : rev (at0 psd 0 :: map (fun x => A * Rpower x alpha) f' ++ [A * Rpower z alpha]) = A * Rpower z alpha :: rev (at0 psd 0 :: map (fun x => A * Rpower x alpha) f')).
    { change (at0 psd 0 :: map (fun x => A * Rpower x alpha) f' ++ [A * Rpower z alpha]) with ((at0 psd 0 :: map (fun x => A * Rpower x alpha) f') ++ [A * Rpower z alpha]). now rewrite rev_app_distr. }
    rewrite R. change (A * Rpower z alpha / 2 :: rev (at0 psd 0 :: map (fun x => A * Rpower x alpha) f')) with ([A * Rpower z alpha / 2] ++ rev (at0 psd 0 :: map (fun x => A * Rpower x alpha) f')).
    rewrite rev_app_distr, rev_involutive. cbn [rev app]. rewrite !app_length. cbn [length]. rewrite app_length, map_length. cbn [length].
    split; [lia|]. split; [reflexivity|]. split.
    + intros k Hk. destruct k as [|k]; [lia|]. unfold item. cbn [nth]. rewrite !app_nth1 by (rewrite ?map_length; lia).
      rewrite (nth_map_in _ f' k 0 0) by lia. reflexivity.
    + rewrite Nat.add_1_r. unfold item. cbn [nth]. rewrite !app_nth2 by (rewrite ?map_length; lia). rewrite map_length, Nat.sub_diag. reflexivity.
  - rewrite map_length, inner_length. lia.
  - rewrite !map_length, !inner_length. lia.
  - intros i Hi. rewrite map_length, inner_length in Hi. rewrite !at0_map by (rewrite inner_length; lia). rewrite !inner_at by lia. rewrite !Hfa by lia.
    assert (L : ln (INR (S i) * b) < ln (INR (S (S i)) * b)); [|lra]. apply ln_increasing; [apply Hpos; lia|]. apply Rmult_lt_compat_r; [assumption|]. apply lt_INR. lia.
  - intros i Hi. rewrite map_length, inner_length in Hi. rewrite !at0_map by (rewrite inner_length; lia). rewrite !inner_at by lia. rewrite !Hfa by lia.
    change (at0 psd (S i)) with (item psd (S i)). rewrite Hp by lia. rewrite ln_mult by (try assumption; unfold Rpower; apply exp_pos). unfold Rpower. now rewrite ln_exp.
Qed.
Print Assumptions C79_power_law.
Example C79_power_law_case : exists psd, psd = [0; 3 * Rpower (1 * 2) (-1); 3 * Rpower ((1 + 1) * 2) (-1); 1] /\
  0 < 3 /\ 0 < 2 /\ Forall (fun x => 0 < x) [1; 5; 9] /\ [1; 5; 9] <> [] /\ (4 <= length psd)%nat /\
  forall k, (1 <= k < length psd - 1)%nat -> item psd k = 3 * Rpower (INR k * 2) (-1).
Proof.
  eexists. split; [reflexivity|]. split; [lra|]. split; [lra|]. split; [repeat constructor; lra|]. split; [discriminate|]. split; [cbn; lia|].
  intros [|[|[|k]]] H; cbn in H; try lia; reflexivity.
Qed.
(** A spectrum of two or three values cannot be interpolated. *)
Theorem C79_short_refuted : forall f0 f bandwidth psd, Forall (fun x => 0 < x) f -> 0 < bandwidth -> Forall (fun x => 0 < x) psd -> psd <> [] -> (length psd <= 3)%nat -> logloginterp_psd (f0 :: f) bandwidth psd = Err IndexError.
Proof.
  intros f0 f b psd Hf Hb Hpos Hp Hl. unfold logloginterp_psd. destruct psd as [|p0 psd]; [contradiction|]. cbn [item_at nth_error bind tl].
  set (fr := map (fun k => INR k * b) _). assert (Hfl : length fr = length (p0 :: psd)) by (unfold fr; now rewrite map_length, seq_length).
  rewrite (all_positive_forall f Hf), !all_positive_at; cbn [andb negb].
  2:{ intros k Hk. rewrite inner_length in Hk. rewrite inner_at by lia. unfold at0. apply (proj1 (Forall_forall _ _) Hpos). apply nth_In. lia. }
  2:{ intros k Hk. rewrite inner_length in Hk. rewrite inner_at by lia. unfold fr. rewrite at0_tab by lia. apply Rmult_lt_0_compat; [apply INR_pos; lia|assumption]. }
  unfold interp. assert (H : item_at (map ln (inner_part fr)) 1 = Err IndexError).
  { unfold item_at. rewrite (proj2 (nth_error_None _ _)); [reflexivity|]. rewrite map_length, inner_length, Hfl. lia. }
  rewrite H. destruct (item_at (map ln (inner_part fr)) 0) eqn:E; [reflexivity|]. unfold item_at in E. destruct (nth_error _ 0); [discriminate|]. injection E as <-. reflexivity.
Qed.
Print Assumptions C79_short_refuted.
Example C79_short_case : Forall (fun x => 0 < x) [1; 2] /\ 0 < 1 /\ Forall (fun x => 0 < x) [9; 4; 1] /\ [9; 4; 1] <> [] /\ (length [9%R; 4%R; 1%R] <= 3)%nat.
Proof. split; [repeat constructor; lra|]. split; [lra|]. split; [repeat constructor; lra|]. split; [discriminate|]. cbn. lia. Qed.
