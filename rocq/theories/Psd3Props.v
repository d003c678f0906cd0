(** C79: one-sided 1/f spectra. *)
From Coq Require Import Reals Lra List Lia ZArith.
From Verif Require Import Base BaseFacts SparseModel SparseSpec NoiseModel NoiseSpec NoiseFacts PsdModel PsdSpec PsdFacts PsdProps Psd1Props Psd2Props Psd3Model.
Import ListNotations.
Open Scope R_scope.

Lemma first_items {A} (l : list A) k p : (p < k)%nat -> nth_error (firstn k l) p = nth_error l p.
Proof. revert k p. induction l as [|a l IH]; intros [|k] p H; cbn; try lia; [reflexivity|]. destruct p; [reflexivity|]. cbn. apply IH. lia. Qed.

Lemma fold_items {K} (o : ops K) p : (3 <= length p)%nat ->
  exists r, fold_psd o p = Ok r /\ length r = (length p / 2 + 1)%nat /\ nth_error r 0 = nth_error p 0 /\
    (forall k, (1 <= k < length p / 2)%nat -> nth_error r k = option_map (fun x => kmul o x (two o)) (nth_error p k)) /\
    nth_error r (length p / 2) = nth_error p (length p / 2 + 1).
Proof.
  intros L. pose proof (Nat.div_mod (length p) 2 ltac:(lia)) as D. pose proof (Nat.mod_upper_bound (length p) 2 ltac:(lia)).
  unfold fold_psd. set (h := (length p / 2)%nat) in *.
  destruct (nth_error p 0) as [p0|] eqn:E0; [|apply nth_error_None in E0; lia].
  destruct (nth_error p (h + 1)) as [pn|] eqn:En; [|apply nth_error_None in En; lia].
  unfold item_at. rewrite E0, En. cbn [bind].
  assert (P : length (part_of p 1 (h + 1 - 1)) = (h - 1)%nat) by (unfold part_of; rewrite firstn_length, skipn_length; lia).
  eexists. split; [reflexivity|]. split; [cbn [length]; rewrite app_length, map_length, P; cbn [length]; clearbody h; lia|]. split; [reflexivity|].
  split.
  - intros k Hk. destruct k as [|k]; [lia|]. cbn [nth_error]. rewrite nth_error_app1 by (rewrite map_length, P; lia).
    rewrite nth_error_map. f_equal. unfold part_of. rewrite first_items by lia.
    destruct p as [|x p]; [cbn in L; lia|]. reflexivity.
  - destruct h as [|h']; [lia|]. cbn [nth_error]. rewrite nth_error_app2 by (rewrite map_length, P; lia).
    rewrite map_length, P. replace (h' - (S h' - 1))%nat with 0%nat by lia. reflexivity.
Qed.

(** Frequencies 0, B, 2 B...: the white level, and twice the two-sided spectrum up to the last but
    one; the last value, whose frequency is the sampling frequency over two, is that of the
    two-sided spectrum at the frequency before it (even numbers of samples). *)
Theorem C79_one_sided_partial : forall n fs sigma fknee fslope, (3 <= n)%nat -> 0 < fs -> fknee <> 0 -> 0 < fslope ->
  exists r, psd_1f_onesided n fs sigma fknee fslope = Ok r /\ length r = (n / 2 + 1)%nat /\
    nth_error r 0 = Some (Some (sigma ^ 2 / fs)) /\
    (forall k, (1 <= k < n / 2)%nat -> nth_error r k = Some (Some (2 * (sigma ^ 2 * (1 + Rpower (Rabs fknee / (INR k * fs / INR n)) fslope) / fs)))) /\
    nth_error r (n / 2) = Some (Some (sigma ^ 2 * (1 + Rpower (Rabs fknee / (INR (n - (n / 2 + 1)) * fs / INR n)) fslope) / fs)).
Proof.
  intros n fs sigma fknee fslope Hn Hfs Hk Hs.
  destruct (C79_one_over_f n fs sigma fknee fslope Hfs Hk) as [L [V Z]]. specialize (Z Hs ltac:(lia)).
  destruct (fold_items opt_ops (psd_1f n fs sigma fknee fslope) ltac:(rewrite L; exact Hn)) as [r [E [Lr [R0 [Rk Rl]]]]].
  rewrite L in *. pose proof (Nat.div_mod n 2 ltac:(lia)). pose proof (Nat.mod_upper_bound n 2 ltac:(lia)).
  exists r. split; [exact E|]. split; [exact Lr|]. split; [rewrite R0; exact Z|]. split.
  - intros k K. rewrite Rk by exact K. rewrite V by lia. unfold frequency_of. rewrite Nat.min_l by lia. cbn. do 2 f_equal. ring.
  - rewrite Rl. rewrite V by lia. unfold frequency_of. rewrite Nat.min_r by lia. reflexivity.
Qed.
Print Assumptions C79_one_sided_partial.
Example C79_one_sided_example : exists r, psd_1f_onesided 8 8 4 1 1 = Ok r /\ length r = 5%nat /\ nth_error r 2 = Some (Some 6) /\ nth_error r 4 = Some (Some (8 / 3)).
Proof.
  destruct (C79_one_sided_partial 8 8 4 1 1 ltac:(lia) ltac:(lra) ltac:(lra) ltac:(lra)) as [r [E [L [_ [V W]]]]].
  exists r. split; [exact E|]. split; [exact L|]. split.
  - rewrite V by (cbn; lia). do 2 f_equal. rewrite Rabs_R1. replace (INR 2 * 8 / INR 8) with 2 by (cbn; field). rewrite Rpower_1 by lra. field.
  - change 4%nat with (8 / 2)%nat. rewrite W. do 2 f_equal. rewrite Rabs_R1. change (8 - (8 / 2 + 1))%nat with 3%nat. replace (INR 3 * 8 / INR 8) with 3 by (cbn; field). rewrite Rpower_1 by lra. field.
Qed.
(** It is never the value at that frequency, for an even number of samples. *)
Theorem C79_nyquist_refuted : forall h fs sigma fknee fslope, (2 <= h)%nat -> 0 < fs -> fknee <> 0 -> 0 < fslope -> sigma <> 0 ->
  let n := (2 * h)%nat in
  exists r v, psd_1f_onesided n fs sigma fknee fslope = Ok r /\ nth_error r h = Some (Some v) /\
    sigma ^ 2 * (1 + Rpower (Rabs fknee / (fs / 2)) fslope) / fs < v.
Proof.
  intros h fs sigma fknee fslope Hh Hfs Hk Hs Sg n.
  destruct (C79_one_sided_partial n fs sigma fknee fslope ltac:(unfold n; lia) Hfs Hk Hs) as [r [E [L [_ [_ W]]]]].
  assert (D : (n / 2 = h)%nat) by (unfold n; rewrite Nat.mul_comm; apply Nat.div_mul; lia). rewrite D in W.
  exists r. eexists. split; [exact E|]. split; [exact W|].
  assert (K0 : 0 < Rabs fknee) by (apply Rabs_pos_lt, Hk).
  assert (H2 : 2 <= INR h) by (change 2 with (INR 2); apply le_INR, Hh).
  assert (F : INR (n - (h + 1)) * fs / INR n = fs / 2 * ((INR h - 1) / INR h)).
  { unfold n. rewrite mult_INR. replace (2 * h - (h + 1))%nat with (h - 1)%nat by lia. rewrite minus_INR by lia. cbn [INR]. field. lra. }
  assert (Fp : 0 < fs / 2 * ((INR h - 1) / INR h)) by (apply Rmult_lt_0_compat; [lra|apply Rdiv_lt_0_compat; lra]).
  assert (Fl : fs / 2 * ((INR h - 1) / INR h) < fs / 2).
  { rewrite <- (Rmult_1_r (fs / 2)) at 2. apply Rmult_lt_compat_l; [lra|]. apply Rmult_lt_reg_r with (INR h); [lra|]. field_simplify; lra. }
  rewrite F. assert (S2 : 0 < sigma ^ 2) by (rewrite <- Rsqr_pow2; apply Rsqr_pos_lt, Sg).
  apply Rmult_lt_compat_r; [apply Rinv_0_lt_compat, Hfs|]. apply Rmult_lt_compat_l; [exact S2|]. apply Rplus_lt_compat_l.
  apply Rlt_Rpower_l; [exact Hs|]. split; [apply Rdiv_lt_0_compat; lra|]. apply Rmult_lt_compat_l; [exact K0|]. apply Rinv_lt_contravar; [apply Rmult_lt_0_compat; lra|exact Fl].
Qed.
Print Assumptions C79_nyquist_refuted.
(** One or two samples. *)
Theorem C79_few_refuted : forall n fs sigma fknee fslope, (n <= 2)%nat -> psd_1f_onesided n fs sigma fknee fslope = Err IndexError.
Proof. intros [|[|[|n]]] fs sigma fknee fslope H; [reflexivity..|lia]. Qed.
Print Assumptions C79_few_refuted.

(** Frequencies, increment and interior of the spectrum: all positive, when the interpolated
    spectrum is finite. *)
Theorem C79_positive : forall f bandwidth psd r, logloginterp_psd f bandwidth psd = Ok r ->
  Forall (fun x => 0 < x) (tl f) /\ Forall (fun x => 0 < x) (removelast (tl psd)) /\ ((3 <= length psd)%nat -> 0 < bandwidth).
Proof.
  intros f b psd r H. unfold logloginterp_psd in H. destruct psd as [|p0 psd]; [discriminate H|]. destruct f as [|f0 f]; [discriminate H|]. cbn [bind item_at nth_error tl] in H.
  assert (Q : forall l, all_positive l = true -> Forall (fun x => 0 < x) l).
  { intros l E. apply Forall_forall. intros x X. unfold all_positive in E. rewrite forallb_forall in E. specialize (E x X). unfold ltb in E. destruct (Rlt_dec 0 x); [assumption|discriminate E]. }
  destruct (all_positive f) eqn:E1; [|discriminate H]. destruct (all_positive (inner_part (map _ _))) eqn:E2; [|discriminate H].
  destruct (all_positive (inner_part (p0 :: psd))) eqn:E3; [|discriminate H]. clear H. split; [exact (Q _ E1)|]. split.
  - apply Q in E3. unfold inner_part, part_of in E3. cbn [length skipn] in E3. cbn [tl]. rewrite removelast_firstn_len. replace (pred (length psd)) with (S (length psd) - 1 - 1)%nat by lia. exact E3.
  - intros L. apply Q in E2. rewrite Forall_forall in E2. specialize (E2 (INR 1 * b)). cbn [INR] in E2. rewrite Rmult_1_l in E2. apply E2.
    unfold inner_part, part_of. rewrite map_length, seq_length. cbn [length seq map skipn] in *. destruct psd as [|a [|c psd]]; cbn [length] in L; try lia. cbn [length seq map]. cbn. left. ring.
Qed.
Print Assumptions C79_positive.
Example C79_positive_case : exists r, logloginterp_psd [0; 1] 1 [1; 1; 1; 1] = Ok r /\ Forall (fun x => 0 < x) (removelast (tl [1; 1; 1; 1])).
Proof.
  destruct (loglog_total [0; 1] 1 [1; 1; 1; 1]) as [p [E _]]; [discriminate|cbn; lia|repeat constructor; lra|lra| |].
  - intros [|[|[|k]]] K; cbn in K; try lia; cbn; lra.
  - exists p. split; [exact E|]. exact (proj1 (proj2 (C79_positive _ _ _ _ E))).
Qed.
