(** Property theorems C38 (one-sided and two-sided spectra) and C50 (interpolation). *)
From Coq Require Import Lia QArith Qcanon Sorted.
From Verif Require Import Base BaseFacts SparseModel SparseSpec NoiseModel NoiseSpec NoiseFacts.
Open Scope nat_scope.

Definition qc_ops : ops Qc := Ops Qc 0%Qc 1%Qc Qcplus Qcmult Qcopp.
Lemma qc_laws : ring_laws qc_ops.
Proof. exact Qcrt. Qed.
Definition qhalf : Qc := Q2Qc (1 # 2).
Lemma qhalf_half : kadd qc_ops qhalf qhalf = k1 qc_ops.
Proof. apply Qc_is_canon. reflexivity. Qed.
Definition q (n : Z) : Qc := Q2Qc (inject_Z n).
Ltac qlist := repeat (apply (f_equal2 cons); [apply Qc_is_canon; reflexivity|]); try reflexivity.

(** ** C38 *)
(** Unfolding: the two-sided spectrum of the same signal, of the same total power. *)
Theorem C38_unfold : forall K (o : ops K) half, ring_laws o -> kadd o half half = k1 o -> forall p, 2 <= length p ->
  exists u, unfold_psd o half p = Ok u /\ same_signal o p u /\ total o u = total o p.
Proof.
  intros K o half R H p L. destruct (unfold_total_fun o half p L) as [u E]. exists u. split; [exact E|].
  split; [apply (unfold_same o R half H p u E)|apply (unfold_total o R half H p u E)].
Qed.
Print Assumptions C38_unfold.
Example C38_example : ring_laws qc_ops /\ kadd qc_ops qhalf qhalf = k1 qc_ops /\ 2 <= length [q 1; q 4; q 6] /\
  exists u, unfold_psd qc_ops qhalf [q 1; q 4; q 6] = Ok u /\ u = [q 1; q 2; q 6; q 2].
Proof. split; [exact qc_laws|]. split; [exact qhalf_half|]. split; [cbn; lia|]. eexists. split; [reflexivity|]. cbn [map rev app part_of firstn skipn]. qlist. Qed.
(** Folding gives back the unfolded spectrum up to its last value, which becomes half of
    the last but one. *)
Theorem C38_fold_partial : forall K (o : ops K) half, ring_laws o -> kadd o half half = k1 o -> forall a m y b,
  (do u <- unfold_psd o half (a :: (m ++ [y]) ++ [b]); fold_psd o u) = Ok (a :: (m ++ [y]) ++ [kmul o y half]).
Proof. intros K o half R H a m y b. rewrite unfold_eq by auto. cbn [bind]. apply (fold_unfold o R half H). Qed.
Print Assumptions C38_fold_partial.
Theorem C38_fold_refuted : exists p r, (do u <- unfold_psd qc_ops qhalf p; fold_psd qc_ops u) = Ok r /\ length r = length p /\ nth_error r 2 <> nth_error p 2.
Proof.
  exists [q 1; q 4; q 6]. eexists. split; [exact (C38_fold_partial Qc qc_ops qhalf qc_laws qhalf_half (q 1) [] (q 4) (q 6))|]. split; [reflexivity|].
  cbn. intros E. injection E as E. discriminate.
Qed.
Print Assumptions C38_fold_refuted.
Theorem C38_fold_two_refuted : forall K (o : ops K) half a b, (do u <- unfold_psd o half [a; b]; fold_psd o u) = Err IndexError.
Proof. reflexivity. Qed.
Print Assumptions C38_fold_two_refuted.
(** A noise realisation from a given spectrum, interpolated at n/2+1 frequencies, exists
    for even numbers of samples ... *)
Theorem C38_sample_partial : forall K (o : ops K) half, forall noise p : list K, Nat.even (length noise) = true -> 2 <= length noise -> length p = length noise / 2 + 1 ->
  exists s, sample_spectrum o half noise p = Ok s /\ length s = length noise.
Proof.
  intros K o half noise p E L P. apply Nat.even_spec in E. destruct E as [k E]. rewrite E, Nat.mul_comm, Nat.div_mul in P by lia.
  destruct (two_ends p ltac:(lia)) as [a [m [b ->]]]. unfold sample_spectrum. rewrite unfold_eq. cbn [bind].
  assert (X : length (a :: map (fun x => kmul o x half) m ++ b :: rev (map (fun x => kmul o x half) m)) = length noise).
  { cbn [length] in *. rewrite app_length in *. cbn [length] in *. rewrite rev_length, map_length. lia. }
  rewrite X, Nat.eqb_refl. eexists. split; [reflexivity|]. rewrite map_length, combine_length, X. lia.
Qed.
Print Assumptions C38_sample_partial.
Example C38_sample_example : Nat.even (length [q 1; q 2; q 3; q 4]) = true /\ length [q 1; q 1; q 1] = length [q 1; q 2; q 3; q 4] / 2 + 1.
Proof. split; reflexivity. Qed.
(** ... and is an error for odd numbers of samples. *)
Theorem C38_sample_refuted : forall K (o : ops K) half, forall noise p : list K, Nat.odd (length noise) = true -> 3 <= length noise -> length p = length noise / 2 + 1 ->
  sample_spectrum o half noise p = Err ValueError.
Proof.
  intros K o half noise p E L P. apply Nat.odd_spec in E. destruct E as [k E]. assert (D : length noise / 2 = k) by (symmetry; apply (Nat.div_unique _ 2 k 1); lia). rewrite D in P.
  destruct (two_ends p ltac:(lia)) as [a [m [b ->]]]. unfold sample_spectrum. rewrite unfold_eq. cbn [bind].
  assert (X : length (a :: map (fun x => kmul o x half) m ++ b :: rev (map (fun x => kmul o x half) m)) = 2 * k).
  { cbn [length] in *. rewrite app_length in *. cbn [length] in *. rewrite rev_length, map_length. lia. }
  rewrite X. rewrite (proj2 (Nat.eqb_neq (2 * k) (length noise))) by lia. rewrite (proj2 (Nat.eqb_neq (2 * k) 1)), (proj2 (Nat.eqb_neq (length noise) 1)) by lia. reflexivity.
Qed.
Print Assumptions C38_sample_refuted.
Example C38_sample_refuted_example : sample_spectrum qc_ops qhalf [q 1; q 2; q 3] [q 5; q 7] = Err ValueError.
Proof. reflexivity. Qed.
(** The size of the transforms is the smallest power of two, from 2, that is enough. *)
Theorem C38_fft_size : forall nmax, exists s j, fft_size (S nmax) nmax 2 = Ok s /\ s = 2 * 2 ^ j /\ nmax <= s /\ (s = 2 \/ s < 2 * nmax).
Proof.
  intros nmax. destruct (fft_size_ok nmax (S nmax) 2) as [s [j [E [Es [N J]]]]]; [lia|lia|lia|]. exists s, j. repeat split; auto. destruct J as [->|J]; [left; rewrite Es; reflexivity|right; exact J].
Qed.
Print Assumptions C38_fft_size.
Example C38_fft_size_example : fft_size 6 5 2 = Ok 8.
Proof. reflexivity. Qed.

(** ** C50 *)
(** Interpolation at increasing abscissae is piecewise linear through the nodes. *)
Theorem C50_interp : forall z x y, increasing x -> not_decreasing z -> 2 <= length x -> length y = length x ->
  exists v, interp z x y = Ok v /\ Forall2 (interpolated x y) z v.
Proof.
  intros z x y I S L E. unfold interp. destruct x as [|x0 [|x1 x]]; cbn [length] in L; try lia. unfold item_at. cbn [nth_error bind].
  apply interp_from_ok; auto; cbn; lia.
Qed.
Print Assumptions C50_interp.
Example C50_example : increasing [q 0; q 2; q 4] /\ not_decreasing [q (-1); q 1; q 2; q 5] /\
  exists v, interp [q (-1); q 1; q 2; q 5] [q 0; q 2; q 4] [q 0; q 2; q 6] = Ok v /\ v = [q (-1); q 1; q 2; q 8].
Proof.
  split; [repeat (constructor; [|repeat constructor; reflexivity]); constructor|].
  split; [repeat (constructor; [|repeat constructor; discriminate]); constructor|].
  eexists. split; [vm_compute; reflexivity|]. qlist.
Qed.
(** The nodes themselves are reached. *)
Theorem C50_nodes : forall x y i xi yi v, increasing x -> nth_error x i = Some xi -> nth_error y i = Some yi -> interpolated x y xi v -> v = yi.
Proof.
  intros x y i xi yi v I Ei Ey [j [x1 [x2 [y1 [y2 [E1 [E2 [F1 [F2 [H1 [H2 H3]]]]]]]]]]]. unfold on_line in H3.
  assert (Mono : forall a b u w, a < b -> nth_error x a = Some u -> nth_error x b = Some w -> (u < w)%Qc).
  { clear -I. induction I as [|c l I IH F]; intros a b u w L A B; [destruct a; discriminate|]. destruct b as [|b]; [lia|]. cbn in B. destruct a as [|a]; [|apply (IH a b); auto; lia].
    cbn in A. injection A as <-. rewrite Forall_forall in F. apply F, (nth_error_In _ _ B). }
  assert (Li : i < length x) by (apply nth_error_Some; congruence).
  assert (D : (x1 < x2)%Qc) by (apply (Mono j (S j)); auto).
  assert (N : (x2 - x1 <> 0)%Qc) by (intros C; apply (Qclt_not_eq _ _ D); rewrite <- (Qcplus_0_l x1), <- C; ring).
  assert (X : forall a b : Qc, ((a - b) * (x2 - x1) = 0)%Qc -> a = b).
  { intros a b H. destruct (Qcmult_integral _ _ H) as [Z|Z]; [|contradiction]. rewrite <- (Qcplus_0_l b), <- Z. ring. }
  assert (Ci : i = j \/ i = S j).
  { destruct (Nat.lt_trichotomy i j) as [C|[C|C]]; auto.
    - exfalso. destruct H1 as [->|H1]; [lia|]. apply (Qclt_not_le xi x1); [apply (Mono i j); auto|exact H1].
    - destruct (Nat.eq_dec i (S j)) as [|Ne]; auto. exfalso. destruct H2 as [H2|H2]; [lia|]. apply (Qclt_not_le x2 xi); [apply (Mono (S j) i); auto; lia|exact H2]. }
  destruct Ci as [-> | ->].
  - assert (xi = x1) by congruence. assert (yi = y1) by congruence. subst. apply X. rewrite H3. ring.
  - assert (xi = x2) by congruence. assert (yi = y2) by congruence. subst. apply X.
    transitivity (((v - y1) * (x2 - x1)) - (y2 - y1) * (x2 - x1))%Qc; [ring|]. rewrite H3. ring.
Qed.
Print Assumptions C50_nodes.
(** With abscissae in decreasing order the search does not go back. *)
Theorem C50_order_refuted : exists z x y v, increasing x /\ 2 <= length x /\ length y = length x /\ interp z x y = Ok v /\ ~ Forall2 (interpolated x y) z v.
Proof.
  exists [q 3; q 1], [q 0; q 2; q 4], [q 0; q 2; q 6]. eexists. split; [repeat (constructor; [|repeat constructor; reflexivity]); constructor|]. split; [cbn; lia|]. split; [reflexivity|].
  split; [vm_compute; reflexivity|]. intros F. inversion F as [|? ? ? ? _ F2]; subst. inversion F2 as [|? ? ? ? [i [x1 [x2 [y1 [y2 [E1 [E2 [F1' [F2' [H1 [H2 H3]]]]]]]]]]] _]; subst.
  destruct i as [|[|[|i]]]; cbn in E1, E2; try discriminate.
  - injection E1 as <-. injection E2 as <-. injection F1' as <-. injection F2' as <-. unfold on_line in H3.
    match type of H3 with ?l = ?r => assert (H4 : this l = this r) by (rewrite H3; reflexivity) end. vm_compute in H4. discriminate.
  - injection E1 as <-. destruct H1 as [H1|H1]; [discriminate|]. exact (Qclt_not_le (q 1) (q 2) eq_refl H1).
Qed.
Print Assumptions C50_order_refuted.
(** With fewer than two nodes, an error. *)
Theorem C50_short : forall z x y, length x < 2 -> interp z x y = Err IndexError.
Proof. intros z [|x0 [|x1 x]] y L; cbn in L; try lia; reflexivity. Qed.
Print Assumptions C50_short.
