(** C93: spectra of images. *)
From Coq Require Import Reals Lra Lia List ZArith Znumtheory.
From Verif Require Import Base BaseFacts ConstModel DataModel DataSpec DataFacts DataProps SparseModel NoiseModel PsdModel PsdFacts ImModel ImSpec.
From Coq Require Import Permutation.
Import ListNotations.
Open Scope R_scope.

(** ** Complex transforms of one dimension *)
Definition dft (n : nat) (f : nat -> C) (k : nat) : C :=
  (rsum n (fun i => fst (f i) * cos (tw n (Z.of_nat k * Z.of_nat i)) + snd (f i) * sin (tw n (Z.of_nat k * Z.of_nat i))),
   rsum n (fun i => snd (f i) * cos (tw n (Z.of_nat k * Z.of_nat i)) - fst (f i) * sin (tw n (Z.of_nat k * Z.of_nat i)))).
Lemma dft_abs2 n f k : abs2 (dft n f k) = rsum n (fun i => rsum n (fun j =>
  (fst (f i) * fst (f j) + snd (f i) * snd (f j)) * cos (tw n (0 + (Z.of_nat i - Z.of_nat j) * Z.of_nat k)) +
  (snd (f i) * fst (f j) - fst (f i) * snd (f j)) * sin (tw n (0 + (Z.of_nat i - Z.of_nat j) * Z.of_nat k)))).
Proof.
  unfold abs2, dft. cbn [fst snd]. rewrite <- !Rsqr_pow2. unfold Rsqr. rewrite !rsum_mult, <- rsum_plus. apply rsum_ext. intros i _. rewrite <- rsum_plus. apply rsum_ext. intros j _.
  replace (0 + (Z.of_nat i - Z.of_nat j) * Z.of_nat k)%Z with (Z.of_nat k * Z.of_nat i - Z.of_nat k * Z.of_nat j)%Z by ring. rewrite tw_sub, cos_minus, sin_minus. ring.
Qed.
Lemma dft_parseval n f : (0 < n)%nat -> rsum n (fun k => abs2 (dft n f k)) = INR n * rsum n (fun i => abs2 (f i)).
Proof.
  intros Hn. rewrite (rsum_ext n _ _ (fun k _ => dft_abs2 n f k)), rsum_swap, <- rsum_scal. apply rsum_ext. intros i Hi.
  rewrite rsum_swap. rewrite (rsum_one n i).
  - rewrite rsum_plus, !rsum_scal, cos_sum, sin_sum by assumption. replace (Z.of_nat i - Z.of_nat i)%Z with 0%Z by ring.
    destruct (Zdivide_dec (Z.of_nat n) 0) as [_|H]; [|elim H; now exists 0%Z]. rewrite cos_tw_0. unfold abs2. ring.
  - exact Hi.
  - intros j Hj Hne. rewrite rsum_plus, !rsum_scal, cos_sum, sin_sum by assumption. destruct (Zdivide_dec _ _) as [H|H]; [apply div_small in H; lia|]. ring.
Qed.
(** ** Two dimensions: the rows, then the columns *)
Lemma angle_tw n m k l i j : (0 < n)%nat -> (0 < m)%nat -> angle n m k l i j = tw n (Z.of_nat k * Z.of_nat i) + tw m (Z.of_nat l * Z.of_nat j).
Proof. intros Hn Hm. pose proof (INR_pos n Hn). pose proof (INR_pos m Hm). unfold angle, tw. rewrite !mult_IZR, <- !INR_IZR_INZ, !mult_INR. field. lra. Qed.
Lemma fft_dft x k l : (0 < nrows x)%nat -> (0 < ncols x)%nat -> fft x k l = dft (nrows x) (fun i => dft (ncols x) (value_at x i) l) k.
Proof.
  intros Hn Hm. unfold fft, dft. cbn [fst snd]. f_equal; apply rsum_ext; intros i _.
  - rewrite <- !rsum_scal_r, <- rsum_plus. apply rsum_ext. intros j _. rewrite angle_tw, cos_plus, sin_plus by assumption. ring.
  - rewrite <- !rsum_scal_r, <- rsum_minus. apply rsum_ext. intros j _. rewrite angle_tw, cos_plus, sin_plus by assumption. ring.
Qed.
Lemma fft_parseval x : (0 < nrows x)%nat -> (0 < ncols x)%nat ->
  rsum (nrows x) (fun k => rsum (ncols x) (fun l => abs2 (fft x k l))) = INR (nrows x * ncols x) * rsum (nrows x) (fun i => rsum (ncols x) (fun j => abs2 (value_at x i j))).
Proof.
  intros Hn Hm. rewrite rsum_swap. rewrite (rsum_ext _ _ (fun l => INR (nrows x) * rsum (nrows x) (fun i => abs2 (dft (ncols x) (value_at x i) l)))).
  2:{ intros l _. rewrite <- dft_parseval by assumption. apply rsum_ext. intros k _. now rewrite fft_dft. }
  rewrite rsum_scal, rsum_swap, mult_INR, Rmult_assoc. f_equal. rewrite <- rsum_scal. apply rsum_ext. intros i _. now apply dft_parseval.
Qed.
(** ** The shift is a permutation *)
Lemma rsum_turn h c (s : nat -> R) : rsum (h + c) (fun i => s ((i + c) mod (h + c))%nat) = rsum (h + c) s.
Proof.
  rewrite rsum_split. transitivity (rsum (c + h) s); [|now rewrite Nat.add_comm]. rewrite rsum_split, Rplus_comm. f_equal; apply rsum_ext; intros k Hk; f_equal.
  - replace (h + k + c)%nat with (k + 1 * (h + c))%nat by lia. rewrite Nat.mod_add by lia. apply Nat.mod_small. lia.
  - rewrite Nat.mod_small by lia. lia.
Qed.
Lemma rsum_shift n (s : nat -> R) : rsum n (fun i => s ((i + (n - n / 2)) mod n)%nat) = rsum n s.
Proof. pose proof (rsum_turn (n / 2) (n - n / 2) s) as H. replace (n / 2 + (n - n / 2))%nat with n in H by lia. exact H. Qed.
Lemma total_rsum n m (f : nat -> nat -> R) : total (map (fun i => map (fun j => f i j) (seq 0 m)) (seq 0 n)) = rsum n (fun i => rsum m (fun j => f i j)).
Proof.
  unfold total. assert (A : forall (g : nat -> R) p q, fold_right Rplus 0 (map g (seq p q)) = rsum q (fun j => g (p + j)%nat)).
  { intros g p q. revert p. induction q as [|q IH]; intros p; [reflexivity|]. cbn [seq map fold_right]. rewrite IH, rsum_first. rewrite Nat.add_0_r. f_equal. apply rsum_ext. intros k _. f_equal. lia. }
  rewrite map_map. rewrite A. apply rsum_ext. intros i _. rewrite A. reflexivity.
Qed.
Lemma total_nth {A} (d : A) (l : list (list A)) m (g : A -> R) : Forall (fun r => length r = m) l ->
  total (map (map g) l) = rsum (length l) (fun i => rsum m (fun j => g (nth j (nth i l []) d))).
Proof.
  intros F. assert (E : l = map (fun i => map (fun j => nth j (nth i l []) d) (seq 0 m)) (seq 0 (length l))).
  { apply nth_ext with (d := []) (d' := []); [now rewrite map_length, seq_length|]. intros i Hi.
    rewrite nth_indep with (d' := map (fun j => nth j (nth 0 l []) d) (seq 0 m)) (l := map _ _) by (now rewrite map_length, seq_length).
    rewrite (map_nth (fun i => map (fun j => nth j (nth i l []) d) (seq 0 m))), seq_nth by assumption. cbn [Nat.add].
    assert (L : length (nth i l []) = m) by (rewrite Forall_forall in F; apply F; now apply nth_In).
    apply nth_ext with (d := d) (d' := d); [now rewrite map_length, seq_length|]. intros j Hj. rewrite L in Hj.
    rewrite nth_indep with (d' := nth 0 (nth i l []) d) (l := map _ _) by (now rewrite map_length, seq_length).
    rewrite (map_nth (fun j => nth j (nth i l []) d)), seq_nth by assumption. reflexivity. }
  rewrite E at 1. rewrite map_map. rewrite (map_ext _ (fun i => map (fun j => g (nth j (nth i l []) d)) (seq 0 m))); [|intros; now rewrite map_map]. apply total_rsum.
Qed.

(** The densities add up to the mean of the squares, as documented. *)
Theorem C93_parseval x fs m : x <> [] -> (0 < m)%nat -> Forall (fun r => length r = m) x -> fs <> 0 ->
  exists p, psd2 2 x fs = Ok p /\ length p = length x /\ Forall (fun r => length r = m) p /\
    total p * (fs ^ 2 / INR (length x * m)) = mean_square x (length x * m).
Proof.
  intros Hx Hm F Hf. assert (Hn : (0 < nrows x)%nat) by (destruct x; [easy|cbn; lia]).
  assert (M : ncols x = m) by (destruct F; [easy|assumption]). unfold psd2. cbn [Nat.eqb negb]. eexists. split; [reflexivity|].
  split; [now rewrite map_length, seq_length|]. split; [apply Forall_forall; intros r Hr; apply in_map_iff in Hr; destruct Hr as (i & <- & _); now rewrite map_length, seq_length|].
  rewrite total_rsum. unfold fftshift. set (SS := fun (k l : nat) => abs2 (fft x k l) / INR (nrows x * ncols x) ^ 2 / (fs ^ 2 / INR (nrows x * ncols x))).
  rewrite (rsum_ext _ _ (fun i => (fun k => rsum (ncols x) (SS k)) ((i + (nrows x - nrows x / 2)) mod nrows x)%nat)).
  2:{ intros i _. apply (rsum_shift (ncols x) (SS _)). }
  rewrite (rsum_shift (nrows x) (fun k => rsum (ncols x) (SS k))). unfold SS. unfold mean_square. rewrite (total_nth (0, 0) x m) by assumption. change (length x) with (nrows x). rewrite M.
  assert (0 < INR (nrows x * m)) by (apply INR_pos; lia).
  rewrite rsum_ext with (g := fun k => rsum m (fun l => abs2 (fft x k l)) * (/ INR (nrows x * m) ^ 2 / (fs ^ 2 / INR (nrows x * m)))).
  2:{ intros k _. rewrite <- rsum_scal_r. apply rsum_ext. intros l _. unfold Rdiv. ring. }
  rewrite rsum_scal_r. rewrite <- M. rewrite fft_parseval by lia. rewrite M. change square with abs2. unfold value_at. set (T := rsum (nrows x) _). 
  field. split; first [exact Hf|lra].
Qed.
Print Assumptions C93_parseval.
(** The mean of the image is in the middle. *)
Theorem C93_middle x fs m p : x <> [] -> (0 < m)%nat -> Forall (fun r => length r = m) x -> fs <> 0 -> psd2 2 x fs = Ok p ->
  nth (m / 2) (nth (length x / 2) p []) 0 = (total (map (map fst) x) ^ 2 + total (map (map snd) x) ^ 2) / INR (length x * m) / fs ^ 2.
Proof.
  intros Hx Hm F Hf E. assert (Hn : (0 < nrows x)%nat) by (destruct x; [easy|cbn; lia]).
  assert (M : ncols x = m) by (destruct F; [easy|assumption]). injection E as <-. rewrite M. change (length x) with (nrows x).
  rewrite nth_indep with (d' := map (fun j => 0) (seq 0 0)) by (rewrite map_length, seq_length; apply Nat.div_lt; lia).
  match goal with |- nth _ (nth _ (map ?f _) _) _ = _ => rewrite nth_indep with (d' := f 0%nat) by (rewrite map_length, seq_length; apply Nat.div_lt; lia); rewrite (map_nth f) end.
  rewrite seq_nth by (apply Nat.div_lt; lia). cbn [Nat.add].
  match goal with |- nth _ (map ?f _) _ = _ => rewrite nth_indep with (d' := f 0%nat) by (rewrite map_length, seq_length; apply Nat.div_lt; lia); rewrite (map_nth f) end.
  rewrite seq_nth by (apply Nat.div_lt; lia). cbn [Nat.add]. unfold fftshift.
  assert (Z : forall q, (0 < q)%nat -> ((q / 2 + (q - q / 2)) mod q = 0)%nat).
  { intros q Hq. replace (q / 2 + (q - q / 2))%nat with q by lia. now apply Nat.mod_same; lia. }
  rewrite !Z by assumption. unfold abs2, fft. cbn [fst snd]. rewrite M.
  assert (A : forall i j, angle (nrows x) m 0 0 i j = 0) by (intros; unfold angle; cbn [Nat.mul INR]; unfold Rdiv; ring).
  rewrite !(total_nth (0, 0) x m) by assumption. unfold nrows in *. unfold value_at.
  rewrite (rsum_ext _ (fun i => rsum m (fun j => fst _ * cos _ + _)) (fun i => rsum m (fun j => fst (nth j (nth i x []) (0, 0))))).
  2:{ intros i _. apply rsum_ext. intros j _. rewrite A, cos_0, sin_0. ring. }
  rewrite (rsum_ext _ (fun i => rsum m (fun j => snd _ * cos _ - _)) (fun i => rsum m (fun j => snd (nth j (nth i x []) (0, 0))))).
  2:{ intros i _. apply rsum_ext. intros j _. rewrite A, cos_0, sin_0. ring. }
  assert (0 < INR (length x * m)) by (apply INR_pos; lia). 
  assert (K : forall a b N f, N <> 0 -> f <> 0 -> (a ^ 2 + b ^ 2) / N ^ 2 / (f ^ 2 / N) = (a ^ 2 + b ^ 2) / N / f ^ 2) by (intros; field; split; assumption).
  apply K; [lra|exact Hf].
Qed.
Print Assumptions C93_middle.

Theorem C93_dimensions x fs ndim : ndim <> 2%nat -> psd2 ndim x fs = Err ValueError.
Proof. intros H. unfold psd2. destruct (Nat.eqb_spec ndim 2); [easy|reflexivity]. Qed.
Print Assumptions C93_dimensions.
Example C93_case : exists p, psd2 2 [[(1, 0); (2, 0); (3, 0)]; [(0, 1); (0, 0); (4, 0)]] 2 = Ok p /\ nth 1 (nth 1 p []) 0 = (10 ^ 2 + 1 ^ 2) / 6 / 4.
Proof.
  eexists. split; [reflexivity|]. change 1%nat with (3 / 2)%nat at 1. change 1%nat with (length [[(1, 0); (2, 0); (3, 0)]; [(0, 1); (0, 0); (4, 0)]] / 2)%nat at 4.
  erewrite (C93_middle [[(1, 0); (2, 0); (3, 0)]; [(0, 1); (0, 0); (4, 0)]] 2 3); [|discriminate|lia|repeat constructor|lra|reflexivity].
  unfold total. cbn. field.
Qed.

(** ** Profiles *)
Lemma flat_map_one {B} (g : nat -> list B) i n : (i < n)%nat -> (forall k, (k < n)%nat -> k <> i -> g k = []) -> flat_map g (seq 0 n) = g i.
Proof.
  intros Hi H. replace n with (i + (1 + (n - i - 1)))%nat by lia. rewrite !seq_app, !flat_map_app. cbn [seq flat_map Nat.add].
  assert (Z : forall p q, (p + q <= n)%nat -> (i < p \/ p + q <= i)%nat -> flat_map g (seq p q) = []).
  { intros p q. revert p. induction q as [|q IH]; intros p H1 H2; [reflexivity|]. cbn [seq flat_map]. rewrite H, IH by lia. reflexivity. }
  rewrite !Z by lia. now rewrite !app_nil_r.
Qed.
Lemma combine_seq {A} (f : nat -> A) k n : combine (seq k n) (map f (seq k n)) = map (fun i => (i, f i)) (seq k n).
Proof. revert k. induction n as [|n IH]; intros k; [reflexivity|]. cbn [seq map combine]. now rewrite IH. Qed.
Lemma pixels_grid n m (f : nat -> nat -> R) : pixels_of (map (map Some) (map (fun i => map (fun j => f i j) (seq 0 m)) (seq 0 n))) =
  flat_map (fun i => map (fun j => (Z.of_nat j, Z.of_nat i, Some (f i j))) (seq 0 m)) (seq 0 n).
Proof.
  unfold pixels_of. rewrite !map_map, map_length, seq_length, combine_seq. rewrite flat_map_concat_map, map_map, <- flat_map_concat_map.
  rewrite !flat_map_concat_map. f_equal. apply map_ext. intros i. cbn [fst snd]. rewrite !map_map, map_length, seq_length, combine_seq, map_map. reflexivity.
Qed.
Lemma far c i j : (i <> c \/ j <> c)%nat -> 1 <= pixel_distance (INR c, INR c) (Z.of_nat i) (Z.of_nat j).
Proof.
  intros H. unfold pixel_distance. cbn [fst snd]. rewrite <- sqrt_1 at 1. apply sqrt_le_1_alt. rewrite <- !INR_IZR_INZ.
  rewrite !INR_IZR_INZ, <- !minus_IZR, <- !mult_IZR, <- plus_IZR. apply IZR_le.
  assert (S : forall z : Z, (z <> 0 -> 1 <= z * z)%Z) by (intros z Hz; destruct (Z.lt_trichotomy z 0) as [L|[L|L]]; [|easy|]; [replace (z * z)%Z with ((- z) * (- z))%Z by ring|]; apply (Z.mul_le_mono_nonneg 1 _ 1); lia).
  pose proof (Z.square_nonneg (Z.of_nat i - Z.of_nat c)). pose proof (Z.square_nonneg (Z.of_nat j - Z.of_nat c)).
  destruct H as [H|H]; [specialize (S (Z.of_nat i - Z.of_nat c)%Z ltac:(lia))|specialize (S (Z.of_nat j - Z.of_nat c)%Z ltac:(lia))]; lia.
Qed.
Lemma near c : pixel_distance (INR c, INR c) (Z.of_nat c) (Z.of_nat c) = 0.
Proof. unfold pixel_distance. cbn [fst snd]. rewrite <- INR_IZR_INZ. replace (_ + _) with 0 by ring. apply sqrt_0. Qed.
Lemma ring_grid n c (f : nat -> nat -> R) : (c < n)%nat ->
  ring (INR c, INR c) 0 1 (flat_map (fun i => map (fun j => (Z.of_nat j, Z.of_nat i, Some (f i j))) (seq 0 n)) (seq 0 n)) = [(0, f c c)].
Proof.
  intros Hc. unfold ring. set (h := fun p : Z * Z * option R => _). assert (A : forall (g : nat -> list (Z * Z * option R)) l, flat_map h (flat_map g l) = flat_map (fun i => flat_map h (g i)) l).
  { intros g l. induction l as [|a l IH]; [reflexivity|]. cbn [flat_map]. now rewrite flat_map_app, IH. }
  assert (B : forall (g : nat -> Z * Z * option R) l, flat_map h (map g l) = flat_map (fun i => h (g i)) l).
  { intros g l. induction l as [|a l IH]; [reflexivity|]. cbn [flat_map map]. now rewrite IH. }
  rewrite A. assert (Z : forall i j, (i <> c \/ j <> c)%nat -> h (Z.of_nat j, Z.of_nat i, Some (f i j)) = []).
  { intros i j H. unfold h. cbv zeta beta. pose proof (far c j i ltac:(tauto)). destruct (Rle_dec _ _); [|reflexivity]. destruct (Rlt_dec _ _); [lra|reflexivity]. }
  rewrite (flat_map_one _ c n Hc).
  - rewrite B, (flat_map_one _ c n Hc); [|intros k _ Hk; apply Z; tauto]. unfold h. cbv zeta beta. rewrite near. destruct (Rle_dec 0 0); [|lra]. destruct (Rlt_dec 0 1); [reflexivity|lra].
  - intros k _ Hk. rewrite B. assert (E : forall l, flat_map (fun i => h (Z.of_nat i, Z.of_nat k, Some (f k i))) l = []) by (induction l as [|a l IH]; [reflexivity|]; cbn [flat_map]; rewrite Z, IH by tauto; reflexivity). apply E.
Qed.
Lemma trunc_INR n : trunc (INR n) = Z.of_nat n.
Proof.
  unfold trunc. destruct (Rle_dec 0 (INR n)) as [_|H]; [|elim H; apply pos_INR]. rewrite INR_IZR_INZ. apply Int_part_unique. lra.
Qed.
Lemma near_enough n i j : (i < n)%nat -> (j < n)%nat -> (Z.of_nat n <= 2 ^ 30)%Z -> pixel_distance (INR (n / 2 + 1), INR (n / 2 + 1)) (Z.of_nat i) (Z.of_nat j) < IZR (2 ^ 31 - 1).
Proof.
  intros Hi Hj Hn. unfold pixel_distance. cbn [fst snd]. rewrite !INR_IZR_INZ, <- !minus_IZR. set (a := (Z.of_nat i - _)%Z). set (b := (Z.of_nat j - _)%Z).
  assert (Ha : (- 2 ^ 30 <= a <= 2 ^ 30)%Z) by (unfold a; lia). assert (Hb : (- 2 ^ 30 <= b <= 2 ^ 30)%Z) by (unfold b; lia).
  assert (Q : forall z : Z, (- 2 ^ 30 <= z <= 2 ^ 30)%Z -> (z * z <= 2 ^ 30 * 2 ^ 30)%Z) by (intros z Hz; rewrite <- (Z.abs_square z); apply Z.mul_le_mono_nonneg; lia).
  rewrite <- (sqrt_Rsqr (IZR (2 ^ 31 - 1))) by (apply IZR_le; lia). apply sqrt_lt_1_alt. rewrite <- !mult_IZR, <- plus_IZR. unfold Rsqr. rewrite <- mult_IZR. split; [apply IZR_le|apply IZR_lt].
  - pose proof (Z.square_nonneg a). pose proof (Z.square_nonneg b). lia.
  - pose proof (Q a Ha). pose proof (Q b Hb). lia.
Qed.

(** The profile has its bins around the pixel after the middle, along both axes: [p] is the density. *)
Theorem C93_profile_partial nan share x fs p : (3 <= length x)%nat -> (Z.of_nat (length x) <= 2 ^ 30)%Z -> Forall (fun r => length r = length x) x -> fs <> 0 ->
  Permutation (concat (share (pixels_of (map (map Some) p)))) (pixels_of (map (map Some) p)) -> psd2 2 x fs = Ok p ->
  let n := length x in let c := (n / 2 + 1)%nat in
  exists r, profile_psd2 nan share x fs = Ok r /\ length r = c /\
  forall k, (k < c)%nat -> let ring := ring (INR c, INR c) (INR k) (INR k + 1) (pixels_of (map (map Some) p)) in
    exists f y, nth_error r k = Some (f, y) /\
    (ring = [] -> f = (INR k + / 2) * (fs / INR n) /\ y = nan) /\
    (ring <> [] -> IZR (zlen ring) * f = rtotal (map (fun q => fst q * (fs / INR n)) ring) /\ exists m, y = Fin m /\ IZR (zlen ring) * m = rtotal (map snd ring)).
Proof.
  intros H3 Hn F Hf P E n c. assert (M : ncols x = n) by (destruct x as [|a l]; [cbn in H3; lia|exact (Forall_inv F)]).
  unfold profile_psd2. change (nrows x) with n. rewrite M, Nat.eqb_refl. cbn [negb]. rewrite E. cbn [bind]. fold c.
  assert (L : length p = n) by (injection E as <-; now rewrite map_length, seq_length).
  assert (N : profile nan share n (map (map Some) p) 1 None (Some (INR c, INR c)) 1 = profile nan share n (map (map Some) p) 1 (Some (Z.of_nat c)) (Some (INR c, INR c)) 1).
  { unfold profile. destruct (Req_EM_T 1 0); [lra|]. cbv zeta. destruct (Req_EM_T (1 / 1) 0); [lra|]. cbn [bind].
    replace (default_nbins n (length (map (map Some) p)) (INR c, INR c) (1 / 1)) with (Z.of_nat c); [reflexivity|]. unfold default_nbins. cbn [fst snd].
    rewrite map_length, L. assert (INR n - INR c <= INR c). { apply Rplus_le_reg_r with (INR c). ring_simplify. replace (2 * INR c) with (INR (c + c)) by (rewrite plus_INR; ring). apply le_INR. unfold c. lia. }
    rewrite (Rmax_right (INR n - INR c) (INR c)) by assumption. rewrite Rmax_left by lra. replace (INR c / (1 / 1)) with (INR c) by field. symmetry. apply trunc_INR. }
  rewrite N. destruct (C42_profile nan share n (map (map Some) p) 1 (Z.of_nat c) (Some (INR c, INR c)) 1 ltac:(lra) ltac:(lra) ltac:(lia) P) as (r & Er & Lr & B).
  { intros i j v Hin. injection E as <-. rewrite pixels_grid in Hin. apply in_flat_map in Hin. destruct Hin as (a & Ha & Hin). apply in_map_iff in Hin. destruct Hin as (b & Eb & Hb). injection Eb as <- <- _.
    apply in_seq in Ha, Hb. replace (1 / 1) with 1 by field. rewrite Rmult_1_r. unfold c. apply near_enough; [lia|change n with (nrows x); lia|exact Hn]. }
  rewrite Er. cbn [bind]. eexists. split; [reflexivity|]. rewrite map_length, Lr, Nat2Z.id. split; [reflexivity|]. intros k Hk. cbv zeta. set (ring0 := ring (INR c, INR c) (INR k) (INR k + 1) _). rewrite Nat2Z.id in B.
  destruct (B k Hk) as (f & y & m & Ek & Em & B0 & B1). replace (INR k * 1 / 1) with (INR k) in * by field. replace ((INR k + 1) * 1 / 1) with (INR k + 1) in * by field. fold ring0 in Em, B0, B1.
  exists (f * (fs / INR n)), y. split; [rewrite nth_error_map, Ek; reflexivity|]. split.
  - intros Z. rewrite Z in Em. destruct (B0 Em) as [-> ->]. split; [ring|reflexivity].
  - intros Z. assert (m <> 0%Z) by (rewrite Em; destruct ring0; [easy|unfold zlen; cbn; lia]). destruct (B1 H) as [B2 B3]. rewrite Em in B2, B3. split; [|exact B3].
    rewrite <- Rmult_assoc, B2. clear. induction ring0 as [|a l IH]; cbn [map rtotal fold_right]; [ring|]. unfold rtotal in IH. rewrite <- IH. unfold rtotal. cbn [map fold_right]. ring.
Qed.
Print Assumptions C93_profile_partial.
(** Wrong: the frequency zero of the profile is not that of the image, which is in the middle (C93_middle). *)
Theorem C93_profile_refuted nan share x fs p : (3 <= length x)%nat -> (Z.of_nat (length x) <= 2 ^ 30)%Z -> Forall (fun r => length r = length x) x -> fs <> 0 ->
  Permutation (concat (share (pixels_of (map (map Some) p)))) (pixels_of (map (map Some) p)) -> psd2 2 x fs = Ok p ->
  let c := (length x / 2)%nat in
  exists r, profile_psd2 nan share x fs = Ok r /\ nth_error r 0 = Some (0, Fin (nth (c + 1) (nth (c + 1) p []) 0)).
Proof.
  intros H3 Hn F Hf P E c. destruct (C93_profile_partial nan share x fs p H3 Hn F Hf P E) as (r & Er & _ & B). exists r. split; [exact Er|].
  assert (M : ncols x = length x) by (destruct x as [|a l]; [cbn in H3; lia|exact (Forall_inv F)]).
  destruct (B 0%nat ltac:(lia)) as (f & y & Ek & _ & B1). rewrite Ek. fold c in B1. injection E as <-. rewrite M in *. rewrite pixels_grid in B1. cbn [INR] in B1. rewrite Rplus_0_l in B1.
  change (nrows x) with (length x) in *. rewrite ring_grid in B1 by (unfold c; lia). destruct (B1 ltac:(discriminate)) as (Ef & m & Ey & Em). unfold rtotal, zlen in Ef, Em. cbn in Ef, Em.
  rewrite Ey. f_equal. f_equal; [lra|]. f_equal.
  rewrite Rmult_1_l, Rplus_0_r in Em. rewrite Em. symmetry.
  match goal with |- nth _ (nth _ (map ?f _) _) _ = _ => rewrite nth_indep with (d' := f 0%nat) by (rewrite map_length, seq_length; unfold c; lia); rewrite (map_nth f) end.
  rewrite seq_nth by (unfold c; lia). cbn [Nat.add].
  match goal with |- nth _ (map ?f _) _ = _ => rewrite nth_indep with (d' := f 0%nat) by (rewrite map_length, seq_length; unfold c; lia); rewrite (map_nth f) end.
  rewrite seq_nth by (unfold c; lia). reflexivity.
Qed.
Print Assumptions C93_profile_refuted.
Definition flat (n : nat) : list (list (R * R)) := repeat (repeat (1, 0) n) n.
Lemma nth_repeat_lt {A} (a d : A) n i : (i < n)%nat -> nth i (repeat a n) d = a.
Proof. revert i. induction n as [|n IH]; intros i H; [lia|]. destruct i; [reflexivity|]. apply IH. lia. Qed.
Lemma flat_shape n : (0 < n)%nat -> nrows (flat n) = n /\ ncols (flat n) = n /\ forall i j, (i < n)%nat -> (j < n)%nat -> value_at (flat n) i j = (1, 0).
Proof.
  intros H. unfold flat, nrows, ncols, value_at. split; [apply repeat_length|]. split; [destruct n; [lia|]; cbn [repeat hd]; change ((1, 0) :: repeat (1, 0) n) with (repeat (1, 0) (S n)); apply repeat_length|].
  intros i j Hi Hj. rewrite (nth_repeat_lt (repeat (1, 0) n)) by assumption. now apply nth_repeat_lt.
Qed.
Lemma flat_fft n : (2 <= n)%nat -> fft (flat n) 1 1 = (0, 0).
Proof.
  intros H. destruct (flat_shape n ltac:(lia)) as (Hr & Hc & Hv). rewrite fft_dft by lia. rewrite Hr, Hc.
  assert (N : ~ (Z.of_nat n | 1)%Z) by (intros D; apply Z.divide_1_r_nonneg in D; lia).
  assert (D : forall f : nat -> C, (forall i, (i < n)%nat -> f i = (1, 0)) -> dft n f 1 = (0, 0)).
  { intros f Hf. unfold dft. f_equal.
    - rewrite (rsum_ext n _ (fun i => cos (tw n (0 + 1 * Z.of_nat i)))); [rewrite cos_sum by lia; destruct (Zdivide_dec _ _); easy|].
      intros i Hi. rewrite Hf by assumption. cbn [fst snd]. change (Z.of_nat 1) with 1%Z. rewrite Z.add_0_l. ring.
    - rewrite (rsum_ext n _ (fun i => - (1) * sin (tw n (0 + 1 * Z.of_nat i)))); [rewrite rsum_scal, sin_sum by lia; destruct (Zdivide_dec _ _); [easy|ring]|].
      intros i Hi. rewrite Hf by assumption. cbn [fst snd]. change (Z.of_nat 1) with 1%Z. rewrite Z.add_0_l. ring. }
  unfold dft at 1. f_equal; apply rsum_zero; intros i Hi; rewrite D by (intros j Hj; now apply Hv); cbn [fst snd]; ring.
Qed.
(** A constant image has power at the frequency zero only, and the profile has none there. *)
Theorem C93_constant_refuted nan share n fs p : (3 <= n)%nat -> (Z.of_nat n <= 2 ^ 30)%Z -> fs <> 0 ->
  Permutation (concat (share (pixels_of (map (map Some) p)))) (pixels_of (map (map Some) p)) -> psd2 2 (flat n) fs = Ok p ->
  exists r, profile_psd2 nan share (flat n) fs = Ok r /\ nth_error r 0 = Some (0, Fin 0) /\ nth (n / 2) (nth (n / 2) p []) 0 = INR n ^ 2 / fs ^ 2.
Proof.
  intros H3 Hn Hf P E. destruct (flat_shape n ltac:(lia)) as (Hr & Hc & Hv). unfold nrows in Hr.
  assert (F : Forall (fun r => length r = n) (flat n)) by (apply Forall_forall; intros r Hin; apply repeat_spec in Hin; subst r; apply repeat_length).
  destruct (C93_profile_refuted nan share (flat n) fs p) as (r & Er & E0); rewrite ?Hr; try assumption. exists r. split; [exact Er|].
  rewrite Hr in E0. split.
  - rewrite E0. do 3 f_equal. unfold psd2 in E. cbn [Nat.eqb negb] in E. injection E as <-. rewrite Hc. assert (Hr2 : nrows (flat n) = n) by exact Hr. rewrite Hr2.
    match goal with |- nth _ (nth _ (map ?f _) _) _ = _ => rewrite nth_indep with (d' := f 0%nat) by (rewrite map_length, seq_length; lia); rewrite (map_nth f) end.
    rewrite seq_nth by lia. cbn [Nat.add].
    match goal with |- nth _ (map ?f _) _ = _ => rewrite nth_indep with (d' := f 0%nat) by (rewrite map_length, seq_length; lia); rewrite (map_nth f) end.
    rewrite seq_nth by lia. cbn [Nat.add]. unfold fftshift. replace (n / 2 + 1 + (n - n / 2))%nat with (1 + 1 * n)%nat by lia. rewrite Nat.mod_add, Nat.mod_small by lia.
    rewrite flat_fft by lia. unfold abs2. cbn [fst snd]. unfold Rdiv. ring.
  - pose proof (C93_middle (flat n) fs n p) as M. rewrite Hr in M. rewrite M; try assumption; [|intros Z; rewrite Z in Hr; cbn in Hr; lia|lia]. rewrite !(total_nth (0, 0) (flat n) n) by assumption. assert (Hr3 : @length (list (R * R)) (flat n) = n) by exact Hr. unfold C in *. rewrite ?Hr3, ?Hr.
    rewrite (rsum_ext n _ (fun _ => INR n)).
    2:{ intros i Hi. rewrite (rsum_ext n _ (fun _ => 1)); [rewrite rsum_const; ring|]. intros j Hj. change (nth j (nth i (flat n) []) (0, 0)) with (value_at (flat n) i j). now rewrite Hv. }
    rewrite (rsum_ext n (fun i => rsum n (fun j => snd _)) (fun _ => 0)).
    2:{ intros i Hi. apply rsum_zero. intros j Hj. change (nth j (nth i (flat n) []) (0, 0)) with (value_at (flat n) i j). now rewrite Hv. }
    rewrite rsum_const, rsum_0, mult_INR. pose proof (INR_pos n ltac:(lia)). field. split; [exact Hf|lra].
Qed.
Print Assumptions C93_constant_refuted.

(** ** The mask: two opposite quadrants have the phase *)
Lemma map_combine_seq {A B} (g : nat -> A -> B) (d : A) (d' : B) l i : (i < length l)%nat ->
  nth i (map (fun q => g (fst q) (snd q)) (combine (seq 0 (length l)) l)) d' = g i (nth i l d).
Proof.
  intros H. rewrite nth_indep with (d' := g (fst (0%nat, d)) (snd (0%nat, d))) by (now rewrite map_length, combine_length, seq_length, Nat.min_id).
  rewrite (map_nth (fun q => g (fst q) (snd q)) _ (0%nat, d)). rewrite combine_nth by apply seq_length. rewrite seq_nth by assumption. reflexivity.
Qed.
Lemma assign_block_spec r0 r1 c0 c1 v x n m : length x = n -> Forall (fun r => length r = m) x ->
  length (assign_block r0 r1 c0 c1 v x) = n /\ Forall (fun r => length r = m) (assign_block r0 r1 c0 c1 v x) /\
  forall i j, (i < n)%nat -> (j < m)%nat -> value_at (assign_block r0 r1 c0 c1 v x) i j = if ((r0 <=? i) && (i <? r1) && (c0 <=? j) && (j <? c1))%nat then v else value_at x i j.
Proof.
  intros Hn F. unfold assign_block. split; [now rewrite map_length, combine_length, seq_length, Nat.min_id|]. split.
  - apply Forall_forall. intros r Hr. apply in_map_iff in Hr. destruct Hr as ((i & q) & <- & Hin). apply in_combine_r in Hin. cbn [fst snd]. rewrite map_length, combine_length, seq_length, Nat.min_id. rewrite Forall_forall in F. now apply F.
  - intros i j Hi Hj. unfold value_at.
    rewrite (map_combine_seq (fun i r => map (fun jv => if ((r0 <=? i) && (i <? r1) && (c0 <=? fst jv) && (fst jv <? c1))%nat then v else snd jv) (combine (seq 0 (length r)) r)) [] [] x i) by lia.
    assert (L : length (nth i x []) = m) by (rewrite Forall_forall in F; apply F, nth_In; lia).
    rewrite (map_combine_seq (fun j z => if ((r0 <=? i) && (i <? r1) && (c0 <=? j) && (j <? c1))%nat then v else z) (0, 0) (0, 0)) by lia. reflexivity.
Qed.
Theorem C93_mask n m phase : let x := phasemask_fourquadrant n m phase in
  length x = n /\ Forall (fun r => length r = m) x /\
  forall i j, (i < n)%nat -> (j < m)%nat -> nth j (nth i x []) (0, 0) = if xorb (i <? n / 2)%nat (j <? m / 2)%nat then phase else (1, 0).
Proof.
  unfold phasemask_fourquadrant. cbv zeta. assert (L0 : length (repeat (repeat (1, 0) m) n) = n) by apply repeat_length.
  assert (F0 : Forall (fun r : list C => length r = m) (repeat (repeat (1, 0) m) n)) by (apply Forall_forall; intros r Hin; apply repeat_spec in Hin; subst r; apply repeat_length).
  destruct (assign_block_spec 0 (n / 2) (m / 2) m phase _ n m L0 F0) as (L1 & F1 & V1). destruct (assign_block_spec (n / 2) n 0 (m / 2) phase _ n m L1 F1) as (L2 & F2 & V2).
  split; [exact L2|]. split; [exact F2|]. intros i j Hi Hj. change (nth j (nth i ?x []) (0, 0)) with (value_at x i j). rewrite V2, V1 by assumption. unfold value_at. rewrite (nth_repeat_lt (repeat (1, 0) m)), nth_repeat_lt by assumption.
  destruct (Nat.ltb_spec i (n / 2)), (Nat.ltb_spec j (m / 2)); cbn [xorb];
    repeat match goal with |- context [(?a <=? ?b)%nat] => destruct (Nat.leb_spec a b); try lia | |- context [(?a <? ?b)%nat] => destruct (Nat.ltb_spec a b); try lia end; reflexivity.
Qed.
Print Assumptions C93_mask.
Example C93_mask_case : phasemask_fourquadrant 3 3 (-1, 0) = [[(1, 0); (-1, 0); (-1, 0)]; [(-1, 0); (1, 0); (1, 0)]; [(-1, 0); (1, 0); (1, 0)]].
Proof. reflexivity. Qed.
Example C93_profile_case nan : exists p r, psd2 2 (flat 4) 2 = Ok p /\ profile_psd2 nan (fun l => [l]) (flat 4) 2 = Ok r /\ nth_error r 0 = Some (0, Fin 0) /\ nth 2 (nth 2 p []) 0 = 4.
Proof.
  destruct (psd2 2 (flat 4) 2) as [p|] eqn:E; [|discriminate].
  assert (P : Permutation (concat [pixels_of (map (map Some) p)]) (pixels_of (map (map Some) p))) by (cbn [concat]; now rewrite app_nil_r).
  destruct (C93_constant_refuted nan (fun l => [l]) 4 2 p ltac:(lia) ltac:(lia) ltac:(lra) P E) as (r & Er & E0 & E1).
  exists p, r. repeat split; try assumption. change (4 / 2)%nat with 2%nat in E1. rewrite E1. cbn. lra.
Qed.
