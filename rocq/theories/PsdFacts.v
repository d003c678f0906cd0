(** Lemmas for the spectra of noise: finite sums and the orthogonality of the waves. *)
From Coq Require Import Reals Lra List Lia ZArith Znumtheory.
From Verif Require Import Base BaseFacts SparseModel NoiseModel NoiseFacts PsdModel.
Import ListNotations.
Open Scope R_scope.

(** ** Finite sums *)
Lemma rsum_ext n f g : (forall k, (k < n)%nat -> f k = g k) -> rsum n f = rsum n g.
Proof. induction n; intros H; [reflexivity|]. cbn. rewrite IHn, (H n); auto with arith. Qed.
Lemma rsum_plus n f g : rsum n (fun k => f k + g k) = rsum n f + rsum n g.
Proof. induction n; cbn; [lra|]. rewrite IHn. lra. Qed.
Lemma rsum_minus n f g : rsum n (fun k => f k - g k) = rsum n f - rsum n g.
Proof. induction n; cbn; [lra|]. rewrite IHn. lra. Qed.
Lemma rsum_scal n a f : rsum n (fun k => a * f k) = a * rsum n f.
Proof. induction n; cbn; [lra|]. rewrite IHn. lra. Qed.
Lemma rsum_scal_r n a f : rsum n (fun k => f k * a) = rsum n f * a.
Proof. induction n; cbn; [lra|]. rewrite IHn. lra. Qed.
Lemma rsum_0 n : rsum n (fun _ => 0) = 0.
Proof. induction n; cbn; [lra|]. rewrite IHn. lra. Qed.
Lemma rsum_const n a : rsum n (fun _ => a) = INR n * a.
Proof. induction n; [cbn; lra|]. rewrite S_INR. cbn. rewrite IHn. lra. Qed.
Lemma rsum_swap n m f : rsum n (fun i => rsum m (fun j => f i j)) = rsum m (fun j => rsum n (fun i => f i j)).
Proof.
  induction n; cbn; [now rewrite rsum_0|]. rewrite IHn, <- rsum_plus. reflexivity.
Qed.
Lemma rsum_zero n f : (forall k, (k < n)%nat -> f k = 0) -> rsum n f = 0.
Proof. intros H. rewrite (rsum_ext n f (fun _ => 0) H). apply rsum_0. Qed.
Lemma rsum_one n i f : (i < n)%nat -> (forall k, (k < n)%nat -> k <> i -> f k = 0) -> rsum n f = f i.
Proof.
  induction n; intros Hi H; [lia|]. cbn. destruct (Nat.eq_dec i n) as [->|Hne].
  - rewrite rsum_zero by (intros k Hk; apply H; lia). lra.
  - rewrite IHn by (try lia; intros; apply H; lia). rewrite (H n) by lia. lra.
Qed.
Lemma rsum_split n m f : rsum (n + m) f = rsum n f + rsum m (fun k => f (n + k)%nat).
Proof. induction m; cbn; [rewrite Nat.add_0_r; lra|]. rewrite Nat.add_succ_r. cbn. rewrite IHm. lra. Qed.
Lemma rsum_first n f : rsum (S n) f = f 0%nat + rsum n (fun k => f (S k)).
Proof. change (S n) with (1 + n)%nat. rewrite rsum_split. cbn. lra. Qed.
Lemma rsum_rev n f : rsum n f = rsum n (fun k => f (n - 1 - k)%nat).
Proof.
  induction n; [reflexivity|]. rewrite rsum_first with (f := fun k => f (S n - 1 - k)%nat). cbn [rsum]. rewrite IHn.
  replace (S n - 1 - 0)%nat with n by lia. rewrite Rplus_comm. f_equal. apply rsum_ext. intros k Hk. f_equal. lia.
Qed.
Lemma rsum_mult n m f g : rsum n f * rsum m g = rsum n (fun i => rsum m (fun j => f i * g j)).
Proof. rewrite <- rsum_scal_r. apply rsum_ext. intros. now rewrite rsum_scal. Qed.

(** ** Turns *)
Definition tw (n : nat) (z : Z) : R := 2 * PI * IZR z / INR n.
Lemma wave_tw n j k : wave n j k = tw n (Z.of_nat j * Z.of_nat k).
Proof. unfold wave, tw. now rewrite mult_IZR, <- !INR_IZR_INZ. Qed.
Lemma tw_add n a b : tw n (a + b) = tw n a + tw n b.
Proof. unfold tw. rewrite plus_IZR. unfold Rdiv. ring. Qed.
Lemma tw_sub n a b : tw n (a - b) = tw n a - tw n b.
Proof. unfold tw. rewrite minus_IZR. unfold Rdiv. ring. Qed.
Lemma tw_opp n a : tw n (- a) = - tw n a.
Proof. unfold tw. rewrite opp_IZR. unfold Rdiv. ring. Qed.
Lemma INR_pos n : (0 < n)%nat -> 0 < INR n.
Proof. intros. now apply lt_0_INR. Qed.
Lemma cos_periodZ x k : cos (x + 2 * IZR k * PI) = cos x.
Proof.
  destruct (Z.le_gt_cases 0 k) as [H|H].
  - rewrite <- (Z2Nat.id k) by assumption. rewrite <- INR_IZR_INZ. apply cos_period.
  - replace k with (- Z.of_nat (Z.to_nat (- k)))%Z by lia. rewrite opp_IZR, <- INR_IZR_INZ.
    set (m := Z.to_nat (- k)). rewrite <- (cos_period (x + 2 * - INR m * PI) m). f_equal. ring.
Qed.
Lemma sin_periodZ x k : sin (x + 2 * IZR k * PI) = sin x.
Proof.
  destruct (Z.le_gt_cases 0 k) as [H|H].
  - rewrite <- (Z2Nat.id k) by assumption. rewrite <- INR_IZR_INZ. apply sin_period.
  - replace k with (- Z.of_nat (Z.to_nat (- k)))%Z by lia. rewrite opp_IZR, <- INR_IZR_INZ.
    set (m := Z.to_nat (- k)). rewrite <- (sin_period (x + 2 * - INR m * PI) m). f_equal. ring.
Qed.
Lemma tw_turn n k : (0 < n)%nat -> tw n (k * Z.of_nat n) = 2 * IZR k * PI.
Proof. intros H. pose proof (INR_pos n H). unfold tw. rewrite mult_IZR, <- INR_IZR_INZ. field. lra. Qed.
Lemma cos_tw_turn n a k : (0 < n)%nat -> cos (tw n (a + k * Z.of_nat n)) = cos (tw n a).
Proof. intros H. rewrite tw_add, tw_turn by assumption. apply cos_periodZ. Qed.
Lemma sin_tw_turn n a k : (0 < n)%nat -> sin (tw n (a + k * Z.of_nat n)) = sin (tw n a).
Proof. intros H. rewrite tw_add, tw_turn by assumption. apply sin_periodZ. Qed.
Lemma cos_tw_opp n a : cos (tw n (- a)) = cos (tw n a).
Proof. rewrite tw_opp. apply cos_neg. Qed.
Lemma sin_tw_opp n a : sin (tw n (- a)) = - sin (tw n a).
Proof. rewrite tw_opp. apply sin_neg. Qed.
Lemma cos_tw_0 n : cos (tw n 0) = 1.
Proof. unfold tw. replace (2 * PI * 0 / INR n) with 0 by (unfold Rdiv; ring). apply cos_0. Qed.
Lemma cos_tw_div n a : (0 < n)%nat -> (Z.of_nat n | a)%Z -> cos (tw n a) = 1.
Proof. intros H [q ->]. rewrite <- (Z.add_0_l (q * _)), cos_tw_turn by assumption. apply cos_tw_0. Qed.

(** ** Orthogonality *)
Lemma half_turn_sin n q : (0 < n)%nat -> ~ (Z.of_nat n | q)%Z -> sin (tw n q / 2) <> 0.
Proof.
  intros Hn Hq H. apply Hq. apply sin_eq_0_0 in H. destruct H as [k Hk]. exists k. apply eq_IZR.
  rewrite mult_IZR, <- INR_IZR_INZ. unfold tw in Hk. pose proof (INR_pos n Hn). pose proof PI_RGT_0.
  apply Rmult_eq_reg_l with PI; [|lra]. replace (PI * IZR q) with (2 * PI * IZR q / INR n / 2 * INR n) by (field; lra).
  rewrite Hk. ring.
Qed.
Lemma telescope n a t : 2 * sin (t / 2) * rsum n (fun m => cos (a + INR m * t)) = sin (a + INR n * t - t / 2) - sin (a - t / 2).
Proof.
  induction n; cbn [rsum].
  - rewrite Rmult_0_r. cbn [INR]. replace (a + 0 * t - t / 2) with (a - t / 2) by ring. ring.
  - rewrite Rmult_plus_distr_l, IHn. rewrite S_INR. set (b := a + INR n * t).
    replace (a + (INR n + 1) * t - t / 2) with (b + t / 2) by (unfold b; field).
    rewrite (sin_plus b), (sin_minus b). ring.
Qed.
Lemma cos_sum n a q : (0 < n)%nat ->
  rsum n (fun m => cos (tw n (a + q * Z.of_nat m))) = if Zdivide_dec (Z.of_nat n) q then INR n * cos (tw n a) else 0.
Proof.
  intros Hn. destruct (Zdivide_dec (Z.of_nat n) q) as [[k ->]|H].
  - rewrite <- rsum_const. apply rsum_ext. intros m Hm. rewrite <- (cos_tw_turn n a (k * Z.of_nat m)) by assumption.
    f_equal. f_equal. ring.
  - pose proof (half_turn_sin n q Hn H) as Hs. apply Rmult_eq_reg_l with (2 * sin (tw n q / 2)); [|lra].
    rewrite Rmult_0_r. rewrite (rsum_ext n _ (fun m => cos (tw n a + INR m * tw n q))).
    2:{ intros m Hm. f_equal. rewrite tw_add. f_equal. unfold tw. rewrite mult_IZR, <- INR_IZR_INZ. unfold Rdiv. ring. }
    rewrite telescope. replace (tw n a + INR n * tw n q - tw n q / 2) with (tw n a - tw n q / 2 + 2 * IZR q * PI).
    2:{ unfold tw. pose proof (INR_pos n Hn). field. lra. }
    rewrite sin_periodZ. ring.
Qed.
Lemma sin_sum n a q : (0 < n)%nat ->
  rsum n (fun m => sin (tw n (a + q * Z.of_nat m))) = if Zdivide_dec (Z.of_nat n) q then INR n * sin (tw n a) else 0.
Proof.
  intros Hn. destruct (Zdivide_dec (Z.of_nat n) q) as [[k ->]|H].
  - rewrite <- rsum_const. apply rsum_ext. intros m Hm. rewrite <- (sin_tw_turn n a (k * Z.of_nat m)) by assumption.
    f_equal. f_equal. ring.
  - pose proof (half_turn_sin n q Hn H) as Hs. apply Rmult_eq_reg_l with (2 * sin (tw n q / 2)); [|lra].
    rewrite Rmult_0_r. rewrite (rsum_ext n _ (fun m => cos ((tw n a - PI / 2) + INR m * tw n q))).
    2:{ intros m Hm. rewrite <- (cos_shift (tw n _)). rewrite <- (cos_neg (PI / 2 - _)). f_equal. rewrite tw_add.
        replace (tw n (q * Z.of_nat m)) with (INR m * tw n q); [lra|].
        unfold tw. rewrite mult_IZR, <- INR_IZR_INZ. unfold Rdiv. ring. }
    rewrite telescope. replace (tw n a - PI / 2 + INR n * tw n q - tw n q / 2) with (tw n a - PI / 2 - tw n q / 2 + 2 * IZR q * PI).
    2:{ unfold tw. pose proof (INR_pos n Hn). field. lra. }
    rewrite sin_periodZ. ring.
Qed.

Lemma div_small n z : (0 < n)%nat -> (- Z.of_nat n < z < Z.of_nat n)%Z -> (Z.of_nat n | z)%Z -> z = 0%Z.
Proof.
  intros Hn Hz [k ->]. destruct (Z.lt_trichotomy k 0) as [H|[->|H]]; [|reflexivity|]; exfalso;
    [assert (k * Z.of_nat n <= -1 * Z.of_nat n)%Z by (apply Z.mul_le_mono_nonneg_r; lia)|assert (1 * Z.of_nat n <= k * Z.of_nat n)%Z by (apply Z.mul_le_mono_nonneg_r; lia)]; lia.
Qed.

Lemma cos_cos_sum n i j a b : (1 <= i < n)%nat -> (1 <= j < n)%nat ->
  rsum n (fun m => cos (tw n (a + Z.of_nat i * Z.of_nat m)) * cos (tw n (b + Z.of_nat j * Z.of_nat m))) =
  INR n / 2 * ((if (i =? j)%nat then cos (tw n (a - b)) else 0) + (if (i + j =? n)%nat then cos (tw n (a + b)) else 0)).
Proof.
  intros Hi Hj. assert (Hn : (0 < n)%nat) by lia.
  rewrite (rsum_ext n _ (fun m => / 2 * (cos (tw n ((a - b) + (Z.of_nat i - Z.of_nat j) * Z.of_nat m)) + cos (tw n ((a + b) + (Z.of_nat i + Z.of_nat j) * Z.of_nat m))))).
  2:{ intros m Hm. set (x := tw n (a + Z.of_nat i * Z.of_nat m)). set (y := tw n (b + Z.of_nat j * Z.of_nat m)).
      replace (tw n (a - b + (Z.of_nat i - Z.of_nat j) * Z.of_nat m)) with (x - y) by (unfold x, y; rewrite <- tw_sub; f_equal; ring).
      replace (tw n (a + b + (Z.of_nat i + Z.of_nat j) * Z.of_nat m)) with (x + y) by (unfold x, y; rewrite <- tw_add; f_equal; ring).
      rewrite cos_minus, cos_plus. lra. }
  rewrite rsum_scal, rsum_plus, !cos_sum by assumption.
  destruct (Zdivide_dec (Z.of_nat n) (Z.of_nat i - Z.of_nat j)) as [H1|H1]; destruct (Nat.eqb_spec i j) as [E1|E1].
  2: { apply div_small in H1; lia. }
  2: { exfalso. apply H1. subst. rewrite Z.sub_diag. apply Z.divide_0_r. }
  all: destruct (Zdivide_dec (Z.of_nat n) (Z.of_nat i + Z.of_nat j)) as [H2|H2]; destruct (Nat.eqb_spec (i + j) n) as [E2|E2].
  2,6: exfalso; apply E2; destruct H2 as [k Hk]; assert (k = 1)%Z by (destruct (Z.lt_trichotomy k 1) as [H|[H|H]]; [|assumption|]; exfalso; [assert (k * Z.of_nat n <= 0 * Z.of_nat n)%Z by (apply Z.mul_le_mono_nonneg_r; lia)|assert (2 * Z.of_nat n <= k * Z.of_nat n)%Z by (apply Z.mul_le_mono_nonneg_r; lia)]; lia); lia.
  2,5: exfalso; apply H2; exists 1%Z; lia.
  all: lra.
Qed.

(** ** Transforms of lists *)
Lemma nth_tab {A} (f : nat -> A) n k d : (k < n)%nat -> nth k (map f (seq 0 n)) d = f k.
Proof.
  intros H. rewrite (nth_indep _ d (f 0%nat)) by (now rewrite map_length, seq_length). rewrite map_nth, seq_nth by assumption. reflexivity.
Qed.
Lemma at0_tab f n k : (k < n)%nat -> at0 (map f (seq 0 n)) k = f k.
Proof. apply nth_tab. Qed.
Lemma tab_eq {A} (l : list A) n f d : length l = n -> (forall k, (k < n)%nat -> nth k l d = f k) -> l = map f (seq 0 n).
Proof.
  intros H Hk. apply nth_ext with d (f 0%nat); [now rewrite map_length, seq_length|]. intros k Hlt. rewrite H in Hlt.
  rewrite Hk by assumption. symmetry. rewrite map_nth, seq_nth by assumption. reflexivity.
Qed.
Lemma nth_map_in {A B} (f : A -> B) l k d d' : (k < length l)%nat -> nth k (map f l) d = f (nth k l d').
Proof. intros H. rewrite (nth_indep _ d (f d')) by (now rewrite map_length). apply map_nth. Qed.
Lemma fft_length l : length (fft l) = length l.
Proof. unfold fft. now rewrite map_length, seq_length. Qed.
Lemma set_nth_nth {A} (l : list A) i x k d : (i < length l)%nat -> nth k (set_nth l i x) d = if (k =? i)%nat then x else nth k l d.
Proof.
  revert i k. induction l as [|a l IH]; intros i k H; [cbn in H; lia|]. destruct i, k; cbn; try reflexivity. apply IH. cbn in H. lia.
Qed.
Lemma set_nth_len {A} (l : list A) i x : length (set_nth l i x) = length l.
Proof. revert i. induction l as [|a l IH]; intros [|i]; cbn; auto. Qed.

(** The response of the samples to the drawn numbers. *)
Definition resp (n : nat) (fs : R) (psd : list R) (d : Z) : R :=
  sqrt fs / INR n * rsum n (fun j => if (j =? 0)%nat then 0 else sqrt (at0 psd j) * cos (tw n (Z.of_nat j * d))).
Lemma sample_eq n fs psd gauss : (0 < n)%nat -> length psd = n -> length gauss = n ->
  gaussian_sample n fs psd true gauss = Ok (map (fun k => rsum n (fun m => resp n fs psd (Z.of_nat k - Z.of_nat m) * at0 gauss m)) (seq 0 n)).
Proof.
  intros Hn Hp Hg. unfold gaussian_sample. cbn [bind]. rewrite Hp, Nat.eqb_refl. destruct (Nat.eqb_spec n 0); [lia|]. cbn [negb orb]. f_equal.
  set (spec := map _ (combine _ _)).
  assert (Hl : length spec = n) by (unfold spec; rewrite map_length, combine_length, set_nth_len, fft_length; lia).
  apply tab_eq with 0; [unfold ifft_real; now rewrite !map_length, seq_length|]. intros k Hk.
  unfold ifft_real. rewrite Hl, map_map, nth_tab by assumption.
  assert (Hs : forall j, (j < n)%nat -> nth j spec (0, 0) = if (j =? 0)%nat then (0, 0) else
      (rsum n (fun m => at0 gauss m * cos (wave n m j)) * sqrt (at0 psd j), - rsum n (fun m => at0 gauss m * sin (wave n m j)) * sqrt (at0 psd j))).
  { intros j Hj. unfold spec.
    rewrite (nth_map_in _ _ _ _ ((0, 0), 0)) by (rewrite combine_length, set_nth_len, fft_length; lia).
    rewrite combine_nth by (rewrite set_nth_len, fft_length; lia). cbn [fst snd].
    rewrite set_nth_nth by (rewrite fft_length; lia). destruct (Nat.eqb_spec j 0).
    - cbn. f_equal; ring.
    - unfold fft. rewrite Hg, nth_tab by assumption. reflexivity. }
  unfold resp.
  rewrite (rsum_ext n (fun m => sqrt fs / INR n * _ * at0 gauss m)
             (fun m => (sqrt fs / INR n) * (at0 gauss m * rsum n (fun j => if (j =? 0)%nat then 0 else sqrt (at0 psd j) * cos (tw n (Z.of_nat j * (Z.of_nat k - Z.of_nat m)))))))
    by (intros; ring).
  rewrite rsum_scal. rewrite Rmult_comm, <- Rmult_assoc. replace (sqrt fs * / INR n) with (sqrt fs / INR n) by reflexivity. f_equal.
  transitivity (rsum n (fun j => rsum n (fun m => at0 gauss m * (if (j =? 0)%nat then 0 else sqrt (at0 psd j) * cos (tw n (Z.of_nat j * (Z.of_nat k - Z.of_nat m))))))).
  - apply rsum_ext. intros j Hj. rewrite Hs by assumption. destruct (Nat.eqb_spec j 0).
    + cbn [fst snd]. rewrite (rsum_ext n _ (fun _ => 0)) by (intros; ring). rewrite rsum_0. ring.
    + cbn [fst snd]. 
      transitivity (sqrt (at0 psd j) * (rsum n (fun m => at0 gauss m * cos (wave n m j) * cos (wave n j k)) + rsum n (fun m => at0 gauss m * sin (wave n m j) * sin (wave n j k)))).
      * rewrite !rsum_scal_r. ring.
      * rewrite <- rsum_plus, <- rsum_scal. apply rsum_ext. intros m Hm. rewrite !wave_tw.
        replace (Z.of_nat j * (Z.of_nat k - Z.of_nat m))%Z with (Z.of_nat j * Z.of_nat k - Z.of_nat m * Z.of_nat j)%Z by ring.
        rewrite tw_sub, cos_minus. ring.
  - rewrite rsum_swap. apply rsum_ext. intros m Hm. now rewrite rsum_scal.
Qed.

Lemma cos_sin_sum n i j a b : (1 <= i < n)%nat -> (1 <= j < n)%nat ->
  rsum n (fun m => cos (tw n (a + Z.of_nat i * Z.of_nat m)) * sin (tw n (b + Z.of_nat j * Z.of_nat m))) =
  INR n / 2 * ((if (i + j =? n)%nat then sin (tw n (a + b)) else 0) - (if (i =? j)%nat then sin (tw n (a - b)) else 0)).
Proof.
  intros Hi Hj. assert (Hn : (0 < n)%nat) by lia.
  rewrite (rsum_ext n _ (fun m => / 2 * (sin (tw n ((a + b) + (Z.of_nat i + Z.of_nat j) * Z.of_nat m)) - sin (tw n ((a - b) + (Z.of_nat i - Z.of_nat j) * Z.of_nat m))))).
  2:{ intros m Hm. set (x := tw n (a + Z.of_nat i * Z.of_nat m)). set (y := tw n (b + Z.of_nat j * Z.of_nat m)).
      replace (tw n (a - b + (Z.of_nat i - Z.of_nat j) * Z.of_nat m)) with (x - y) by (unfold x, y; rewrite <- tw_sub; f_equal; ring).
      replace (tw n (a + b + (Z.of_nat i + Z.of_nat j) * Z.of_nat m)) with (x + y) by (unfold x, y; rewrite <- tw_add; f_equal; ring).
      rewrite sin_minus, sin_plus. lra. }
  rewrite rsum_scal, rsum_minus, !sin_sum by assumption.
  destruct (Zdivide_dec (Z.of_nat n) (Z.of_nat i - Z.of_nat j)) as [H1|H1]; destruct (Nat.eqb_spec i j) as [E1|E1].
  2: { apply div_small in H1; lia. }
  2: { exfalso. apply H1. subst. rewrite Z.sub_diag. apply Z.divide_0_r. }
  all: destruct (Zdivide_dec (Z.of_nat n) (Z.of_nat i + Z.of_nat j)) as [H2|H2]; destruct (Nat.eqb_spec (i + j) n) as [E2|E2].
  2,6: exfalso; apply E2; destruct H2 as [k Hk]; assert (k = 1)%Z by (destruct (Z.lt_trichotomy k 1) as [H|[H|H]]; [|assumption|]; exfalso; [assert (k * Z.of_nat n <= 0 * Z.of_nat n)%Z by (apply Z.mul_le_mono_nonneg_r; lia)|assert (2 * Z.of_nat n <= k * Z.of_nat n)%Z by (apply Z.mul_le_mono_nonneg_r; lia)]; lia); lia.
  2,5: exfalso; apply H2; exists 1%Z; lia.
  all: lra.
Qed.

(** Sums over the frequencies that pick the frequency and its opposite. *)
Lemma pick n i (w : nat -> R) x y : (1 <= i < n)%nat ->
  rsum n (fun j => w j * ((if (i =? j)%nat then x j else 0) + (if (i + j =? n)%nat then y j else 0))) = w i * x i + w (n - i)%nat * y (n - i)%nat.
Proof.
  intros Hi. rewrite (rsum_ext n _ (fun j => w j * (if (i =? j)%nat then x j else 0) + w j * (if (i + j =? n)%nat then y j else 0))) by (intros; ring).
  rewrite rsum_plus. f_equal.
  - rewrite (rsum_one n i) by (try (intros k Hk Hne; destruct (Nat.eqb_spec i k)); try lia; ring). now rewrite Nat.eqb_refl.
  - rewrite (rsum_one n (n - i)) by (try (intros k Hk Hne; destruct (Nat.eqb_spec (i + k) n)); try lia; ring).
    destruct (Nat.eqb_spec (i + (n - i)) n); [reflexivity|lia].
Qed.

Definition amp (psd : list R) (j : nat) : R := if (j =? 0)%nat then 0 else sqrt (at0 psd j).
Lemma resp_amp n fs psd d : resp n fs psd d = sqrt fs / INR n * rsum n (fun j => amp psd j * cos (tw n (Z.of_nat j * d))).
Proof. unfold resp. f_equal. apply rsum_ext. intros j _. unfold amp. destruct (j =? 0)%nat; ring. Qed.

Definition sym (n : nat) (psd : list R) : Prop := forall j, (1 <= j < n)%nat -> at0 psd (n - j) = at0 psd j.
Lemma amp_sym n psd j : sym n psd -> (1 <= j < n)%nat -> amp psd (n - j) = amp psd j.
Proof. intros H Hj. unfold amp. destruct (Nat.eqb_spec (n - j) 0), (Nat.eqb_spec j 0); try lia. now rewrite H. Qed.

Lemma cos_far n k x : (0 < n)%nat -> (k <= n)%nat -> cos (tw n (Z.of_nat (n - k) * x)) = cos (tw n (Z.of_nat k * x)).
Proof.
  intros Hn Hk. rewrite Nat2Z.inj_sub by assumption. replace ((Z.of_nat n - Z.of_nat k) * x)%Z with (- (Z.of_nat k * x) + x * Z.of_nat n)%Z by ring.
  rewrite cos_tw_turn by assumption. apply cos_tw_opp.
Qed.
Lemma sin_far n k x : (0 < n)%nat -> (k <= n)%nat -> sin (tw n (Z.of_nat (n - k) * x)) = - sin (tw n (Z.of_nat k * x)).
Proof.
  intros Hn Hk. rewrite Nat2Z.inj_sub by assumption. replace ((Z.of_nat n - Z.of_nat k) * x)%Z with (- (Z.of_nat k * x) + x * Z.of_nat n)%Z by ring.
  rewrite sin_tw_turn by assumption. apply sin_tw_opp.
Qed.

Lemma resp_cov n fs psd k l : (0 < n)%nat -> 0 <= fs -> (forall j, 0 <= at0 psd j) -> sym n psd ->
  rsum n (fun m => resp n fs psd (k - Z.of_nat m) * resp n fs psd (l - Z.of_nat m)) =
  fs / INR n * rsum n (fun j => if (j =? 0)%nat then 0 else at0 psd j * cos (tw n (Z.of_nat j * (k - l)))).
Proof.
  intros Hn Hfs Hp Hs. pose proof (INR_pos n Hn) as HN.
  rewrite (rsum_ext n _ (fun m => (sqrt fs / INR n) ^ 2 * rsum n (fun i => rsum n (fun j =>
      (amp psd i * amp psd j) * (cos (tw n (- (Z.of_nat i * k) + Z.of_nat i * Z.of_nat m)) * cos (tw n (- (Z.of_nat j * l) + Z.of_nat j * Z.of_nat m))))))).
  2:{ intros m Hm. rewrite !resp_amp.
      set (A := rsum n _). set (B := rsum n (fun j => amp psd j * cos (tw n (Z.of_nat j * (l - _))))).
      transitivity ((sqrt fs / INR n) ^ 2 * (A * B)); [ring|]. f_equal. unfold A, B. rewrite rsum_mult.
      apply rsum_ext. intros i Hi. apply rsum_ext. intros j Hj.
      rewrite <- (cos_tw_opp n (Z.of_nat i * (k - _))), <- (cos_tw_opp n (Z.of_nat j * (l - _))).
      replace (- (Z.of_nat i * (k - Z.of_nat m)))%Z with (- (Z.of_nat i * k) + Z.of_nat i * Z.of_nat m)%Z by ring.
      replace (- (Z.of_nat j * (l - Z.of_nat m)))%Z with (- (Z.of_nat j * l) + Z.of_nat j * Z.of_nat m)%Z by ring. ring. }
  rewrite rsum_scal. rewrite rsum_swap.
  replace (fs / INR n) with ((sqrt fs / INR n) ^ 2 * INR n).
  2:{ rewrite <- (Rsqr_sqrt fs) at 2 by assumption. unfold Rsqr. field. lra. }
  rewrite Rmult_assoc. f_equal. rewrite <- rsum_scal. apply rsum_ext. intros i Hi.
  rewrite rsum_swap. destruct (Nat.eqb_spec i 0) as [->|Hi0].
  { rewrite Rmult_0_r. apply rsum_zero. intros j Hj. apply rsum_zero. intros m Hm. unfold amp at 1. cbn [Nat.eqb]. ring. }
  rewrite (rsum_ext n _ (fun j => amp psd i * amp psd j * (INR n / 2) * ((if (i =? j)%nat then cos (tw n (- (Z.of_nat i * k) - - (Z.of_nat j * l))) else 0)
      + (if (i + j =? n)%nat then cos (tw n (- (Z.of_nat i * k) + - (Z.of_nat j * l))) else 0)))).
  2:{ intros j Hj. rewrite rsum_scal. destruct (Nat.eq_dec j 0) as [->|Hj0].
      - unfold amp at 2 4. cbn [Nat.eqb]. ring.
      - rewrite cos_cos_sum by lia. ring. }
  rewrite (pick n i (fun j => amp psd i * amp psd j * (INR n / 2))) by lia.
  rewrite (amp_sym n) by (auto; lia).
  replace (- (Z.of_nat i * k) - - (Z.of_nat i * l))%Z with (- (Z.of_nat i * (k - l)))%Z by ring. rewrite cos_tw_opp.
  replace (cos (tw n (- (Z.of_nat i * k) + - (Z.of_nat (n - i) * l)))) with (cos (tw n (Z.of_nat i * (k - l)))).
  2:{ rewrite <- cos_tw_opp. rewrite <- (cos_tw_turn n _ (-l)) by assumption. f_equal. f_equal. rewrite Nat2Z.inj_sub by lia. ring. }
  unfold amp. destruct (Nat.eqb_spec i 0); [lia|]. rewrite sqrt_sqrt by apply Hp. field.
Qed.

(** The transform of the samples. *)
Lemma resp_fft_cos n fs psd k m : (0 < n)%nat -> sym n psd -> (k < n)%nat ->
  rsum n (fun a => resp n fs psd (Z.of_nat a - Z.of_nat m) * cos (tw n (Z.of_nat k * Z.of_nat a))) = sqrt fs * amp psd k * cos (tw n (Z.of_nat k * Z.of_nat m)).
Proof.
  intros Hn Hs Hk. pose proof (INR_pos n Hn) as HN.
  rewrite (rsum_ext n _ (fun a => sqrt fs / INR n * rsum n (fun j => amp psd j *
      (cos (tw n (- (Z.of_nat j * Z.of_nat m) + Z.of_nat j * Z.of_nat a)) * cos (tw n (0 + Z.of_nat k * Z.of_nat a)))))).
  2:{ intros a Ha. rewrite resp_amp, Rmult_assoc. f_equal. rewrite <- rsum_scal_r. apply rsum_ext. intros j Hj.
      rewrite Rmult_assoc. f_equal. f_equal; f_equal; f_equal; ring. }
  rewrite rsum_scal, rsum_swap. destruct (Nat.eq_dec k 0) as [->|Hk0].
  - unfold amp at 2. cbn [Nat.eqb]. rewrite rsum_zero; [ring|]. intros j Hj. rewrite rsum_scal.
    destruct (Nat.eq_dec j 0) as [->|Hj0]; [unfold amp; cbn; ring|].
    rewrite (rsum_ext n _ (fun a => cos (tw n (- (Z.of_nat j * Z.of_nat m) + Z.of_nat j * Z.of_nat a)))).
    2:{ intros. rewrite Z.mul_0_l, Z.add_0_l, cos_tw_0. ring. }
    rewrite cos_sum by assumption. destruct (Zdivide_dec _ _) as [H|H]; [|ring]. apply div_small in H; lia.
  - rewrite (rsum_ext n _ (fun j => amp psd j * (INR n / 2) * ((if (k =? j)%nat then cos (tw n (- (Z.of_nat j * Z.of_nat m))) else 0) + (if (k + j =? n)%nat then cos (tw n (- (Z.of_nat j * Z.of_nat m))) else 0)))).
    2:{ intros j Hj. rewrite rsum_scal. destruct (Nat.eq_dec j 0) as [->|Hj0]; [unfold amp; cbn; ring|].
        rewrite cos_cos_sum by lia. rewrite Z.sub_0_r, Z.add_0_r, (Nat.eqb_sym j k), (Nat.add_comm j k). ring. }
    rewrite (pick n k (fun j => amp psd j * (INR n / 2))) by lia. rewrite (amp_sym n) by (auto; lia).
    rewrite !cos_tw_opp, cos_far by lia. field. lra.
Qed.
Lemma resp_fft_sin n fs psd k m : (0 < n)%nat -> sym n psd -> (k < n)%nat ->
  rsum n (fun a => resp n fs psd (Z.of_nat a - Z.of_nat m) * sin (tw n (Z.of_nat k * Z.of_nat a))) = sqrt fs * amp psd k * sin (tw n (Z.of_nat k * Z.of_nat m)).
Proof.
  intros Hn Hs Hk. pose proof (INR_pos n Hn) as HN.
  destruct (Nat.eq_dec k 0) as [->|Hk0].
  { unfold amp. cbn [Nat.eqb]. rewrite rsum_zero; [ring|]. intros a Ha. cbn [Z.of_nat]. rewrite Z.mul_0_l. unfold tw at 1. unfold Rdiv. rewrite Rmult_0_r, Rmult_0_l, sin_0. ring. }
  rewrite (rsum_ext n _ (fun a => sqrt fs / INR n * rsum n (fun j => amp psd j *
      (cos (tw n (- (Z.of_nat j * Z.of_nat m) + Z.of_nat j * Z.of_nat a)) * sin (tw n (0 + Z.of_nat k * Z.of_nat a)))))).
  2:{ intros a Ha. rewrite resp_amp, Rmult_assoc. f_equal. rewrite <- rsum_scal_r. apply rsum_ext. intros j Hj.
      rewrite Rmult_assoc. f_equal. f_equal; f_equal; f_equal; ring. }
  rewrite rsum_scal, rsum_swap.
  rewrite (rsum_ext n _ (fun j => amp psd j * (INR n / 2) * ((if (k =? j)%nat then - sin (tw n (- (Z.of_nat j * Z.of_nat m))) else 0) + (if (k + j =? n)%nat then sin (tw n (- (Z.of_nat j * Z.of_nat m))) else 0)))).
  2:{ intros j Hj. rewrite rsum_scal. destruct (Nat.eq_dec j 0) as [->|Hj0]; [unfold amp; cbn; ring|].
      rewrite cos_sin_sum by lia. rewrite Z.sub_0_r, Z.add_0_r, (Nat.eqb_sym j k), (Nat.add_comm j k).
      destruct (k =? j)%nat, (k + j =? n)%nat; ring. }
  rewrite (pick n k (fun j => amp psd j * (INR n / 2))) by lia. rewrite (amp_sym n) by (auto; lia).
  rewrite !sin_tw_opp, sin_far by lia. field. lra.
Qed.

(** Parseval. *)
Lemma power_spectrum n x : length x = n -> (0 < n)%nat ->
  rsum n (fun k => (rsum n (fun m => at0 x m * cos (tw n (Z.of_nat m * Z.of_nat k)))) ^ 2 + (rsum n (fun m => at0 x m * sin (tw n (Z.of_nat m * Z.of_nat k)))) ^ 2) =
  INR n * rsum n (fun m => at0 x m ^ 2).
Proof.
  intros Hx Hn.
  rewrite (rsum_ext n _ (fun k => rsum n (fun m => rsum n (fun l => at0 x m * at0 x l * cos (tw n (0 + (Z.of_nat m - Z.of_nat l) * Z.of_nat k)))))).
  2:{ intros k Hk. cbn [pow]. rewrite !Rmult_1_r, !rsum_mult, <- rsum_plus. apply rsum_ext. intros m Hm. rewrite <- rsum_plus. apply rsum_ext. intros l Hl.
      replace (0 + (Z.of_nat m - Z.of_nat l) * Z.of_nat k)%Z with (Z.of_nat m * Z.of_nat k - Z.of_nat l * Z.of_nat k)%Z by ring.
      rewrite tw_sub, cos_minus. ring. }
  rewrite rsum_swap, <- rsum_scal. apply rsum_ext. intros m Hm. rewrite rsum_swap.
  rewrite (rsum_one n m); [|assumption|].
  - rewrite rsum_scal, cos_sum by assumption. destruct (Zdivide_dec _ _) as [H|H]; [|exfalso; apply H; rewrite Z.sub_diag; apply Z.divide_0_r].
    rewrite cos_tw_0. ring.
  - intros l Hl Hne. rewrite rsum_scal, cos_sum by assumption. destruct (Zdivide_dec _ _) as [H|H]; [|ring]. apply div_small in H; lia.
Qed.

(** ** Inverse of a circulant matrix *)
Definition circ (n : nat) (p : list R) (d : Z) : R := / INR n * rsum n (fun j => at0 p j * cos (tw n (Z.of_nat j * d))).
Lemma circ_inverse n p q k l : (0 < n)%nat -> sym n p -> sym n q -> (forall j, (j < n)%nat -> at0 p j * at0 q j = 1) ->
  (0 <= k < Z.of_nat n)%Z -> (0 <= l < Z.of_nat n)%Z ->
  rsum n (fun m => circ n p (k - Z.of_nat m) * circ n q (Z.of_nat m - l)) = if (k =? l)%Z then 1 else 0.
Proof.
  intros Hn Hp Hq Hpq Hk Hl. pose proof (INR_pos n Hn) as HN.
  rewrite (rsum_ext n _ (fun m => (/ INR n) ^ 2 * rsum n (fun i => rsum n (fun j =>
      (at0 p i * at0 q j) * (cos (tw n (- (Z.of_nat i * k) + Z.of_nat i * Z.of_nat m)) * cos (tw n (- (Z.of_nat j * l) + Z.of_nat j * Z.of_nat m))))))).
  2:{ intros m Hm. unfold circ. set (A := rsum n _). set (B := rsum n (fun j => at0 q j * _)).
      transitivity ((/ INR n) ^ 2 * (A * B)); [ring|]. f_equal. unfold A, B. rewrite rsum_mult.
      apply rsum_ext. intros i Hi. apply rsum_ext. intros j Hj.
      rewrite <- (cos_tw_opp n (Z.of_nat i * (k - _))).
      replace (- (Z.of_nat i * (k - Z.of_nat m)))%Z with (- (Z.of_nat i * k) + Z.of_nat i * Z.of_nat m)%Z by ring.
      replace (Z.of_nat j * (Z.of_nat m - l))%Z with (- (Z.of_nat j * l) + Z.of_nat j * Z.of_nat m)%Z by ring. ring. }
  rewrite rsum_scal, rsum_swap.
  transitivity ((/ INR n) ^ 2 * rsum n (fun i => INR n * cos (tw n (0 + (k - l) * Z.of_nat i)))).
  - f_equal. apply rsum_ext. intros i Hi. rewrite rsum_swap.
    assert (Hz : forall j, (j < n)%nat -> (i = 0 \/ j = 0)%nat -> rsum n (fun m => at0 p i * at0 q j *
      (cos (tw n (- (Z.of_nat i * k) + Z.of_nat i * Z.of_nat m)) * cos (tw n (- (Z.of_nat j * l) + Z.of_nat j * Z.of_nat m)))) = if (i =? j)%nat then INR n else 0).
    { intros j Hj H0. rewrite rsum_scal. destruct (Nat.eqb_spec i j) as [E|E].
      - assert (i = 0)%nat by lia. assert (j = 0)%nat by lia. clear E H0. subst i j. cbn [Z.of_nat Z.mul Z.opp Z.add].
        rewrite (rsum_ext n _ (fun _ => 1)) by (intros; rewrite cos_tw_0; ring). rewrite rsum_const, Hpq by assumption. ring.
      - destruct (Nat.eq_dec i 0) as [->|Hi0].
        + rewrite (rsum_ext n _ (fun m => cos (tw n (- (Z.of_nat j * l) + Z.of_nat j * Z.of_nat m)))) by (intros; cbn [Z.of_nat Z.mul Z.opp Z.add]; rewrite cos_tw_0; ring).
          rewrite cos_sum by assumption. destruct (Zdivide_dec _ _) as [H|H]; [|ring]. apply div_small in H; lia.
        + assert (j = 0)%nat by lia. subst.
          rewrite (rsum_ext n _ (fun m => cos (tw n (- (Z.of_nat i * k) + Z.of_nat i * Z.of_nat m)))) by (intros; cbn [Z.of_nat Z.mul Z.opp Z.add]; rewrite cos_tw_0; ring).
          rewrite cos_sum by assumption. destruct (Zdivide_dec _ _) as [H|H]; [|ring]. apply div_small in H; lia. }
    destruct (Nat.eq_dec i 0) as [->|Hi0].
    + rewrite (rsum_one n 0) by (try (intros j Hj Hne; rewrite Hz by auto; destruct (Nat.eqb_spec 0 j)); try lia; reflexivity).
      rewrite Hz by auto. cbn [Nat.eqb Z.of_nat]. rewrite Z.mul_0_r, Z.add_0_l, cos_tw_0. ring.
    + rewrite (rsum_ext n _ (fun j => at0 p i * (if (j =? 0)%nat then 0 else at0 q j) * (INR n / 2) * ((if (i =? j)%nat then cos (tw n (- (Z.of_nat i * k) - - (Z.of_nat j * l))) else 0)
         + (if (i + j =? n)%nat then cos (tw n (- (Z.of_nat i * k) + - (Z.of_nat j * l))) else 0)))).
      2:{ intros j Hj. destruct (Nat.eqb_spec j 0) as [->|Hj0].
          - rewrite Hz by auto. destruct (Nat.eqb_spec i 0); [lia|]. ring.
          - rewrite rsum_scal, cos_cos_sum by lia. ring. }
      rewrite (pick n i (fun j => at0 p i * (if (j =? 0)%nat then 0 else at0 q j) * (INR n / 2))) by lia.
      destruct (Nat.eqb_spec i 0); [lia|]. destruct (Nat.eqb_spec (n - i) 0); [lia|]. rewrite Hq by lia.
      replace (- (Z.of_nat i * k) - - (Z.of_nat i * l))%Z with (- (0 + (k - l) * Z.of_nat i))%Z by ring. rewrite cos_tw_opp.
      replace (cos (tw n (- (Z.of_nat i * k) + - (Z.of_nat (n - i) * l)))) with (cos (tw n (0 + (k - l) * Z.of_nat i))).
      2:{ rewrite <- cos_tw_opp. rewrite <- (cos_tw_turn n _ (-l)) by assumption. f_equal. f_equal. rewrite Nat2Z.inj_sub by lia. ring. }
      transitivity (at0 p i * at0 q i * INR n * cos (tw n (0 + (k - l) * Z.of_nat i))); [field|]. rewrite Hpq by assumption. ring.
  - rewrite rsum_scal, cos_sum by assumption. destruct (Zdivide_dec _ _) as [H|H]; destruct (Z.eqb_spec k l) as [E|E].
    + rewrite cos_tw_0. field. lra.
    + apply div_small in H; lia.
    + exfalso. apply H. subst. rewrite Z.sub_diag. apply Z.divide_0_r.
    + ring.
Qed.
