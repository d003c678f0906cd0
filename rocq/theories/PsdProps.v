(** C80: noise drawn from a spectrum, C81: periodogram. *)
From Coq Require Import Reals Lra List Lia ZArith Znumtheory.
From Verif Require Import Base BaseFacts SparseModel SparseSpec NoiseModel NoiseSpec NoiseFacts PsdModel PsdSpec PsdFacts.
Import ListNotations.
Open Scope R_scope.

(** ** Bridges *)
Lemma sum_seq f : forall n a, fold_right Rplus 0 (map f (seq a n)) = rsum n (fun j => f (a + j)%nat).
Proof.
  induction n; intros a; [reflexivity|]. cbn [seq map fold_right]. rewrite IHn, rsum_first, Nat.add_0_r. f_equal.
  apply rsum_ext. intros. f_equal. lia.
Qed.
Lemma sum_over_rsum a b f : sum_over a b f = rsum (b - a) (fun j => f (a + j)%nat).
Proof. apply sum_seq. Qed.
Lemma sum_over_0 n f : sum_over 0 n f = rsum n f.
Proof. rewrite sum_over_rsum, Nat.sub_0_r. reflexivity. Qed.
Lemma sum_over_1 n f : sum_over 1 n f = rsum n (fun j => if (j =? 0)%nat then 0 else f j).
Proof. rewrite sum_over_rsum. destruct n; [reflexivity|]. rewrite rsum_first. cbn [Nat.sub Nat.eqb]. rewrite Nat.sub_0_r, Rplus_0_l. now apply rsum_ext. Qed.
Lemma sum_over_ext a b f g : (forall j, (a <= j < b)%nat -> f j = g j) -> sum_over a b f = sum_over a b g.
Proof. intros H. rewrite !sum_over_rsum. apply rsum_ext. intros. apply H. lia. Qed.
Lemma angle_tw n j k l : angle n j k l = tw n (Z.of_nat j * (Z.of_nat k - Z.of_nat l)).
Proof. unfold angle, tw. now rewrite mult_IZR, minus_IZR, <- !INR_IZR_INZ, Rmult_assoc. Qed.

Lemma law_linear n E c : white_law n E -> E (fun g => rsum n (fun a => rsum n (fun b => c a b * (at0 g a * at0 g b)))) = rsum n (fun a => c a a).
Proof.
  intros [H1 H2]. specialize (H2 c). rewrite sum_over_0 in H2. rewrite <- H2. apply H1. intros g Hg.
  rewrite sum_over_0. apply rsum_ext. intros. now rewrite sum_over_0.
Qed.
(** Such laws exist. *)
Definition unit_vector (n a : nat) : list R := map (fun b => if (b =? a)%nat then sqrt (INR n) else 0) (seq 0 n).
Definition basis_law (n : nat) (f : list R -> R) : R := / INR n * rsum n (fun a => f (unit_vector n a)).
Lemma basis_white n : (0 < n)%nat -> white_law n (basis_law n).
Proof.
  intros Hn. pose proof (INR_pos n Hn) as HN. split.
  - intros f h H. unfold basis_law. f_equal. apply rsum_ext. intros a Ha. apply H. unfold unit_vector. now rewrite map_length, seq_length.
  - intros c. unfold basis_law. rewrite sum_over_0, <- rsum_scal. apply rsum_ext. intros d Hd.
    rewrite sum_over_0. rewrite (rsum_one n d); [|assumption|].
    2:{ intros a Ha Hne. rewrite sum_over_0. apply rsum_zero. intros b Hb. unfold item, unit_vector. rewrite !nth_tab by assumption.
        destruct (Nat.eqb_spec a d); [lia|ring]. }
    rewrite sum_over_0. rewrite (rsum_one n d); [|assumption|].
    2:{ intros b Hb Hne. unfold item, unit_vector. rewrite !nth_tab by assumption. destruct (Nat.eqb_spec b d); [lia|ring]. }
    unfold item, unit_vector. rewrite !nth_tab by assumption. rewrite Nat.eqb_refl, sqrt_sqrt by lra. field. lra.
Qed.

Lemma even_sym n psd : length psd = n -> even_spectrum psd -> sym n psd.
Proof.
  intros Hn H j Hj. unfold at0. specialize (H j). rewrite Hn in H. specialize (H ltac:(lia)).
  destruct (nth_error psd j) eqn:E1; [|apply nth_error_None in E1; lia].
  rewrite (nth_error_nth _ _ 0 E1). symmetry in H. now rewrite (nth_error_nth _ _ 0 H).
Qed.
Lemma all_nonneg psd j : Forall (fun x => 0 <= x) psd -> 0 <= at0 psd j.
Proof. intros H. unfold at0. revert j. induction H; intros [|j]; cbn; auto; lra. Qed.

Lemma value_sample n fs psd k g : (0 < n)%nat -> length psd = n -> length g = n -> (k < n)%nat ->
  value (gaussian_sample n fs psd true) k g = rsum n (fun m => resp n fs psd (Z.of_nat k - Z.of_nat m) * at0 g m).
Proof. intros Hn Hp Hg Hk. unfold value. rewrite sample_eq by assumption. unfold item. now rewrite nth_tab. Qed.

Lemma sample_cov n fs psd E k l : (0 < n)%nat -> 0 <= fs -> length psd = n -> (forall j, 0 <= at0 psd j) -> sym n psd -> white_law n E -> (k < n)%nat -> (l < n)%nat ->
  E (fun g => value (gaussian_sample n fs psd true) k g * value (gaussian_sample n fs psd true) l g) = covariance n fs psd k l.
Proof.
  intros Hn Hfs Hp Hpos Hsym HE Hk Hl. destruct HE as [Hext Hlin]. pose proof (conj Hext Hlin : white_law n E) as HE.
  rewrite (Hext _ (fun g => rsum n (fun a => rsum n (fun b => (resp n fs psd (Z.of_nat k - Z.of_nat a) * resp n fs psd (Z.of_nat l - Z.of_nat b)) * (at0 g a * at0 g b))))).
  2:{ intros g Hg. rewrite !value_sample by assumption. rewrite rsum_mult. apply rsum_ext. intros. apply rsum_ext. intros. ring. }
  rewrite (law_linear n E _ HE), resp_cov by assumption. unfold covariance. f_equal. rewrite sum_over_1. apply rsum_ext. intros j Hj.
  rewrite angle_tw. reflexivity.
Qed.

(** ** C80 *)
(** The samples drawn from a two-sided spectrum have the covariance of this spectrum. *)
Theorem C80_covariance : forall n fs psd E, (0 < n)%nat -> 0 <= fs -> length psd = n -> Forall (fun x => 0 <= x) psd -> even_spectrum psd -> white_law n E ->
  (forall g, length g = n -> exists x, gaussian_sample n fs psd true g = Ok x /\ length x = n) /\
  forall k l, (k < n)%nat -> (l < n)%nat ->
    E (fun g => value (gaussian_sample n fs psd true) k g * value (gaussian_sample n fs psd true) l g) = covariance n fs psd k l.
Proof.
  intros n fs psd E Hn Hfs Hp Hpos Heven HE. split.
  - intros g Hg. rewrite sample_eq by assumption. eexists. split; [reflexivity|]. now rewrite map_length, seq_length.
  - intros k l Hk Hl. apply sample_cov; auto. intros. now apply all_nonneg. now apply even_sym.
Qed.
Print Assumptions C80_covariance.
Example C80_covariance_case : exists E, (0 < 3)%nat /\ 0 <= 6 /\ length [5; 2; 2] = 3%nat /\ Forall (fun x => 0 <= x) [5; 2; 2] /\ even_spectrum [5; 2; 2] /\ white_law 3 E
  /\ covariance 3 6 [5; 2; 2] 1 1 = 8 /\ covariance 3 6 [5; 2; 2] 1 0 = -4.
Proof.
  exists (basis_law 3). split; [lia|]. split; [lra|]. split; [reflexivity|]. split; [repeat constructor; lra|].
  split; [intros [|[|[|k]]] H; cbn in *; try lia; reflexivity|]. split; [apply basis_white; lia|].
  assert (H : cos (2 * PI * 1 * (1 - 0) / 3) = - / 2).
  { replace (2 * PI * 1 * (1 - 0) / 3) with (2 * (PI / 3)) by field. rewrite cos_2PI3. lra. }
  assert (H' : cos (2 * PI * 2 * (1 - 0) / 3) = - / 2).
  { replace (2 * PI * 2 * (1 - 0) / 3) with (- (2 * (PI / 3)) + 2 * 1 * PI) by field. rewrite cos_periodZ, cos_neg, cos_2PI3. lra. }
  unfold covariance, sum_over, angle, item. cbn [seq map fold_right Nat.sub nth INR]. split.
  - rewrite !Rminus_diag_eq by reflexivity. rewrite !Rmult_0_r. unfold Rdiv. rewrite !Rmult_0_l, cos_0. field.
  - replace (1 + 1 + 1) with 3 by ring. replace (1 + 1) with 2 by ring. rewrite H, H'. field.
Qed.

(** One-sided spectra. *)
Lemma rops_laws : ring_laws rops.
Proof. constructor; intros; cbn; ring. Qed.
Lemma half_half : kadd rops (/ 2) (/ 2) = k1 rops.
Proof. cbn. lra. Qed.
Lemma even_split n : Nat.even n = true -> (2 <= n)%nat -> exists h, (n = 2 * S h)%nat.
Proof. intros H Hn. apply Nat.even_spec in H. destruct H as [h ->]. destruct h; [lia|]. now exists h. Qed.
Lemma nth_error_at0 l k : (k < length l)%nat -> nth_error l k = Some (at0 l k).
Proof. intros. unfold at0. now apply nth_error_nth'. Qed.
Lemma unfold_items p n u : Nat.even n = true -> (2 <= n)%nat -> length p = (n / 2 + 1)%nat -> unfold_psd rops (/ 2) p = Ok u ->
  length u = n /\ even_spectrum u /\ at0 u (n / 2) = at0 p (n / 2) /\ (forall k, (1 <= k < n / 2)%nat -> at0 u k + at0 u k = at0 p k) /\ at0 u 0 = at0 p 0.
Proof.
  intros He Hn Hp Hu. destruct (even_split n He Hn) as [h ->]. rewrite Nat.mul_comm, Nat.div_mul in * by lia.
  destruct (unfold_same rops rops_laws (/ 2) half_half p u Hu) as (Hl & Hev & H0 & H1 & H2).
  rewrite Hp in *. replace (S h + 1 - 1)%nat with (S h) in * by lia.
  split; [lia|]. split; [exact Hev|]. rewrite !nth_error_at0 in H0, H1 by lia. injection H0 as H0. injection H1 as H1.
  split; [easy|]. split; [|easy]. intros k Hk. specialize (H2 k (at0 u k)). rewrite !nth_error_at0 in H2 by lia.
  specialize (H2 ltac:(lia) eq_refl). injection H2 as H2. easy.
Qed.
Lemma unfold_nonneg p n u : Nat.even n = true -> (2 <= n)%nat -> length p = (n / 2 + 1)%nat -> unfold_psd rops (/ 2) p = Ok u ->
  (forall j, 0 <= at0 p j) -> forall j, 0 <= at0 u j.
Proof.
  intros He Hn Hp Hu Hpos j. destruct (unfold_items p n u He Hn Hp Hu) as (Hl & Hev & Hm & Hk & H0).
  destruct (le_lt_dec n j) as [Hj|Hj]; [unfold at0; rewrite nth_overflow by lia; lra|].
  assert (Hlow : forall i, (i <= n / 2)%nat -> 0 <= at0 u i).
  { intros i Hi. destruct (Nat.eq_dec i 0) as [->|]; [rewrite H0; apply Hpos|]. destruct (Nat.eq_dec i (n / 2)) as [->|]; [rewrite Hm; apply Hpos|].
    specialize (Hk i ltac:(lia)). pose proof (Hpos i). lra. }
  destruct (le_lt_dec j (n / 2)) as [H|H]; [now apply Hlow|]. rewrite <- (even_sym n u Hl Hev j) by lia. apply Hlow.
  pose proof (Nat.div_mod n 2 ltac:(lia)). pose proof (Nat.mod_upper_bound n 2 ltac:(lia)). lia.
Qed.
Lemma fold_sum n f : Nat.even n = true -> (2 <= n)%nat ->
  sum_over 1 n f = sum_over 1 (n / 2) (fun j => f j + f (n - j)%nat) + f (n / 2)%nat.
Proof.
  intros He Hn. destruct (even_split n He Hn) as [h ->]. rewrite (Nat.mul_comm 2), Nat.div_mul by lia. rewrite !sum_over_rsum.
  replace (S h * 2 - 1)%nat with (S h + h)%nat by lia. rewrite rsum_split. cbn [rsum]. replace (S h - 1)%nat with h by lia.
  rewrite (rsum_rev h (fun k => f (1 + (S h + k))%nat)). rewrite rsum_plus.
  rewrite (rsum_ext h (fun k => f (1 + (S h + (h - 1 - k)))%nat) (fun k => f (S h * 2 - (1 + k))%nat)) by (intros; f_equal; lia).
  cbn [Nat.add]. lra.
Qed.
Lemma two_sided_one_sided p n u fs k l : Nat.even n = true -> (2 <= n)%nat -> length p = (n / 2 + 1)%nat -> unfold_psd rops (/ 2) p = Ok u ->
  covariance n fs u k l = one_sided_covariance n fs p k l.
Proof.
  intros He Hn Hp Hu. destruct (unfold_items p n u He Hn Hp Hu) as (Hl & Hev & Hm & Hk & H0).
  unfold covariance, one_sided_covariance. f_equal. rewrite fold_sum by assumption.
  assert (H1 : (1 <= n / 2)%nat) by (apply Nat.div_le_lower_bound; lia).
  assert (Hs : forall f, sum_over 1 (n / 2 + 1) f = sum_over 1 (n / 2) f + f (n / 2)%nat).
  { intros f. rewrite !sum_over_rsum. replace (n / 2 + 1 - 1)%nat with (S (n / 2 - 1)) by lia. cbn [rsum]. do 2 f_equal. lia. }
  rewrite Hs. f_equal; [|unfold item in *; fold (at0 u (n / 2)); fold (at0 p (n / 2)); now rewrite Hm].
  apply sum_over_ext. intros j Hj. change (item u) with (at0 u). change (item p) with (at0 p). pose proof (Nat.div_lt n 2).
  rewrite (even_sym n u Hl Hev) by lia. rewrite !angle_tw, cos_far by lia. rewrite <- (Hk j) by assumption. ring.
Qed.
Lemma sample_one_sided n fs p u g : unfold_psd rops (/ 2) p = Ok u -> gaussian_sample n fs p false g = gaussian_sample n fs u true g.
Proof. intros H. unfold gaussian_sample. rewrite H. reflexivity. Qed.
Lemma value_one_sided n fs p u k g : unfold_psd rops (/ 2) p = Ok u -> value (gaussian_sample n fs p false) k g = value (gaussian_sample n fs u true) k g.
Proof. intros H. unfold value. now rewrite (sample_one_sided n fs p u). Qed.
Lemma unfold_exists p : (2 <= length p)%nat -> exists u, unfold_psd rops (/ 2) p = Ok u.
Proof. apply unfold_total_fun. Qed.

(** The samples drawn from a one-sided spectrum, for an even number of them, have the
    covariance of this spectrum. *)
Theorem C80_one_sided_partial : forall n fs p E, Nat.even n = true -> (2 <= n)%nat -> 0 <= fs -> length p = (n / 2 + 1)%nat -> Forall (fun x => 0 <= x) p -> white_law n E ->
  (forall g, length g = n -> exists x, gaussian_sample n fs p false g = Ok x /\ length x = n) /\
  forall k l, (k < n)%nat -> (l < n)%nat ->
    E (fun g => value (gaussian_sample n fs p false) k g * value (gaussian_sample n fs p false) l g) = one_sided_covariance n fs p k l.
Proof.
  intros n fs p E He Hn Hfs Hp Hpos HE. assert (H1 : (1 <= n / 2)%nat) by (apply Nat.div_le_lower_bound; lia).
  destruct (unfold_exists p) as [u Hu]; [lia|]. destruct (unfold_items p n u He Hn Hp Hu) as (Hl & Hev & _).
  split.
  - intros g Hg. rewrite (sample_one_sided n fs p u), sample_eq by (auto; lia). eexists. split; [reflexivity|]. now rewrite map_length, seq_length.
  - intros k l Hk Hl'. rewrite <- (two_sided_one_sided p n u) by assumption. rewrite <- (sample_cov n fs u E) by (auto; try lia; try (now apply even_sym);
      apply (unfold_nonneg p n u); auto; intros; now apply all_nonneg).
    destruct HE as [Hext _]. apply Hext. intros g Hg. now rewrite !(value_one_sided n fs p u).
Qed.
Print Assumptions C80_one_sided_partial.
Example C80_one_sided_case : exists E, Nat.even 4 = true /\ (2 <= 4)%nat /\ 0 <= 8 /\ length [9; 4; 1] = (4 / 2 + 1)%nat /\ Forall (fun x => 0 <= x) [9; 4; 1] /\ white_law 4 E
  /\ one_sided_covariance 4 8 [9; 4; 1] 2 2 = 10 /\ one_sided_covariance 4 8 [9; 4; 1] 2 0 = -6.
Proof.
  exists (basis_law 4). split; [reflexivity|]. split; [lia|]. split; [lra|]. split; [reflexivity|]. split; [repeat constructor; lra|].
  split; [apply basis_white; lia|].
  unfold one_sided_covariance, sum_over, angle, item. cbn [seq map fold_right Nat.sub Nat.add Nat.div Nat.divmod fst nth INR]. split.
  - rewrite !Rminus_diag_eq by reflexivity. rewrite !Rmult_0_r. unfold Rdiv. rewrite !Rmult_0_l, cos_0. field.
  - replace (2 * PI * 1 * (1 + 1 - 0) / (1 + 1 + 1 + 1)) with PI by field.
    replace (2 * PI * (1 + 1) * (1 + 1 - 0) / (1 + 1 + 1 + 1)) with (2 * PI) by field. rewrite cos_PI, cos_2PI. field.
Qed.

(** The transform of the samples is the transform of the drawn numbers times the square root
    of the spectrum and of the sampling frequency, without the zero frequency. *)
Theorem C80_spectrum : forall n fs psd g, (0 < n)%nat -> length psd = n -> even_spectrum psd -> length g = n ->
  exists x, gaussian_sample n fs psd true g = Ok x /\ length x = n /\ sum_over 0 n (item x) = 0 /\
    forall k, (1 <= k < n)%nat ->
      sum_over 0 n (fun a => item x a * cos (angle n k a 0)) = sqrt fs * sqrt (item psd k) * sum_over 0 n (fun m => item g m * cos (angle n k m 0)) /\
      sum_over 0 n (fun a => item x a * sin (angle n k a 0)) = sqrt fs * sqrt (item psd k) * sum_over 0 n (fun m => item g m * sin (angle n k m 0)).
Proof.
  intros n fs psd g Hn Hp Hev Hg. pose proof (even_sym n psd Hp Hev) as Hs.
  rewrite sample_eq by assumption. eexists. split; [reflexivity|]. rewrite map_length, seq_length. split; [reflexivity|].
  set (x := map _ (seq 0 n)).
  assert (Hx : forall a, (a < n)%nat -> item x a = rsum n (fun m => resp n fs psd (Z.of_nat a - Z.of_nat m) * at0 g m)).
  { intros a Ha. unfold item, x. now rewrite nth_tab. }
  assert (Hsum : forall f k (w : Z -> R), (forall m, (m < n)%nat -> rsum n (fun a => resp n fs psd (Z.of_nat a - Z.of_nat m) * w (Z.of_nat k * Z.of_nat a)%Z) = f * w (Z.of_nat k * Z.of_nat m)%Z) ->
      rsum n (fun a => item x a * w (Z.of_nat k * Z.of_nat a)%Z) = f * rsum n (fun m => at0 g m * w (Z.of_nat k * Z.of_nat m)%Z)).
  { intros f k w H. rewrite (rsum_ext n _ (fun a => rsum n (fun m => at0 g m * (resp n fs psd (Z.of_nat a - Z.of_nat m) * w (Z.of_nat k * Z.of_nat a)%Z)))).
    2:{ intros a Ha. rewrite Hx by assumption. rewrite <- rsum_scal_r. apply rsum_ext. intros. ring. }
    rewrite rsum_swap, <- rsum_scal. apply rsum_ext. intros m Hm. rewrite rsum_scal, H by assumption. ring. }
  split.
  - rewrite sum_over_0. rewrite (rsum_ext n _ (fun a => item x a * cos (tw n (Z.of_nat 0 * Z.of_nat a)))).
    2:{ intros. cbn [Z.of_nat]. rewrite Z.mul_0_l, cos_tw_0. ring. }
    rewrite (Hsum (sqrt fs * amp psd 0) 0%nat (fun z => cos (tw n z))) by (intros; apply resp_fft_cos; assumption). unfold amp. cbn [Nat.eqb]. ring.
  - intros k Hk. assert (Ha : sqrt (item psd k) = amp psd k) by (unfold amp; destruct (Nat.eqb_spec k 0); [lia|reflexivity]). rewrite Ha, !sum_over_0.
    assert (Ht : forall a, angle n k a 0 = tw n (Z.of_nat k * Z.of_nat a)) by (intros; rewrite angle_tw; f_equal; cbn [Z.of_nat]; ring).
    split.
    + rewrite (rsum_ext n _ (fun a => item x a * cos (tw n (Z.of_nat k * Z.of_nat a)))) by (intros; now rewrite Ht).
      rewrite (Hsum (sqrt fs * amp psd k) k (fun z => cos (tw n z))) by (intros; apply resp_fft_cos; lia || assumption).
      f_equal. apply rsum_ext. intros. now rewrite Ht.
    + rewrite (rsum_ext n _ (fun a => item x a * sin (tw n (Z.of_nat k * Z.of_nat a)))) by (intros; now rewrite Ht).
      rewrite (Hsum (sqrt fs * amp psd k) k (fun z => sin (tw n z))) by (intros; apply resp_fft_sin; lia || assumption).
      f_equal. apply rsum_ext. intros. now rewrite Ht.
Qed.
Print Assumptions C80_spectrum.
Example C80_spectrum_case : (0 < 4)%nat /\ length [7; 1; 4; 1] = 4%nat /\ even_spectrum [7; 1; 4; 1] /\ length [1; 0; 2; 5] = 4%nat.
Proof. split; [lia|]. split; [reflexivity|]. split; [|reflexivity]. intros [|[|[|[|k]]]] H; cbn in *; try lia; reflexivity. Qed.

(** ** Inverse *)
Lemma circ_opp n q d : circ n q (- d) = circ n q d.
Proof. unfold circ. f_equal. apply rsum_ext. intros. rewrite <- (cos_tw_opp n (Z.of_nat k * d)). do 3 f_equal. ring. Qed.
Lemma circ_dist n q m l : circ n q (Z.of_nat (Nat.max m l - Nat.min m l)) = circ n q (Z.of_nat m - Z.of_nat l).
Proof.
  destruct (le_lt_dec m l) as [H|H].
  - rewrite Nat.max_r, Nat.min_l, Nat2Z.inj_sub by lia. rewrite <- circ_opp. f_equal. ring.
  - rewrite Nat.max_l, Nat.min_r, Nat2Z.inj_sub by lia. reflexivity.
Qed.
Lemma full_circ n fs p k l : full_covariance n fs p k l = circ n (map (fun x => fs * x) p) (Z.of_nat k - Z.of_nat l).
Proof.
  unfold full_covariance, circ. unfold Rdiv. rewrite (Rmult_comm fs), Rmult_assoc. f_equal. rewrite sum_over_0, <- rsum_scal.
  apply rsum_ext. intros j Hj. rewrite angle_tw. unfold at0, item. replace 0 with (fs * 0) at 2 by ring. rewrite map_nth. ring.
Qed.
Definition inverse_powers (fs : R) (p : list R) : list R := map (fun x => (1 / fs) / x) p.
Lemma psd2invntt_eq p b c : psd2invntt p b (Some c) = Ok (firstn (c + 1) (map (fun k => circ (length p) (inverse_powers (b * INR (length p)) p) (Z.of_nat k)) (seq 0 (length p)))).
Proof.
  unfold psd2invntt. f_equal. rewrite <- firstn_map. f_equal. unfold fft. rewrite map_map, map_length. apply map_ext. intros k. cbn [fst].
  unfold circ, inverse_powers. match goal with |- ?a / ?b = _ => replace (a / b) with (/ b * a) by apply Rmult_comm end. f_equal. apply rsum_ext. intros m Hm. now rewrite wave_tw.
Qed.
Lemma sym_map n f p : length p = n -> sym n p -> sym n (map f p).
Proof. intros Hn H j Hj. specialize (H j Hj). unfold at0 in *. rewrite !(nth_map_in f p _ 0 0) by lia. now rewrite H. Qed.
(** The whole row gives the inverse of the covariance of the spectrum; fewer correlations
    give its first elements. *)
Theorem C80_inverse : forall n p b, (0 < n)%nat -> length p = n -> Forall (fun x => 0 < x) p -> even_spectrum p -> 0 < b ->
  exists row, length row = n /\ (forall ncorr, psd2invntt p b (Some ncorr) = Ok (firstn (ncorr + 1) row)) /\
    forall k l, (k < n)%nat -> (l < n)%nat -> sum_over 0 n (fun m => full_covariance n (b * INR n) p k m * toeplitz row m l) = delta k l.
Proof.
  intros n p b Hn Hp Hpos Hev Hb. pose proof (INR_pos n Hn) as HN. pose proof (even_sym n p Hp Hev) as Hs.
  assert (Hfs : 0 < b * INR n) by (apply Rmult_lt_0_compat; assumption).
  exists (map (fun k => circ n (inverse_powers (b * INR n) p) (Z.of_nat k)) (seq 0 n)).
  split; [now rewrite map_length, seq_length|]. split; [intros; rewrite psd2invntt_eq; now rewrite Hp|].
  intros k l Hk Hl. rewrite sum_over_0.
  rewrite (rsum_ext n _ (fun m => circ n (map (fun x => b * INR n * x) p) (Z.of_nat k - Z.of_nat m) * circ n (inverse_powers (b * INR n) p) (Z.of_nat m - Z.of_nat l))).
  2:{ intros m Hm. rewrite full_circ. f_equal. unfold toeplitz, item. rewrite nth_tab by lia. apply circ_dist. }
  rewrite circ_inverse; [|assumption|now apply sym_map|now apply sym_map| |lia|lia].
  - unfold delta. destruct (Z.eqb_spec (Z.of_nat k) (Z.of_nat l)), (Nat.eqb_spec k l); try reflexivity; lia.
  - intros j Hj. unfold inverse_powers, at0. rewrite !(nth_map_in _ p _ 0 0) by lia.
    assert (0 < nth j p 0) by (apply (proj1 (Forall_forall _ p) Hpos); apply nth_In; lia). field. split; lra.
Qed.
Print Assumptions C80_inverse.
Example C80_inverse_case : (0 < 2)%nat /\ length [1; 4] = 2%nat /\ Forall (fun x => 0 < x) [1; 4] /\ even_spectrum [1; 4] /\ 0 < 2
  /\ (exists row, psd2invntt [1; 4] 2 (Some 1%nat) = Ok row /\ item row 0 = 5 / 32 /\ item row 1 = 3 / 32)
  /\ full_covariance 2 4 [1; 4] 0 0 = 10 /\ full_covariance 2 4 [1; 4] 0 1 = -6.
Proof.
  split; [lia|]. split; [reflexivity|]. split; [repeat constructor; lra|]. split; [intros [|[|k]] H; cbn in *; try lia; reflexivity|]. split; [lra|].
  assert (H1 : forall x, x = PI -> cos x = -1) by (intros x ->; apply cos_PI).
  assert (H0 : forall x, x = 0 -> cos x = 1) by (intros x ->; apply cos_0).
  split; [|split].
  - eexists. split; [reflexivity|]. cbn [length firstn Nat.add map seq fft item nth fst]. unfold at0, wave. cbn [rsum nth map INR].
    rewrite !(H0 (2 * PI * (_ * 0) / _)) by (unfold Rdiv; ring). rewrite !(H0 (2 * PI * (0 * _) / _)) by (unfold Rdiv; ring).
    rewrite (H1 (2 * PI * (1 * 1) / _)) by field. split; field.
  - unfold full_covariance, sum_over, angle, item. cbn [seq map fold_right Nat.sub nth INR].
    rewrite !H0 by (unfold Rdiv; ring). field.
  - unfold full_covariance, sum_over, angle, item. cbn [seq map fold_right Nat.sub nth INR].
    rewrite (H0 (2 * PI * 0 * _ / _)) by (unfold Rdiv; ring).
    replace (2 * PI * 1 * (0 - 1) / (1 + 1)) with (- PI) by field. rewrite cos_neg, cos_PI. field.
Qed.
