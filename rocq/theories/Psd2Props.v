(** C80, continued: noise and inverse noise of an instrument; C81: periodogram. *)
From Coq Require Import Reals Lra List Lia ZArith.
From Verif Require Import Base BaseFacts SparseModel SparseSpec NoiseModel NoiseSpec NoiseFacts NoiseProps PsdModel PsdSpec PsdFacts PsdProps Psd1Props.
Import ListNotations.
Open Scope R_scope.

(** ** Noise against inverse noise *)
Lemma circ_total n q l : (0 < n)%nat -> rsum n (fun m => circ n q (Z.of_nat m - l)) = at0 q 0.
Proof.
  intros Hn. pose proof (INR_pos n Hn). unfold circ. rewrite rsum_scal, rsum_swap. rewrite (rsum_one n 0); [|assumption|].
  - cbn [Z.of_nat]. rewrite rsum_scal, (rsum_ext n _ (fun _ => 1)) by (intros; rewrite Z.mul_0_l; apply cos_tw_0). rewrite rsum_const. field. lra.
  - intros j Hj Hne. rewrite rsum_scal.
    rewrite (rsum_ext n _ (fun m => cos (tw n (- (Z.of_nat j * l) + Z.of_nat j * Z.of_nat m)))) by (intros; do 2 f_equal; ring).
    rewrite cos_sum by assumption. destruct (Znumtheory.Zdivide_dec _ _) as [D|D]; [|ring]. apply div_small in D; lia.
Qed.
Lemma full_split n fs p k l : (0 < n)%nat -> full_covariance n fs p k l = covariance n fs p k l + fs / INR n * item p 0.
Proof.
  intros Hn. unfold full_covariance, covariance. rewrite <- Rmult_plus_distr_l. f_equal. rewrite sum_over_0, sum_over_1. destruct n; [lia|].
  rewrite !rsum_first. cbn [Nat.eqb]. rewrite angle_tw. cbn [Z.of_nat]. rewrite Z.mul_0_l, cos_tw_0. lra.
Qed.
Lemma covariance_ext n fs p q k l : (forall j, (1 <= j < n)%nat -> item p j = item q j) -> covariance n fs p k l = covariance n fs q k l.
Proof. intros H. unfold covariance. f_equal. apply sum_over_ext. intros j Hj. now rewrite H. Qed.
Lemma consistent n fs p : (2 <= n)%nat -> 0 < fs -> length p = n -> (forall j, (1 <= j < n)%nat -> 0 < at0 p j) -> sym n p ->
  exists p' row, first_as_second p = Ok p' /\ psd2invntt p' (fs / INR n) (Some (n - 1)%nat) = Ok row /\ length row = n /\
    forall k l, (k < n)%nat -> (l < n)%nat -> sum_over 0 n (fun m => covariance n fs p k m * toeplitz row m l) = delta k l - / INR n.
Proof.
  intros Hn Hfs Hp Hpos Hs. assert (HN : 0 < INR n) by (apply INR_pos; lia).
  destruct p as [|a [|b r]]; [cbn in Hp; lia|cbn in Hp; lia|]. exists (b :: b :: r).
  assert (Hj : forall j, (1 <= j < n)%nat -> at0 (b :: b :: r) j = at0 (a :: b :: r) j) by (intros [|j] Hj; [lia|reflexivity]).
  assert (Hs' : sym n (b :: b :: r)) by (intros j H; rewrite !Hj by lia; now apply Hs).
  assert (Hpos' : forall j, (j < n)%nat -> 0 < at0 (b :: b :: r) j).
  { intros [|j] H; [apply (Hpos 1%nat); lia|]. rewrite Hj by lia. apply Hpos. lia. }
  rewrite psd2invntt_eq. replace (length (b :: b :: r)) with n by (rewrite <- Hp; reflexivity).
  replace (fs / INR n * INR n) with fs by (field; lra). rewrite firstn_all2 by (rewrite map_length, seq_length; lia).
  eexists. split; [reflexivity|]. split; [reflexivity|]. split; [now rewrite map_length, seq_length|].
  intros k l Hk Hl. set (q := inverse_powers fs (b :: b :: r)).
  assert (Hq : forall j, (j < n)%nat -> at0 q j = / (fs * at0 (b :: b :: r) j)).
  { intros j H. unfold q, inverse_powers. rewrite at0_map by (cbn in *; lia). specialize (Hpos' j H). field. split; lra. }
  assert (Hlen : length (b :: b :: r) = n) by (rewrite <- Hp; reflexivity).
  rewrite sum_over_0.
  rewrite (rsum_ext n _ (fun m => circ n (map (fun x => fs * x) (b :: b :: r)) (Z.of_nat k - Z.of_nat m) * circ n q (Z.of_nat m - Z.of_nat l)
      - fs / INR n * b * circ n q (Z.of_nat m - Z.of_nat l))).
  2:{ intros m Hm. rewrite (covariance_ext n fs _ (b :: b :: r)) by (intros [|j] H; [lia|reflexivity]).
      rewrite <- full_circ, full_split by lia. unfold toeplitz, item at 1. rewrite nth_tab by lia. rewrite circ_dist. fold q. unfold item. cbn [nth]. ring. }
  rewrite rsum_minus, rsum_scal, circ_total by lia. rewrite Hq by lia. cbn [at0 nth].
  rewrite circ_inverse; [|lia|now apply sym_map|unfold q, inverse_powers; now apply sym_map| |lia|lia].
  - replace (if (Z.of_nat k =? Z.of_nat l)%Z then 1 else 0) with (delta k l).
    2:{ unfold delta. destruct (Z.eqb_spec (Z.of_nat k) (Z.of_nat l)), (Nat.eqb_spec k l); try reflexivity; lia. }
    specialize (Hpos' 0%nat ltac:(lia)). cbn in Hpos'. unfold at0. cbn [nth]. field. lra.
  - intros j H. rewrite at0_map, Hq by lia. specialize (Hpos' j H). field. lra.
Qed.

Lemma fft_size_pow n j : (n = 2 * 2 ^ j)%nat -> fft_size (S n) n 2 = Ok n.
Proof.
  intros Hn. destruct (C38_fft_size n) as (s & i & E & Hs & Hle & Hc). rewrite E. f_equal. subst s.
  assert (P : forall a, (1 <= 2 ^ a)%nat) by (intros; apply Nat.neq_0_lt_0, Nat.pow_nonzero; lia).
  destruct Hc as [Hc|Hc].
  - specialize (P j). lia.
  - assert (j <= i)%nat by (apply (Nat.pow_le_mono_r_iff 2); lia).
    assert (i < S j)%nat by (apply (Nat.pow_lt_mono_r_iff 2); [lia|]; cbn; lia). replace i with j by lia. now symmetry.
Qed.
Definition level (n : nat) (fs sigma fknee fslope : R) (k : nat) : R :=
  if (k =? 0)%nat then sigma ^ 2 * (1 + (if Req_EM_T fslope 0 then 1 else 0)) / fs else sigma ^ 2 * (1 + Rpower (Rabs fknee / frequency_of n fs k) fslope) / fs.
Lemma psd_1f_levels n fs sigma fknee fslope : 0 < fs -> fknee <> 0 -> 0 <= fslope ->
  psd_1f n fs sigma fknee fslope = map Some (map (level n fs sigma fknee fslope) (seq 0 n)).
Proof.
  intros Hfs Hk Hs. rewrite map_map. apply tab_eq with None; [apply psd_1f_length|]. intros k Hlt.
  destruct (C79_one_over_f n fs sigma fknee fslope Hfs Hk) as (_ & H1 & _). destruct (Nat.eq_dec k 0) as [->|].
  - apply nth_error_nth. rewrite psd_1f_nth by assumption. cbn [Nat.eqb]. cbv zeta. rewrite Rabs_R0. unfold npow, level. cbn [Nat.eqb].
    destruct (Rlt_dec 0 0); [lra|]. destruct (Rlt_dec 0 fslope), (Req_EM_T fslope 0); try lra; cbn; do 2 f_equal; ring || lra.
  - apply nth_error_nth. rewrite H1 by lia. unfold level. destruct (Nat.eqb_spec k 0); [lia|reflexivity].
Qed.
Lemma all_finite_some l : all_finite (map Some l) = Some l.
Proof. induction l; cbn; [reflexivity|]. now rewrite IHl. Qed.
Lemma frequency_sym n fs k : (1 <= k < n)%nat -> frequency_of n fs (n - k) = frequency_of n fs k.
Proof. intros H. unfold frequency_of. do 3 f_equal. lia. Qed.
Lemma level_sym n fs sigma fknee fslope : sym n (map (level n fs sigma fknee fslope) (seq 0 n)).
Proof.
  intros j Hj. rewrite !at0_tab by lia. unfold level. destruct (Nat.eqb_spec (n - j) 0), (Nat.eqb_spec j 0); try lia. now rewrite frequency_sym.
Qed.
Lemma level_pos n fs sigma fknee fslope k : 0 < fs -> sigma <> 0 -> 0 < level n fs sigma fknee fslope k.
Proof.
  intros Hfs Hs. assert (0 < sigma ^ 2) by (apply Rsqr_pos_lt in Hs; unfold Rsqr in Hs; cbn; lra).
  unfold level. destruct (k =? 0)%nat; apply Rdiv_lt_0_compat; try assumption; apply Rmult_lt_0_compat; try assumption.
  - destruct (Req_EM_T fslope 0); lra.
  - unfold Rpower. pose proof (exp_pos (fslope * ln (Rabs fknee / frequency_of n fs k))). lra.
Qed.
Lemma is0_no x : x <> 0 -> is0 x = false.
Proof. intros H. unfold is0. now destruct (Req_EM_T x 0). Qed.
Lemma first_as_second_map {A B} (f : A -> B) l : first_as_second (map f l) = match first_as_second l with Ok r => Ok (map f r) | Err e => Err e end.
Proof. destruct l as [|a [|b r]]; reflexivity. Qed.
Lemma first_as_second_idem {A} (l r : list A) : first_as_second l = Ok r -> first_as_second r = Ok r.
Proof. destruct l as [|a [|b l]]; cbn; intros H; try discriminate. now injection H as <-. Qed.

(** Noise of knee frequency: the matrix of the inverse noise, with all the correlations,
    times the covariance of the noise drawn for the same instrument is the projection on the
    signals without mean, for numbers of samples that are powers of two. *)
Theorem C80_instrument_partial : forall n j period sigma fknee fslope E, (n = 2 * 2 ^ j)%nat -> 0 < period -> sigma <> 0 -> fknee <> 0 -> 0 <= fslope -> white_law n E ->
  let noise := value (get_noise period None None false (Some sigma) None fknee fslope) in
  exists row, get_invntt n period None None false (Some sigma) None fknee fslope (Some (n - 1)%nat) = Ok (Toeplitz row) /\ length row = n /\
    forall k l, (k < n)%nat -> (l < n)%nat ->
      sum_over 0 n (fun m => E (fun g => noise k g * noise m g) * toeplitz row m l) = delta k l - / INR n.
Proof.
  intros n j period sigma fknee fslope E Hn Hper Hsig Hkn Hsl HE noise.
  assert (P : (1 <= 2 ^ j)%nat) by (apply Nat.neq_0_lt_0, Nat.pow_nonzero; lia).
  assert (Hfs : 0 < 1 / period) by (apply Rdiv_lt_0_compat; lra).
  set (fs := 1 / period) in *. set (p := map (level n fs sigma fknee fslope) (seq 0 n)).
  assert (Hp : length p = n) by (unfold p; now rewrite map_length, seq_length).
  assert (Hpos : forall i, (i < n)%nat -> 0 < at0 p i) by (intros; unfold p; rewrite at0_tab by assumption; now apply level_pos).
  destruct (consistent n fs p) as (p' & row & E1 & E2 & Hrow & Hcov); [lia|assumption|assumption|intros; apply Hpos; lia|apply level_sym|].
  exists row. split; [|split; [exact Hrow|]].
  - unfold get_invntt. cbn [is_none andb orb negb white_sigma]. rewrite (is0_no fknee) by assumption. cbn [andb]. fold fs.
    rewrite (fft_size_pow n j Hn). cbn [bind]. rewrite psd_1f_levels by assumption. fold p. rewrite first_as_second_map, E1. cbn [bind].
    rewrite all_finite_some. cbn [bind]. rewrite (first_as_second_idem p p' E1). cbn [bind]. rewrite E2. reflexivity.
  - intros k l Hk Hl. rewrite <- Hcov by assumption. apply sum_over_ext. intros m Hm. f_equal.
    rewrite <- (sample_cov n fs p E); [|lia|lra|assumption| |apply level_sym|assumption|assumption|lia].
    2:{ intros i. destruct (le_lt_dec n i) as [H|H]; [unfold at0; rewrite nth_overflow by lia; lra|]. now apply Rlt_le, Hpos. }
    destruct HE as [Hext _]. apply Hext. intros g Hg. unfold noise, value, get_noise. cbn [is_none andb orb negb white_sigma].
    rewrite (is0_no fknee) by assumption. cbn [andb]. rewrite Hg. fold fs. rewrite psd_1f_levels by assumption. rewrite all_finite_some. reflexivity.
Qed.
Print Assumptions C80_instrument_partial.
Example C80_instrument_case : exists E, 8%nat = (2 * 2 ^ 2)%nat /\ 0 < 1 / 10 /\ 2 <> 0 /\ 3 <> 0 /\ 0 <= 1 /\ white_law 8 E.
Proof. exists (basis_law 8). repeat (split; [reflexivity || lra|]). apply basis_white. lia. Qed.

Lemma halve_last_at l k : (k < length l)%nat -> at0 (halve_last l) k = if (k =? length l - 1)%nat then at0 l k / 2 else at0 l k.
Proof.
  intros H. destruct l as [|a l] using rev_ind; [cbn in H; lia|]. clear IHl. unfold halve_last. rewrite rev_app_distr. cbn [rev app].
  rewrite rev_involutive. rewrite app_length in *. cbn [length] in *. replace (length l + 1 - 1)%nat with (length l) by lia. unfold at0.
  destruct (Nat.eqb_spec k (length l)) as [->|Hne].
  - rewrite !app_nth2 by lia. rewrite Nat.sub_diag. reflexivity.
  - rewrite !app_nth1 by lia. reflexivity.
Qed.
Lemma halve_last_length l : length (halve_last l) = length l.
Proof.
  destruct l as [|a l] using rev_ind; [reflexivity|]. clear IHl. unfold halve_last. rewrite rev_app_distr. cbn [rev app]. rewrite rev_involutive, !app_length. reflexivity.
Qed.
Lemma loglog_total f b psd : f <> [] -> (4 <= length psd)%nat -> Forall (fun x => 0 < x) (tl f) -> 0 < b -> (forall k, (1 <= k < length psd - 1)%nat -> 0 < at0 psd k) -> exists p, logloginterp_psd f b psd = Ok p /\ length p = length f /\
  (forall k, (1 <= k < length f)%nat -> 0 < at0 p k) /\ ((2 <= length f)%nat -> at0 p 0 = at0 psd 0).
Proof.
  intros Hf Hl Hfp Hb Hpp. unfold logloginterp_psd. unfold item_at at 1. rewrite nth_error_at0 by lia. destruct f as [|f0 f]; [contradiction|]. cbn [bind item_at nth_error tl] in *.
  rewrite (all_positive_forall f Hfp), !all_positive_at; cbn [andb negb].
  2:{ intros k Hk. rewrite inner_length in Hk. rewrite inner_at by lia. apply Hpp. lia. }
  2:{ intros k Hk. rewrite inner_length, map_length, seq_length in Hk. rewrite inner_at by (rewrite map_length, seq_length; lia). rewrite at0_tab by lia. apply Rmult_lt_0_compat; [apply INR_pos; lia|assumption]. }
  destruct (interp_total (map ln f) (map ln (inner_part (map (fun k => INR k * b) (seq 0 (length psd))))) (map ln (inner_part psd))) as (v & Ev & Hv).
  { rewrite map_length, inner_length, map_length, seq_length. lia. }
  { rewrite !map_length, !inner_length, map_length, seq_length. reflexivity. }
  rewrite Ev. cbn [bind]. rewrite map_length in Hv. eexists. split; [reflexivity|]. rewrite halve_last_length. cbn [length]. rewrite map_length, Hv. split; [reflexivity|]. split.
  - intros k Hk. rewrite halve_last_at by (cbn [length]; rewrite map_length; lia). destruct k as [|k]; [lia|].
    assert (0 < at0 (at0 psd 0 :: map exp v) (S k)).
    { unfold at0 at 1. cbn [nth]. rewrite (nth_map_in exp v k 0 0) by lia. apply exp_pos. }
    destruct (_ =? _)%nat; lra.
  - intros H2. rewrite halve_last_at by (cbn [length]; lia). cbn [length]. rewrite map_length. destruct (Nat.eqb_spec 0 (S (length v) - 1)); [lia|reflexivity].
Qed.
(** The same for a given one-sided spectrum of at least four values. *)
Theorem C80_instrument_psd_partial : forall n j period psd bandwidth E, (n = 2 * 2 ^ j)%nat -> 0 < period -> (4 <= length psd)%nat -> 0 < bandwidth ->
  0 <= item psd 0 -> (forall k, (1 <= k < length psd - 1)%nat -> 0 < item psd k) -> white_law n E ->
  let noise := value (get_noise period (Some psd) (Some bandwidth) false None None 0 1) in
  exists row, get_invntt n period (Some psd) (Some bandwidth) false None None 0 1 (Some (n - 1)%nat) = Ok (Toeplitz row) /\ length row = n /\
    forall k l, (k < n)%nat -> (l < n)%nat ->
      sum_over 0 n (fun m => E (fun g => noise k g * noise m g) * toeplitz row m l) = delta k l - / INR n.
Proof.
  intros n j period psd b E Hn Hper Hl Hb H0 Hpsd HE noise.
  assert (P : (1 <= 2 ^ j)%nat) by (apply Nat.neq_0_lt_0, Nat.pow_nonzero; lia).
  assert (Hfs : 0 < 1 / period) by (apply Rdiv_lt_0_compat; lra). set (fs := 1 / period) in *.
  assert (He : Nat.even n = true) by (rewrite Hn, Nat.even_mul; reflexivity).
  assert (H1 : (1 <= n / 2)%nat) by (apply Nat.div_le_lower_bound; lia).
  destruct (loglog_total (map (fun k => INR k * (fs / INR n)) (seq 0 (n / 2 + 1))) b psd) as (q & Eq & Hq & Hqpos & Hq0).
  { rewrite Nat.add_1_r. discriminate. } { assumption. }
  { rewrite Nat.add_1_r. cbn [seq map tl]. apply Forall_forall. intros x Hx. apply in_map_iff in Hx. destruct Hx as (i & <- & Hi). apply in_seq in Hi.
    apply Rmult_lt_0_compat; [apply INR_pos; lia|]. apply Rdiv_lt_0_compat; [assumption|apply INR_pos; lia]. }
  { assumption. } { exact Hpsd. }
  rewrite map_length, seq_length in *. specialize (Hq0 ltac:(lia)).
  destruct (unfold_exists q) as [u Hu]; [lia|]. assert (Hn2 : (2 <= n)%nat) by lia.
  destruct (unfold_items q n u He Hn2 Hq Hu) as (Hul & Hev & Hm & Hk & Hu0). pose proof (even_sym n u Hul Hev) as Hsym.
  assert (Hpos : forall i, (1 <= i < n)%nat -> 0 < at0 u i).
  { assert (G : forall i, (1 <= i <= n / 2)%nat -> 0 < at0 u i).
    { intros i Hi. specialize (Hqpos i ltac:(lia)). destruct (Nat.eq_dec i (n / 2)) as [->|]; [now rewrite Hm|]. specialize (Hk i ltac:(lia)). lra. }
    intros i Hi. destruct (le_lt_dec i (n / 2)); [apply G; lia|]. rewrite <- Hsym by assumption. apply G.
    pose proof (Nat.div_mod n 2 ltac:(lia)). pose proof (Nat.mod_upper_bound n 2 ltac:(lia)). lia. }
  destruct (consistent n fs u) as (p' & row & E1 & E2 & Hrow & Hcov); [lia|assumption|assumption|assumption|assumption|].
  exists row. split; [|split; [exact Hrow|]].
  - unfold get_invntt. cbn [is_none andb orb negb white_sigma]. fold fs. rewrite (fft_size_pow n j Hn). cbn [bind]. cbv zeta. fold fs. rewrite Eq. cbn [bind]. rewrite Hu. cbn [bind].
    rewrite E1. cbn [bind]. rewrite E2. reflexivity.
  - intros k l Hk' Hl'. rewrite <- Hcov by assumption. apply sum_over_ext. intros m Hm'. f_equal.
    rewrite <- (sample_cov n fs u E); [|lia|lra|assumption| |assumption|assumption|assumption|lia].
    2:{ intros i. destruct (le_lt_dec n i) as [H|H]; [unfold at0; rewrite nth_overflow by lia; lra|]. destruct i; [rewrite Hu0, Hq0; assumption|]. apply Rlt_le, Hpos. lia. }
    destruct HE as [Hext _]. apply Hext. intros g Hg. rewrite <- !(value_one_sided n fs q u) by assumption. unfold noise, value, get_noise. cbn [is_none andb orb negb white_sigma].
    rewrite Hg. fold fs. cbn [bind]. rewrite Eq. reflexivity.
Qed.
Print Assumptions C80_instrument_psd_partial.
Example C80_instrument_psd_case : exists E, 4%nat = (2 * 2 ^ 1)%nat /\ 0 < 1 / 10 /\ (4 <= length [7%R; 6%R; 5%R; 4%R])%nat /\ 0 < 2 /\
  0 <= item [7; 6; 5; 4] 0 /\ (forall k, (1 <= k < 3)%nat -> 0 < item [7; 6; 5; 4] k) /\ white_law 4 E.
Proof.
  exists (basis_law 4). split; [reflexivity|]. split; [lra|]. split; [cbn; lia|]. split; [lra|]. split; [unfold item; cbn; lra|].
  split; [intros [|[|[|k]]] H; try lia; unfold item; cbn; lra|]. apply basis_white. lia. Qed.

(** White noise: uncorrelated samples of the given variance, and the inverse of the variance;
    the deviation of an equivalent power is its ratio with the root of twice the period. *)
Theorem C80_white : forall n period s nep sigma E fslope ncorr, (0 < n)%nat -> white_law n E ->
  (nep = None /\ sigma = Some s) \/ (exists e, nep = Some e /\ 0 < period /\ s = e / sqrt (2 * period)) ->
  let noise := value (get_noise period None None false sigma nep 0 fslope) in
  (forall k l, (k < n)%nat -> (l < n)%nat -> E (fun g => noise k g * noise l g) = s ^ 2 * delta k l) /\
  (s <> 0 -> exists w, get_invntt n period None None false sigma nep 0 fslope ncorr = Ok (Diagonal w) /\ s ^ 2 * w = 1) /\
  (forall e, nep = Some e -> 0 < period -> s ^ 2 * (2 * period) = e ^ 2).
Proof.
  intros n period s nep sigma E fslope ncorr Hn HE Hs noise.
  assert (Hw : white_sigma period sigma nep = Some s).
  { destruct Hs as [(-> & ->)|(e & -> & Hp & ->)]; reflexivity. }
  assert (Hz : is0 0 = true) by (unfold is0; destruct (Req_EM_T 0 0); [reflexivity|contradiction]).
  split; [|split].
  - intros k l Hk Hl. destruct HE as [Hext Hlin]. pose proof (conj Hext Hlin : white_law n E) as HE.
    rewrite (Hext _ (fun g => rsum n (fun a => rsum n (fun b => (if (a =? k)%nat && (b =? l)%nat then s ^ 2 else 0) * (at0 g a * at0 g b))))).
    + rewrite (law_linear n E (fun a b => if (a =? k)%nat && (b =? l)%nat then s ^ 2 else 0) HE). rewrite (rsum_one n k); [|assumption|].
      * rewrite Nat.eqb_refl. unfold delta. cbn [andb]. destruct (k =? l)%nat; ring.
      * intros a Ha Hne. destruct (Nat.eqb_spec a k); [lia|reflexivity].
    + intros g Hg. rewrite (rsum_one n k); [|assumption|].
      2:{ intros a Ha Hne. apply rsum_zero. intros b Hb. destruct (Nat.eqb_spec a k); [lia|]. cbn. ring. }
      rewrite (rsum_one n l); [|assumption|].
      2:{ intros b Hb Hne. destruct (Nat.eqb_spec b l); [lia|]. rewrite Bool.andb_false_r. ring. }
      rewrite !Nat.eqb_refl. cbn [andb]. unfold noise, value, get_noise. cbn [is_none andb orb negb]. rewrite Hw, Hz. cbn [is_none andb].
      unfold item. rewrite !(nth_map_in _ g _ 0 0) by lia. unfold at0. ring.
  - intros H0. unfold get_invntt. cbn [is_none andb orb negb]. rewrite Hw, Hz. cbn [is_none andb]. eexists. split; [reflexivity|]. field. assumption.
  - intros e -> Hp. destruct Hs as [(? & _)|(e' & He & _ & ->)]; [discriminate|]. injection He as ->.
    assert (H : sqrt (2 * period) * sqrt (2 * period) = 2 * period) by (apply sqrt_sqrt; lra). assert (0 < sqrt (2 * period)) by (apply sqrt_lt_R0; lra).
    replace (2 * period) with (sqrt (2 * period) * sqrt (2 * period)) at 2. field. lra.
Qed.
Print Assumptions C80_white.
Example C80_white_case : exists E, (0 < 3)%nat /\ white_law 3 E /\ (@None R = None /\ Some 5 = Some 5).
Proof. exists (basis_law 3). split; [lia|]. split; [apply basis_white; lia|easy]. Qed.
(** Wrong arguments are refused: the spectrum without its increment, the increment without
    the spectrum, no noise at all. *)
Theorem C80_arguments : forall n period psd bandwidth twosided sigma nep fknee fslope ncorr g,
  (is_none psd <> is_none bandwidth \/ (psd = None /\ bandwidth = None /\ sigma = None /\ nep = None)) ->
  get_invntt n period psd bandwidth twosided sigma nep fknee fslope ncorr = Err ValueError /\ get_noise period psd bandwidth twosided sigma nep fknee fslope g = Err ValueError.
Proof.
  intros n period psd bandwidth twosided sigma nep fknee fslope ncorr g [H|(-> & -> & -> & ->)]; [|split; reflexivity].
  destruct psd, bandwidth; cbn in H; try contradiction; split; reflexivity.
Qed.
Print Assumptions C80_arguments.
Example C80_arguments_case : is_none (Some [1]) <> is_none (@None R).
Proof. discriminate. Qed.
(** Without number of correlations, which is the default, the inverse of a correlated noise
    fails. *)
Theorem C80_default_refuted : forall n period sigma fknee fslope, 0 < period -> fknee <> 0 -> 0 <= fslope ->
  get_invntt n period None None false (Some sigma) None fknee fslope None = Err TypeError.
Proof.
  intros n period sigma fknee fslope Hper Hk Hs. unfold get_invntt. cbn [is_none andb orb negb white_sigma]. rewrite (is0_no fknee) by assumption. cbn [andb].
  destruct (C38_fft_size n) as (s & i & E & Es & _). rewrite E. cbn [bind]. assert (Hfs : 0 < 1 / period) by (apply Rdiv_lt_0_compat; lra).
  rewrite psd_1f_levels by assumption. rewrite first_as_second_map. assert (P : (1 <= 2 ^ i)%nat) by (apply Nat.neq_0_lt_0, Nat.pow_nonzero; lia).
  destruct s as [|[|s]]; [lia|lia|]. cbn [seq map first_as_second]. cbn [bind]. rewrite <- (map_cons Some), <- (map_cons Some), all_finite_some. reflexivity.
Qed.
Print Assumptions C80_default_refuted.
Example C80_default_case : 0 < 1 / 10 /\ 3 <> 0 /\ 0 <= 1.
Proof. repeat split; lra. Qed.
(** One deviation for all the detectors: the noise of each detector is that of its own draws. *)
Theorem C80_one_deviation : forall ndetectors n period sigma fknee fslope draws, (forall d, length (draws d 0%nat) = n) ->
  match get_noise_each ndetectors n period [sigma] fknee fslope draws with
  | Ok rows => length rows = ndetectors /\ forall d, (d < ndetectors)%nat -> get_noise period None None false (Some sigma) None fknee fslope (draws d 0%nat) = Ok (nth d rows [])
  | Err e => exists d, (d < ndetectors)%nat /\ get_noise period None None false (Some sigma) None fknee fslope (draws d 0%nat) = Err e
  end.
Proof.
  intros ndetectors n period sigma fknee fslope draws Hd. set (one := fun d => get_noise period None None false (Some sigma) None fknee fslope (draws d 0%nat)).
  assert (E : get_noise_each ndetectors n period [sigma] fknee fslope draws = map_res one (seq 0 ndetectors)).
  { unfold get_noise_each. destruct (is0 fknee) eqn:Z.
    - cbn [length Nat.eqb]. rewrite orb_true_r. generalize (seq 0 ndetectors) as l. induction l as [|d l IH]; [reflexivity|]. cbn [map map_res]. unfold one at 1, get_noise. cbn [is_none andb orb negb white_sigma]. rewrite Z. cbn [bind]. rewrite <- IH. reflexivity.
    - apply map_res_ext. intros d _. unfold one, get_noise. cbn [is_none andb orb negb white_sigma length seq map_res]. rewrite Z, Hd. cbn [nth].
      destruct (all_finite _) as [p|]; [|reflexivity]. destruct (gaussian_sample _ _ _ _ _); reflexivity. }
  rewrite E. assert (G : forall l, match map_res one l with Ok rows => length rows = length l /\ forall k, (k < length l)%nat -> one (nth k l 0%nat) = Ok (nth k rows []) | Err e => exists d, In d l /\ one d = Err e end).
  { induction l as [|d l IH]; cbn [map_res]; [split; [reflexivity|]; cbn; intros; lia|]. destruct (one d) as [x|e] eqn:X; cbn [bind]; [|exists d; split; [now left|exact X]].
    destruct (map_res one l) as [r|e]; cbn [bind]; [|destruct IH as (d' & H & H'); exists d'; split; [now right|exact H']].
    destruct IH as [L IH]. split; [cbn; lia|]. intros [|k] Hk; cbn [nth]; [exact X|]. apply IH. cbn in Hk. lia. }
  specialize (G (seq 0 ndetectors)). rewrite seq_length in G. destruct (map_res one (seq 0 ndetectors)) as [rows|e].
  - destruct G as [L G]. split; [exact L|]. intros d H. specialize (G d H). rewrite seq_nth in G by exact H. exact G.
  - destruct G as (d & H & G). apply in_seq in H. exists d. split; [lia|exact G].
Qed.
Print Assumptions C80_one_deviation.
(** One deviation per detector: the white noise of each detector has its own, but the
    correlated noise fails for two detectors or more. *)
Theorem C80_detectors_refuted : forall n period sigmas fknee fslope draws, (2 <= length sigmas)%nat -> (0 < n)%nat -> 0 < period -> 0 <= fslope -> fknee <> 0 ->
  (forall d i, length (draws d i) = n) ->
  get_noise_each (length sigmas) n period sigmas fknee fslope draws = Err ValueError /\
  get_noise_each (length sigmas) n period sigmas 0 fslope draws = Ok (map (fun d => map (fun g => g * nth d sigmas 0) (draws d 0%nat)) (seq 0 (length sigmas))).
Proof.
  intros n period sigmas fknee fslope draws Hl Hn Hper Hs Hk Hd. assert (Hfs : 0 < 1 / period) by (apply Rdiv_lt_0_compat; lra).
  unfold get_noise_each. split.
  - rewrite (is0_no fknee) by assumption. set (F := fun d => _).
    assert (G : forall d, F d = Err ValueError).
    { intros d. unfold F. set (G := fun i => _).
      assert (HG : forall i, exists x, G i = Ok x).
      { intros i. unfold G. rewrite psd_1f_levels by assumption. rewrite all_finite_some, sample_eq; [eauto|assumption|now rewrite map_length, seq_length|apply Hd]. }
      assert (HL : forall l, exists r, map_res G l = Ok r /\ length r = length l).
      { induction l as [|i l (r & IH & Hr)]; [exists []; split; reflexivity|]. destruct (HG i) as [x Hx]. cbn [map_res]. rewrite Hx, IH. cbn [bind]. exists (x :: r). split; [reflexivity|]. cbn. lia. }
      destruct (HL (seq 0 (length sigmas))) as (r & -> & Hr). cbn [bind]. rewrite seq_length in Hr. destruct r as [|a [|b r]]; cbn in Hr; try lia; reflexivity. }
    destruct (length sigmas) as [|m]; [lia|]. cbn [seq map_res]. rewrite G. reflexivity.
  - assert (Hz : is0 0 = true) by (unfold is0; destruct (Req_EM_T 0 0); [reflexivity|contradiction]). rewrite Hz, Nat.eqb_refl. cbn [orb].
    destruct (Nat.eqb_spec (length sigmas) 1); [lia|reflexivity].
Qed.
Print Assumptions C80_detectors_refuted.
Example C80_detectors_case : (2 <= length [1%R; 2%R])%nat /\ (0 < 3)%nat /\ 0 < 1 /\ 0 <= 1 /\ 4 <> 0 /\ forall d i : nat, length ((fun _ _ : nat => [1; 0; 5]) d i) = 3%nat.
Proof. split; [cbn; lia|]. split; [lia|]. repeat (split; [lra|]). reflexivity. Qed.

(** ** C81 *)
Lemma nth_part {A} (d : A) l a b i : (i < b - a)%nat -> (a + i < length l)%nat -> nth i (part_of l a b) d = nth (a + i) l d.
Proof.
  intros H H2. unfold part_of. rewrite nth_firstn_in by assumption. rewrite <- (firstn_skipn a l) at 2. rewrite app_nth2 by (rewrite firstn_length; lia).
  rewrite firstn_length. f_equal. lia.
Qed.
Lemma part_length {A} (l : list A) a b : length (part_of l a b) = Nat.min (b - a) (length l - a).
Proof. unfold part_of. now rewrite firstn_length, skipn_length. Qed.
Definition power (x : list R) (k : nat) : R :=
  (rsum (length x) (fun m => at0 x m * cos (wave (length x) m k))) ^ 2 + (rsum (length x) (fun m => at0 x m * sin (wave (length x) m k))) ^ 2.
Lemma power_list x : map (fun z => fst z ^ 2 + snd z ^ 2) (fft x) = map (power x) (seq 0 (length x)).
Proof. unfold fft. rewrite map_map. apply map_ext. intros k. cbn [fst snd]. unfold power. ring. Qed.
Lemma add_last_at l x k : (k < length l)%nat -> at0 (add_last l x) k = if (k =? length l - 1)%nat then at0 l k + x else at0 l k.
Proof.
  intros H. destruct l as [|a l] using rev_ind; [cbn in H; lia|]. clear IHl. unfold add_last. rewrite rev_app_distr. cbn [rev app].
  rewrite rev_involutive. rewrite app_length in *. cbn [length] in *. replace (length l + 1 - 1)%nat with (length l) by lia. unfold at0.
  destruct (Nat.eqb_spec k (length l)) as [->|Hne].
  - rewrite !app_nth2 by lia. rewrite Nat.sub_diag. reflexivity.
  - rewrite !app_nth1 by lia. reflexivity.
Qed.
Lemma add_last_length l x : length (add_last l x) = length l.
Proof.
  destruct l as [|a l] using rev_ind; [reflexivity|]. clear IHl. unfold add_last. rewrite rev_app_distr. cbn [rev app]. rewrite rev_involutive, !app_length. reflexivity.
Qed.
Lemma periodogram_eq x fs : (2 <= length x)%nat -> exists f p, sampling2psd x fs = Ok (f, p) /\
  f = add_last (firstn (length x / 2 + 1) (fftfreq (length x) (1 / fs))) fs /\ length p = (length x / 2 + 1)%nat /\
  forall k, (k <= length x / 2)%nat -> at0 p k = (if (k =? 0)%nat then 0 else if (k =? length x / 2)%nat then power x k else 2 * power x k) / (INR (length x) * fs).
Proof.
  intros Hn. set (n := length x) in *. assert (H1 : (1 <= n / 2)%nat) by (apply Nat.div_le_lower_bound; lia).
  assert (H2 : (n / 2 < n)%nat) by (apply Nat.div_lt; lia).
  unfold sampling2psd. fold n. destruct (Nat.eqb_spec n 0); [lia|]. rewrite power_list. fold n. unfold item_at at 1.
  rewrite nth_error_at0 by (rewrite map_length, seq_length; lia). cbn [bind]. rewrite at0_tab by lia. eexists. eexists. split; [reflexivity|]. split; [reflexivity|].
  set (mid := map (fun p => 2 * p) (part_of (map (power x) (seq 0 n)) 1 (n / 2))).
  assert (Hmid : length mid = (n / 2 - 1)%nat) by (unfold mid; rewrite map_length, part_length, map_length, seq_length; lia).
  split; [rewrite map_length; cbn [length]; rewrite app_length, Hmid; cbn [length]; lia|].
  intros k Hk. rewrite at0_map by (cbn [length]; rewrite app_length, Hmid; cbn [length]; lia). f_equal. unfold at0.
  destruct k as [|k]; [reflexivity|]. cbn [nth]. replace (S k =? 0)%nat with false by reflexivity. destruct (Nat.eqb_spec (S k) (n / 2)) as [E|E].
  - rewrite app_nth2 by lia. replace (k - length mid)%nat with 0%nat by lia. cbn [nth]. now rewrite E.
  - rewrite app_nth1 by lia. unfold mid. rewrite (nth_map_in _ _ k 0 0) by (rewrite part_length, map_length, seq_length; lia).
    rewrite nth_part by (rewrite ?map_length, ?seq_length; lia). rewrite nth_tab by lia. reflexivity.
Qed.
Lemma power_sym x k : (1 <= k < length x)%nat -> power x (length x - k) = power x k.
Proof.
  intros H. unfold power. set (n := length x) in *.
  rewrite (rsum_ext n (fun m => at0 x m * cos (wave n m (n - k))) (fun m => at0 x m * cos (wave n m k))).
  2:{ intros m Hm. rewrite !wave_tw, (Z.mul_comm _ (Z.of_nat (n - k))), cos_far by lia. now rewrite (Z.mul_comm (Z.of_nat k)). }
  rewrite (rsum_ext n (fun m => at0 x m * sin (wave n m (n - k))) (fun m => -1 * (at0 x m * sin (wave n m k)))).
  2:{ intros m Hm. rewrite !wave_tw, (Z.mul_comm _ (Z.of_nat (n - k))), sin_far by lia. rewrite (Z.mul_comm (Z.of_nat k)). ring. }
  rewrite rsum_scal. ring.
Qed.
Lemma power_0 x : power x 0 = (rsum (length x) (at0 x)) ^ 2.
Proof.
  unfold power. rewrite (rsum_ext _ (fun m => at0 x m * cos _) (at0 x)).
  2:{ intros m Hm. rewrite wave_tw. cbn [Z.of_nat]. rewrite Z.mul_0_r, cos_tw_0. ring. }
  rewrite (rsum_zero _ (fun m => at0 x m * sin _)); [ring|]. intros m Hm. rewrite wave_tw. cbn [Z.of_nat]. rewrite Z.mul_0_r.
  unfold tw, Rdiv. rewrite Rmult_0_r, Rmult_0_l, sin_0. ring.
Qed.
Lemma power_total x : (0 < length x)%nat -> rsum (length x) (power x) = INR (length x) * rsum (length x) (fun m => at0 x m ^ 2).
Proof.
  intros H. rewrite <- (power_spectrum (length x) x eq_refl H). apply rsum_ext. intros k Hk. unfold power. f_equal; f_equal; apply rsum_ext; intros; now rewrite wave_tw.
Qed.
Lemma sum_over_last a b f : (a <= b)%nat -> sum_over a (b + 1) f = sum_over a b f + f b.
Proof. intros H. rewrite !sum_over_rsum. replace (b + 1 - a)%nat with (S (b - a)) by lia. cbn [rsum]. do 2 f_equal. lia. Qed.
Lemma sum_over_scal a b c f : sum_over a b (fun j => c * f j) = c * sum_over a b f.
Proof. rewrite !sum_over_rsum. apply rsum_scal. Qed.

(** An even number of samples: the frequencies are the multiples of the increment up to half
    of the sampling frequency, and the total power is the variance of the samples. *)
Theorem C81_periodogram_partial : forall x fs, Nat.even (length x) = true -> (2 <= length x)%nat -> 0 < fs ->
  let n := length x in
  exists f p, sampling2psd x fs = Ok (f, p) /\ length f = (n / 2 + 1)%nat /\ length p = (n / 2 + 1)%nat /\
    (forall k, (k <= n / 2)%nat -> item f k = INR k * fs / INR n) /\ item f (n / 2) = fs / 2 /\
    (forall k, 0 <= item p k) /\ item p 0 = 0 /\
    sum_over 0 (n / 2 + 1) (fun k => item p k * (fs / INR n)) = variance x.
Proof.
  intros x fs He Hn Hfs n. destruct (periodogram_eq x fs Hn) as (f & p & E & Ef & Hp & Hpk). fold n in Ef, Hp, Hpk, Hn, He.
  assert (HN : 0 < INR n) by (apply INR_pos; lia). destruct (even_split n He Hn) as [h Hh].
  assert (Hh2 : (n / 2 = S h)%nat) by (rewrite Hh, Nat.mul_comm, Nat.div_mul by lia; reflexivity).
  assert (Hfl : length (firstn (n / 2 + 1) (fftfreq n (1 / fs))) = (n / 2 + 1)%nat) by (unfold fftfreq; rewrite firstn_length, map_length, seq_length; lia).
  assert (Hfk : forall k, (k <= n / 2)%nat -> item f k = INR k * fs / INR n).
  { intros k Hk. subst f. change item with at0. rewrite add_last_at by lia. rewrite Hfl. unfold at0. rewrite !nth_firstn_in by lia.
    change (nth k (fftfreq n (1 / fs)) 0) with (at0 (fftfreq n (1 / fs)) k). unfold fftfreq. rewrite at0_tab by lia.
    assert (Hd : ((n - 1) / 2 + 1 = S h)%nat).
    { pose proof (Nat.div_mod (n - 1) 2 ltac:(lia)). pose proof (Nat.mod_upper_bound (n - 1) 2 ltac:(lia)). lia. }
    rewrite Hd. destruct (Nat.ltb_spec k (S h)); destruct (Nat.eqb_spec k (n / 2 + 1 - 1)); try lia; field; lra. }
  exists f, p. split; [exact E|]. split; [subst f; now rewrite add_last_length|]. split; [exact Hp|]. split; [exact Hfk|].
  split.
  { rewrite Hfk by lia. rewrite Hh2. assert (INR n = 2 * INR (S h)) by (rewrite Hh, mult_INR; reflexivity). assert (0 < INR (S h)) by (apply INR_pos; lia). rewrite H. field. lra. }
  assert (Hd : 0 < INR n * fs) by (apply Rmult_lt_0_compat; assumption).
  assert (Hpow : forall k, 0 <= power x k) by (intros; unfold power; apply Rplus_le_le_0_compat; apply pow2_ge_0).
  split.
  { intros k. destruct (le_lt_dec k (n / 2)) as [Hk|Hk]; [|unfold item; rewrite nth_overflow by lia; lra]. change item with at0. rewrite Hpk by assumption.
    apply Rmult_le_pos; [|apply Rlt_le, Rinv_0_lt_compat; assumption]. specialize (Hpow k). destruct (k =? 0)%nat, (k =? n / 2)%nat; lra. }
  split; [change item with at0; rewrite Hpk by lia; cbn [Nat.eqb]; unfold Rdiv; ring|].
  assert (Hsum : sum_over 1 n (power x) = sum_over 1 (n / 2) (fun k => 2 * power x k) + power x (n / 2)).
  { rewrite fold_sum by assumption. f_equal. apply sum_over_ext. intros j Hj. assert (Hj' : (1 <= j < length x)%nat) by (fold n; lia). pose proof (power_sym x j Hj') as Hps. fold n in Hps. rewrite Hps. ring. }
  assert (Htot : rsum n (power x) = power x 0 + sum_over 1 n (power x)).
  { rewrite sum_over_rsum. destruct n as [|n']; [lia|]. rewrite rsum_first. replace (S n' - 1)%nat with n' by lia. reflexivity. }
  pose proof (power_total x ltac:(fold n; lia)) as Hpt. fold n in Hpt. rewrite Htot, Hsum, power_0 in Hpt. fold n in Hpt.
  rewrite sum_over_last by lia. rewrite sum_over_rsum, Nat.sub_0_r. rewrite Hh2 at 1. rewrite rsum_first.
  rewrite (rsum_ext h _ (fun k => / (INR n) ^ 2 * (2 * power x (1 + k)))).
  2:{ intros k Hk. cbn [Nat.add]. change item with at0. rewrite Hpk by lia. replace (S k =? 0)%nat with false by reflexivity. destruct (Nat.eqb_spec (S k) (n / 2)); [lia|]. field. lra. }
  rewrite rsum_scal. rewrite sum_over_rsum in Hpt. replace (n / 2 - 1)%nat with h in Hpt by lia.
  cbn [Nat.add] in *. change item with at0. rewrite !Hpk by lia. rewrite !Nat.eqb_refl. destruct (Nat.eqb_spec (n / 2) 0); [lia|].
  unfold variance. fold n. rewrite !sum_over_0. change item with at0.
  transitivity (/ INR n ^ 2 * (rsum h (fun k => 2 * power x (S k)) + power x (n / 2))); [field; lra|].
  transitivity (/ INR n ^ 2 * (INR n * rsum n (fun m => at0 x m ^ 2) - rsum n (at0 x) ^ 2)); [|field; lra]. f_equal. rewrite <- Hpt. ring.
Qed.
Print Assumptions C81_periodogram_partial.
Example C81_periodogram_case : Nat.even (length [3%R; 1%R]) = true /\ (2 <= length [3%R; 1%R])%nat /\ 0 < 4 /\ variance [3; 1] = 1.
Proof. split; [reflexivity|]. split; [cbn; lia|]. split; [lra|]. unfold variance, sum_over, item. cbn. field. Qed.
(** An odd number of samples: the last frequency is above the sampling frequency. *)
Theorem C81_odd_refuted : forall x fs, Nat.odd (length x) = true -> (3 <= length x)%nat -> 0 < fs ->
  exists f p, sampling2psd x fs = Ok (f, p) /\ item f (length x / 2) = INR (length x / 2) * fs / INR (length x) + fs /\ fs < item f (length x / 2).
Proof.
  intros x fs Ho Hn Hfs. destruct (periodogram_eq x fs ltac:(lia)) as (f & p & E & Ef & _). set (n := length x) in *.
  exists f, p. split; [exact E|]. assert (HN : 0 < INR n) by (apply INR_pos; lia). apply Nat.odd_spec in Ho. destruct Ho as [h Hh].
  assert (Hd : (n / 2 = h)%nat) by (rewrite Hh, Nat.mul_comm; symmetry; apply (Nat.div_unique (h * 2 + 1) 2 h 1); lia).
  assert (Hd1 : ((n - 1) / 2 = h)%nat) by (rewrite Hh, Nat.add_sub, Nat.mul_comm; apply Nat.div_mul; lia).
  assert (Hl : length (firstn (h + 1) (fftfreq n (1 / fs))) = (h + 1)%nat) by (unfold fftfreq; rewrite firstn_length, map_length, seq_length; lia).
  assert (G : item f (n / 2) = INR (n / 2) * fs / INR n + fs).
  { rewrite Hd in *. subst f. change item with at0. rewrite add_last_at by lia. rewrite Hl. destruct (Nat.eqb_spec h (h + 1 - 1)); [|lia].
    f_equal. unfold at0. rewrite nth_firstn_in by lia. change (nth h (fftfreq n (1 / fs)) 0) with (at0 (fftfreq n (1 / fs)) h). unfold fftfreq. rewrite at0_tab by lia.
    rewrite Hd1. destruct (Nat.ltb_spec h (h + 1)); [|lia]. field. lra. }
  split; [exact G|]. rewrite G. assert (0 < INR (n / 2) * fs / INR n); [|lra]. apply Rdiv_lt_0_compat; [|assumption]. apply Rmult_lt_0_compat; [apply INR_pos; lia|assumption].
Qed.
Print Assumptions C81_odd_refuted.
Example C81_odd_case : Nat.odd (length [3%R; 1%R; 2%R]) = true /\ (3 <= length [3%R; 1%R; 2%R])%nat /\ 0 < 4.
Proof. split; [reflexivity|]. split; [cbn; lia|lra]. Qed.
(** ... and the total power is not the variance. *)
Theorem C81_odd_power_refuted : exists x fs f p, Nat.odd (length x) = true /\ 0 < fs /\ sampling2psd x fs = Ok (f, p) /\
  sum_over 0 (length x / 2 + 1) (fun k => item p k * (fs / INR (length x))) <> variance x.
Proof.
  exists [1; 0; 0], 1. destruct (periodogram_eq [1; 0; 0] 1) as (f & p & E & _ & _ & Hp); [cbn; lia|]. exists f, p. split; [reflexivity|]. split; [lra|]. split; [exact E|].
  cbn [length] in *. change (3 / 2)%nat with 1%nat in *. change (1 + 1)%nat with 2%nat. unfold sum_over. cbn [seq map Nat.sub fold_right]. change item with at0. rewrite (Hp 0%nat), (Hp 1%nat) by lia. cbn [Nat.eqb].
  assert (Hpow : power [1; 0; 0] 1 = 1).
  { unfold power, wave, at0. cbn [length rsum nth]. cbn [INR]. replace (2 * PI * (0 * 1) / (1 + 1 + 1)) with 0 by (unfold Rdiv; ring). rewrite cos_0, sin_0. ring. }
  rewrite Hpow. unfold variance, sum_over, item. cbn [length seq map Nat.sub fold_right nth INR]. intros H. apply (Rmult_eq_compat_l 9) in H. field_simplify in H. lra.
Qed.
Print Assumptions C81_odd_power_refuted.

(** The periodogram of the noise drawn from a spectrum is on average this spectrum. *)
Theorem C81_average_partial : forall n fs p E, Nat.even n = true -> (2 <= n)%nat -> 0 < fs -> length p = (n / 2 + 1)%nat -> Forall (fun x => 0 <= x) p -> white_law n E ->
  forall k, (k <= n / 2)%nat ->
    E (fun g => value (fun g => do x <- gaussian_sample n fs p false g; do fp <- sampling2psd x fs; Ok (snd fp)) k g) = if (k =? 0)%nat then 0 else item p k.
Proof.
  intros n fs p E He Hn Hfs Hp Hpos HE k Hk. assert (H1 : (1 <= n / 2)%nat) by (apply Nat.div_le_lower_bound; lia).
  assert (H2 : (n / 2 < n)%nat) by (apply Nat.div_lt; lia). assert (HN : 0 < INR n) by (apply INR_pos; lia).
  destruct (unfold_exists p) as [u Hu]; [lia|]. destruct (unfold_items p n u He Hn Hp Hu) as (Hl & Hev & Hm & Hi & _).
  assert (Hnn : forall j, 0 <= at0 u j) by (apply (unfold_nonneg p n u); auto; intros; now apply all_nonneg).
  destruct HE as [Hext Hlin]. pose proof (conj Hext Hlin : white_law n E) as HE.
  set (c := if (k =? 0)%nat then 0 else if (k =? n / 2)%nat then at0 u k / INR n else 2 * at0 u k / INR n).
  rewrite (Hext _ (fun g => rsum n (fun a => rsum n (fun b => c * cos (tw n (Z.of_nat k * Z.of_nat a - Z.of_nat k * Z.of_nat b)) * (at0 g a * at0 g b))))).
  - rewrite (law_linear n E (fun a b => c * cos (tw n (Z.of_nat k * Z.of_nat a - Z.of_nat k * Z.of_nat b))) HE).
    rewrite (rsum_ext n _ (fun _ => c)) by (intros; rewrite Z.sub_diag, cos_tw_0; ring). rewrite rsum_const. unfold c.
    destruct (Nat.eqb_spec k 0); [ring|]. change (item p k) with (at0 p k). destruct (Nat.eqb_spec k (n / 2)) as [->|].
    + rewrite Hm. field. lra.
    + rewrite <- Hi by lia. field. lra.
  - intros g Hg. unfold value. rewrite (sample_one_sided n fs p u) by assumption.
    destruct (C80_spectrum n fs u g ltac:(lia) Hl Hev Hg) as (x & Ex & Hx & _ & Hsp). rewrite Ex. cbn [bind].
    destruct (periodogram_eq x fs ltac:(lia)) as (f & q & Eq & _ & _ & Hq). rewrite Eq. cbn [bind snd]. rewrite Hx in Hq. change (item q k) with (at0 q k). rewrite Hq by assumption.
    unfold c. destruct (Nat.eqb_spec k 0) as [->|Hk0].
    { unfold Rdiv. rewrite Rmult_0_l. symmetry. apply rsum_zero. intros. apply rsum_zero. intros. ring. }
    destruct (Hsp k ltac:(lia)) as [Hc Hs]. rewrite !sum_over_0 in Hc, Hs.
    assert (Ht : forall a, angle n k a 0 = tw n (Z.of_nat k * Z.of_nat a)) by (intros; rewrite angle_tw; f_equal; cbn [Z.of_nat]; ring).
    assert (Hpw : power x k = fs * at0 u k * rsum n (fun a => rsum n (fun b => cos (tw n (Z.of_nat k * Z.of_nat a - Z.of_nat k * Z.of_nat b)) * (at0 g a * at0 g b)))).
    { unfold power. rewrite Hx. rewrite (rsum_ext n (fun m => at0 x m * cos _) (fun a => item x a * cos (angle n k a 0))) by (intros; now rewrite Ht, wave_tw, Z.mul_comm).
      rewrite (rsum_ext n (fun m => at0 x m * sin _) (fun a => item x a * sin (angle n k a 0))) by (intros; now rewrite Ht, wave_tw, Z.mul_comm).
      rewrite Hc, Hs. set (A := rsum n (fun m => item g m * cos _)). set (B := rsum n (fun m => item g m * sin _)).
      transitivity ((sqrt fs * sqrt fs) * (sqrt (item u k) * sqrt (item u k)) * (A * A + B * B)); [ring|]. rewrite !sqrt_sqrt by (try apply Hnn; lra). change (item u k) with (at0 u k).
      f_equal. unfold A, B. rewrite !rsum_mult, <- rsum_plus. apply rsum_ext. intros a Ha. rewrite <- rsum_plus. apply rsum_ext. intros b Hb. rewrite !Ht, tw_sub, cos_minus. change item with at0. ring. }
    rewrite Hpw. set (T := rsum n _).
    transitivity ((if (k =? n / 2)%nat then at0 u k / INR n else 2 * at0 u k / INR n) * T).
    + destruct (k =? n / 2)%nat; field; lra.
    + unfold T. rewrite <- rsum_scal. apply rsum_ext. intros a Ha. rewrite <- rsum_scal. apply rsum_ext. intros. ring.
Qed.
Print Assumptions C81_average_partial.
Example C81_average_case : exists E, Nat.even 4 = true /\ (2 <= 4)%nat /\ 0 < 8 /\ length [9; 4; 1] = (4 / 2 + 1)%nat /\ Forall (fun x => 0 <= x) [9; 4; 1] /\ white_law 4 E /\ (1 <= 4 / 2)%nat.
Proof. exists (basis_law 4). split; [reflexivity|]. split; [lia|]. split; [lra|]. split; [reflexivity|]. split; [repeat constructor; lra|]. split; [apply basis_white; lia|]. cbn. lia. Qed.
