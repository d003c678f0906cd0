From Coq Require Import Reals Lra Lia Permutation.
From Coquelicot Require Import Coquelicot.
From Verif Require Import Base BaseFacts ConstModel DataModel DataSpec DataFacts.
Open Scope R_scope.

(** ** Profiles *)
Lemma profile_bins nan c bin nbins pixels threads : 0 < bin -> Permutation (concat threads) pixels -> fits c bin pixels ->
  exists r, profile_axisymmetric nan c bin nbins threads = Ok r /\ length r = nbins /\
  forall k, (k < nbins)%nat -> exists x y n, nth_error r k = Some (x, y, n) /\ n = zlen (bin_ring c bin k pixels) /\
    (n = 0%Z -> x = bin * (INR k + / 2) /\ y = nan) /\
    (n <> 0%Z -> IZR n * x = rtotal (map fst (bin_ring c bin k pixels)) /\ exists m, y = Fin m /\ IZR n * m = rtotal (map snd (bin_ring c bin k pixels))).
Proof.
  intros Hb P F. destruct (threads_ok c bin nbins Hb threads (accu0 nbins) (accu0_ok nbins)) as [b [E [_ A]]].
  { intros i j v H. apply (F i j v). now apply (Permutation_in _ P). }
  unfold profile_axisymmetric. rewrite E. cbn [bind]. eexists. split; [reflexivity|]. split; [now rewrite map_length, seq_length|].
  intros k Hk. destruct (A k Hk) as [A1 [A2 A3]]. cbn [accu0 ax ay an] in *. rewrite nth_repeat in A1, A2, A3.
  assert (Pk : Permutation (bin_ring c bin k (concat threads)) (bin_ring c bin k pixels)) by now apply ring_perm.
  assert (L : zlen (bin_ring c bin k (concat threads)) = zlen (bin_ring c bin k pixels)) by (unfold zlen; now rewrite (Permutation_length Pk)).
  rewrite (rtotal_perm _ _ (Permutation_map fst Pk)) in A1. rewrite (rtotal_perm _ _ (Permutation_map snd Pk)) in A2. rewrite L in A3.
  rewrite nth_error_map. rewrite (nth_error_nth' _ 0%nat) by now rewrite seq_length. rewrite seq_nth by exact Hk. cbn [option_map Nat.add].
  rewrite A1, A2, A3, Rplus_0_l, Rplus_0_l, Z.add_0_l. set (n := zlen (bin_ring c bin k pixels)). unfold profile_bin. destruct (Z.eqb_spec n 0) as [Z0|Z0]; cbn [negb]; do 3 eexists; (split; [reflexivity|]); (split; [reflexivity|]); split; intros H; try contradiction.
  - split; [|reflexivity]. rewrite S_INR. field.
  - assert (IZR n <> 0) by now apply not_0_IZR. split; [field; assumption|]. eexists. split; [reflexivity | field; assumption].
Qed.
Lemma nth_error_lt {A} (l : list A) k x : nth_error l k = Some x -> (k < length l)%nat.
Proof. intros H. apply nth_error_Some. congruence. Qed.
(** Sums over the bins. *)
Lemma sum_bins {B} (r : list B) (f : B -> R) (g : nat -> R) n : length r = n -> (forall k b, nth_error r k = Some b -> f b = g k) -> rtotal (map f r) = rtotal (map g (seq 0 n)).
Proof.
  intros <- H. f_equal. apply (nth_ext _ _ 0 0); [now rewrite !map_length, seq_length|]. rewrite map_length. intros k Hk.
  rewrite (nth_indep (map g (seq 0 (length r))) 0 (g 0%nat)) by now rewrite map_length, seq_length. rewrite map_nth, seq_nth by exact Hk.
  destruct (nth_error r k) as [b|] eqn:E; [|apply nth_error_None in E; lia]. rewrite (nth_indep _ 0 (f b)) by now rewrite map_length. rewrite map_nth. rewrite (nth_error_nth _ _ _ E). now apply H.
Qed.
Lemma rtotal_flat_map {B} (f : B -> list R) l : rtotal (flat_map f l) = rtotal (map (fun b => rtotal (f b)) l).
Proof. induction l as [|b l IH]; [reflexivity|]. cbn [flat_map map]. rewrite rtotal_app, IH. reflexivity. Qed.
Lemma map_flat {A B C} (g : B -> C) (f : A -> list B) l : map g (flat_map f l) = flat_map (fun a => map g (f a)) l.
Proof. induction l as [|a l IH]; [reflexivity|]. cbn. now rewrite map_app, IH. Qed.
Lemma rtotal_ones {B} (l : list B) : rtotal (map (fun _ => 1) l) = IZR (zlen l).
Proof. unfold zlen. rewrite <- INR_IZR_INZ. induction l as [|b l IH]; [reflexivity|]. cbn [map length]. rewrite S_INR. unfold rtotal in *. cbn [fold_right]. rewrite IH. ring. Qed.
Lemma disc_total c bin n (h : R * R -> R) pixels : 0 < bin -> rtotal (map h (ring c 0 (INR n * bin) pixels)) = rtotal (map (fun k => rtotal (map h (bin_ring c bin k pixels))) (seq 0 n)).
Proof. intros Hb. rewrite (rtotal_perm _ _ (Permutation_map h (disc_bins c bin pixels Hb n))). rewrite map_flat. apply rtotal_flat_map. Qed.
Lemma cumsum_nth l : forall s k, (k < length l)%nat -> nth_error (cumsum s l) k = Some (s + rtotal (firstn (S k) l)).
Proof.
  induction l as [|x l IH]; intros s k H; cbn in H; [lia|]. destruct k.
  - cbn. f_equal. unfold rtotal. cbn. ring.
  - cbn [cumsum nth_error]. rewrite IH by lia. f_equal. change (firstn (S (S k)) (x :: l)) with (x :: firstn (S k) l). unfold rtotal. cbn [fold_right]. ring.
Qed.
Lemma cumsum_length l : forall s, length (cumsum s l) = length l.
Proof. induction l; intros s; cbn; auto. Qed.

(** ** Distances *)
Lemma norm2_nonneg s : forall c i, 0 <= norm2 s c i.
Proof. induction s as [|x s IH]; intros [|y c] [|z i]; cbn; try lra. specialize (IH c i). pose proof (Rle_0_sqr (x * (IZR z - y))) as H. unfold Rsqr in H. lra. Qed.
Lemma distance_1d_ok o s i : distance_1d o s i = sqrt ((s * (IZR i - o)) * (s * (IZR i - o))).
Proof. unfold distance_1d. symmetry. apply (sqrt_Rsqr_abs (s * (IZR i - o))). Qed.
Lemma squares_ok : forall idx c s, length idx = length c -> length idx = length s -> fold_right Rplus 0 (squares (combine idx (combine c s))) = norm2 s c idx.
Proof. induction idx as [|a idx IH]; intros [|o c] [|t s] L L'; cbn in *; try discriminate; [reflexivity|]. rewrite IH by lia. reflexivity. Qed.
Lemma sum_python_ok l : sum_python l = fold_right Rplus 0 l.
Proof. unfold sum_python. apply fold_symmetric; intros; ring. Qed.

(** ** Gaussians *)
Lemma linspace_ok o sc sh k : (0 <= k < sh)%Z -> linspace (- o * sc) ((IZR sh - 1 - o) * sc) sh k = (IZR k - o) * sc.
Proof.
  intros H. unfold linspace. destruct (Z.leb_spec sh 1) as [L|L].
  - replace k with 0%Z by lia. ring.
  - rewrite minus_IZR. assert (0 < IZR sh - 1) by (apply IZR_lt in L; lra). field. lra.
Qed.
Lemma normal_exp o s x : 0 < s -> normal o s x = / (s * sqrt (2 * PI)) * exp (- (((x - o) * (1 / (sqrt 2 * s))) * ((x - o) * (1 / (sqrt 2 * s))))).
Proof.
  intros H. unfold normal. f_equal. f_equal. assert (0 < sqrt 2) by (apply sqrt_lt_R0; lra). assert (E : sqrt 2 * sqrt 2 = 2) by (apply sqrt_sqrt; lra).
  replace ((x - o) * (1 / (sqrt 2 * s)) * ((x - o) * (1 / (sqrt 2 * s)))) with ((x - o) * (x - o) / ((sqrt 2 * sqrt 2) * (s * s))) by (field; lra). rewrite E. field. lra.
Qed.
Lemma exp_fold l : forall out, fold_left (fun out a => out * exp (- (a * a))) l out = out * fold_right (fun a p => exp (- (a * a)) * p) 1 l.
Proof. induction l as [|a l IH]; intros out; cbn; [ring|]. rewrite IH. ring. Qed.
Lemma half_power n : Rpower (2 * PI) (INR n / 2) = sqrt (2 * PI) ^ n.
Proof.
  assert (P0 : 0 < 2 * PI) by (pose proof PI_RGT_0; lra). rewrite <- (Rpower_sqrt (2 * PI)) by exact P0. rewrite <- Rpower_pow by apply exp_pos. rewrite Rpower_mult. f_equal. field.
Qed.
Lemma axes_ok : forall idx shape c s, Forall2 (fun n i => (0 <= i < n)%Z) shape idx -> length c = length shape -> length s = length shape -> (forall x, In x s -> 0 < x) ->
  fold_right (fun a p => exp (- (a * a)) * p) 1 (axes_values (combine idx (combine shape (combine c s)))) * / (sqrt (2 * PI) ^ length shape * fold_right Rmult 1 s) = normals c s idx.
Proof.
  assert (P0 : 0 < sqrt (2 * PI)) by (apply sqrt_lt_R0; pose proof PI_RGT_0; lra).
  intros idx shape c s F. revert c s. induction F as [|n i shape idx Hi F IH]; intros [|o c] [|x s] Lc Ls Hs; cbn in Lc, Ls; try discriminate.
  - cbn. field.
  - cbn [combine axes_values fold_right length pow normals]. cbv zeta. rewrite linspace_ok by exact Hi. rewrite <- (IH c s) by (auto; intros y Hy; apply Hs; now right). rewrite normal_exp by (apply Hs; now left).
    assert (Hx : 0 < x) by (apply Hs; now left). assert (Hp : 0 < fold_right Rmult 1 s). { clear - Hs. induction s as [|y s IH]; cbn; [lra|]. apply Rmult_lt_0_compat; [apply Hs; right; now left | apply IH; intros z [<-|Hz]; apply Hs; [now left | right; now right]]. }
    assert (0 < sqrt (2 * PI) ^ length shape) by now apply pow_lt. field. repeat split; lra.
Qed.
Lemma prod_rev l : fold_right Rmult 1 (rev l) = fold_right Rmult 1 l.
Proof. induction l as [|x l IH]; [reflexivity|]. cbn [rev]. rewrite fold_right_app. cbn. rewrite Rmult_1_r. rewrite <- IH. clear IH. generalize (rev l). induction l0 as [|y r IH]; cbn; [ring|]. rewrite IH. ring. Qed.
Lemma gaussian_nd_ok shape c s idx : Forall2 (fun n i => (0 <= i < n)%Z) shape idx -> length c = length shape -> length s = length shape -> (forall x, In x s -> 0 < x) ->
  gaussian_nd shape c s idx = normals (rev c) (rev s) idx.
Proof.
  intros F Lc Ls Hs. unfold gaussian_nd. rewrite exp_fold, half_power. rewrite <- (axes_ok idx shape (rev c) (rev s)) by (rewrite ?rev_length; auto; intros x Hx; apply Hs; now apply in_rev).
  rewrite prod_rev. unfold Rdiv. ring.
Qed.
Lemma gaussian_2d_ok ox oy sx sy i j : 0 < sx -> 0 < sy -> gaussian_2d (ox, oy) (sx, sy) i j = normal ox sx (IZR i) * normal oy sy (IZR j).
Proof.
  intros Hx Hy. unfold gaussian_2d, normal, distance2_1d. cbn [fst snd]. rewrite atan_1. assert (P0 : 0 < PI) by apply PI_RGT_0.
  assert (E : sqrt (2 * PI) * sqrt (2 * PI) = 2 * PI) by (apply sqrt_sqrt; lra).
  replace (1 / (2 * (4 * (PI / 4)) * sx * sy)) with (/ (sx * sqrt (2 * PI)) * / (sy * sqrt (2 * PI))).
  - replace (- ((IZR i - ox) * (IZR i - ox)) / (2 * (sx * sx))) with (- (/ 2 / (sx * sx) * ((IZR i - ox) * (IZR i - ox)))) by (field; lra).
    replace (- ((IZR j - oy) * (IZR j - oy)) / (2 * (sy * sy))) with (- (/ 2 / (sy * sy) * ((IZR j - oy) * (IZR j - oy)))) by (field; lra). ring.
  - assert (0 < sqrt (2 * PI)) by (apply sqrt_lt_R0; lra). transitivity (1 / (sx * sy * (sqrt (2 * PI) * sqrt (2 * PI)))); [field; lra|]. rewrite E. field. lra.
Qed.
(** ** Full width at half maximum *)
Lemma half_max f : 0 < f -> exp (- / 2 / (fwhm2sigma f * fwhm2sigma f) * (f / 2 * (f / 2))) = / 2.
Proof.
  intros H. unfold fwhm2sigma. assert (L : 0 < ln 2) by (rewrite <- ln_1; apply ln_increasing; lra). assert (0 < sqrt (8 * ln 2)) by (apply sqrt_lt_R0; lra).
  assert (E : sqrt (8 * ln 2) * sqrt (8 * ln 2) = 8 * ln 2) by (apply sqrt_sqrt; lra).
  replace (- / 2 / (f / sqrt (8 * ln 2) * (f / sqrt (8 * ln 2))) * (f / 2 * (f / 2))) with (- (sqrt (8 * ln 2) * sqrt (8 * ln 2)) / 8) by (field; lra). rewrite E.
  replace (- (8 * ln 2) / 8) with (- ln 2) by field. rewrite exp_Ropp, exp_ln by lra. reflexivity.
Qed.
Lemma beam_integral s T : 0 < s -> is_RInt (fun t => 2 * PI * t * exp (- / 2 / (s * s) * (t * t))) 0 T (2 * PI * (s * s) * (1 - exp (- (T * T) / (2 * (s * s))))).
Proof.
  intros Hs. set (F := fun t => - (2 * PI * (s * s)) * exp (- / 2 / (s * s) * (t * t))).
  assert (D : is_RInt (fun t => 2 * PI * t * exp (- / 2 / (s * s) * (t * t))) 0 T (minus (F T) (F 0))).
  { apply (is_RInt_derive F).
    - intros x _. unfold F. auto_derive; [lra|]. field. lra.
    - intros x _. apply (ex_derive_continuous (V := R_NormedModule)). auto_derive. lra. }
  replace (2 * PI * (s * s) * (1 - exp (- (T * T) / (2 * (s * s))))) with (minus (F T) (F 0)); [exact D|].
  unfold minus, plus, opp, F. cbn. replace (- / 2 / (s * s) * (T * T)) with (- (T * T) / (2 * (s * s))) by (field; lra). replace (- / 2 / (s * s) * (0 * 0)) with 0 by (field; lra). rewrite exp_0. ring.
Qed.
