(** Lemmas for the rounded moments. *)
From Coq Require Import ZArith Lia Lra Reals List.
From Flocq Require Import Core.
From Verif Require Import Base BaseFacts SparseModel MedianSpec RndModel RndSpec RndProps NumModel NumFacts ClipModel RksSpec RksFacts RksProps RkmModel RkmSpec.
Import ListNotations.
Open Scope R_scope.

(** ** Sums *)
Lemma total_ext {A} (f g : A -> R) l : (forall x, In x l -> f x = g x) -> total (map f l) = total (map g l).
Proof. intros H. f_equal. now apply map_ext_in. Qed.
Lemma total_plus {A} (f g : A -> R) l : total (map (fun x => f x + g x) l) = total (map f l) + total (map g l).
Proof. induction l as [|x l IH]; [cbn; ring|]. cbn [map]. rewrite !total_cons, IH. ring. Qed.
Lemma total_scale {A} (f : A -> R) k l : total (map (fun x => k * f x) l) = k * total (map f l).
Proof. induction l as [|x l IH]; [cbn; ring|]. cbn [map]. rewrite !total_cons, IH. ring. Qed.
Lemma total_const {A} k (l : list A) : total (map (fun _ => k) l) = INR (length l) * k.
Proof. induction l as [|x l IH]; [cbn; ring|]. cbn [map]. rewrite total_cons, IH. cbn [length]. rewrite S_INR. ring. Qed.
Lemma total_id l : total (map (fun x => x) l) = total l.
Proof. now rewrite map_id. Qed.
Lemma total_pos {A} (f : A -> R) l : (forall x, 0 <= f x) -> 0 <= total (map f l).
Proof. intros H. induction l as [|x l IH]; [cbn; lra|]. cbn [map]. rewrite total_cons. pose proof (H x). lra. Qed.
Lemma weight_map_pos {A} (f : A -> R) l : (forall x, 0 <= f x) -> weight (map f l) = total (map f l).
Proof. intros H. unfold weight. rewrite map_map. apply total_ext. intros x _. apply Rabs_pos_eq, H. Qed.

(** Koenig: the squares about [m] exceed those about the mean by n (m - mean)^2. *)
Lemma squares_about l m : l <> [] ->
  total (map (fun x => (x - m) ^ 2) l) = deviations (fun r => r * r) l + size l * (m - avg l) ^ 2.
Proof.
  intros Hl. assert (N : size l <> 0).
  { unfold size. destruct l; [congruence|]. cbn [length]. apply not_0_INR. lia. }
  assert (S : total l = size l * avg l) by (unfold avg; field; exact N).
  unfold deviations. rewrite (total_ext (fun x => (x - m) ^ 2) (fun x => (x - avg l) * (x - avg l) + (2 * (avg l - m) * (x - avg l) + (avg l - m) ^ 2))).
  2:{ intros x _. ring. }
  rewrite !total_plus, total_scale, total_const.
  rewrite (total_ext (fun x => x - avg l) (fun x => x + - avg l)) by (intros; ring).
  rewrite total_plus, total_const, total_id, S. fold (size l). ring.
Qed.

Section Rounded.
Variables emin prec : Z.
Hypothesis Pp : (8 <= prec)%Z.
Let P0 : (0 < prec)%Z. Proof. lia. Qed.
Notation F := (generic_format radix2 (FLT_exp emin prec)).
Notation rn := (rndp emin prec).
Notation o := (fp_ops emin prec).
Notation u := (unit_of prec).
Notation eta := (tiny_of emin).

Lemma rn_error x : Rabs (rn x - x) <= u * Rabs x + eta.
Proof. pose proof (mul_error emin prec P0 x 1) as H. rewrite Rmult_1_r in H. exact H. Qed.

Lemma sub_error a b : F a -> F b -> Rabs (rn (a - b) - (a - b)) <= u * Rabs (a - b).
Proof. intros Fa Fb. apply (add_error emin prec P0 a (- b) Fa (format_opp emin prec b Fb)). Qed.

(** A number within [d] of [e], divided and rounded. *)
Lemma quotient_error q e d k : 0 < k -> Rabs (q - e) <= d ->
  Rabs (rn (q / k) - e / k) <= u * (Rabs e / k) + (1 + u) * (d / k) + eta.
Proof.
  intros Hk Hd. pose proof (rn_error (q / k)) as R1. pose proof (u_pos prec) as U.
  assert (K : 0 < / k) by (apply Rinv_0_lt_compat, Hk).
  assert (D : Rabs (q / k - e / k) <= d / k).
  { unfold Rdiv. rewrite <- Rmult_minus_distr_r, Rabs_mult, (Rabs_pos_eq (/ k)) by lra. apply Rmult_le_compat_r; lra. }
  assert (Q : Rabs (q / k) <= Rabs e / k + d / k).
  { replace (q / k) with (e / k + (q / k - e / k)) by ring. eapply Rle_trans; [apply Rabs_triang|].
    assert (Rabs (e / k) = Rabs e / k) by (unfold Rdiv; rewrite Rabs_mult, (Rabs_pos_eq (/ k)); lra). lra. }
  replace (rn (q / k) - e / k) with ((rn (q / k) - q / k) + (q / k - e / k)) by ring.
  eapply Rle_trans; [apply Rabs_triang|].
  assert (u * Rabs (q / k) <= u * (Rabs e / k + d / k)) by (apply Rmult_le_compat_l; lra). lra.
Qed.

(** Squares of rounded residuals. *)
Lemma residual_near x m : F x -> F m -> near u 0 (rn (x - m)) (x - m).
Proof. intros Fx Fm. unfold near. rewrite Rplus_0_r. apply sub_error; auto. Qed.

Lemma square_near x m : F x -> F m -> near ((1 + u) ^ 3 - 1) eta (square emin prec (rn (x - m))) ((x - m) ^ 2).
Proof.
  intros Fx Fm. pose proof (sub_error x m Fx Fm) as H. pose proof (u_pos prec) as U. pose proof (eta_pos emin) as E0.
  unfold near, square. set (r := rn (x - m)) in *. set (d := x - m) in *.
  pose proof (mul_error emin prec P0 r r) as M.
  rewrite (Rabs_pos_eq (d ^ 2)) by apply pow2_ge_0. rewrite (Rabs_pos_eq (r * r)) in M by nra.
  assert (A : Rabs r <= (1 + u) * Rabs d).
  { replace r with (d + (r - d)) by ring. eapply Rle_trans; [apply Rabs_triang|]. lra. }
  pose proof (Rabs_pos d) as D0. pose proof (Rabs_pos r) as R0.
  assert (R2 : r * r <= (1 + u) ^ 2 * d ^ 2).
  { replace (r * r) with (Rabs r * Rabs r) by (rewrite <- Rabs_mult; apply Rabs_pos_eq; nra).
    replace (d ^ 2) with (Rabs d * Rabs d) by (rewrite <- Rabs_mult; replace (d * d) with (d ^ 2) by ring; apply Rabs_pos_eq, pow2_ge_0).
    replace ((1 + u) ^ 2 * (Rabs d * Rabs d)) with (((1 + u) * Rabs d) * ((1 + u) * Rabs d)) by ring.
    apply Rmult_le_compat; lra. }
  assert (RD : Rabs (r * r - d ^ 2) <= ((1 + u) ^ 2 - 1) * d ^ 2).
  { replace (r * r - d ^ 2) with ((r - d) * (r + d)) by ring. rewrite Rabs_mult.
    assert (P : Rabs (r + d) <= (2 + u) * Rabs d) by (eapply Rle_trans; [apply Rabs_triang|]; lra).
    replace (((1 + u) ^ 2 - 1) * d ^ 2) with ((u * Rabs d) * ((2 + u) * Rabs d)).
    2:{ replace (d ^ 2) with (Rabs d * Rabs d) by (rewrite <- Rabs_mult; replace (d * d) with (d ^ 2) by ring; apply Rabs_pos_eq, pow2_ge_0). ring. }
    apply Rmult_le_compat; try apply Rabs_pos; lra. }
  replace (rn (r * r) - d ^ 2) with ((rn (r * r) - r * r) + (r * r - d ^ 2)) by ring.
  eapply Rle_trans; [apply Rabs_triang|].
  assert (u * (r * r) <= u * ((1 + u) ^ 2 * d ^ 2)) by (apply Rmult_le_compat_l; lra).
  replace (((1 + u) ^ 3 - 1) * d ^ 2) with (u * ((1 + u) ^ 2 * d ^ 2) + ((1 + u) ^ 2 - 1) * d ^ 2) by ring. lra.
Qed.

(** Absolute values of rounded residuals, compared with those about [mu]. *)
Lemma abs_near x m mu D : F x -> F m -> Rabs (m - mu) <= D ->
  near u ((1 + u) * D) (Rabs (rn (x - m))) (Rabs (x - mu)).
Proof.
  intros Fx Fm Hm. pose proof (sub_error x m Fx Fm) as H. pose proof (u_pos prec) as U.
  unfold near. rewrite Rabs_Rabsolu.
  assert (A : Rabs (x - m) <= Rabs (x - mu) + D).
  { replace (x - m) with ((x - mu) + - (m - mu)) by ring. eapply Rle_trans; [apply Rabs_triang|]. rewrite Rabs_Ropp. lra. }
  eapply Rle_trans; [apply Rabs_triang_inv2|].
  replace (rn (x - m) - (x - mu)) with ((rn (x - m) - (x - m)) + - (m - mu)) by ring.
  eapply Rle_trans; [apply Rabs_triang|]. rewrite Rabs_Ropp.
  assert (u * Rabs (x - m) <= u * (Rabs (x - mu) + D)) by (apply Rmult_le_compat_l; lra). lra.
Qed.

(** ** The moments of a list *)
Section List.
Variable l : list R.
Hypothesis Fl : Forall F l.
Hypothesis Hn : (Z.of_nat (length l) <= 2 ^ prec)%Z.
Hypothesis Hl : l <> [].
Let S (t : list R) : R := fst (sum_kahan o (kadd o) t).
Let m := rn (S l / size l).
Let g := 1 + compensated_rate prec (length l).

Lemma size_pos : 1 <= size l.
Proof. unfold size. destruct l; [congruence|]. cbn [length]. rewrite S_INR. pose proof (pos_INR (length l0)). lra. Qed.
Lemma g_one : 1 <= g.
Proof. unfold g. pose proof (rate_pos prec Pp (length l)). lra. Qed.

Lemma mean_ok : F m /\ Rabs (m - avg l) <= mean_bound emin prec l.
Proof.
  pose proof size_pos as N. pose proof (u_pos prec) as U. split; [apply format_round, P0|].
  destruct (kahan_rate emin prec Pp l Hn Fl) as [_ E]. fold (S l) in E.
  eapply Rle_trans; [apply (quotient_error _ _ _ (size l)) with (2 := E); lra|].
  pose proof (total_weight l) as T. pose proof (weight_pos l) as W.
  assert (T' : Rabs (total l) / size l <= weight l / size l).
  { apply Rmult_le_compat_r; [apply Rlt_le, Rinv_0_lt_compat; lra|exact T]. }
  unfold mean_bound. fold g. assert (u * (Rabs (total l) / size l) <= u * (weight l / size l)) by (apply Rmult_le_compat_l; lra).
  replace (compensated_rate prec (length l)) with (g - 1) by (unfold g; ring).
  replace ((g * (1 + u) - 1) * (weight l / size l)) with (u * (weight l / size l) + (1 + u) * ((g - 1) * weight l / size l)) by (unfold Rdiv; ring).
  lra.
Qed.

Lemma mean_bound_pos : 0 <= mean_bound emin prec l.
Proof. destruct mean_ok as [_ H]. pose proof (Rabs_pos (m - avg l)). lra. Qed.

Lemma meandev_ok : Rabs (rn (S (map Rabs (map (fun x => rn (x - m)) l)) / size l) - mean_deviation l) <= meandev_bound emin prec l.
Proof.
  pose proof size_pos as N. pose proof (u_pos prec) as U. destruct mean_ok as [Fm Hm]. pose proof mean_bound_pos as D0. pose proof g_one as G1.
  set (D := mean_bound emin prec l) in *. rewrite map_map.
  destruct (kahan_near emin prec Pp u ((1 + u) * D) (map (fun x => Rabs (rn (x - m))) l) (map (fun x => Rabs (x - avg l)) l)) as [_ B].
  - lra.
  - apply Rmult_le_pos; lra.
  - rewrite map_length. exact Hn.
  - apply Forall_forall. intros y Hy. apply in_map_iff in Hy. destruct Hy as [x [<- _]]. apply generic_format_abs, format_round, P0.
  - apply near_map. intros x Hx. apply abs_near; [|exact Fm|exact Hm]. rewrite Forall_forall in Fl. auto.
  - rewrite map_length, (weight_map_pos (fun x => Rabs (x - avg l))) in B by (intros; apply Rabs_pos).
    fold (S (map (fun x => Rabs (rn (x - m))) l)) in B. fold (deviations Rabs l) in B. fold g (size l) in B.
    eapply Rle_trans; [apply (quotient_error _ _ _ (size l)) with (2 := B); lra|].
    unfold meandev_bound. fold g D. unfold mean_deviation.
    assert (P : 0 <= deviations Rabs l) by (apply total_pos; intros; apply Rabs_pos).
    rewrite (Rabs_pos_eq (deviations Rabs l)) by exact P. apply Req_le. field. lra.
Qed.

Lemma variance_ok : (2 <= length l)%nat ->
  Rabs (rn (S (map (square emin prec) (map (fun x => rn (x - m)) l)) / (size l - 1)) - variance l) <= variance_bound emin prec l.
Proof.
  intros L2. assert (N : 2 <= size l) by (unfold size; apply le_INR in L2; exact L2).
  pose proof (u_pos prec) as U. pose proof (eta_pos emin) as H0. destruct mean_ok as [Fm Hm]. pose proof mean_bound_pos as D0. pose proof g_one as G1.
  set (D := mean_bound emin prec l) in *. rewrite map_map.
  assert (C1 : 1 <= (1 + u) ^ 3) by (apply pow_R1_Rle; lra).
  destruct (kahan_near emin prec Pp ((1 + u) ^ 3 - 1) eta (map (fun x => square emin prec (rn (x - m))) l) (map (fun x => (x - m) ^ 2) l)) as [_ B].
  - lra.
  - lra.
  - rewrite map_length. exact Hn.
  - apply Forall_forall. intros y Hy. apply in_map_iff in Hy. destruct Hy as [x [<- _]]. apply format_round, P0.
  - apply near_map. intros x Hx. apply square_near; [|exact Fm]. rewrite Forall_forall in Fl. auto.
  - rewrite map_length, (weight_map_pos (fun x => (x - m) ^ 2)) in B by (intros; apply pow2_ge_0).
    fold (S (map (fun x => square emin prec (rn (x - m))) l)) in B. fold g (size l) in B.
    rewrite (squares_about l m Hl) in B.
    set (V := deviations (fun r => r * r) l) in *. set (X := size l * (m - avg l) ^ 2) in *.
    assert (V0 : 0 <= V) by (apply (total_pos (fun x => (x - avg l) * (x - avg l))); intros y; apply Rle_0_sqr).
    assert (X0 : 0 <= X) by (apply Rmult_le_pos; [lra|apply pow2_ge_0]).
    assert (X1 : X <= size l * D ^ 2).
    { apply Rmult_le_compat_l; [lra|]. apply pow_maj_Rabs. exact Hm. }
    replace (1 + ((1 + u) ^ 3 - 1)) with ((1 + u) ^ 3) in B by ring.
    set (k := size l - 1) in *. assert (K0 : 0 < k) by (unfold k; lra). assert (K1 : 0 < / k) by (apply Rinv_0_lt_compat, K0).
    assert (E : Rabs (rn (S (map (fun x => square emin prec (rn (x - m))) l) / k) - (V + X) / k) <=
              (g * (1 + u) ^ 4 - 1) * ((V + X) / k) + (g * (1 + u) * (size l / k) + 1) * eta).
    { eapply Rle_trans; [apply (quotient_error _ _ _ k) with (2 := B); exact K0|]. rewrite (Rabs_pos_eq (V + X)) by lra.
      apply Req_le. field. lra. }
    unfold variance_bound. fold g D k. unfold variance. fold V k.
    set (Q := rn (S (map (fun x => square emin prec (rn (x - m))) l) / k)) in *.
    replace (Q - V / k) with ((Q - (V + X) / k) + X / k) by (unfold Rdiv; ring).
    eapply Rle_trans; [apply Rabs_triang|].
    assert (Xk : X / k <= size l / k * D ^ 2).
    { replace (size l / k * D ^ 2) with (size l * D ^ 2 * / k) by (unfold Rdiv; ring). apply Rmult_le_compat_r; lra. }
    rewrite (Rabs_pos_eq (X / k)) by (apply Rmult_le_pos; lra).
    assert (C4 : 0 <= g * (1 + u) ^ 4 - 1) by (assert (1 <= (1 + u) ^ 4) by (apply pow_R1_Rle; lra); nra).
    assert ((g * (1 + u) ^ 4 - 1) * ((V + X) / k) <= (g * (1 + u) ^ 4 - 1) * (V / k + size l / k * D ^ 2)).
    { apply Rmult_le_compat_l; [exact C4|]. replace ((V + X) / k) with (V / k + X / k) by (unfold Rdiv; ring). lra. }
    lra.
Qed.
End List.

Lemma sqrt_diff a b : 0 <= a -> 0 <= b -> Rabs (sqrt a - sqrt b) <= sqrt (Rabs (a - b)).
Proof.
  assert (W : forall a b, 0 <= b -> b <= a -> sqrt a - sqrt b <= sqrt (a - b)).
  { intros x y Hy Hxy. assert (sqrt x <= sqrt (x - y) + sqrt y); [|lra].
    apply Rsqr_incr_0_var; [|pose proof (sqrt_pos (x - y)); pose proof (sqrt_pos y); lra].
    unfold Rsqr. rewrite sqrt_def by lra.
    replace ((sqrt (x - y) + sqrt y) * (sqrt (x - y) + sqrt y)) with (sqrt (x - y) * sqrt (x - y) + sqrt y * sqrt y + 2 * (sqrt (x - y) * sqrt y)) by ring.
    rewrite !sqrt_def by lra. pose proof (sqrt_pos (x - y)). pose proof (sqrt_pos y). nra. }
  intros Ha Hb. destruct (Rle_dec b a) as [H|H].
  - rewrite (Rabs_pos_eq (a - b)) by lra. rewrite Rabs_pos_eq; [apply W; auto|]. pose proof (sqrt_le_1 b a Hb Ha H). lra.
  - apply Rnot_le_lt in H. rewrite <- (Rabs_Ropp (a - b)), <- Rabs_Ropp.
    replace (- (a - b)) with (b - a) by ring. replace (- (sqrt a - sqrt b)) with (sqrt b - sqrt a) by ring.
    rewrite (Rabs_pos_eq (b - a)) by lra. rewrite Rabs_pos_eq; [apply W; lra|]. pose proof (sqrt_le_1 a b Ha Hb ltac:(lra)). lra.
Qed.
End Rounded.
