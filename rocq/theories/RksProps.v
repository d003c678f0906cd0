(** C112: the compensated sums, norms and scalar products, every operation rounded. *)
From Coq Require Import ZArith Lia Lra Reals List Permutation.
From Flocq Require Import Core.
From Verif Require Import Base BaseFacts SparseModel MedianSpec RndModel RndSpec RndProps NumModel NumSpec NumFacts RksSpec RksFacts.
Import ListNotations.
Open Scope R_scope.

Lemma formats emin prec l : Forall (representable emin prec) l -> Forall (generic_format radix2 (FLT_exp emin prec)) l.
Proof. apply Forall_impl. apply format_representable. Qed.

(** As many numbers as 2^prec, of at least eight bits: the error is one rounding of the sum,
    twice the rounding unit for the absolute values, and the number of elements intervenes
    only through the square of the unit. *)
Theorem C112_sum : forall emin prec l, (8 <= prec)%Z -> (Z.of_nat (length l) <= 2 ^ prec)%Z -> Forall (representable emin prec) l ->
  let o := fp_ops emin prec in
  Rabs (fst (sum_kahan o (kadd o) l) - total l) <= unit_of prec * Rabs (total l) + second_order prec (length l) * weight l.
Proof. intros emin prec l Pp H Fl o. apply (kahan_error emin prec Pp l H (formats emin prec l Fl)). Qed.
Print Assumptions C112_sum.

(** With a mask, the same for the elements that are not masked. *)
Theorem C112_masked : forall emin prec l m, (8 <= prec)%Z -> length l = length m -> (Z.of_nat (length l) <= 2 ^ prec)%Z ->
  Forall (representable emin prec) l ->
  let o := fp_ops emin prec in let kept := unmasked l m in
  Rabs (fst (sum_kahan_mask o (kadd o) l m) - total kept) <=
    unit_of prec * Rabs (total kept) + second_order prec (length kept) * weight kept.
Proof.
  intros emin prec l m Pp L H Fl o kept. unfold o. rewrite sum_kahan_mask_eq by exact L. fold kept.
  assert (K : (length kept <= length l)%nat /\ Forall (representable emin prec) kept).
  { unfold kept. clear -Fl. revert m. induction Fl as [|x l Hx _ IH]; intros [|b m]; cbn [unmasked]; try (split; [cbn; lia|constructor]).
    destruct (IH m) as [A B]. destruct b; cbn [length]; split; auto; lia. }
  destruct K as [K1 K2]. apply C112_sum; auto. lia.
Qed.
Print Assumptions C112_masked.

(** Two orders of the same numbers: the results differ by at most twice the bound. *)
Theorem C112_order : forall emin prec l l', (8 <= prec)%Z -> (Z.of_nat (length l) <= 2 ^ prec)%Z -> Forall (representable emin prec) l ->
  Permutation l l' ->
  let o := fp_ops emin prec in
  Rabs (fst (sum_kahan o (kadd o) l) - fst (sum_kahan o (kadd o) l')) <=
    2 * (unit_of prec * Rabs (total l) + second_order prec (length l) * weight l).
Proof.
  intros emin prec l l' Pp H Fl P o.
  assert (T : total l' = total l /\ weight l' = weight l).
  { clear -P. induction P as [|x l l' P [IH1 IH2]|x y l|l l' l'' P1 [IH1 IH2] P2 [IH3 IH4]];
      rewrite ?total_cons, ?weight_cons, ?IH1, ?IH2; split; try reflexivity; try lra; congruence. }
  destruct T as [T W]. pose proof (C112_sum emin prec l Pp H Fl) as A.
  pose proof (C112_sum emin prec l' Pp) as B. rewrite <- (Permutation_length P), T, W in B.
  specialize (B H). cbv zeta in A, B. fold o in A, B.
  assert (Fl' : Forall (representable emin prec) l') by (eapply Permutation_Forall; eauto). specialize (B Fl').
  replace (fst (sum_kahan o (kadd o) l) - fst (sum_kahan o (kadd o) l')) with
    ((fst (sum_kahan o (kadd o) l) - total l) + - (fst (sum_kahan o (kadd o) l') - total l)) by ring.
  eapply Rle_trans; [apply Rabs_triang|]. rewrite Rabs_Ropp. lra.
Qed.
Print Assumptions C112_order.

(** Several dimensions: the relative errors are composed. *)
Lemma concat_total (cols : list (list R)) : total (concat cols) = total (map total cols).
Proof.
  induction cols as [|c cols IH]; [reflexivity|]. cbn [concat map]. rewrite total_cons, <- IH.
  induction c as [|x c IHc]; [cbn [app]; change (total []) with 0; ring|]. cbn [app]. rewrite !total_cons, IHc. ring.
Qed.
Lemma concat_weight (cols : list (list R)) : weight (concat cols) = total (map weight cols).
Proof.
  unfold weight. rewrite concat_map, concat_total, map_map. reflexivity.
Qed.

(** Sums of sums, each within [a] of its own. *)
Lemma nested_rate emin prec : (8 <= prec)%Z -> forall a (groups : list (list R)) (sums : list R), 0 <= a ->
  (Z.of_nat (length groups) <= 2 ^ prec)%Z ->
  Forall2 (fun s g => generic_format radix2 (FLT_exp emin prec) s /\ Rabs (s - total g) <= a * weight g) sums groups ->
  generic_format radix2 (FLT_exp emin prec) (fst (sum_kahan (fp_ops emin prec) (kadd (fp_ops emin prec)) sums)) /\
  Rabs (fst (sum_kahan (fp_ops emin prec) (kadd (fp_ops emin prec)) sums) - total (concat groups)) <=
    ((1 + a) * (1 + compensated_rate prec (length groups)) - 1) * weight (concat groups).
Proof.
  intros Pp a groups sums Ha H F2.
  assert (L : length sums = length groups) by (clear -F2; induction F2; cbn; congruence).
  assert (Ff : Forall (generic_format radix2 (FLT_exp emin prec)) sums) by (clear -F2; induction F2; constructor; tauto).
  destruct (kahan_rate emin prec Pp sums) as [A B]; [rewrite L; exact H|exact Ff|]. split; [exact A|]. rewrite L in B.
  assert (C : Rabs (total sums - total (concat groups)) <= a * weight (concat groups) /\ weight sums <= (1 + a) * weight (concat groups)).
  { rewrite concat_total, concat_weight. clear -F2 Ha. induction F2 as [|s g sums groups [_ H] _ [IH1 IH2]].
    - cbn. rewrite Rminus_0_r, Rabs_R0. lra.
    - cbn [map]. rewrite !total_cons, weight_cons. split.
      + replace (s + total sums - (total g + total (map total groups))) with ((s - total g) + (total sums - total (map total groups))) by ring.
        eapply Rle_trans; [apply Rabs_triang|]. lra.
      + assert (Rabs s <= Rabs (total g) + Rabs (s - total g)).
        { replace s with (total g + (s - total g)) at 1 by ring. apply Rabs_triang. }
        pose proof (total_weight g). lra. }
  destruct C as [C D]. pose proof (rate_pos prec Pp (length groups)) as R0. set (S := fst _) in *.
  replace (S - total (concat groups)) with ((S - total sums) + (total sums - total (concat groups))) by ring.
  eapply Rle_trans; [apply Rabs_triang|].
  assert (compensated_rate prec (length groups) * weight sums <= compensated_rate prec (length groups) * ((1 + a) * weight (concat groups)))
    by (apply Rmult_le_compat_l; lra).
  lra.
Qed.

Lemma columns_ok emin prec : (8 <= prec)%Z -> forall m (cols : list (list R)), (Z.of_nat m <= 2 ^ prec)%Z ->
  Forall (fun c => (length c <= m)%nat /\ Forall (representable emin prec) c) cols ->
  Forall2 (fun s g => generic_format radix2 (FLT_exp emin prec) s /\ Rabs (s - total g) <= compensated_rate prec m * weight g)
    (map (fun c => fst (sum_kahan (fp_ops emin prec) (kadd (fp_ops emin prec)) c)) cols) cols.
Proof.
  intros Pp m cols Hm Fc. induction Fc as [|c cols [Hc Rc] _ IH]; constructor; [|exact IH].
  destruct (kahan_rate emin prec Pp c) as [A B]; [lia|apply formats, Rc|]. split; [exact A|].
  eapply Rle_trans; [exact B|]. apply Rmult_le_compat_r; [apply weight_pos|apply rate_mono, Hc].
Qed.

Theorem C112_dimensions : forall emin prec, (8 <= prec)%Z -> let o := fp_ops emin prec in
  (forall m (cols : list (list R)), (Z.of_nat m <= 2 ^ prec)%Z -> (Z.of_nat (length cols) <= 2 ^ prec)%Z ->
    Forall (fun c => (length c <= m)%nat /\ Forall (representable emin prec) c) cols ->
    Rabs (fst (sum_kahan_2d o (kadd o) cols) - total (concat cols)) <=
      ((1 + compensated_rate prec m) * (1 + compensated_rate prec (length cols)) - 1) * weight (concat cols)) /\
  (forall m n (planes : list (list (list R))), (Z.of_nat m <= 2 ^ prec)%Z -> (Z.of_nat n <= 2 ^ prec)%Z -> (Z.of_nat (length planes) <= 2 ^ prec)%Z ->
    Forall (fun p => (length p <= n)%nat /\ Forall (fun c => (length c <= m)%nat /\ Forall (representable emin prec) c) p) planes ->
    Rabs (fst (sum_kahan_3d o (kadd o) planes) - total (concat (map (@concat R) planes))) <=
      ((1 + compensated_rate prec m) * (1 + compensated_rate prec n) * (1 + compensated_rate prec (length planes)) - 1) *
      weight (concat (map (@concat R) planes))).
Proof.
  intros emin prec Pp o. split.
  - intros m cols Hm Hn Fc. unfold sum_kahan_2d.
    apply (nested_rate emin prec Pp _ cols _ (rate_pos prec Pp m) Hn (columns_ok emin prec Pp m cols Hm Fc)).
  - intros m n planes Hm Hn Hp Fp. unfold sum_kahan_3d.
    set (a := (1 + compensated_rate prec m) * (1 + compensated_rate prec n) - 1).
    pose proof (rate_pos prec Pp m) as Rm. pose proof (rate_pos prec Pp n) as Rn.
    assert (A0 : 0 <= a) by (unfold a; nra).
    pose proof (nested_rate emin prec Pp a (map (@concat R) planes) (map (fun p => fst (sum_kahan_2d o (kadd o) p)) planes) A0) as N.
    rewrite map_length in N. specialize (N Hp). replace ((1 + compensated_rate prec m) * (1 + compensated_rate prec n)) with (1 + a) by (unfold a; ring).
    apply N. clear N Hp. induction Fp as [|p planes [Lp Fc] _ IH]; constructor; [|exact IH].
    destruct (nested_rate emin prec Pp _ p _ Rm ltac:(lia) (columns_ok emin prec Pp m p Hm Fc)) as [A B].
    split; [exact A|]. eapply Rle_trans; [exact B|]. apply Rmult_le_compat_r; [apply weight_pos|]. unfold a.
    pose proof (rate_mono prec (length p) n Lp).
    assert ((1 + compensated_rate prec m) * (1 + compensated_rate prec (length p)) <= (1 + compensated_rate prec m) * (1 + compensated_rate prec n))
      by (apply Rmult_le_compat_l; lra).
    lra.
Qed.
Print Assumptions C112_dimensions.

(** ** Norms and scalar product *)
Section Terms.
Variables emin prec : Z.
Hypothesis Pp : (8 <= prec)%Z.
Let P0 : (0 < prec)%Z. Proof. lia. Qed.
Notation F := (generic_format radix2 (FLT_exp emin prec)).
Notation rn := (rndp emin prec).
Notation o := (fp_ops emin prec).
Notation u := (unit_of prec).
Notation eta := (tiny_of emin).

Lemma product_near a b : near u eta (rn (a * b)) (a * b).
Proof. apply mul_error, P0. Qed.

Definition ltb_R (a b : R) : bool := if Rlt_dec a b then true else false.

Lemma double_exact x : F x -> rn (2 * x) = 2 * x.
Proof.
  intros Fx. apply round_generic; [apply valid_rnd_N|]. apply generic_format_FLT. apply FLT_format_generic in Fx; [|exact P0].
  destruct Fx as [[m e] E H1 H2]. cbn in *. exists (Float radix2 m (e + 1)); cbn; [|exact H1|lia].
  rewrite E. unfold F2R. cbn [Fnum Fexp]. rewrite bpow_plus. change (bpow radix2 1) with 2. ring.
Qed.

Hypothesis Pe : (emin <= 0)%Z.

Lemma huber_near delta x : F delta -> 0 <= delta ->
  F (huber o Rabs ltb_R delta x) /\ near (4 * u + 3 * u ^ 2) (3 * eta) (huber o Rabs ltb_R delta x) (huber_of delta x).
Proof.
  intros Fd Hd. pose proof (u_small prec Pp) as [U0 U1]. pose proof (eta_pos emin) as H0.
  unfold huber, huber_of. cbn [kmul kadd kopp k1 fp_ops]. unfold ltb_R. destruct (Rlt_dec (Rabs x) delta) as [Lt|Ge].
  - split; [apply format_round, P0|]. unfold near. replace (x ^ 2) with (x * x) by ring.
    eapply Rle_trans; [apply (mul_error emin prec P0)|]. pose proof (Rabs_pos (x * x)). nra.
  - apply Rnot_lt_le in Ge. split; [apply format_round, P0|].
    assert (R2 : rn (1 + 1) = 2).
    { replace (1 + 1) with (2 * 1) by ring. rewrite double_exact; [ring|]. apply generic_format_FLT.
      exists (Float radix2 1 0); cbn [Fnum Fexp]; [unfold F2R; cbn; ring|change (1 < 2 ^ prec)%Z; apply Z.pow_gt_1; lia|exact Pe]. }
    rewrite R2, double_exact by exact Fd.
    set (q := 2 * delta * Rabs x). set (d2 := delta * delta).
    pose proof (mul_error emin prec P0 (2 * delta) (Rabs x)) as M1. fold q in M1.
    pose proof (mul_error emin prec P0 delta delta) as M2. fold d2 in M2.
    set (A := rn q) in *. set (B := rn d2) in *.
    assert (FA : F A) by apply format_round, P0. assert (FB : F (- B)) by apply format_opp, format_round, P0.
    pose proof (add_error emin prec P0 A (- B) FA FB) as M3. set (C := rn (A + - B)) in *.
    assert (D0 : 0 <= d2) by (unfold d2; nra).
    assert (Q1 : 2 * d2 <= q) by (unfold q, d2; nra).
    set (e := q - d2). replace (q - delta ^ 2) with e by (unfold e, d2; ring). unfold near.
    rewrite (Rabs_pos_eq q) in M1 by lra. rewrite (Rabs_pos_eq d2) in M2 by lra.
    assert (E0 : 0 <= e) by (unfold e; lra). rewrite (Rabs_pos_eq e) by exact E0.
    assert (M4 : Rabs (A + - B - e) <= 3 * u * e + 2 * eta).
    { replace (A + - B - e) with ((A - q) + - (B - d2)) by (unfold e; ring).
      eapply Rle_trans; [apply Rabs_triang|]. rewrite Rabs_Ropp.
      assert (X : u * (q + d2) <= u * (3 * e)) by (apply Rmult_le_compat_l; [lra|unfold e; lra]). lra. }
    assert (M5 : Rabs (A + - B) <= e + (3 * u * e + 2 * eta)).
    { replace (A + - B) with (e + (A + - B - e)) by ring. eapply Rle_trans; [apply Rabs_triang|].
      rewrite (Rabs_pos_eq e) by exact E0. lra. }
    replace (C - e) with ((C - (A + - B)) + (A + - B - e)) by ring. eapply Rle_trans; [apply Rabs_triang|].
    assert (u * Rabs (A + - B) <= u * (e + (3 * u * e + 2 * eta))) by (apply Rmult_le_compat_l; lra).
    assert (u * eta <= / 256 * eta) by (apply Rmult_le_compat_r; lra).
    replace ((4 * u + 3 * u ^ 2) * e) with (u * e + 3 * u * (u * e) + 3 * u * e) by ring.
    replace (u * (e + (3 * u * e + 2 * eta))) with (u * e + 3 * u * (u * e) + 2 * (u * eta)) in H by ring. lra.
Qed.

Lemma near_map {A} d h (f g : A -> R) l : (forall x, In x l -> near d h (f x) (g x)) -> Forall2 (near d h) (map f l) (map g l).
Proof. induction l as [|x l IH]; intros H; cbn; constructor; [apply H; now left|apply IH; intros; apply H; now right]. Qed.
Lemma rounded_format {A} (f : A -> R) l : Forall F (map (fun x => rn (f x)) l).
Proof. apply Forall_forall. intros y Hy. apply in_map_iff in Hy. destruct Hy as [x [<- _]]. apply format_round, P0. Qed.
End Terms.

(** The 1-norm, the square of the 2-norm, Huber's norm, the scalar product: the rounding of
    the terms is composed with that of the sum. *)
Theorem C112_norms : forall emin prec l, (8 <= prec)%Z -> (emin <= 0)%Z -> (Z.of_nat (length l) <= 2 ^ prec)%Z -> Forall (representable emin prec) l ->
  let o := fp_ops emin prec in let u := unit_of prec in let n := length l in let g := 1 + compensated_rate prec n in
  Rabs (fst (norm_l1 o (kadd o) Rabs l) - weight l) <= (g - 1) * weight l /\
  Rabs (fst (norm2 o (kadd o) l) - total (map (fun x => x ^ 2) l)) <=
    (g * (1 + u) - 1) * total (map (fun x => x ^ 2) l) + g * (INR n * tiny_of emin) /\
  (forall delta, representable emin prec delta -> 0 <= delta ->
    Rabs (fst (norm_huber o (kadd o) Rabs ltb_R delta l) - total (map (huber_of delta) l)) <=
      (g * (1 + (4 * u + 3 * u ^ 2)) - 1) * total (map (huber_of delta) l) + g * (INR n * (3 * tiny_of emin))) /\
  (forall r, length r = n -> Forall (representable emin prec) r ->
    let terms := map (fun xy => fst xy * snd xy) (combine l r) in
    Rabs (fst (dot o (kadd o) l r) - total terms) <= (g * (1 + u) - 1) * weight terms + g * (INR n * tiny_of emin)).
Proof.
  intros emin prec l Pp Pe H Fl o u n g. pose proof (u_pos prec) as U0. fold u in U0. pose proof (eta_pos emin) as H0.
  assert (W : forall f : R -> R, (forall x, 0 <= f x) -> weight (map f l) = total (map f l)).
  { intros f Hf. unfold weight. rewrite map_map. f_equal. apply map_ext. intros x. apply Rabs_pos_eq, Hf. }
  split; [|split; [|split]].
  - unfold norm_l1.
    assert (FA : Forall (generic_format radix2 (FLT_exp emin prec)) (map Rabs l)).
    { apply Forall_forall. intros y Hy. apply in_map_iff in Hy. destruct Hy as [x [<- Hx]]. apply generic_format_abs.
      apply format_representable. rewrite Forall_forall in Fl. auto. }
    destruct (kahan_rate emin prec Pp (map Rabs l)) as [_ B]; [rewrite map_length; exact H|exact FA|].
    rewrite map_length in B. rewrite (W Rabs Rabs_pos) in B. unfold g. fold (weight l) in B. fold o n in B.
    replace (1 + compensated_rate prec n - 1) with (compensated_rate prec n) by ring. exact B.
  - unfold norm2. cbn [kmul fp_ops].
    destruct (kahan_near emin prec Pp u (tiny_of emin) (map (fun x => rndp emin prec (x * x)) l) (map (fun x => x ^ 2) l)) as [_ B];
      [lra|lra|rewrite map_length; exact H|apply rounded_format, Pp| |].
    + apply near_map. intros x _. replace (x ^ 2) with (x * x) by ring. apply product_near, Pp.
    + rewrite map_length, (W (fun x => x ^ 2)) in B by (intros; apply pow2_ge_0). exact B.
  - intros delta Fd Hd. unfold norm_huber. apply format_representable in Fd.
    destruct (kahan_near emin prec Pp (4 * u + 3 * u ^ 2) (3 * tiny_of emin) (map (huber o Rabs ltb_R delta) l) (map (huber_of delta) l)) as [_ B].
    + pose proof (pow2_ge_0 u). lra.
    + lra.
    + rewrite map_length. exact H.
    + apply Forall_forall. intros y Hy. apply in_map_iff in Hy. destruct Hy as [x [<- _]]. apply huber_near; auto.
    + apply near_map. intros x _. apply huber_near; auto.
    + rewrite map_length, (W (huber_of delta)) in B; [exact B|]. intros x. unfold huber_of. destruct (Rlt_dec (Rabs x) delta); [apply pow2_ge_0|].
      assert (delta <= Rabs x) by lra. cbn [pow]. nra.
  - intros r Lr Fr terms. unfold dot. cbn [kmul fp_ops].
    destruct (kahan_near emin prec Pp u (tiny_of emin) (map (fun xy => rndp emin prec (fst xy * snd xy)) (combine l r)) terms) as [_ B].
    + lra.
    + lra.
    + unfold terms. rewrite map_length, combine_length. fold n in H |- *. lia.
    + apply rounded_format, Pp.
    + apply near_map. intros x _. apply product_near, Pp.
    + replace (length terms) with n in B; [exact B|]. unfold terms. rewrite map_length, combine_length. fold n. lia.
Qed.
Print Assumptions C112_norms.

(** The p-norm, with any power function of the processor whose relative and absolute errors are d and h. *)
Theorem C112_normp : forall emin prec pow exact d h l, (8 <= prec)%Z -> (Z.of_nat (length l) <= 2 ^ prec)%Z -> 0 <= d -> 0 <= h ->
  (forall x, 0 <= x -> representable emin prec (pow x) /\ 0 <= exact x /\ Rabs (pow x - exact x) <= d * exact x + h) ->
  let o := fp_ops emin prec in let n := length l in let g := 1 + compensated_rate prec n in
  Rabs (fst (normp o (kadd o) Rabs pow l) - total (map (fun x => exact (Rabs x)) l)) <= (g * (1 + d) - 1) * total (map (fun x => exact (Rabs x)) l) + g * (INR n * h).
Proof.
  intros emin prec pow exact d h l Pp H D0 H0 K o n g.
  assert (W : weight (map (fun x => exact (Rabs x)) l) = total (map (fun x => exact (Rabs x)) l)).
  { unfold weight. rewrite map_map. f_equal. apply map_ext. intros x. apply Rabs_pos_eq, (K (Rabs x) (Rabs_pos x)). }
  unfold normp. destruct (kahan_near emin prec Pp d h (map (fun x => pow (Rabs x)) l) (map (fun x => exact (Rabs x)) l)) as [_ B].
  - exact D0.
  - exact H0.
  - rewrite map_length. exact H.
  - apply Forall_forall. intros y Hy. apply in_map_iff in Hy. destruct Hy as [x [<- _]]. apply format_representable, (K (Rabs x) (Rabs_pos x)).
  - apply near_map. intros x _. destruct (K (Rabs x) (Rabs_pos x)) as [_ [E0 E]]. unfold near. rewrite (Rabs_pos_eq (exact (Rabs x))) by exact E0. exact E.
  - rewrite map_length, W in B. exact B.
Qed.
Print Assumptions C112_normp.
(** The hypothesis holds for instance of the power 1, rounded. *)
Example C112_normp_case : forall x, 0 <= x -> let pow := fun y => rndp (-1074) 53 y in representable (-1074) 53 (pow x) /\ 0 <= x /\ Rabs (pow x - x) <= unit_of 53 * x + tiny_of (-1074).
Proof.
  intros x Hx pow. split; [|split; [exact Hx|]].
  - assert (F : generic_format radix2 (FLT_exp (-1074) 53) (pow x)) by (apply format_round; reflexivity). apply FLT_format_generic in F; [|reflexivity].
    destruct F as [[m e] E H1 H2]. exists m, e. cbn [Fnum Fexp] in *. split; [rewrite E; unfold F2R; cbn [Fnum Fexp]; rewrite bpow_powerRZ; reflexivity|]. split; assumption.
  - pose proof (mul_error (-1074) 53 ltac:(reflexivity) x 1) as E. rewrite Rmult_1_r in E. rewrite (Rabs_pos_eq x) in E by exact Hx. exact E.
Qed.

(** ** Limits *)
(** FINDING 181.  The error is relative to the absolute values: 1 + 2^53 + 1 - 2^53 is 0, not
    2; neither a sum rounded once nor within any factor of the sum. *)
Lemma rndp_integer n k m : (53 <= k)%Z -> (2 ^ (k - 1) <= Z.abs n < 2 ^ k)%Z -> (2 * Z.abs (n - m * 2 ^ (k - 53)) < 2 ^ (k - 53))%Z ->
  rndp (-1074) 53 (IZR n) = IZR (m * 2 ^ (k - 53)).
Proof.
  intros Hk Hn Hm. unfold rndp, round, F2R, scaled_mantissa, cexp.
  assert (P : forall i, (0 <= i)%Z -> bpow radix2 i = IZR (2 ^ i)) by (intros i Hi; rewrite <- IZR_Zpower by exact Hi; reflexivity).
  assert (M : mag radix2 (IZR n) = k :> Z).
  { apply mag_unique. rewrite <- abs_IZR, !P by lia. split; [apply IZR_le|apply IZR_lt]; lia. }
  rewrite M. replace (FLT_exp (-1074) 53 k) with (k - 53)%Z by (unfold FLT_exp; lia). cbn [Defs.Fnum Defs.Fexp].
  rewrite mult_IZR, <- P by lia. f_equal. f_equal. apply Znearest_imp.
  assert (B : 0 < bpow radix2 (k - 53)) by apply bpow_gt_0.
  assert (H : Rabs (IZR n - IZR m * bpow radix2 (k - 53)) * 2 < bpow radix2 (k - 53)).
  { rewrite P by lia. rewrite <- mult_IZR, <- minus_IZR, <- abs_IZR. apply IZR_lt in Hm. rewrite mult_IZR in Hm. lra. }
  replace (IZR n * bpow radix2 (- (k - 53)) - IZR m) with ((IZR n - IZR m * bpow radix2 (k - 53)) * bpow radix2 (- (k - 53))).
  2:{ rewrite Rmult_minus_distr_r, Rmult_assoc, <- bpow_plus. replace (k - 53 + - (k - 53))%Z with 0%Z by lia. cbn [bpow]. ring. }
  rewrite Rabs_mult, (Rabs_pos_eq (bpow _ _)) by apply bpow_ge_0.
  apply Rmult_lt_reg_r with (bpow radix2 (k - 53)); [exact B|].
  rewrite Rmult_assoc, <- bpow_plus. replace (- (k - 53) + (k - 53))%Z with 0%Z by lia. cbn [bpow]. lra.
Qed.

Theorem C112_cancellation_refuted : let o := fp_ops (-1074) 53 in let l := [1; IZR (2 ^ 55); 1; - IZR (2 ^ 55)] in
  Forall (representable (-1074) 53) l /\ total l = 2 /\ fst (sum_kahan o (kadd o) l) = 0 /\
  ~ rounded_once exact_ops (kadd o) l (fst (sum_kahan o (kadd o) l)).
Proof.
  intros o l.
  assert (R1 : representable (-1074) 53 1) by (exists 1%Z, 0%Z; repeat split; [cbn; lra|lia]).
  assert (P55 : IZR (2 ^ 55) = 1 * powerRZ 2 55) by (rewrite pow2; change (bpow radix2 55) with (IZR (2 ^ 55)); ring).
  assert (T : total l = 2) by (unfold total, l; cbn [fold_right]; ring).
  assert (Z0 : forall n, rndp (-1074) 53 (IZR n) = IZR n -> rndp (-1074) 53 (IZR n) = IZR n) by auto.
  assert (E : fst (sum_kahan o (kadd o) l) = 0).
  { unfold l. cbn [sum_kahan kloop fst]. unfold ksub. unfold o. cbn [kadd kopp k0 fp_ops].
    assert (A0 : - (0) = 0) by ring. rewrite A0.
    assert (B55 : rndp (-1074) 53 (IZR (2 ^ 55)) = IZR (2 ^ 55)) by (apply (rndp_integer (2 ^ 55) 56 (2 ^ 52)); lia).
    assert (Bn : rndp (-1074) 53 (IZR (- 2 ^ 55)) = IZR (- 2 ^ 55)) by (apply (rndp_integer (- 2 ^ 55) 56 (- 2 ^ 52)); lia).
    assert (Bp : rndp (-1074) 53 (IZR (2 ^ 55 + 1)) = IZR (2 ^ 55)) by (apply (rndp_integer (2 ^ 55 + 1) 56 (2 ^ 52)); lia).
    assert (Bm : rndp (-1074) 53 (IZR (2 ^ 55 - 1)) = IZR (2 ^ 55)) by (apply (rndp_integer (2 ^ 55 - 1) 55 (2 ^ 53)); lia).
    assert (Bq : rndp (-1074) 53 (IZR (- 2 ^ 55 + 1)) = IZR (- 2 ^ 55)) by (apply (rndp_integer (- 2 ^ 55 + 1) 55 (- 2 ^ 53)); lia).
    assert (I0 : rndp (-1074) 53 0 = 0) by (apply (rndp_int 0); lia).
    assert (I1 : rndp (-1074) 53 1 = 1) by (apply (rndp_int 1); lia).
    assert (Im : rndp (-1074) 53 (-1) = -1) by (apply (rndp_int (-1)); lia).
    rewrite opp_IZR in Bn. set (B := IZR (2 ^ 55)) in *.
    rewrite plus_IZR in Bp. rewrite minus_IZR in Bm. rewrite plus_IZR, opp_IZR in Bq. fold B in Bp, Bm, Bq.
    rewrite !Rplus_0_r, B55, (Rplus_comm 1 B), Bp. replace (B + - (1)) with (B - 1) by ring. rewrite Bm.
    replace (B + - B) with 0 by ring. rewrite I0, A0, !Rplus_0_r, I1, Bp. replace (B + - B) with 0 by ring. rewrite I0.
    replace (0 + - (1)) with (-1) by ring. rewrite Im. replace (- B + - -1) with (- B + 1) by ring. rewrite Bq.
    replace (B + - B) with 0 by ring. exact I0. }
  split; [|split; [exact T|split; [exact E|]]].
  - repeat constructor; auto.
    + exists 1%Z, 55%Z. split; [exact P55|split; lia].
    + exists (-1)%Z, 55%Z. split; [rewrite P55; ring|split; lia].
  - rewrite E. intros [[H _]|[a [b [H1 H2]]]].
    + change (exact_sum exact_ops l) with (total l) in H. lra.
    + change (kadd exact_ops a b) with (a + b) in H1. change (exact_sum exact_ops l) with (total l) in H1.
      change (kadd o a b) with (rndp (-1074) 53 (a + b)) in H2. rewrite H1, T in H2.
      rewrite (rndp_int 2) in H2 by lia. lra.
Qed.
Print Assumptions C112_cancellation_refuted.

(** Beside: additions one after the other lose up to a unit each, the compensated sum less
    than four in all. *)
Lemma total_ones x n : total (x :: repeat 1 n) = x + INR n.
Proof.
  rewrite total_cons. f_equal. induction n as [|n IH]; [reflexivity|]. cbn [repeat]. rewrite total_cons, IH, S_INR. ring.
Qed.

Lemma abs_ones n : map Rabs (repeat 1 n) = repeat 1 n.
Proof. induction n as [|n IH]; [reflexivity|]. cbn. rewrite IH, Rabs_R1. reflexivity. Qed.

Example C112_example : forall n, (n <= 1000)%nat ->
  let o := fp_ops (-1074) 53 in let l := IZR (2 ^ 53) :: repeat 1 n in
  fold_left (kadd o) (repeat 1 n) (IZR (2 ^ 53)) = total l - INR n /\
  Rabs (fst (sum_kahan o (kadd o) l) - total l) < 4.
Proof.
  intros n Hn o l. unfold l at 1. rewrite total_ones. split.
  - replace (IZR (2 ^ 53) + INR n - INR n) with (IZR (2 ^ 53)) by ring. clear. induction n as [|n IH]; [reflexivity|].
    cbn [repeat fold_left]. change (kadd o (IZR (2 ^ 53)) 1) with (rndp (-1074) 53 (IZR (2 ^ 53) + IZR 1)).
    rewrite <- plus_IZR, rndp_odd. exact IH.
  - assert (Ln : length l = S n) by (unfold l; cbn; rewrite repeat_length; reflexivity).
    eapply Rle_lt_trans; [apply C112_sum; [lia| |]|].
    + rewrite Ln. lia.
    + constructor.
      * exists 1%Z, 53%Z. split; [rewrite pow2; change (bpow radix2 53) with (IZR (2 ^ 53)); ring|split; lia].
      * apply Forall_forall. intros y Hy. apply repeat_spec in Hy. subst y. exists 1%Z, 0%Z. repeat split; [cbn; lra|lia].
    + rewrite Ln. unfold l. unfold weight. cbn [map]. rewrite abs_ones, (Rabs_pos_eq (IZR (2 ^ 53))) by (apply IZR_le; lia).
      rewrite total_ones. unfold second_order. replace (unit_of 53) with (/ IZR (2 ^ 53)).
      2:{ unfold unit_of. rewrite pow2. change (- (53))%Z with (-53)%Z. cbn [bpow]. f_equal. }
      assert (N : 0 <= INR n <= 1000).
      { split; [apply pos_INR|]. replace 1000 with (INR 1000) by (rewrite INR_IZR_INZ; reflexivity). apply le_INR, Hn. }
      rewrite Rabs_pos_eq by (assert (0 <= IZR (2 ^ 53)) by (apply IZR_le; lia); lra).
      rewrite S_INR. change (2 ^ 53)%Z with 9007199254740992%Z. set (x := INR n) in *.
      cbn [pow]. nra.
Qed.
