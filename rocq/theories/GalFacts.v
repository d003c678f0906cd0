(** Sines of rational angles, between rational numbers. *)
From Coq Require Import Reals QArith Qreals Qabs Lra Lia.
Open Scope R_scope.

(** sin_approx, as a product: no fraction is reduced, so that the kernel evaluates it without
    the help of its virtual machine. *)
Fixpoint horner (a2 : Q) (k : positive) (m : nat) : Q :=
  match m with
  | O => 1%Q
  | S m' => (1 - a2 * (1 # (2 * k * (2 * k + 1))) * horner a2 (Pos.succ k) m')%Q
  end.
Definition qsin (a : Q) (n : nat) : Q := (a * horner (a * a) 1 n)%Q.
Lemma sin_term_S x j : sin_term x (S j) = - (sin_term x j * (x * x) * / INR ((2 * j + 2) * (2 * j + 3))).
Proof.
  assert (P : ((2 * j + 2) * (2 * j + 3) <> 0)%nat) by lia. assert (N : INR ((2 * j + 2) * (2 * j + 3)) <> 0) by (apply not_0_INR; exact P).
  unfold sin_term. replace (2 * S j + 1)%nat with (S (S (2 * j + 1))) by lia.
  rewrite !fact_simpl, !mult_INR. replace (S (S (2 * j + 1)))%nat with (2 * j + 3)%nat by lia. replace (S (2 * j + 1))%nat with (2 * j + 2)%nat by lia.
  rewrite mult_INR in N. assert (F := INR_fact_neq_0 (2 * j + 1)). replace (2 * j + 3)%nat with (S (S (2 * j + 1))) at 1 by lia. cbn [pow].
  field. repeat split; first [exact F | intros E; apply N; rewrite E; ring].
Qed.
Lemma horner_ok a m : forall j, sum_f_R0 (fun i => sin_term (Q2R a) (j + i)) m = sin_term (Q2R a) j * Q2R (horner (a * a) (Pos.of_succ_nat j) m).
Proof.
  induction m as [|m IH]; intros j; [cbn [sum_f_R0 horner]; rewrite Nat.add_0_r; unfold Q2R; cbn; field|].
  rewrite decomp_sum by lia. cbn [pred]. rewrite Nat.add_0_r. rewrite (sum_eq _ (fun i => sin_term (Q2R a) (S j + i))) by (intros i _; f_equal; lia).
  rewrite IH, sin_term_S. cbn [horner]. rewrite Q2R_minus, !Q2R_mult. replace (Q2R 1) with 1 by (unfold Q2R; cbn; field).
  replace (Q2R (1 # (2 * Pos.of_succ_nat j * (2 * Pos.of_succ_nat j + 1)))) with (/ INR ((2 * j + 2) * (2 * j + 3))); [cbn [Pos.of_succ_nat]; ring|].
  unfold Q2R. cbn [Qnum Qden]. rewrite Rmult_1_l. f_equal. rewrite INR_IZR_INZ. f_equal. lia.
Qed.
Lemma qsin_ok a n : Q2R (qsin a n) = sin_approx (Q2R a) n.
Proof.
  unfold qsin, sin_approx. rewrite (sum_eq _ (fun i => sin_term (Q2R a) (0 + i))) by reflexivity. rewrite horner_ok. rewrite Q2R_mult. unfold sin_term. cbn. field.
Qed.
Definition within (n : nat) (a : Q) (lo hi : Q) : bool := Qle_bool 0 a && Qle_bool a 4 && Qle_bool lo (qsin a (2 * n + 1)) && Qle_bool (qsin a (2 * (n + 1))) hi.
Lemma within_ok n a lo hi : within n a lo hi = true -> Q2R lo <= sin (Q2R a) <= Q2R hi.
Proof.
  unfold within. intros H. apply Bool.andb_true_iff in H as [H H4]. apply Bool.andb_true_iff in H as [H H3]. apply Bool.andb_true_iff in H as [H1 H2].
  apply Qle_bool_iff, Qle_Rle in H1, H2, H3, H4. rewrite qsin_ok in H3, H4. replace (Q2R 0) with 0 in H1 by (unfold Q2R; cbn; field). replace (Q2R 4) with 4 in H2 by (unfold Q2R; cbn; field).
  destruct (pre_sin_bound (Q2R a) n H1 H2) as [A B]. lra.
Qed.
Lemma pi_digits : 31415926535897 / 10000000000000 < PI < 31415926535898 / 10000000000000.
Proof.
  assert (A : Q2R (1 # 100000000000000) <= sin (Q2R (31415926535897 # 10000000000000)) <= Q2R 1) by (apply (within_ok 8); vm_cast_no_check (eq_refl true)).
  assert (B : Q2R (-1) <= sin (Q2R (31415926535898 # 10000000000000)) <= Q2R (-1 # 1000000000000000)) by (apply (within_ok 8); vm_cast_no_check (eq_refl true)).
  unfold Q2R in A, B. cbn [Qnum Qden] in A, B. pose proof PI2_3_2 as P2. unfold PI2 in P2. pose proof PI_4 as P4.
  fold (31415926535897 / 10000000000000) in A. fold (31415926535898 / 10000000000000) in B. split.
  - apply Rnot_le_lt. intros H. assert (sin (31415926535897 / 10000000000000) <= 0) by (apply sin_le_0; lra). lra.
  - apply Rnot_le_lt. intros H. assert (0 <= sin (31415926535898 / 10000000000000)) by (apply sin_ge_0; lra). lra.
Qed.
Lemma sin_lipschitz x y : Rabs (sin x - sin y) <= Rabs (x - y).
Proof.
  assert (S : forall t, Rabs (sin t) <= Rabs t).
  { assert (P : forall t, 0 <= t -> Rabs (sin t) <= t).
    { intros t [H| <-]; [|rewrite sin_0, Rabs_R0; lra]. pose proof (sin_lt_x t H). destruct (Rle_dec t 1) as [L|L].
      - rewrite Rabs_right; [lra|]. pose proof PI2_3_2 as Q. unfold PI2 in Q. apply Rle_ge, sin_ge_0; lra.
      - apply Rabs_le. pose proof (SIN_bound t). lra. }
    intros t. destruct (Rle_dec 0 t) as [H|H]; [rewrite (Rabs_right t) by lra; now apply P|]. rewrite <- (Ropp_involutive t) at 1. rewrite sin_neg, Rabs_Ropp, (Rabs_left t) by lra. apply P. lra. }
  rewrite form4, !Rabs_mult, (Rabs_right 2) by lra. pose proof (S ((x - y) / 2)) as A. replace (Rabs (x - y)) with (2 * Rabs ((x - y) / 2)).
  2:{ replace (x - y) with (2 * ((x - y) / 2)) at 2 by field. rewrite Rabs_mult, (Rabs_right 2) by lra. reflexivity. }
  assert (C : Rabs (cos ((x + y) / 2)) <= 1) by (apply Rabs_le, COS_bound). pose proof (Rabs_pos (cos ((x + y) / 2))). pose proof (Rabs_pos (sin ((x - y) / 2))). nra.
Qed.
(** The sine of d degrees. *)
Lemma sin_degrees d lo hi : within 4 (d * (31415926535897 # 1800000000000000)) lo hi = true -> 0 <= Q2R d <= 90 ->
  Q2R lo - / 1000000000000 <= sin (Q2R d * PI / 180) <= Q2R hi + / 1000000000000.
Proof.
  intros H D. apply within_ok in H. rewrite Q2R_mult in H. pose proof pi_digits as [P1 P2]. pose proof (sin_lipschitz (Q2R d * PI / 180) (Q2R d * Q2R (31415926535897 # 1800000000000000))) as L.
  assert (E : Q2R (31415926535897 # 1800000000000000) = 31415926535897 / 10000000000000 / 180) by (unfold Q2R; cbn [Qnum Qden]; field). rewrite E in *.
  assert (Rabs (Q2R d * PI / 180 - Q2R d * (31415926535897 / 10000000000000 / 180)) <= / 1000000000000).
  { replace (Q2R d * PI / 180 - Q2R d * (31415926535897 / 10000000000000 / 180)) with (Q2R d / 180 * (PI - 31415926535897 / 10000000000000)) by field.
    rewrite Rabs_right; [|apply Rle_ge, Rmult_le_pos; lra]. apply Rle_trans with (1 * (PI - 31415926535897 / 10000000000000)); [apply Rmult_le_compat_r; lra | lra]. }
  unfold Rabs in *. repeat destruct Rcase_abs; lra.
Qed.
