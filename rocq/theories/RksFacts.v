(** Compensated sums with rounded operations: one step and its repetition. *)
From Coq Require Import ZArith Lia Lra Reals List.
From Flocq Require Import Core.
From Verif Require Import Base BaseFacts SparseModel RndModel RndSpec RndProps NumModel RksSpec.
Import ListNotations.
Open Scope R_scope.

(** ** Lists *)
Lemma weight_cons x l : weight (x :: l) = Rabs x + weight l. Proof. reflexivity. Qed.
Lemma total_cons x l : total (x :: l) = x + total l. Proof. reflexivity. Qed.
Lemma weight_pos l : 0 <= weight l.
Proof. induction l as [|x l IH]; [cbn; lra|]. rewrite weight_cons. pose proof (Rabs_pos x). lra. Qed.
Lemma total_weight l : Rabs (total l) <= weight l.
Proof.
  induction l as [|x l IH]; [cbn; rewrite Rabs_R0; lra|]. rewrite weight_cons, total_cons.
  pose proof (Rabs_triang x (total l)). lra.
Qed.

(** ** One step *)
Section Step.
Variables emin prec : Z.
Hypothesis Pp : (8 <= prec)%Z.
Let P0 : (0 < prec)%Z. Proof. lia. Qed.
Notation F := (generic_format radix2 (FLT_exp emin prec)).
Notation rn := (rndp emin prec).
Let u := unit_of prec.

Lemma u_small : 0 < u <= / 256.
Proof.
  split; [apply u_pos|]. unfold u, unit_of. rewrite pow2.
  replace (/ 256) with (bpow radix2 (-8)) by (cbn; lra). apply bpow_le. lia.
Qed.

Definition state_ok (j : nat) (s c S M : R) : Prop :=
  F s /\ F c /\ Rabs S <= M /\ Rabs c <= 3 * u * M /\
  Rabs (s - c - S) <= (2 * u + 12 * INR j * u ^ 2) * M /\
  Rabs (s - S) <= u * Rabs S + (2 * u + 16 * (INR j + 1) * u ^ 2) * M.

Lemma kahan_step j s c S M x : F x -> INR j * u <= 1 -> state_ok j s c S M ->
  let y := rn (x + - c) in let t := rn (s + y) in
  state_ok (Datatypes.S j) t (rn (rn (t + - s) + - y)) (S + x) (M + Rabs x).
Proof.
  intros Fx Hj [Fs [Fc [HS [Hc [HE _]]]]] y t. pose proof u_small as [U0 U1].
  assert (Fy : F y) by (apply format_round, P0). assert (Ft : F t) by (apply format_round, P0).
  pose proof (add_error emin prec P0 x (- c) Fx (format_opp emin prec c Fc)) as Ey. fold y u in Ey.
  pose proof (add_error emin prec P0 s y Fs Fy) as Et. fold t u in Et.
  pose proof (add_error emin prec P0 t (- s) Ft (format_opp emin prec s Fs)) as Ea. fold u in Ea.
  set (a := rn (t + - s)) in *. assert (Fa : F a) by (apply format_round, P0).
  pose proof (add_error emin prec P0 a (- y) Fa (format_opp emin prec y Fy)) as Ec. fold u in Ec.
  set (c' := rn (a + - y)) in *. assert (Fc' : F c') by (apply format_round, P0).
  set (m := Rabs x) in *. assert (Hm : 0 <= m) by apply Rabs_pos.
  assert (HM : 0 <= M) by (pose proof (Rabs_pos S); lra).
  set (N := M + m). assert (HN : 0 <= N) by (unfold N; lra).
  set (E := Rabs (s - c - S)) in *. assert (E0 : 0 <= E) by apply Rabs_pos.
  assert (S' : Rabs (S + x) <= N) by (pose proof (Rabs_triang S x); unfold N, m; lra).
  assert (Hju : INR j * u ^ 2 <= u) by (cbn [pow]; nra).
  assert (E1 : E <= M * / 8).
  { eapply Rle_trans; [exact HE|]. rewrite Rmult_comm. apply Rmult_le_compat_l; [lra|].
    replace (12 * INR j * u ^ 2) with (12 * (INR j * u ^ 2)) by ring. lra. }
  set (w := m + Rabs c). pose proof (Rabs_pos c) as C0.
  assert (Xw : Rabs (x + - c) <= w) by (pose proof (Rabs_triang x (- c)) as T; rewrite Rabs_Ropp in T; exact T).
  assert (W0 : 0 <= w) by (unfold w; lra).
  assert (Wb : w <= m + 3 * u * M) by (unfold w; lra).
  assert (uM : u * M <= M * / 256) by (rewrite Rmult_comm; apply Rmult_le_compat_l; lra).
  assert (WN : w <= N) by (unfold N; lra).
  assert (uw0 : 0 <= u * w) by (apply Rmult_le_pos; lra).
  assert (Dy : Rabs (y - (x + - c)) <= u * w).
  { eapply Rle_trans; [exact Ey|]. apply Rmult_le_compat_l; lra. }
  assert (Yw : Rabs y <= (1 + u) * w).
  { replace y with ((x + - c) + (y - (x + - c))) by ring. eapply Rle_trans; [apply Rabs_triang|]. lra. }
  set (z := Rabs (s + y)) in *. assert (Z0 : 0 <= z) by apply Rabs_pos.
  assert (Sy : Rabs (s + y - (S + x)) <= E + u * w).
  { replace (s + y - (S + x)) with ((s - c - S) + (y - (x + - c))) by ring.
    eapply Rle_trans; [apply Rabs_triang|]. unfold E. lra. }
  assert (Zb : z <= Rabs (S + x) + (E + u * w)).
  { unfold z. replace (s + y) with ((S + x) + (s + y - (S + x))) by ring. eapply Rle_trans; [apply Rabs_triang|]. lra. }
  assert (uwN : u * w <= N * / 256).
  { apply Rle_trans with (/ 256 * N); [|lra]. apply Rmult_le_compat; lra. }
  assert (MN : M <= N) by (unfold N; lra).
  assert (ZN : z <= 1.13 * N) by lra.
  assert (TS : Rabs (t + - s) <= (1 + u) * w + u * z).
  { replace (t + - s) with (y + (t - (s + y))) by ring. eapply Rle_trans; [apply Rabs_triang|]. lra. }
  assert (Da : Rabs (a - (t + - s)) <= u * ((1 + u) * w + u * z)).
  { eapply Rle_trans; [exact Ea|]. apply Rmult_le_compat_l; lra. }
  assert (AY : Rabs (a + - y) <= u * (1 + u) * (w + z)).
  { replace (a + - y) with ((a - (t + - s)) + (t - (s + y))) by ring. eapply Rle_trans; [apply Rabs_triang|].
    replace (u * (1 + u) * (w + z)) with (u * ((1 + u) * w + u * z) + u * z) by ring. lra. }
  assert (Dc : Rabs (c' - (a + - y)) <= u * (u * (1 + u) * (w + z))).
  { eapply Rle_trans; [exact Ec|]. apply Rmult_le_compat_l; lra. }
  assert (uuN : 0 <= u ^ 2 * N) by (apply Rmult_le_pos; [apply pow2_ge_0|lra]).
  assert (uN : 0 <= u * N) by (apply Rmult_le_pos; lra).
  assert (wz : w + z <= 2.13 * N) by lra.
  split; [exact Ft|]. split; [exact Fc'|]. fold N m. split; [exact S'|]. split; [|split].
  - replace c' with ((a + - y) + (c' - (a + - y))) by ring. eapply Rle_trans; [apply Rabs_triang|].
    apply Rle_trans with (u * (1 + u) * (1 + u) * (w + z)).
    { replace (u * (1 + u) * (1 + u) * (w + z)) with (u * (1 + u) * (w + z) + u * (u * (1 + u) * (w + z))) by ring. lra. }
    assert (Q : (1 + u) * (1 + u) <= 1.01) by nra.
    assert (Q0 : 0 <= (1 + u) * (1 + u)) by nra.
    replace (u * (1 + u) * (1 + u) * (w + z)) with (((1 + u) * (1 + u)) * (u * (w + z))) by ring.
    apply Rle_trans with (1.01 * (u * (2.13 * N))); [|nra].
    apply Rmult_le_compat; [lra|apply Rmult_le_pos; lra|lra|apply Rmult_le_compat_l; lra].
  - replace (t - c' - (S + x)) with ((s - c - S) + (y - (x + - c)) + - (a - (t + - s)) + - (c' - (a + - y))) by ring.
    eapply Rle_trans; [apply Rabs_triang|]. rewrite Rabs_Ropp.
    eapply Rle_trans; [apply Rplus_le_compat_r, Rabs_triang|]. rewrite Rabs_Ropp.
    eapply Rle_trans; [apply Rplus_le_compat_r, Rplus_le_compat_r, Rabs_triang|]. fold E.
    apply Rle_trans with (E + (2 * u * w + u ^ 2 * ((2 + u) * w + (2 + u) * z))).
    { replace (2 * u * w + u ^ 2 * ((2 + u) * w + (2 + u) * z)) with
        (u * w + u * ((1 + u) * w + u * z) + u * (u * (1 + u) * (w + z))) by ring. lra. }
    assert (A1 : 2 * u * w <= 2 * u * m + 6 * (u ^ 2 * N)).
    { apply Rle_trans with (2 * u * (m + 3 * u * M)); [apply Rmult_le_compat_l; lra|].
      assert (u ^ 2 * M <= u ^ 2 * N) by (apply Rmult_le_compat_l; [apply pow2_ge_0|lra]).
      replace (2 * u * (m + 3 * u * M)) with (2 * u * m + 6 * (u ^ 2 * M)) by ring. lra. }
    assert (A2 : u ^ 2 * ((2 + u) * w + (2 + u) * z) <= 5 * (u ^ 2 * N)).
    { replace (5 * (u ^ 2 * N)) with (u ^ 2 * (5 * N)) by ring. apply Rmult_le_compat_l; [apply pow2_ge_0|].
      rewrite <- Rmult_plus_distr_l. apply Rle_trans with (2.01 * (2.13 * N)); [|lra].
      apply Rmult_le_compat; lra. }
    rewrite S_INR.
    assert (A3 : (2 * u + 12 * INR j * u ^ 2) * M <= 2 * u * M + 12 * INR j * (u ^ 2 * N)).
    { rewrite Rmult_plus_distr_r. apply Rplus_le_compat_l.
      replace (12 * INR j * u ^ 2 * M) with (12 * INR j * (u ^ 2 * M)) by ring.
      apply Rmult_le_compat_l; [pose proof (pos_INR j); lra|]. apply Rmult_le_compat_l; [apply pow2_ge_0|lra]. }
    replace ((2 * u + 12 * (INR j + 1) * u ^ 2) * N) with (2 * u * M + 2 * u * m + 12 * INR j * (u ^ 2 * N) + 12 * (u ^ 2 * N)) by (unfold N; ring).
    lra.
  - replace (t - (S + x)) with ((t - (s + y)) + (s + y - (S + x))) by ring.
    eapply Rle_trans; [apply Rabs_triang|].
    assert (B1 : u * z <= u * (Rabs (S + x) + (E + u * w))) by (apply Rmult_le_compat_l; lra).
    assert (J0 := pos_INR j).
    assert (Jn : 0 <= INR j * (u ^ 2 * N)) by (apply Rmult_le_pos; lra).
    assert (B2 : (1 + u) * E <= 2 * u * M + 12.1 * INR j * (u ^ 2 * N) + 2 * (u ^ 2 * N)).
    { apply Rle_trans with ((1 + u) * ((2 * u + 12 * INR j * u ^ 2) * M)); [apply Rmult_le_compat_l; lra|].
      assert (X1 : u ^ 2 * M <= u ^ 2 * N) by (apply Rmult_le_compat_l; [apply pow2_ge_0|lra]).
      assert (X2 : INR j * (u ^ 2 * M) <= INR j * (u ^ 2 * N)) by (apply Rmult_le_compat_l; lra).
      assert (X0 : 0 <= INR j * (u ^ 2 * M)) by (apply Rmult_le_pos; [lra|apply Rmult_le_pos; [apply pow2_ge_0|lra]]).
      assert (X3 : u * (INR j * (u ^ 2 * M)) <= / 256 * (INR j * (u ^ 2 * N))) by (apply Rmult_le_compat; lra).
      replace ((1 + u) * ((2 * u + 12 * INR j * u ^ 2) * M)) with
        (2 * u * M + 2 * (u ^ 2 * M) + 12 * (INR j * (u ^ 2 * M)) + 12 * (u * (INR j * (u ^ 2 * M)))) by ring. lra. }
    assert (B3 : (1 + u) * (u * w) <= 2 * u * m + 4 * (u ^ 2 * N)).
    { assert (X1 : u ^ 2 * M <= u ^ 2 * N) by (apply Rmult_le_compat_l; [apply pow2_ge_0|lra]).
      assert (um : 0 <= u * m) by (apply Rmult_le_pos; lra).
      assert (uum : u * (u * m) <= / 256 * (u * m)) by (apply Rmult_le_compat_r; lra).
      assert (X0 : 0 <= u ^ 2 * M) by (apply Rmult_le_pos; [apply pow2_ge_0|lra]).
      assert (uuuM : u * (u ^ 2 * M) <= / 256 * (u ^ 2 * M)) by (apply Rmult_le_compat_r; lra).
      apply Rle_trans with ((1 + u) * (u * (m + 3 * u * M))).
      { apply Rmult_le_compat_l; [lra|]. apply Rmult_le_compat_l; lra. }
      replace ((1 + u) * (u * (m + 3 * u * M))) with (u * m + u * (u * m) + 3 * (u ^ 2 * M) + 3 * (u * (u ^ 2 * M))) by ring. lra. }
    rewrite S_INR.
    replace ((2 * u + 16 * (INR j + 1 + 1) * u ^ 2) * N) with
      (2 * u * M + 2 * u * m + 16 * (INR j * (u ^ 2 * N)) + 32 * (u ^ 2 * N)) by (unfold N; ring).
    replace (u * (Rabs (S + x) + (E + u * w))) with (u * Rabs (S + x) + u * E + u * (u * w)) in B1 by ring.
    replace ((1 + u) * E) with (E + u * E) in B2 by ring.
    replace ((1 + u) * (u * w)) with (u * w + u * (u * w)) in B3 by ring.
    lra.
Qed.
End Step.

(** ** The loop *)
Section Loop.
Variables emin prec : Z.
Hypothesis Pp : (8 <= prec)%Z.
Notation F := (generic_format radix2 (FLT_exp emin prec)).
Notation u := (unit_of prec).
Notation o := (fp_ops emin prec).

Lemma count_u n : (Z.of_nat n <= 2 ^ prec)%Z -> INR n * u <= 1.
Proof.
  intros H. apply IZR_le in H. rewrite <- INR_IZR_INZ in H.
  replace 1 with (IZR (2 ^ prec) * u).
  - apply Rmult_le_compat_r; [apply Rlt_le, u_pos|exact H].
  - unfold unit_of. rewrite pow2. change 2%Z with (radix_val radix2). rewrite IZR_Zpower by lia.
    rewrite <- bpow_plus. replace (prec + - prec)%Z with 0%Z by lia. reflexivity.
Qed.

Lemma kloop_error l : forall j s c S M, (Z.of_nat (j + length l) <= 2 ^ prec)%Z -> Forall F l ->
  state_ok emin prec j s c S M ->
  state_ok emin prec (j + length l) (fst (kloop o (kadd o) s c l)) (snd (kloop o (kadd o) s c l)) (S + total l) (M + weight l).
Proof.
  induction l as [|x l IH]; intros j s c S M H Fl St.
  - cbn [kloop fst snd length total weight map fold_right]. rewrite !Rplus_0_r, Nat.add_0_r. exact St.
  - inversion Fl as [|? ? Fx Fl']; subst. cbn [length] in *.
    pose proof (kahan_step emin prec Pp j s c S M x Fx (count_u j ltac:(lia)) St) as St'. cbv zeta in St'.
    specialize (IH (Datatypes.S j) _ _ _ _ ltac:(lia) Fl' St').
    rewrite weight_cons, total_cons, <- !Rplus_assoc. replace (j + Datatypes.S (length l))%nat with (Datatypes.S j + length l)%nat by lia.
    exact IH.
Qed.

Lemma kahan_error l : (Z.of_nat (length l) <= 2 ^ prec)%Z -> Forall F l ->
  F (fst (sum_kahan o (kadd o) l)) /\
  Rabs (fst (sum_kahan o (kadd o) l) - total l) <= u * Rabs (total l) + second_order prec (length l) * weight l.
Proof.
  intros H Fl. pose proof (u_small prec Pp) as U. destruct l as [|x l].
  - cbn [sum_kahan fst total weight fold_right map length]. change (k0 o) with 0. split; [apply generic_format_0|].
    rewrite Rminus_0_r, Rabs_R0. lra.
  - inversion Fl as [|? ? Fx Fl']; subst. cbn [sum_kahan length] in *. change (k0 o) with 0.
    assert (St : state_ok emin prec 0 x 0 x (Rabs x)).
    { pose proof (Rabs_pos x). assert (0 <= u * Rabs x) by (apply Rmult_le_pos; lra).
      assert (0 <= u ^ 2 * Rabs x) by (apply Rmult_le_pos; [apply pow2_ge_0|lra]).
      split; [exact Fx|]. split; [apply generic_format_0|]. split; [lra|]. rewrite Rminus_0_r, Rminus_eq_0, Rabs_R0.
      cbn [INR]. split; [lra|]. split; lra. }
    destruct (kloop_error l 0 x 0 x (Rabs x) ltac:(lia) Fl' St) as [Ft [_ [_ [_ [_ H6]]]]]. cbn [Nat.add] in H6.
    rewrite total_cons, weight_cons. split; [exact Ft|]. unfold second_order. rewrite S_INR. exact H6.
Qed.

Lemma rate_pos n : 0 <= compensated_rate prec n.
Proof.
  pose proof (u_small prec Pp). pose proof (pos_INR n). unfold compensated_rate, second_order.
  assert (0 <= INR n * u ^ 2) by (apply Rmult_le_pos; [lra|apply pow2_ge_0]). lra.
Qed.
Lemma rate_mono n m : (n <= m)%nat -> compensated_rate prec n <= compensated_rate prec m.
Proof.
  intros H. apply le_INR in H. unfold compensated_rate, second_order.
  assert (INR n * u ^ 2 <= INR m * u ^ 2) by (apply Rmult_le_compat_r; [apply pow2_ge_0|exact H]). lra.
Qed.

Lemma kahan_rate l : (Z.of_nat (length l) <= 2 ^ prec)%Z -> Forall F l ->
  F (fst (sum_kahan o (kadd o) l)) /\
  Rabs (fst (sum_kahan o (kadd o) l) - total l) <= compensated_rate prec (length l) * weight l.
Proof.
  intros H Fl. destruct (kahan_error l H Fl) as [Ft E]. split; [exact Ft|]. eapply Rle_trans; [exact E|].
  unfold compensated_rate. rewrite Rmult_plus_distr_r. apply Rplus_le_compat_r.
  apply Rmult_le_compat_l; [apply Rlt_le, u_pos|apply total_weight].
Qed.

(** Terms with errors of their own. *)
Lemma near_lists d h ts es : 0 <= d -> Forall2 (near d h) ts es ->
  Rabs (total ts - total es) <= d * weight es + INR (length es) * h /\
  weight ts <= (1 + d) * weight es + INR (length es) * h.
Proof.
  intros Hd. induction 1 as [|t e ts es H _ [IH1 IH2]].
  - cbn. rewrite Rminus_0_r, Rabs_R0. lra.
  - rewrite !total_cons, !weight_cons. cbn [length]. rewrite S_INR. unfold near in H. split.
    + replace (t + total ts - (e + total es)) with ((t - e) + (total ts - total es)) by ring.
      eapply Rle_trans; [apply Rabs_triang|]. lra.
    + assert (Rabs t <= Rabs e + Rabs (t - e)).
      { replace t with (e + (t - e)) at 1 by ring. apply Rabs_triang. }
      lra.
Qed.

Lemma kahan_near d h ts es : 0 <= d -> 0 <= h -> (Z.of_nat (length es) <= 2 ^ prec)%Z -> Forall F ts -> Forall2 (near d h) ts es ->
  F (fst (sum_kahan o (kadd o) ts)) /\
  Rabs (fst (sum_kahan o (kadd o) ts) - total es) <=
    ((1 + compensated_rate prec (length es)) * (1 + d) - 1) * weight es + (1 + compensated_rate prec (length es)) * (INR (length es) * h).
Proof.
  intros Hd Hh H Ft N. assert (L : length ts = length es) by (clear -N; induction N; cbn; congruence).
  destruct (kahan_rate ts) as [A B]; [rewrite L; exact H|exact Ft|]. split; [exact A|]. rewrite L in B.
  destruct (near_lists d h ts es Hd N) as [C D].
  replace (fst (sum_kahan o (kadd o) ts) - total es) with ((fst (sum_kahan o (kadd o) ts) - total ts) + (total ts - total es)) by ring.
  eapply Rle_trans; [apply Rabs_triang|]. pose proof (rate_pos (length es)) as R0.
  assert (compensated_rate prec (length es) * weight ts <= compensated_rate prec (length es) * ((1 + d) * weight es + INR (length es) * h))
    by (apply Rmult_le_compat_l; lra).
  lra.
Qed.
End Loop.
