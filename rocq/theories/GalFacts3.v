From Coq Require Import Reals QArith Qreals Lra Lia.
From Verif Require Import Base SkyModel SkySpec SkyFacts WcsModel GalModel GalSpec GalFacts GalFacts2.
Open Scope R_scope.
Lemma sqrt_near e : Rabs e <= / 1000000000 -> Rabs (sqrt (1 + e) - 1) <= Rabs e.
Proof.
  intros H. assert (P : 0 <= 1 + e) by (unfold Rabs in H; destruct (Rcase_abs e); lra). pose proof (sqrt_sqrt _ P) as S. pose proof (sqrt_pos (1 + e)) as Q. set (r := sqrt (1 + e)) in *.
  assert (E : (r - 1) * (r + 1) = e) by lra. rewrite <- E, Rabs_mult. rewrite (Rabs_right (r + 1)) by lra. pose proof (Rabs_pos (r - 1)). nra.
Qed.
Lemma cross_of (a b c : vec) : orthonormal a b c -> mixed a b c = 1 ->
  c = (snd (fst a) * snd b - snd a * snd (fst b), snd a * fst (fst b) - fst (fst a) * snd b, fst (fst a) * snd (fst b) - snd (fst a) * fst (fst b)).
Proof.
  destruct a as [[a0 a1] a2], b as [[b0 b1] b2], c as [[c0 c1] c2]. unfold orthonormal, scalar, mixed. cbn [fst snd]. intros [H1 [H2 [H3 [H4 [H5 H6]]]]] D.
  repeat apply (f_equal2 pair).
  - transitivity (c0 * (a0 * (b1 * c2 - b2 * c1) + a1 * (b2 * c0 - b0 * c2) + a2 * (b0 * c1 - b1 * c0))); [rewrite D; ring|].
    transitivity ((a1 * b2 - a2 * b1) * (c0 * c0 + c1 * c1 + c2 * c2) + (a0 * c0 + a1 * c1 + a2 * c2) * (b1 * c2 - b2 * c1) + (b0 * c0 + b1 * c1 + b2 * c2) * (c1 * a2 - c2 * a1)); [ring | rewrite H3, H5, H6; ring].
  - transitivity (c1 * (a0 * (b1 * c2 - b2 * c1) + a1 * (b2 * c0 - b0 * c2) + a2 * (b0 * c1 - b1 * c0))); [rewrite D; ring|].
    transitivity ((a2 * b0 - a0 * b2) * (c0 * c0 + c1 * c1 + c2 * c2) + (a0 * c0 + a1 * c1 + a2 * c2) * (b2 * c0 - b0 * c2) + (b0 * c0 + b1 * c1 + b2 * c2) * (c2 * a0 - c0 * a2)); [ring | rewrite H3, H5, H6; ring].
  - transitivity (c2 * (a0 * (b1 * c2 - b2 * c1) + a1 * (b2 * c0 - b0 * c2) + a2 * (b0 * c1 - b1 * c0))); [rewrite D; ring|].
    transitivity ((a0 * b1 - a1 * b0) * (c0 * c0 + c1 * c1 + c2 * c2) + (a0 * c0 + a1 * c1 + a2 * c2) * (b0 * c1 - b1 * c0) + (b0 * c0 + b1 * c1 + b2 * c2) * (c0 * a1 - c1 * a0)); [ring | rewrite H3, H5, H6; ring].
Qed.
Lemma square_small x e : Rabs x <= e -> 0 <= x * x <= e * e.
Proof. intros H. split; [nra|]. pose proof (Rabs_pos x). replace (x * x) with (Rabs x * Rabs x) by (rewrite <- Rabs_mult, Rabs_right; [reflexivity | nra]). apply Rmult_le_compat; assumption. Qed.
Lemma root_near d e : 0 <= d -> 0 <= e <= / 2 -> 1 - e <= d * d <= 1 + e -> 1 - e <= d <= 1 + e.
Proof. intros. split; nra. Qed.
Lemma product_small a x c : 0 <= a -> 0 <= c -> a <= 1 + / 1000 -> c <= 1 + / 1000 -> Rabs (a * x * c) <= 2 * Rabs x.
Proof.
  intros A C A' C'. rewrite !Rabs_mult, (Rabs_right a), (Rabs_right c) by lra. pose proof (Rabs_pos x). assert (a * c <= 2).
  { apply Rle_trans with ((1 + / 1000) * (1 + / 1000)); [apply Rmult_le_compat; assumption | lra]. }
  replace (a * Rabs x * c) with (a * c * Rabs x) by ring. apply Rmult_le_compat_r; assumption.
Qed.
Lemma product_near a c e f : 0 <= e -> 0 <= f <= 1 -> Rabs (a - 1) <= e -> Rabs (c - 1) <= f -> Rabs (a * c - 1) <= 2 * e + f.
Proof.
  intros E F H H'. replace (a * c - 1) with ((a - 1) * (c - 1) + (a - 1) + (c - 1)) by ring. pose proof (Rabs_triang ((a - 1) * (c - 1) + (a - 1)) (c - 1)). pose proof (Rabs_triang ((a - 1) * (c - 1)) (a - 1)).
  rewrite Rabs_mult in *. assert (Rabs (a - 1) * Rabs (c - 1) <= e * 1) by (apply Rmult_le_compat; try apply Rabs_pos; lra). lra.
Qed.
Definition dcol (j : nat) : vec := column g2e_digits j.
Ltac small := apply Rabs_le; split; lra.
Lemma g2e_columns : exists k l n p, Rabs (k - 1) <= / 4000000000 /\ Rabs (l - 1) <= / 4000000000 /\ Rabs n <= / 4000000000 /\ Rabs (p - 1) <= / 1900000000 /\
  let '(x1, y1, z1) := dcol 0 in let '(x2, y2, z2) := dcol 1 in
  swapaxes g2e = ((k * x1, k * y1, k * z1), (l * x2 - n * x1, l * y2 - n * y1, l * z2 - n * z1), (p * (y1 * z2 - z1 * y2), p * (z1 * x2 - x1 * z2), p * (x1 * y2 - y1 * x2))) /\
  mixed (column g2e 0) (column g2e 1) (column g2e 2) = 1.
Proof.
  destruct (qr_columns g2e_digits) as [t1 [v1 [t2 [v2 [x12 [r3 [F [G [X [Q M]]]]]]]]]]. pose proof (rows_swap _ (qr_orthonormal g2e_digits)) as O. fold g2e in Q, M, O.
  pose proof (first_ok (column g2e_digits 0)) as [_ [_ W1]]. rewrite <- F in W1. cbn [fst snd] in W1. pose proof (second_ok (reflect t1 v1 (column g2e_digits 1))) as [_ [_ [_ W2]]]. rewrite <- G in W2. cbn [fst snd] in W2.
  unfold dcol, column in *. unfold g2e_digits in *. cbn [swapaxes fst snd] in *.
  (* the first reflection *)
  set (s1 := - 8734370902 / 10000000000 * (- 8734370902 / 10000000000) + - 4838350155 / 10000000000 * (- 4838350155 / 10000000000)) in *. set (x1 := - 548755604 / 10000000000) in *.
  assert (S1 : 0 < s1) by (unfold s1; lra). assert (B1 : dlarfg_beta x1 s1 = sqrt (x1 * x1 + s1)) by (apply beta_negative; [exact S1 | unfold x1; lra]).
  assert (B1' : Rabs (dlarfg_beta x1 s1 - 1) <= / 9000000000).
  { rewrite B1. replace (x1 * x1 + s1) with (1 + (x1 * x1 + s1 - 1)) by ring. assert (Rabs (x1 * x1 + s1 - 1) <= / 9000000000) by (unfold x1, s1; small).
    apply Rle_trans with (Rabs (x1 * x1 + s1 - 1)); [apply sqrt_near; lra | exact H]. }
  (* the second column once reflected *)
  injection F as -> ->. set (b := dlarfg_beta x1 s1) in *. assert (Bb : 1 - / 9000000000 <= b <= 1 + / 9000000000) by (unfold Rabs in B1'; destruct (Rcase_abs (b - 1)); lra).
  set (bb := reflect (dlarfg_tau x1 s1) (1, dlarfg_scale x1 s1 (- 8734370902 / 10000000000), dlarfg_scale x1 s1 (- 4838350155 / 10000000000)) (4941094279 / 10000000000, - 4448296300 / 10000000000, 7469822445 / 10000000000)) in *.
  assert (BB : snd (fst bb) < 0 /\ 0 < snd bb).
  { unfold bb, dlarfg_tau, dlarfg_scale. destruct (Req_EM_T s1 0) as [E|_]; [lra|]. fold b. cbn [reflect dot3 vtimes vsub fst snd].
    assert (D : x1 - b <> 0) by (unfold x1; lra). set (C := - 8734370902 / 10000000000 * (- 4448296300 / 10000000000) + - 4838350155 / 10000000000 * (7469822445 / 10000000000)).
    assert (T : forall y, (b - x1) / b * (1 * (4941094279 / 10000000000) + - 8734370902 / 10000000000 / (x1 - b) * (- 4448296300 / 10000000000) + - 4838350155 / 10000000000 / (x1 - b) * (7469822445 / 10000000000)) * (y / (x1 - b)) = - y * (/ b * (4941094279 / 10000000000) - / (b * (b - x1)) * C)).
    { intros y. unfold C. field. unfold x1; repeat split; lra. }
    rewrite !T. assert (K : 1 - / 1000000000 <= / b <= 1 + / 1000000000).
    { split; [apply (Rmult_le_reg_r b); [lra|]; rewrite Rinv_l by lra | apply (Rmult_le_reg_r b); [lra|]; rewrite Rinv_l by lra]; lra. }
    assert (V : 9 / 10 <= / (b * (b - x1)) <= 1).
    { assert (105 / 100 <= b * (b - x1) <= 106 / 100) by (unfold x1; nra). split; [apply (Rmult_le_reg_r (b * (b - x1))); [lra|]; rewrite Rinv_l by lra | apply (Rmult_le_reg_r (b * (b - x1))); [lra|]; rewrite Rinv_l by lra]; lra. }
    unfold C. lra. }
  set (s2 := snd bb * snd bb) in *. assert (S2 : 0 < s2) by (unfold s2; nra). assert (B2 : dlarfg_beta (snd (fst bb)) s2 = sqrt (snd (fst bb) * snd (fst bb) + s2)) by (apply beta_negative; [exact S2 | apply BB]).
  set (d := dlarfg_beta (snd (fst bb)) s2) in *. assert (Dp : 0 <= d) by (rewrite B2; apply sqrt_pos).
  (* the mixed product *)
  assert (MX : let '(c1, c2, c3) := swapaxes g2e in mixed c1 c2 c3 = 1).
  { rewrite Q, !reflect_mixed, W1, W2 by (apply Rgt_not_eq; assumption). unfold mixed. ring. }
  clear Q. destruct (swapaxes g2e) as [[c1 c2] c3] eqn:SG.
  assert (A1 : (x1, - 8734370902 / 10000000000, - 4838350155 / 10000000000) = (b * fst (fst c1), b * snd (fst c1), b * snd c1) /\
    (4941094279 / 10000000000, - 4448296300 / 10000000000, 7469822445 / 10000000000) = (x12 * fst (fst c1) + d * fst (fst c2), x12 * snd (fst c1) + d * snd (fst c2), x12 * snd c1 + d * snd c2)).
  { clear - M SG. pose proof (f_equal (fun t => fst (fst t)) M) as M1. pose proof (f_equal (fun t => snd (fst t)) M) as M2. cbv beta in M1, M2. cbn [fst snd] in M1, M2. clear M. rewrite <- (swap_combination _ _ _ _ _ SG) in M1. rewrite <- (swap_combination _ _ _ _ _ SG) in M2. unfold combination in M1, M2. cbn [fst snd] in M1, M2. split.
    - etransitivity; [exact M1|]. repeat apply (f_equal2 pair); ring.
    - etransitivity; [exact M2|]. fold s1. fold bb. fold s2. fold d. repeat apply (f_equal2 pair); ring. }
  clear M. destruct A1 as [A1 A2]. injection A1 as A11 A12 A13. injection A2 as A21 A22 A23.
  pose proof (cross_of c1 c2 c3 O MX) as C3. destruct c1 as [[p0 p1] p2], c2 as [[q0 q1] q2]. unfold rows_ok, orthonormal, scalar in O. cbn [fst snd] in *. destruct O as [O1 [O2 [_ [O3 _]]]].
  (* bounds *)
  assert (K : 1 - / 8000000000 <= / b <= 1 + / 8000000000).
  { split; (apply (Rmult_le_reg_r b); [lra|]; rewrite Rinv_l by lra); lra. }
  assert (P0 : p0 = / b * x1) by (rewrite A11; field; lra). assert (P1 : p1 = / b * (- 8734370902 / 10000000000)) by (rewrite A12; field; lra). assert (P2 : p2 = / b * (- 4838350155 / 10000000000)) by (rewrite A13; field; lra).
  assert (X12 : x12 = p0 * (4941094279 / 10000000000) + p1 * (- 4448296300 / 10000000000) + p2 * (7469822445 / 10000000000)).
  { rewrite A21, A22, A23. transitivity (x12 * (p0 * p0 + p1 * p1 + p2 * p2) + d * (p0 * q0 + p1 * q1 + p2 * q2)); [rewrite O1, O3; ring | ring]. }
  assert (X12' : Rabs x12 <= / 8000000000) by (rewrite X12, P0, P1, P2; unfold x1; small).
  assert (D2 : d * d = (4941094279 / 10000000000) * (4941094279 / 10000000000) + (- 4448296300 / 10000000000) * (- 4448296300 / 10000000000) + (7469822445 / 10000000000) * (7469822445 / 10000000000) - x12 * x12).
  { rewrite A21, A22, A23. transitivity (x12 * x12 * (p0 * p0 + p1 * p1 + p2 * p2) + 2 * x12 * d * (p0 * q0 + p1 * q1 + p2 * q2) + d * d * (q0 * q0 + q1 * q1 + q2 * q2) - x12 * x12); [rewrite O1, O2, O3; ring | ring]. }
  assert (X2 : 0 <= x12 * x12 <= / 1000000000000) by (pose proof (square_small _ _ X12'); lra).
  assert (D3 : 1 - / 5000000000 <= d <= 1 + / 5000000000) by (apply root_near; lra).
  assert (L : 1 - / 4000000000 <= / d <= 1 + / 4000000000).
  { split; (apply (Rmult_le_reg_r d); [lra|]; rewrite Rinv_l by lra); lra. }
  exists (/ b), (/ d), (/ d * x12 * / b), (/ b * / d). split; [small|]. split; [small|]. split; [|split].
  { pose proof (product_small (/ d) x12 (/ b)) as H. lra. }
  { pose proof (product_near (/ b) (/ d) (/ 8000000000) (/ 4000000000)) as H. assert (Rabs (/ b - 1) <= / 8000000000) by small. assert (Rabs (/ d - 1) <= / 4000000000) by small. lra. }
  assert (Q0 : q0 = / d * (4941094279 / 10000000000) - / d * x12 * / b * x1) by (rewrite A21, P0; field; lra).
  assert (Q1 : q1 = / d * (- 4448296300 / 10000000000) - / d * x12 * / b * (- 8734370902 / 10000000000)) by (rewrite A22, P1; field; lra).
  assert (Q2 : q2 = / d * (7469822445 / 10000000000) - / d * x12 * / b * (- 4838350155 / 10000000000)) by (rewrite A23, P2; field; lra).
  rewrite C3 in *. split; [|exact MX]. rewrite Q0, Q1, Q2, P0, P1, P2. repeat apply (f_equal2 pair); ring.
Qed.
