(** C149: gaussians of two variables with rounded operations. *)
From Coq Require Import ZArith Reals Lra Lia List.
From Flocq Require Import Core.
From Verif Require Import Base DataSpec RndModel RndSpec RndProps BirFacts RgnFacts RmdModel RmdProps RbaFacts RprProps RdsModel RdsProps RgaModel.
Import ListNotations.
Open Scope R_scope.

Lemma exp_near d : Rabs d <= / 10 -> Rabs (exp d - 1) <= 1.2 * Rabs d.
Proof.
  intros H. apply Rabs_le_inv in H. assert (A : forall x, 1 + x <= exp x) by (intros x; destruct (Req_dec x 0) as [->|N]; [rewrite exp_0; lra|left; apply exp_ineq1; exact N]).
  pose proof (A d) as L. pose proof (A (- d)) as L'. pose proof (exp_pos d) as P. assert (M : exp (- d) * exp d = 1) by (rewrite <- exp_plus; replace (- d + d) with 0 by ring; apply exp_0).
  assert (B : (1 + - d) * exp d <= 1) by (rewrite <- M; apply Rmult_le_compat_r; lra).
  destruct (Rle_dec 0 d) as [D|D].
  - rewrite (Rabs_pos_eq d) by exact D. assert (E : exp d <= 1.2). { assert (d * exp d <= / 10 * exp d) by (apply Rmult_le_compat_r; lra). lra. } assert (d * exp d <= d * 1.2) by (apply Rmult_le_compat_l; lra). apply Rabs_le. lra.
  - rewrite (Rabs_left d) by lra. assert (exp d <= 1) by (rewrite <- exp_0; left; apply exp_increasing; lra). apply Rabs_le. lra.
Qed.
Section T.
Variables (emin prec : Z).
Notation rn := (rndp emin prec).
Notation u := (unit_of prec).
Notation eta := (tiny_of emin).
Hypothesis Pp : (24 <= prec)%Z.
Hypothesis Pe : (emin <= 1 - 4 * prec)%Z.
Let Pe2 : (emin <= 1 - 2 * prec)%Z. Proof. lia. Qed.
Let P0 : (0 < prec)%Z := RmdProps.Q0 prec Pp.
Let U0 : 0 < u := V0 prec.
Let U2 : u <= / 16777216 := RmdProps.V2 prec Pp.
Definition rel (k x y : R) : Prop := 0 < y /\ Rabs (x - y) <= k * u * y.
Lemma rel_bounds k x y : 0 <= k <= 100 -> rel k x y -> y / 2 <= x <= 1.001 * y.
Proof.
  intros K [Y H]. assert (k * u <= 100 * / 16777216) by (apply Rmult_le_compat; lra). assert (k * u * y <= 100 * / 16777216 * y) by (apply Rmult_le_compat_r; lra). apply Rabs_le_inv in H. lra.
Qed.
Lemma rel_rn k x y : 0 <= k <= 90 -> rel k x y -> 2 * eta <= u * y -> rel (k + 2) (rn x) y.
Proof.
  intros K R E. destruct (rel_bounds k x y ltac:(lra) R) as [B1 B2]. destruct R as [Y H]. split; [exact Y|]. pose proof (rn_err emin prec P0 x) as N. rewrite (Rabs_pos_eq x) in N by lra. assert (u * x <= u * (1.001 * y)) by (apply Rmult_le_compat_l; lra). assert (0 <= u * y) by (apply Rmult_le_pos; lra).
  pose proof (tri (rn x) x y). lra.
Qed.
Lemma rel_mul k x y z : rel k x y -> 0 < z -> rel k (x * z) (y * z).
Proof. intros [Y H] Z. split; [apply Rmult_lt_0_compat; assumption|]. rewrite <- Rmult_minus_distr_r, Rabs_mult, (Rabs_pos_eq z) by lra. rewrite <- Rmult_assoc. apply Rmult_le_compat_r; lra. Qed.
Lemma rel_inv k x y z : 0 <= k <= 50 -> rel k x y -> 0 < z -> rel (k + / 10) (z / x) (z / y).
Proof.
  intros K R Z. destruct (rel_bounds k x y ltac:(lra) R) as [B1 B2]. destruct R as [Y H]. assert (iy : 0 < / y) by (apply Rinv_0_lt_compat; exact Y). assert (x0 : 0 < x) by lra. split; [apply Rmult_lt_0_compat; assumption|].
  assert (q0 : 0 < z / y) by (apply Rmult_lt_0_compat; assumption). replace (z / x - z / y) with (z / y * ((y - x) / x)) by (field; lra). rewrite Rabs_mult, (Rabs_pos_eq (z / y)), (Rmult_comm (z / y)) by lra. apply Rmult_le_compat_r; [lra|].
  unfold Rdiv. rewrite Rabs_mult, (Rabs_pos_eq (/ x)) by (left; apply Rinv_0_lt_compat; exact x0). apply (Rmult_le_reg_r x); [exact x0|]. rewrite Rmult_assoc, Rinv_l, Rmult_1_r by lra. rewrite Rabs_minus_sym. eapply Rle_trans; [exact H|].
  assert (ku : k * u <= 50 * / 16777216) by (apply Rmult_le_compat; lra). assert (kuy : k * u * y <= 50 * / 16777216 * y) by (apply Rmult_le_compat_r; lra). apply Rabs_le_inv in H.
  assert (X : (1 - 50 * / 16777216) * y <= x) by lra. assert (0 <= (k + / 10) * u) by (apply Rmult_le_pos; lra). assert ((k + / 10) * u * ((1 - 50 * / 16777216) * y) <= (k + / 10) * u * x) by (apply Rmult_le_compat_l; lra).
  assert (uy : 0 <= u * y) by (apply Rmult_le_pos; lra). assert (k * (u * y) <= 50 * (u * y)) by (apply Rmult_le_compat_r; lra). lra.
Qed.
Variables (libexp : R -> R) (pi r : R).
Hypothesis Lx : forall z, z <= 0 -> Rabs (libexp z - exp z) <= 2 * u * exp z + eta.
Hypothesis Pi : Rabs (pi - PI) <= 2 * u * PI.
Hypothesis R0 : 0 < r <= 1.
Hypothesis Re : 64 * eta <= u * (r * r).
Notation widths s := (r <= s <= / r).
Lemma sq_width s : widths s -> r * r <= s * s <= / (r * r).
Proof. intros [A B]. assert (0 < / r) by (apply Rinv_0_lt_compat; lra). rewrite Rinv_mult_distr by lra. split; apply Rmult_le_compat; lra. Qed.
Lemma small_ok y : r * r / 7 <= y -> 2 * eta <= u * y.
Proof. intros H. assert (u * (r * r / 7) <= u * y) by (apply Rmult_le_compat_l; lra). assert (0 <= u * (r * r)) by (apply Rmult_le_pos; [lra|apply sq_pos]). lra. Qed.
Lemma coef_near s1 s2 : widths s1 -> widths s2 -> rel 11 (rn (1 / rn (rn (rn (2 * pi) * s1) * s2))) (1 / (2 * PI * s1 * s2)).
Proof.
  intros W1 W2. pose proof pi_low. pose proof pi_high. assert (rr : 0 < r * r <= 1) by (split; [apply Rmult_lt_0_compat; lra|]; assert (r * r <= 1 * 1) by (apply Rmult_le_compat; lra); lra).
  assert (r2 : r * r <= r) by (assert (r * r <= 1 * r) by (apply Rmult_le_compat_r; lra); lra).
  assert (ss : r * r <= s1 * s2 <= / (r * r)) by (rewrite Rinv_mult_distr by lra; split; apply Rmult_le_compat; lra). assert (i0 : 0 < / (r * r)) by (apply Rinv_0_lt_compat; lra).
  assert (A : rel 2 (2 * pi) (2 * PI)) by (split; [lra|]; replace (2 * pi - 2 * PI) with (2 * (pi - PI)) by ring; rewrite Rabs_mult, (Rabs_pos_eq 2) by lra; lra).
  apply (rel_rn 2) in A; [|lra|apply small_ok; lra]. apply (rel_mul _ _ _ s1) in A; [|lra]. apply rel_rn in A; [|lra|apply small_ok].
  2: { assert (1 * s1 <= 2 * PI * s1) by (apply Rmult_le_compat_r; lra). lra. }
  apply (rel_mul _ _ _ s2) in A; [|lra]. apply rel_rn in A; [|lra|apply small_ok].
  2: { assert (1 * (s1 * s2) <= 2 * PI * (s1 * s2)) by (apply Rmult_le_compat_r; lra). lra. }
  apply (rel_inv _ _ _ 1) in A; [|lra|lra]. apply rel_rn in A; [|lra|apply small_ok].
  - destruct A as [Y H']. split; [exact Y|]. eapply Rle_trans; [exact H'|]. apply Rmult_le_compat_r; [lra|]. apply Rmult_le_compat_r; lra.
  - unfold Rdiv at 2. rewrite Rmult_1_l. assert (Q : 2 * PI * s1 * s2 <= 7 * / (r * r)). { rewrite (Rmult_assoc (2 * PI)). apply Rmult_le_compat; lra. } assert (Q0 : 0 < 2 * PI * s1 * s2) by (rewrite (Rmult_assoc (2 * PI)); apply Rmult_lt_0_compat; lra).
    apply Rinv_le_contravar in Q; [|exact Q0]. rewrite Rinv_mult_distr, Rinv_involutive in Q by lra. lra.
Qed.
Lemma inv_square s : widths s -> rel 4.2 (rn (/ 2 / rn (s * s))) (/ 2 / (s * s)) /\ / 2 / (s * s) * eta <= u / 100.
Proof.
  intros W. destruct (sq_width s W) as [A B]. assert (rr : 0 < r * r <= 1) by (split; [apply Rmult_lt_0_compat; lra|]; assert (r * r <= 1 * 1) by (apply Rmult_le_compat; lra); lra). assert (i0 : 0 < / (r * r)) by (apply Rinv_0_lt_compat; lra).
  assert (R : rel 0 (s * s) (s * s)) by (split; [lra|]; rewrite Rminus_eq_0, Rabs_R0; lra). apply rel_rn in R; [|lra|apply small_ok; lra]. apply (rel_inv _ _ _ (/ 2)) in R; [|lra|lra].
  split.
  - apply rel_rn in R; [|lra|apply small_ok].
    + destruct R as [Y H']. split; [exact Y|]. eapply Rle_trans; [exact H'|]. apply Rmult_le_compat_r; [lra|]. apply Rmult_le_compat_r; lra.
    + apply Rinv_le_contravar in B; [|lra]. rewrite Rinv_involutive in B by lra. unfold Rdiv at 2. lra.
  - assert (I : / (s * s) <= / (r * r)) by (apply Rinv_le_contravar; lra). pose proof (eta4 emin prec Pe) as E4. assert (/ (s * s) * eta <= / (r * r) * (u * (r * r) / 64)) by (apply Rmult_le_compat; [left; apply Rinv_0_lt_compat; lra|lra|exact I|lra]).
    replace (/ (r * r) * (u * (r * r) / 64)) with (u / 64) in * by (field; lra). unfold Rdiv at 1. lra.
Qed.
Lemma argument_near o s i : representable emin prec o -> (Z.abs i <= 2 ^ prec)%Z -> widths s -> let x := (IZR i - o) * (IZR i - o) / (2 * (s * s)) in
  Rabs (distance2_1d_r emin prec o (rn (/ 2 / rn (s * s))) i - x) <= 8.5 * u * x + u / 50 /\ 0 <= distance2_1d_r emin prec o (rn (/ 2 / rn (s * s))) i /\ 0 <= x.
Proof.
  intros Ho Hi W x. pose proof (side emin prec Pp Pe i o Ho (idx_small prec Pp i Hi)) as [A A0]. cbv zeta in A, A0. destruct (inv_square s W) as [T E]. destruct (rel_bounds 4.2 _ _ ltac:(lra) T) as [T1 T2]. destruct T as [c0 T]. destruct (sq_width s W) as [S0 _]. assert (rr : 0 < r * r) by (apply Rmult_lt_0_compat; lra).
  unfold distance2_1d_r. cbv zeta. set (p := rn (rn (rn (IZR i) - o) * rn (rn (IZR i) - o))) in *. set (b := (IZR i - o) * (IZR i - o)) in *. assert (b0 : 0 <= b) by apply sq_pos. set (t := rn (/ 2 / rn (s * s))) in *. set (c := / 2 / (s * s)) in *.
  assert (xe : x = c * b) by (unfold x, c; field; lra). assert (x0 : 0 <= x) by (rewrite xe; apply Rmult_le_pos; lra). pose proof (eta4 emin prec Pe) as E4. pose proof (eta_small emin prec Pp Pe) as Es.
  assert (ux : u * x <= / 16777216 * x) by (apply Rmult_le_compat_r; lra). assert (ux0 : 0 <= u * x) by (apply Rmult_le_pos; lra). assert (ce : 0 <= c * eta) by (apply Rmult_le_pos; lra).
  assert (uu : / 16777216 * u * u <= / 16777216 * u) by (rewrite Rmult_assoc; apply Rmult_le_compat_l; [lra|]; pose proof (uu_le prec Pp); lra).
  assert (M : Rabs (t * p - x) <= 7.3 * u * x + 1.001 * (c * eta)).
  { rewrite xe. replace (t * p - c * b) with (t * (p - b) + b * (t - c)) by ring. eapply Rle_trans; [apply Rabs_triang|]. rewrite !Rabs_mult, (Rabs_pos_eq t), (Rabs_pos_eq b) by lra.
    assert (t * Rabs (p - b) <= 1.001 * c * (3.01 * u * b + eta)) by (apply Rmult_le_compat; [lra|apply Rabs_pos|exact T2|exact A]). assert (b * Rabs (t - c) <= b * (4.2 * u * c)) by (apply Rmult_le_compat_l; assumption).
    replace (u * x) with (u * (c * b)) in * by (rewrite xe; ring). lra. }
  split; [|split; [apply (rn_pos emin prec Pp Pe2); apply Rmult_le_pos; lra|exact x0]].
  pose proof (rn_err emin prec P0 (t * p)) as R. pose proof (near_abs _ _ x _ M (Req_le _ _ (Rabs_pos_eq x x0))) as B. assert (u * Rabs (t * p) <= u * (1.001 * x + 1.001 * (c * eta))) by (apply Rmult_le_compat_l; lra).
  assert (u * (c * eta) <= / 16777216 * (c * eta)) by (apply Rmult_le_compat_r; lra). pose proof (tri (rn (t * p)) (t * p) x). lra.
Qed.
Lemma exp_arg x z : 0 <= x -> 0 <= z -> x * u <= / 1024 -> Rabs (z - x) <= 8.5 * u * x + u / 50 -> Rabs (libexp (- z) - exp (- x)) <= (10.4 * x + 2.5) * u * exp (- x) + eta.
Proof.
  intros X Z B H. assert (ux : 0 <= u * x) by (apply Rmult_le_pos; lra). pose proof (Lx (- z) ltac:(lra)) as L. assert (D : Rabs (x - z) <= / 10) by (rewrite Rabs_minus_sym; lra). pose proof (exp_near _ D) as E. rewrite (Rabs_minus_sym x z) in E.
  pose proof (exp_pos (- x)) as e0. assert (F : exp (- z) = exp (- x) * exp (x - z)) by (rewrite <- exp_plus; f_equal; ring). set (e := exp (- x)) in *. set (f := exp (x - z)) in *.
  assert (G : Rabs (exp (- z) - e) <= (10.2 * (u * x) + 0.024 * u) * e). { rewrite F. replace (e * f - e) with (e * (f - 1)) by ring. rewrite Rabs_mult, (Rabs_pos_eq e), Rmult_comm by lra. apply Rmult_le_compat_r; lra. }
  assert (S : exp (- z) <= 1.02 * e). { apply Rabs_le_inv in G. assert ((10.2 * (u * x) + 0.024 * u) * e <= 0.02 * e) by (apply Rmult_le_compat_r; lra). lra. }
  assert (2 * u * exp (- z) <= 2 * u * (1.02 * e)) by (apply Rmult_le_compat_l; lra). pose proof (tri (libexp (- z)) (exp (- z)) e). assert (0 <= u * e) by (apply Rmult_le_pos; lra). assert (0 <= u * x * e) by (apply Rmult_le_pos; lra). lra.
Qed.
Lemma product_near c ex ey kx ky h gx gy : 0 < c -> 0 < ex <= 1 -> 0 < ey <= 1 -> 2.5 * u <= kx <= / 80 -> 2.5 * u <= ky <= / 80 -> rel 11 h c -> Rabs (gx - ex) <= kx * ex + eta -> Rabs (gy - ey) <= ky * ey + eta ->
  Rabs (rn (rn (h * gx) * gy) - c * ex * ey) <= 1.05 * (kx + ky + 14 * u) * (c * ex * ey) + 4 * (c + 1) * eta.
Proof.
  intros C X Y Kx Ky H Gx Gy. destruct (rel_bounds 11 h c ltac:(lra) H) as [h0 h1]. destruct H as [_ H]. pose proof (eta4 emin prec Pe) as E4. pose proof (eta_small emin prec Pp Pe) as Es. pose proof (uu_le prec Pp) as UU.
  assert (e1 : eta <= / 1000000) by (assert (/ 16777216 * u * u <= / 16777216 * u) by (rewrite Rmult_assoc; apply Rmult_le_compat_l; lra); lra).
  assert (ce : 0 <= c * eta) by (apply Rmult_le_pos; lra). assert (cx : 0 < c * ex) by (apply Rmult_lt_0_compat; lra).
  assert (ucx : 0 <= u * (c * ex)) by (apply Rmult_le_pos; lra). assert (kcx : 0 <= kx * (c * ex)) by (apply Rmult_le_pos; lra).
  assert (gx1 : Rabs gx <= 1.02 * ex + eta). { pose proof (near_abs _ _ ex _ Gx (Req_le _ _ (Rabs_pos_eq ex ltac:(lra)))). assert (kx * ex <= / 80 * ex) by (apply Rmult_le_compat_r; lra). lra. }
  assert (A : Rabs (h * gx - c * ex) <= (1.001 * kx + 11.3 * u) * (c * ex) + 1.01 * (c * eta)).
  { replace (h * gx - c * ex) with (h * (gx - ex) + ex * (h - c)) by ring. eapply Rle_trans; [apply Rabs_triang|]. rewrite !Rabs_mult, (Rabs_pos_eq h), (Rabs_pos_eq ex) by lra.
    assert (h * Rabs (gx - ex) <= 1.001 * c * (kx * ex + eta)) by (apply Rmult_le_compat; [lra|apply Rabs_pos|lra|lra]). assert (ex * Rabs (h - c) <= ex * (11 * u * c)) by (apply Rmult_le_compat_l; lra). lra. }
  assert (k1 : (1.001 * kx + 11.3 * u) * (c * ex) <= 0.015 * (c * ex)) by (apply Rmult_le_compat_r; lra).
  pose proof (near_abs _ _ (c * ex) _ A (Req_le _ _ (Rabs_pos_eq (c * ex) ltac:(lra)))) as A1. pose proof (rn_err emin prec P0 (h * gx)) as R1. assert (u * Rabs (h * gx) <= u * (1.015 * (c * ex) + 1.01 * (c * eta))) by (apply Rmult_le_compat_l; lra). assert (u * (c * eta) <= / 16777216 * (c * eta)) by (apply Rmult_le_compat_r; lra).
  assert (B : Rabs (rn (h * gx) - c * ex) <= (1.001 * kx + 12.4 * u) * (c * ex) + 1.02 * (c * eta) + eta) by (pose proof (tri (rn (h * gx)) (h * gx) (c * ex)); lra). set (m := rn (h * gx)) in *.
  assert (k2 : (1.001 * kx + 12.4 * u) * (c * ex) <= 0.015 * (c * ex)) by (apply Rmult_le_compat_r; lra).
  assert (gy1 : Rabs gy <= 1.02 * ey + eta). { pose proof (near_abs _ _ ey _ Gy (Req_le _ _ (Rabs_pos_eq ey ltac:(lra)))). assert (ky * ey <= / 80 * ey) by (apply Rmult_le_compat_r; lra). lra. }
  set (g := c * ex * ey). assert (g0 : 0 < g) by (apply Rmult_lt_0_compat; lra). assert (kg : 0 <= kx * g) by (apply Rmult_le_pos; lra). assert (kg' : 0 <= ky * g) by (apply Rmult_le_pos; lra). assert (ug : 0 <= u * g) by (apply Rmult_le_pos; lra).
  assert (cxe : c * ex * eta <= c * eta) by (apply Rmult_le_compat_r; [lra|]; assert (c * ex <= c * 1) by (apply Rmult_le_compat_l; lra); lra).
  assert (M : Rabs (m * gy - g) <= 1.02 * (1.001 * kx + 12.4 * u) * g + ky * g + 2.2 * (c * eta) + 1.1 * eta).
  { unfold g. replace (m * gy - c * ex * ey) with ((m - c * ex) * gy + c * ex * (gy - ey)) by ring. eapply Rle_trans; [apply Rabs_triang|]. rewrite (Rabs_mult (m - c * ex)), (Rabs_mult (c * ex)), (Rabs_pos_eq (c * ex)) by lra. fold g.
    assert (c * ex * Rabs (gy - ey) <= c * ex * (ky * ey + eta)) by (apply Rmult_le_compat_l; lra). replace (c * ex * (ky * ey + eta)) with (ky * g + c * ex * eta) in * by (unfold g; ring).
    assert (Rabs (m - c * ex) * Rabs gy <= ((1.001 * kx + 12.4 * u) * (c * ex) + (1.02 * (c * eta) + eta)) * (1.02 * ey + eta)) by (apply Rmult_le_compat; [apply Rabs_pos|apply Rabs_pos|lra|lra]).
    replace (((1.001 * kx + 12.4 * u) * (c * ex) + (1.02 * (c * eta) + eta)) * (1.02 * ey + eta)) with (1.02 * (1.001 * kx + 12.4 * u) * g + (1.001 * kx + 12.4 * u) * (c * ex) * eta + (1.02 * (c * eta) + eta) * (1.02 * ey + eta)) in * by (unfold g; ring).
    assert ((1.001 * kx + 12.4 * u) * (c * ex) * eta <= 0.015 * (c * ex) * eta) by (apply Rmult_le_compat_r; lra). assert ((1.02 * (c * eta) + eta) * (1.02 * ey + eta) <= (1.02 * (c * eta) + eta) * 1.03) by (apply Rmult_le_compat_l; lra). lra. }
  assert (kb : 1.02 * (1.001 * kx + 12.4 * u) * g + ky * g <= 0.03 * g). { replace (1.02 * (1.001 * kx + 12.4 * u) * g + ky * g) with ((1.02 * (1.001 * kx + 12.4 * u) + ky) * g) by ring. apply Rmult_le_compat_r; lra. }
  pose proof (near_abs _ _ g _ M (Req_le _ _ (Rabs_pos_eq g ltac:(lra)))) as M1. pose proof (rn_err emin prec P0 (m * gy)) as R2. assert (u * Rabs (m * gy) <= u * (1.03 * g + 2.2 * (c * eta) + 1.1 * eta)) by (apply Rmult_le_compat_l; lra). assert (u * eta <= / 16777216 * eta) by (apply Rmult_le_compat_r; lra).
  pose proof (tri (rn (m * gy)) (m * gy) g). lra.
Qed.
End T.

Lemma normals_two ox oy sx sy i j : 0 < sx -> 0 < sy -> normals [ox; oy] [sx; sy] [i; j] = 1 / (2 * PI * sx * sy) * exp (- ((IZR i - ox) * (IZR i - ox) / (2 * (sx * sx)))) * exp (- ((IZR j - oy) * (IZR j - oy) / (2 * (sy * sy)))).
Proof.
  intros X Y. cbn [normals]. unfold normal. pose proof PI_RGT_0. assert (Q : sqrt (2 * PI) * sqrt (2 * PI) = 2 * PI) by (apply sqrt_sqrt; lra). assert (Q0 : 0 < sqrt (2 * PI)) by (apply sqrt_lt_R0; lra). set (q := sqrt (2 * PI)) in *. rewrite <- Q.
  replace (- ((IZR i - ox) * (IZR i - ox)) / (2 * (sx * sx))) with (- ((IZR i - ox) * (IZR i - ox) / (2 * (sx * sx)))) by (field; lra). replace (- ((IZR j - oy) * (IZR j - oy)) / (2 * (sy * sy))) with (- ((IZR j - oy) * (IZR j - oy) / (2 * (sy * sy)))) by (field; lra).
  field. repeat split; lra.
Qed.
(** C149.  The value of the gaussian is that of the normal law of two independent variables, within 10.95 (x + y) + 20 units of roundoff relative to it,
    x and y being the arguments of the exponentials, plus 4 (1 + maximum) times the smallest number; the widths are between r and 1/r, where r^2 is not near the smallest numbers. *)
Theorem C149_gaussian emin prec libexp pi r ox oy sx sy i j : (24 <= prec)%Z -> (emin <= 1 - 4 * prec)%Z ->
  (forall z, z <= 0 -> Rabs (libexp z - exp z) <= 2 * unit_of prec * exp z + tiny_of emin) -> Rabs (pi - PI) <= 2 * unit_of prec * PI ->
  0 < r <= 1 -> 64 * tiny_of emin <= unit_of prec * (r * r) -> r <= sx <= / r -> r <= sy <= / r ->
  representable emin prec ox -> representable emin prec oy -> (Z.abs i <= 2 ^ prec)%Z -> (Z.abs j <= 2 ^ prec)%Z ->
  let x := (IZR i - ox) * (IZR i - ox) / (2 * (sx * sx)) in let y := (IZR j - oy) * (IZR j - oy) / (2 * (sy * sy)) in let g := normals [ox; oy] [sx; sy] [i; j] in
  x * unit_of prec <= / 1024 -> y * unit_of prec <= / 1024 ->
  Rabs (gaussian_2d_r emin prec libexp pi (ox, oy) (sx, sy) i j - g) <= (10.95 * (x + y) + 20) * unit_of prec * g + 4 * (1 / (2 * PI * sx * sy) + 1) * tiny_of emin.
Proof.
  intros Pp Pe Lx Pi R0 Re Wx Wy Ox Oy Hi Hj x y g Xu Yu. pose proof (V0 prec) as U0. pose proof (RmdProps.V2 prec Pp) as U2. set (u := unit_of prec) in *.
  destruct (argument_near emin prec Pp Pe r R0 Re ox sx i Ox Hi Wx) as [A [A0 x0]]. fold x in A, x0. destruct (argument_near emin prec Pp Pe r R0 Re oy sy j Oy Hj Wy) as [B [B0 y0]]. fold y in B, y0.
  pose proof (exp_arg emin prec Pp libexp Lx x _ x0 A0 Xu A) as Ex. pose proof (exp_arg emin prec Pp libexp Lx y _ y0 B0 Yu B) as Ey. fold u in Ex, Ey.
  pose proof (coef_near emin prec Pp pi r Pi R0 Re sx sy Wx Wy) as C. assert (c0 : 0 < 1 / (2 * PI * sx * sy)) by (apply C). set (c := 1 / (2 * PI * sx * sy)) in *.
  assert (e1 : forall z, 0 <= z -> 0 < exp (- z) <= 1) by (intros z Hz; split; [apply exp_pos|]; destruct (Req_dec z 0) as [->|N]; [rewrite Ropp_0, exp_0; lra|rewrite <- exp_0; left; apply exp_increasing; lra]).
  pose proof (Rmult_le_pos x u x0 ltac:(lra)) as xu0. pose proof (Rmult_le_pos y u y0 ltac:(lra)) as yu0.
  pose proof (product_near emin prec Pp Pe c (exp (- x)) (exp (- y)) ((10.4 * x + 2.5) * u) ((10.4 * y + 2.5) * u) _ _ _ c0 (e1 x x0) (e1 y y0) ltac:(fold u; lra) ltac:(fold u; lra) C Ex Ey) as P. fold u in P.
  assert (G : g = c * exp (- x) * exp (- y)) by (apply normals_two; lra). rewrite <- G in P. unfold gaussian_2d_r. cbn [fst snd]. cbv zeta. eapply Rle_trans; [exact P|]. apply Rplus_le_compat_r. 
  assert (g0 : 0 <= g) by (rewrite G; destruct (e1 x x0), (e1 y y0); apply Rmult_le_pos; [apply Rmult_le_pos|]; lra). apply Rmult_le_compat_r; [exact g0|]. lra.
Qed.
Print Assumptions C149_gaussian.
(** Double precision, an exponential rounded once, widths 1 and 2: the hypotheses hold at the pixel (3, 1) for the centre (1/2, 0), where the arguments are 25/8 and 1/8. *)
Example C149_example : Rabs (gaussian_2d_r (-1074) 53 (fun z => rndp (-1074) 53 (exp z)) (rndp (-1074) 53 PI) (/ 2, 0) (1, 2) 3 1 - normals [/ 2; 0] [1; 2] [3; 1]%Z) <= 56 * unit_of 53 * normals [/ 2; 0] [1; 2] [3; 1]%Z + 5 * tiny_of (-1074).
Proof.
  pose proof (V0 53) as U0. pose proof (eta4 (-1074) 53 ltac:(lia)) as E4. pose proof (eta_small (-1074) 53 ltac:(lia) ltac:(lia)) as Es. pose proof (uu_le 53 ltac:(lia)) as UU. pose proof pi_low as PL. pose proof pi_high as PH. assert (U53 := unit_53).
  assert (H : representable (-1074) 53 (/ 2)) by (exists 1%Z, (-1)%Z; split; [rewrite pow2; change (bpow radix2 (-1)) with (/ 2); lra|lia]). assert (H0 : representable (-1074) 53 0) by (exists 0%Z, 0%Z; split; [lra|lia]).
  assert (uuu : unit_of 53 * unit_of 53 <= / 16777216 * unit_of 53) by exact UU. assert (u1 : / 16777216 * unit_of 53 * unit_of 53 <= / 16777216 * (/ 16777216 * unit_of 53)) by (rewrite Rmult_assoc; apply Rmult_le_compat_l; lra).
  pose proof (C149_gaussian (-1074) 53 (fun z => rndp (-1074) 53 (exp z)) (rndp (-1074) 53 PI) (/ 2) (/ 2) 0 1 2 3 1 ltac:(lia) ltac:(lia)) as G. cbv zeta in G.
  replace ((3 - / 2) * (3 - / 2) / (2 * (1 * 1))) with (25 / 8) in G by field. replace ((1 - 0) * (1 - 0) / (2 * (2 * 2))) with (1 / 8) in G by field.
  assert (g0 : 0 < normals [/ 2; 0] [1; 2] [3; 1]%Z). { rewrite normals_two by lra. apply Rmult_lt_0_compat; [apply Rmult_lt_0_compat|]; try apply exp_pos. apply Rdiv_lt_0_compat; lra. }
  eapply Rle_trans; [apply G; try lia; try assumption; try lra|].
  - intros z _. pose proof (rn_err (-1074) 53 ltac:(lia) (exp z)) as R. pose proof (exp_pos z) as e0. rewrite (Rabs_pos_eq (exp z)) in R by lra. assert (0 <= unit_of 53 * exp z) by (apply Rmult_le_pos; lra). lra.
  - pose proof (rn_err (-1074) 53 ltac:(lia) PI) as R. rewrite (Rabs_pos_eq PI) in R by lra. assert (unit_of 53 * 3 <= unit_of 53 * PI) by (apply Rmult_le_compat_l; lra). lra.
  - assert (I : 1 / (2 * PI * 1 * 2) <= / 4). { unfold Rdiv. rewrite Rmult_1_l. apply Rinv_le_contravar; lra. } assert (unit_of 53 * normals [/ 2; 0] [1; 2] [3; 1]%Z >= 0) by (apply Rle_ge, Rmult_le_pos; lra).
    assert (1 / (2 * PI * 1 * 2) * tiny_of (-1074) <= / 4 * tiny_of (-1074)) by (apply Rmult_le_compat_r; lra). lra.
Qed.
