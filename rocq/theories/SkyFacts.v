From Coq Require Import Reals Lra String Lia.
From Verif Require Import Base SkyModel SkySpec.
Open Scope R_scope.
Lemma floor_bounds x : npfloor x <= x < npfloor x + 1.
Proof. unfold npfloor. destruct (base_Int_part x). lra. Qed.
Lemma modulo_bounds x y : 0 < y -> 0 <= modulo x y < y.
Proof.
  intros H. unfold modulo. pose proof (floor_bounds (x / y)) as [A B]. assert (E : y * (x / y) = x) by (field; lra).
  apply (Rmult_le_compat_l y) in A; [|lra]. apply (Rmult_lt_compat_l y) in B; [|lra]. lra.
Qed.
Lemma modulo_equiv x y : exists k : Z, modulo x y = x + y * IZR k.
Proof. exists (- Int_part (x / y))%Z. unfold modulo, npfloor. rewrite opp_IZR. ring. Qed.
Lemma modulo_unique x y r k : 0 < y -> 0 <= r < y -> x = r + y * IZR k -> modulo x y = r.
Proof.
  intros Hy Hr ->. unfold modulo, npfloor. replace (Int_part ((r + y * IZR k) / y)) with k; [ring|].
  apply eq_sym. replace ((r + y * IZR k) / y) with (IZR k + r / y) by (field; lra). assert (0 <= r / y < 1).
  { split; [apply Rmult_le_pos; [lra | apply Rlt_le, Rinv_0_lt_compat; lra]|]. apply (Rmult_lt_reg_r y); [lra|]. unfold Rdiv. rewrite Rmult_assoc, Rinv_l by lra. lra. }
  unfold Int_part. rewrite <- (tech_up (IZR k + r / y) (k + 1)); [lia | rewrite plus_IZR; lra | rewrite plus_IZR; lra].
Qed.
Lemma trig x : sin x * sin x + cos x * cos x = 1.
Proof. pose proof (sin2_cos2 x) as H. unfold Rsqr in H. exact H. Qed.
Lemma horizontal_rows lat lst : let '(a, b, c) := horizontal lat lst in orthonormal a b c.
Proof.
  unfold horizontal, orthonormal, scalar. cbn [fst snd]. set (s := sin (radians lat)). set (c := cos (radians lat)). set (s' := sin (radians (lst * 15))). set (c' := cos (radians (lst * 15))).
  assert (A : s * s + c * c = 1) by apply trig. assert (B : s' * s' + c' * c' = 1) by apply trig.
  repeat split; try ring.
  - transitivity (s * s * (s' * s' + c' * c') + c * c); [ring | rewrite B; lra].
  - transitivity (s' * s' + c' * c'); [ring | exact B].
  - transitivity (c * c * (s' * s' + c' * c') + s * s); [ring | rewrite B; lra].
  - transitivity (s * c * (1 - (s' * s' + c' * c'))); [ring | rewrite B; ring].
Qed.
(** Rows that are orthonormal make columns that are: with the determinant d of the rows,
    each column is d times the vector product of the two others. *)
Lemma columns (a b c : vec) : orthonormal a b c -> let '((a0, a1, a2), (b0, b1, b2), (c0, c1, c2)) := (a, b, c) in orthonormal (a0, b0, c0) (a1, b1, c1) (a2, b2, c2).
Proof.
  destruct a as [[a0 a1] a2], b as [[b0 b1] b2], c as [[c0 c1] c2]. unfold orthonormal, scalar. cbn [fst snd]. intros [H1 [H2 [H3 [H4 [H5 H6]]]]].
  set (d := a0 * (b1 * c2 - b2 * c1) - a1 * (b0 * c2 - b2 * c0) + a2 * (b0 * c1 - b1 * c0)).
  assert (D : d * d = 1).
  { transitivity ((a0 * a0 + a1 * a1 + a2 * a2) * ((b0 * b0 + b1 * b1 + b2 * b2) * (c0 * c0 + c1 * c1 + c2 * c2) - (b0 * c0 + b1 * c1 + b2 * c2) * (b0 * c0 + b1 * c1 + b2 * c2))
      - (a0 * b0 + a1 * b1 + a2 * b2) * ((a0 * b0 + a1 * b1 + a2 * b2) * (c0 * c0 + c1 * c1 + c2 * c2) - (b0 * c0 + b1 * c1 + b2 * c2) * (a0 * c0 + a1 * c1 + a2 * c2))
      + (a0 * c0 + a1 * c1 + a2 * c2) * ((a0 * b0 + a1 * b1 + a2 * b2) * (b0 * c0 + b1 * c1 + b2 * c2) - (b0 * b0 + b1 * b1 + b2 * b2) * (a0 * c0 + a1 * c1 + a2 * c2))); [unfold d; ring|].
    rewrite H1, H2, H3, H4, H5, H6. ring. }
  (* each row is d times the vector product of the two others *)
  assert (K : forall x0 x1 x2 y0 y1 y2 z0 z1 z2 e : R, x0 * x0 + x1 * x1 + x2 * x2 = 1 -> x0 * y0 + x1 * y1 + x2 * y2 = 0 -> x0 * z0 + x1 * z1 + x2 * z2 = 0 ->
     e = x0 * (y1 * z2 - y2 * z1) - x1 * (y0 * z2 - y2 * z0) + x2 * (y0 * z1 - y1 * z0) ->
     y1 * z2 - y2 * z1 = e * x0 /\ y2 * z0 - y0 * z2 = e * x1 /\ y0 * z1 - y1 * z0 = e * x2).
  { intros x0 x1 x2 y0 y1 y2 z0 z1 z2 e Hx Hy Hz ->. repeat split.
    - transitivity ((y1 * z2 - y2 * z1) * (x0 * x0 + x1 * x1 + x2 * x2)); [rewrite Hx; ring|].
      transitivity ((x0 * (y1 * z2 - y2 * z1) - x1 * (y0 * z2 - y2 * z0) + x2 * (y0 * z1 - y1 * z0)) * x0 + x1 * ((x0 * y0 + x1 * y1 + x2 * y2) * z2 - (x0 * z0 + x1 * z1 + x2 * z2) * y2) - x2 * ((x0 * y0 + x1 * y1 + x2 * y2) * z1 - (x0 * z0 + x1 * z1 + x2 * z2) * y1)); [ring | rewrite Hy, Hz; ring].
    - transitivity ((y2 * z0 - y0 * z2) * (x0 * x0 + x1 * x1 + x2 * x2)); [rewrite Hx; ring|].
      transitivity ((x0 * (y1 * z2 - y2 * z1) - x1 * (y0 * z2 - y2 * z0) + x2 * (y0 * z1 - y1 * z0)) * x1 + x2 * ((x0 * y0 + x1 * y1 + x2 * y2) * z0 - (x0 * z0 + x1 * z1 + x2 * z2) * y0) - x0 * ((x0 * y0 + x1 * y1 + x2 * y2) * z2 - (x0 * z0 + x1 * z1 + x2 * z2) * y2)); [ring | rewrite Hy, Hz; ring].
    - transitivity ((y0 * z1 - y1 * z0) * (x0 * x0 + x1 * x1 + x2 * x2)); [rewrite Hx; ring|].
      transitivity ((x0 * (y1 * z2 - y2 * z1) - x1 * (y0 * z2 - y2 * z0) + x2 * (y0 * z1 - y1 * z0)) * x2 + x0 * ((x0 * y0 + x1 * y1 + x2 * y2) * z1 - (x0 * z0 + x1 * z1 + x2 * z2) * y1) - x1 * ((x0 * y0 + x1 * y1 + x2 * y2) * z0 - (x0 * z0 + x1 * z1 + x2 * z2) * y0)); [ring | rewrite Hy, Hz; ring]. }
  destruct (K a0 a1 a2 b0 b1 b2 c0 c1 c2 d H1 H4 H5 eq_refl) as [A0 [A1 A2]].
  destruct (K b0 b1 b2 c0 c1 c2 a0 a1 a2 d H2 H6 ltac:(lra) ltac:(unfold d; ring)) as [B0 [B1 B2]].
  destruct (K c0 c1 c2 a0 a1 a2 b0 b1 b2 d H3 ltac:(lra) ltac:(lra) ltac:(unfold d; ring)) as [C0 [C1 C2]].
  assert (Q : forall x, x = d * (d * x)) by (intros x; transitivity (d * d * x); [rewrite D; ring | ring]).
  assert (W : forall x y, d * x = d * y -> x = y) by (intros x y Hxy; rewrite (Q x), (Q y), Hxy; reflexivity).
  assert (Z : forall x, d * x = 0 -> x = 0) by (intros x Hx; apply W; rewrite Hx; ring).
  assert (Z1 : forall x, d * x = d -> x = 1) by (intros x Hx; apply W; rewrite Hx; ring).
  repeat split.
  - apply Z1. transitivity (a0 * (d * a0) + b0 * (d * b0) + c0 * (d * c0)); [ring|]. rewrite <- A0, <- B0, <- C0. unfold d. ring.
  - apply Z1. transitivity (a1 * (d * a1) + b1 * (d * b1) + c1 * (d * c1)); [ring|]. rewrite <- A1, <- B1, <- C1. unfold d. ring.
  - apply Z1. transitivity (a2 * (d * a2) + b2 * (d * b2) + c2 * (d * c2)); [ring|]. rewrite <- A2, <- B2, <- C2. unfold d. ring.
  - apply Z. transitivity (a1 * (d * a0) + b1 * (d * b0) + c1 * (d * c0)); [ring|]. rewrite <- A0, <- B0, <- C0. ring.
  - apply Z. transitivity (a2 * (d * a0) + b2 * (d * b0) + c2 * (d * c0)); [ring|]. rewrite <- A0, <- B0, <- C0. ring.
  - apply Z. transitivity (a2 * (d * a1) + b2 * (d * b1) + c2 * (d * c1)); [ring|]. rewrite <- A1, <- B1, <- C1. ring.
Qed.
Lemma rows_swap m : rows_ok m -> rows_ok (swapaxes m).
Proof. destruct m as [[[[a0 a1] a2] [[b0 b1] b2]] [[c0 c1] c2]]. apply columns. Qed.
Lemma swap_swap m : swapaxes (swapaxes m) = m.
Proof. destruct m as [[[[a0 a1] a2] [[b0 b1] b2]] [[c0 c1] c2]]. reflexivity. Qed.
Lemma apply_inverse m v : rows_ok m -> apply_mat m (apply_mat (swapaxes m) v) = v.
Proof.
  destruct m as [[[[a0 a1] a2] [[b0 b1] b2]] [[c0 c1] c2]], v as [[x y] z]. unfold rows_ok, orthonormal, scalar. cbn [fst snd]. intros [H1 [H2 [H3 [H4 [H5 H6]]]]].
  cbn [apply_mat swapaxes dot3]. repeat apply (f_equal2 pair).
  - transitivity ((a0 * a0 + a1 * a1 + a2 * a2) * x + (a0 * b0 + a1 * b1 + a2 * b2) * y + (a0 * c0 + a1 * c1 + a2 * c2) * z); [ring | rewrite H1, H4, H5; ring].
  - transitivity ((a0 * b0 + a1 * b1 + a2 * b2) * x + (b0 * b0 + b1 * b1 + b2 * b2) * y + (b0 * c0 + b1 * c1 + b2 * c2) * z); [ring | rewrite H2, H4, H6; ring].
  - transitivity ((a0 * c0 + a1 * c1 + a2 * c2) * x + (b0 * c0 + b1 * c1 + b2 * c2) * y + (c0 * c0 + c1 * c1 + c2 * c2) * z); [ring | rewrite H3, H5, H6; ring].
Qed.
Lemma apply_inverse_l m v : rows_ok m -> apply_mat (swapaxes m) (apply_mat m v) = v.
Proof. intros H. rewrite <- (swap_swap m) at 2. now apply apply_inverse, rows_swap. Qed.
Lemma adjoint3 m u v : scalar (apply_mat m u) v = scalar u (apply_mat (swapaxes m) v).
Proof. destruct m as [[[[a0 a1] a2] [[b0 b1] b2]] [[c0 c1] c2]], u as [[x y] z], v as [[p q] r]. unfold scalar. cbn [apply_mat swapaxes dot3 fst snd]. ring. Qed.
Lemma angles m u v : rows_ok m -> scalar (apply_mat m u) (apply_mat m v) = scalar u v.
Proof. intros H. now rewrite adjoint3, apply_inverse_l. Qed.
