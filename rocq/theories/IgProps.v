(** Property C117: shapes and rotations of integer coordinates. *)
From Coq Require Import Reals List ZArith Lra Lia Arith.
From Verif Require Import Base GeoModel DataModel IgModel IgSpec.
Import ListNotations.
Local Open Scope R_scope.

Lemma trunc_IZR : forall k, trunc (IZR k) = k.
Proof.
  intros k. unfold trunc. destruct (Rle_dec 0 (IZR k)).
  - destruct (base_Int_part (IZR k)) as [A B]. apply le_IZR in A. rewrite <- minus_IZR in B.
    replace (-1) with (IZR (-1)) in B by reflexivity. apply lt_IZR in B. lia.
  - rewrite <- opp_IZR. destruct (base_Int_part (IZR (- k))) as [A B]. apply le_IZR in A. rewrite <- minus_IZR in B.
    apply lt_IZR in B. lia.
Qed.
Lemma trunc_error : forall x, Rabs (IZR (trunc x) - x) < 1 /\ Rabs (IZR (trunc x)) <= Rabs x.
Proof.
  intros x. unfold trunc. destruct (Rle_dec 0 x) as [H|H].
  - destruct (base_Int_part x) as [A B]. assert (0 <= IZR (Int_part x)).
    { apply IZR_le. assert (-1 < Int_part x)%Z; [|lia]. apply lt_IZR. lra. }
    rewrite (Rabs_pos_eq x), (Rabs_pos_eq (IZR _)) by lra. split; [|lra]. rewrite Rabs_left1; lra.
  - destruct (base_Int_part (- x)) as [A B]. rewrite opp_IZR. assert (0 <= IZR (Int_part (- x))).
    { apply IZR_le. assert (-1 < Int_part (- x))%Z; [|lia]. apply lt_IZR. lra. }
    rewrite (Rabs_left1 x), (Rabs_left1 (- IZR _)) by lra. split; [|lra]. rewrite Rabs_pos_eq; lra.
Qed.
Lemma trunc_small : forall x, -1 < x < 1 -> trunc x = 0%Z.
Proof.
  intros x H. destruct (trunc_error x) as [_ B]. assert (C : Rabs x < 1) by (apply Rabs_def1; lra).
  assert (D : Rabs (IZR (trunc x)) < 1) by lra. apply Rabs_def2 in D as [D1 D2]. rewrite <- opp_IZR in D2. apply lt_IZR in D1. apply lt_IZR in D2. lia.
Qed.
Lemma degrees : forall angle, angle * DEG2RAD = PI * angle / 180.
Proof. intros. unfold DEG2RAD. field. Qed.
Lemma quarter : forall angle, right_angles angle <-> sin (PI * angle / 180) = 0 \/ cos (PI * angle / 180) = 0.
Proof.
  intros angle. pose proof PI_RGT_0. split.
  - intros [k ->]. assert (S : sin (2 * (PI * (90 * IZR k) / 180)) = 0) by (apply sin_eq_0_1; exists k; field).
    rewrite sin_2a in S. assert (E : sin (PI * (90 * IZR k) / 180) * cos (PI * (90 * IZR k) / 180) = 0) by lra.
    apply Rmult_integral in E. tauto.
  - intros [E|E].
    + apply sin_eq_0_0 in E as [k E]. exists (2 * k)%Z. rewrite mult_IZR. nra.
    + apply cos_eq_0_0 in E as [k E]. exists (2 * k + 1)%Z. rewrite plus_IZR, mult_IZR. nra.
Qed.
Lemma unit_or : forall x y, x * x + y * y = 1 -> y = 0 -> x = 1 \/ x = -1.
Proof. intros x y H ->. assert (E : (x - 1) * (x + 1) = 0) by lra. apply Rmult_integral in E as [E|E]; [left | right]; lra. Qed.

Theorem C117_right_angles : forall angle xy, right_angles angle -> map real_point (rotate_int angle xy) = map (turned angle) xy.
Proof.
  intros angle xy H. unfold rotate_int. rewrite degrees. apply quarter in H. set (a := PI * angle / 180) in *.
  assert (U : sin a * sin a + cos a * cos a = 1) by (pose proof (sin2_cos2 a) as Q; unfold Rsqr in Q; exact Q).
  assert (I : exists s c, sin a = IZR s /\ cos a = IZR c).
  { destruct H as [H|H].
    - assert (V : cos a * cos a + sin a * sin a = 1) by lra. destruct (unit_or _ _ V H) as [E|E]; [exists 0%Z, 1%Z | exists 0%Z, (-1)%Z]; lra.
    - destruct (unit_or _ _ U H) as [E|E]; [exists 1%Z, 0%Z | exists (-1)%Z, 0%Z]; lra. }
  destruct I as (s & c & Es & Ec). rewrite map_map. apply map_ext. intros [x y]. unfold real_point, turned. fold a. cbn [fst snd].
  rewrite Es, Ec, <- opp_IZR, !trunc_IZR, !plus_IZR, !mult_IZR, opp_IZR. f_equal. ring.
Qed.
Print Assumptions C117_right_angles.
Theorem C117_other_angles : forall angle xy, ~ right_angles angle -> rotate_int angle xy = map (fun _ => (0, 0)%Z) xy.
Proof.
  intros angle xy H. unfold rotate_int. rewrite degrees. rewrite quarter in H. set (a := PI * angle / 180) in *.
  assert (U : sin a * sin a + cos a * cos a = 1) by (pose proof (sin2_cos2 a) as Q; unfold Rsqr in Q; exact Q).
  assert (S : sin a <> 0) by tauto. assert (C : cos a <> 0) by tauto.
  assert (S2 : 0 < sin a * sin a) by (apply Rsqr_pos_lt in S; exact S). assert (C2 : 0 < cos a * cos a) by (apply Rsqr_pos_lt in C; exact C).
  rewrite (trunc_small (cos a)), (trunc_small (sin a)), (trunc_small (- sin a)) by nra.
  apply map_ext. intros [x y]. cbn [fst snd]. f_equal; ring.
Qed.
Print Assumptions C117_other_angles.
(** 45 degrees. *)
Lemma right_45 : ~ right_angles 45.
Proof. intros [k H]. assert (E : IZR (2 * k) = 1) by (rewrite mult_IZR; lra). apply eq_IZR in E. lia. Qed.
Theorem C117_rotate_refuted : ~ (forall angle v, exists w, rotate_int angle [v] = [w] /\
  Rabs (fst (real_point w) - fst (turned angle v)) <= 1 /\ Rabs (snd (real_point w) - snd (turned angle v)) <= 1).
Proof.
  intros H. destruct (H 45 (100, 0)%Z) as (w & E & A & _). rewrite (C117_other_angles _ _ right_45) in E. cbn in E. inversion E; subst w.
  unfold turned, real_point in A. cbn [fst snd] in A. replace (PI * 45 / 180) with (PI / 4) in A by field. rewrite cos_PI4 in A.
  assert (0 < sqrt 2) by (apply sqrt_lt_R0; lra). assert (sqrt 2 * sqrt 2 = 2) by (apply sqrt_sqrt; lra).
  assert (L : 1 / sqrt 2 > 1 / 2) by (apply Rmult_lt_reg_l with (sqrt 2); [lra|]; replace (sqrt 2 * (1 / sqrt 2)) with 1 by (field; lra); nra).
  rewrite Rabs_left1 in A by lra. lra.
Qed.
Print Assumptions C117_rotate_refuted.
Example C117_rotate_case : right_angles 90 /\ ~ right_angles 45 /\ rotate_int 45 [(100, 7); (3, -20)]%Z = [(0, 0); (0, 0)]%Z /\ rotate_int 90 [(100, 7)]%Z = [(-7, 100)]%Z.
Proof.
  split; [exists 1%Z; lra|]. split; [exact right_45|]. split; [rewrite (C117_other_angles 45 _ right_45); reflexivity|].
  unfold rotate_int. rewrite degrees. replace (PI * 90 / 180) with (PI / 2) by field. rewrite cos_PI2, sin_PI2.
  rewrite <- opp_IZR, !trunc_IZR. reflexivity.
Qed.

(** Rectangles of integers are points. *)
Theorem C117_rectangle : forall sx sy center angle, rectangle_int sx sy center angle = repeat center 4.
Proof.
  intros sx sy [x y] angle. unfold rectangle_int.
  assert (C : corners_int sx sy = [(0, 0); (0, 0); (0, 0); (0, 0)]%Z).
  { unfold corners_int. cbn [map fst snd]. rewrite (trunc_small (/ 2)), (trunc_small (- / 2)) by lra. reflexivity. }
  rewrite C. assert (E : rotate_int angle [(0, 0); (0, 0); (0, 0); (0, 0)]%Z = [(0, 0); (0, 0); (0, 0); (0, 0)]%Z) by reflexivity.
  rewrite E. destruct (eqb angle 0); reflexivity.
Qed.
Print Assumptions C117_rectangle.
Theorem C117_rectangle_refuted : ~ (forall sx sy center angle, (0 < sx)%Z -> (0 < sy)%Z -> NoDup (rectangle_int sx sy center angle)).
Proof.
  intros H. specialize (H 2%Z 4%Z (0, 0)%Z 0 ltac:(lia) ltac:(lia)). rewrite C117_rectangle in H. cbn in H. inversion H as [|? ? N _]; subst. apply N. left. reflexivity.
Qed.
Print Assumptions C117_rectangle_refuted.

(** Vertices of polygons are truncated: less than one from the real vertex, never further from the axes. *)
Theorem C117_polygon : forall n radius center angle k v, nth_error (polygon_int n radius center angle) k = Some v ->
  let a := 2 * PI * INR k / INR n + PI * angle / 180 in
  let x := IZR radius * cos a + IZR (fst center) in let y := IZR radius * sin a + IZR (snd center) in
  (k < n)%nat /\ Rabs (fst (real_point v) - x) < 1 /\ Rabs (snd (real_point v) - y) < 1 /\
  Rabs (fst (real_point v)) <= Rabs x /\ Rabs (snd (real_point v)) <= Rabs y.
Proof.
  intros n radius center angle k v H a x y. unfold polygon_int in H.
  assert (K : (k < n)%nat).
  { rewrite <- (seq_length n 0). match type of H with nth_error (map ?f _) _ = _ => rewrite <- (map_length f (seq 0 n)) end.
    apply nth_error_Some. intros N. rewrite N in H. discriminate. }
  assert (E : nth_error (seq 0 n) k = Some k).
  { rewrite (nth_error_nth' _ 0%nat) by (rewrite seq_length; exact K). rewrite seq_nth by exact K. reflexivity. }
  rewrite (map_nth_error _ _ _ E) in H. inversion H; subst v; clear H.
  assert (A : 2 * (4 * atan 1) / INR n * INR k + angle * DEG2RAD = a).
  { unfold a. rewrite degrees, atan_1. field. apply not_0_INR. lia. }
  rewrite A. unfold real_point. cbn [fst snd]. fold x y.
  destruct (trunc_error x), (trunc_error y). auto.
Qed.
Print Assumptions C117_polygon.
Example C117_polygon_case : nth_error (polygon_int 4 3 (1, 1)%Z 0) 0 = Some (4, 1)%Z.
Proof.
  unfold polygon_int. cbn [seq map nth_error]. rewrite degrees. replace (2 * (4 * atan 1) / INR 4 * INR 0 + PI * 0 / 180) with 0 by (cbn [INR]; field).
  rewrite cos_0, sin_0. cbn [fst snd]. replace (3 * 1 + 1) with (IZR 4) by lra. replace (3 * 0 + 1) with (IZR 1) by lra. rewrite !trunc_IZR. reflexivity.
Qed.
