(** C150: circular apertures with rounded operations. *)
From Coq Require Import ZArith Reals Lra Lia List.
From Flocq Require Import Core.
From Verif Require Import Base DataSpec RndModel RndSpec RndProps BirFacts RgnFacts RmdModel RmdProps RbaFacts RprProps RdsModel RdsProps RksProps RapModel.
Import ListNotations.
Open Scope R_scope.

Definition margin (emin prec : Z) (q r sx sy : R) : R :=
  unit_of prec * (7.4 * q + r * r) + 5 * (unit_of prec * unit_of prec * (unit_of prec * unit_of prec)) * (sx * sx + sy * sy) + tiny_of emin.

(** C150.  A pixel within the circle by more than the margin is 1, a pixel outside by more than the margin is 0, and there is no other value.
    The margin is relative to the squares of the distance and of the radius. *)
Theorem C150_aperture emin prec ox oy sx sy r i j : (24 <= prec)%Z -> (emin <= 1 - 4 * prec)%Z -> representable emin prec ox -> representable emin prec oy -> representable emin prec r ->
  tiny_of emin <= unit_of prec * unit_of prec * (unit_of prec * unit_of prec) * (sx * sx) -> tiny_of emin <= unit_of prec * unit_of prec * (unit_of prec * unit_of prec) * (sy * sy) -> (Z.abs i <= 2 ^ prec)%Z -> (Z.abs j <= 2 ^ prec)%Z ->
  let q := norm2 [sx; sy] [ox; oy] [i; j] in let m := margin emin prec q r sx sy in let v := aperture_r emin prec (ox, oy) (sx, sy) (2 * r) i j in
  (v = 0 \/ v = 1) /\ (q + m <= r * r -> v = 1) /\ (r * r + m < q -> v = 0).
Proof.
  intros Pp Pe Ox Oy Or Sx Sy Hi Hj q m v. destruct (C148_distance_2d emin prec ox oy sx sy i j Pp Pe Ox Oy Sx Sy Hi Hj) as [_ A]. fold q in A. unfold v, aperture_r. cbv zeta. set (x := distance2_2d_r _ _ _ _ _ _) in *. replace (2 * r / 2) with r by field.
  assert (F : rndp emin prec r = r) by (unfold rndp; apply round_generic; [apply valid_rnd_N|apply format_representable, Or]). rewrite F. pose proof (rn_err emin prec ltac:(lia) (r * r)) as E. rewrite (Rabs_pos_eq (r * r)) in E by apply sq_pos. apply Rabs_le_inv in A. apply Rabs_le_inv in E.
  unfold m, margin. destruct (Rle_dec _ _) as [L|L]; repeat split; intros; try (left; reflexivity); try (right; reflexivity); try reflexivity; exfalso; lra.
Qed.
Print Assumptions C150_aperture.

(** Double precision, centre (1/2, 0), scales 1 and 2, diameter 10: the hypotheses hold at the pixels (3, 2) and (4, 2), at squared distances of 89/4 and 113/4 for a squared radius of 25. *)
Example C150_example : aperture_r (-1074) 53 (/ 2, 0) (1, 2) (2 * 5) 3 2 = 1 /\ aperture_r (-1074) 53 (/ 2, 0) (1, 2) (2 * 5) 4 2 = 0.
Proof.
  pose proof (V0 53) as U0. destruct (eta4 (-1074) 53 ltac:(lia)) as [_ E4]. assert (U53 := unit_53). assert (p0 : 0 <= unit_of 53 * unit_of 53 * (unit_of 53 * unit_of 53)) by apply sq_pos.
  assert (T : forall s, 1 <= s * s -> tiny_of (-1074) <= unit_of 53 * unit_of 53 * (unit_of 53 * unit_of 53) * (s * s)).
  { intros s H. assert (unit_of 53 * unit_of 53 * (unit_of 53 * unit_of 53) * 1 <= unit_of 53 * unit_of 53 * (unit_of 53 * unit_of 53) * (s * s)) by (apply Rmult_le_compat_l; lra). lra. }
  assert (p1 : unit_of 53 * unit_of 53 * (unit_of 53 * unit_of 53) <= / 1000) by (rewrite U53; lra).
  assert (H : representable (-1074) 53 (/ 2)) by (exists 1%Z, (-1)%Z; split; [rewrite pow2; change (bpow radix2 (-1)) with (/ 2); lra|lia]). assert (H0 : representable (-1074) 53 0) by (exists 0%Z, 0%Z; split; [lra|lia]). assert (H5 : representable (-1074) 53 5) by (exists 5%Z, 0%Z; split; [rewrite pow2; change (bpow radix2 0) with 1; lra|lia]).
  assert (Q1 : norm2 [1; 2] [/ 2; 0] [3; 2]%Z = 89 / 4) by (cbn [norm2]; lra). assert (Q2 : norm2 [1; 2] [/ 2; 0] [4; 2]%Z = 113 / 4) by (cbn [norm2]; lra).
  split.
  - apply (C150_aperture (-1074) 53 (/ 2) 0 1 2 5 3 2 ltac:(lia) ltac:(lia) H H0 H5 (T 1 ltac:(lra)) (T 2 ltac:(lra)) ltac:(lia) ltac:(lia)). rewrite Q1. unfold margin. lra.
  - apply (C150_aperture (-1074) 53 (/ 2) 0 1 2 5 4 2 ltac:(lia) ltac:(lia) H H0 H5 (T 1 ltac:(lra)) (T 2 ltac:(lra)) ltac:(lia) ltac:(lia)). rewrite Q2. unfold margin. lra.
Qed.

(** On the circle itself the answer is that of the roundings: with a scale of 2^28 + 3 and a radius of five pixels, the fifth pixel, at a distance equal to the radius, is left out, while the first pixel is kept for a radius of one pixel.
    All the data are integers that are represented exactly. *)
Theorem C150_circle_refuted : let s := IZR (2 ^ 28 + 3) in
  norm2 [s; s] [0; 0] [5; 0]%Z = 5 * s * (5 * s) /\ aperture_r (-1074) 53 (0, 0) (s, s) (2 * (5 * s)) 5 0 = 0 /\
  norm2 [s; s] [0; 0] [1; 0]%Z = s * s /\ aperture_r (-1074) 53 (0, 0) (s, s) (2 * s) 1 0 = 1.
Proof.
  intros s. assert (I : forall n, (Z.abs n <= 2 ^ 53)%Z -> rndp (-1074) 53 (IZR n) = IZR n) by apply rndp_int.
  assert (Z0 : rndp (-1074) 53 0 = 0) by (apply (I 0%Z); lia). assert (N : forall k, norm2 [s; s] [0; 0] [k; 0]%Z = IZR k * s * (IZR k * s)) by (intros k; cbn [norm2]; ring).
  assert (S2 : rndp (-1074) 53 (s * s) = IZR (2 ^ 56 + 6 * 2 ^ 28 + 16)). { unfold s. rewrite <- mult_IZR. apply (rndp_integer ((2 ^ 28 + 3) * (2 ^ 28 + 3)) 57 (2 ^ 52 + 6 * 2 ^ 24 + 1)); lia. }
  assert (Y : forall t, distance2_1d_r (-1074) 53 0 t 0 = 0) by (intros t; unfold distance2_1d_r; cbv zeta; rewrite Z0, Rminus_0_r, Z0, Rmult_0_r, Z0, Rmult_0_r, Z0; reflexivity).
  assert (Is : rndp (-1074) 53 s = s) by (apply I; lia).
  split; [apply (N 5%Z)|]. split; [|split; [rewrite (N 1%Z); ring|]].
  - unfold aperture_r, distance2_2d_r, squared_r. cbn [fst snd]. cbv zeta. rewrite Y, Rplus_0_r, S2. unfold distance2_1d_r. cbv zeta.
    rewrite (I 5%Z), Rminus_0_r, (I 5%Z) by lia. rewrite <- mult_IZR, (I (5 * 5)%Z), <- mult_IZR by lia.
    rewrite (rndp_integer ((2 ^ 56 + 6 * 2 ^ 28 + 16) * (5 * 5)) 61 (25 * 2 ^ 48 + 150 * 2 ^ 20 + 2)) by lia.
    rewrite (rndp_integer ((25 * 2 ^ 48 + 150 * 2 ^ 20 + 2) * 2 ^ (61 - 53)) 61 (25 * 2 ^ 48 + 150 * 2 ^ 20 + 2)) by lia.
    replace (2 * (5 * s) / 2) with (IZR (5 * (2 ^ 28 + 3))) by (rewrite mult_IZR; fold s; field). rewrite (I (5 * (2 ^ 28 + 3))%Z) by lia. rewrite <- mult_IZR.
    rewrite (rndp_integer (5 * (2 ^ 28 + 3) * (5 * (2 ^ 28 + 3))) 61 (25 * 2 ^ 48 + 150 * 2 ^ 20 + 1)) by lia.
    destruct (Rle_dec _ _) as [L|L]; [|reflexivity]. exfalso. apply le_IZR in L. lia.
  - unfold aperture_r, distance2_2d_r, squared_r. cbn [fst snd]. cbv zeta. rewrite Y, Rplus_0_r, S2. unfold distance2_1d_r. cbv zeta.
    rewrite (I 1%Z), Rminus_0_r, (I 1%Z) by lia. rewrite <- mult_IZR, (I (1 * 1)%Z), <- mult_IZR by lia.
    rewrite (rndp_integer ((2 ^ 56 + 6 * 2 ^ 28 + 16) * (1 * 1)) 57 (2 ^ 52 + 6 * 2 ^ 24 + 1)) by lia.
    rewrite (rndp_integer ((2 ^ 52 + 6 * 2 ^ 24 + 1) * 2 ^ (57 - 53)) 57 (2 ^ 52 + 6 * 2 ^ 24 + 1)) by lia.
    replace (2 * s / 2) with s by field. rewrite Is, S2.
    destruct (Rle_dec _ _) as [L|L]; [reflexivity|]. exfalso. apply L. apply IZR_le. lia.
Qed.
Print Assumptions C150_circle_refuted.
