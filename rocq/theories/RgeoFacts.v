From Coq Require Import Reals ZArith Lra Lia Bool.
From Coquelicot Require Import Coquelicot.
From Verif Require Import Base SparseModel GeoModel GeoSpec GeoFacts RndModel RndSpec RndProps BirFacts RgeoModel.
Open Scope R_scope.
(** *** Numbers of a format are apart *)
Lemma mant_lt prec m e : (Z.abs m < 2 ^ prec)%Z -> (0 <= prec)%Z -> unit_of prec * Rabs (IZR m * powerRZ 2 e) <= powerRZ 2 e.
Proof.
  intros H P. assert (B : 0 < powerRZ 2 e) by (apply powerRZ_lt; lra). rewrite Rabs_mult, (Rabs_right (powerRZ 2 e)) by lra. rewrite <- abs_IZR.
  assert (I : IZR (Z.abs m) <= powerRZ 2 prec). { rewrite <- (Z2Nat.id prec) by exact P. rewrite <- pow_powerRZ. rewrite pow_IZR. apply IZR_le. rewrite Z2Nat.id by exact P. lia. }
  assert (U : unit_of prec * powerRZ 2 prec = 1) by (unfold unit_of; rewrite <- powerRZ_add by lra; replace (- prec + prec)%Z with 0%Z by lia; reflexivity).
  pose proof (u_pos prec) as U0. assert (unit_of prec * IZR (Z.abs m) <= 1) by (rewrite <- U; apply Rmult_le_compat_l; lra).
  rewrite <- Rmult_assoc. rewrite <- (Rmult_1_l (powerRZ 2 e)) at 2. apply Rmult_le_compat_r; lra.
Qed.
Lemma multiple m1 e1 m2 e2 : (e1 <= e2)%Z -> IZR m1 * powerRZ 2 e1 <> IZR m2 * powerRZ 2 e2 -> powerRZ 2 e1 <= Rabs (IZR m2 * powerRZ 2 e2 - IZR m1 * powerRZ 2 e1).
Proof.
  intros H N. replace e2 with ((e2 - e1) + e1)%Z in * by lia. rewrite powerRZ_add in * by lra.
  rewrite <- (Z2Nat.id (e2 - e1)) in * by lia. rewrite <- pow_powerRZ, pow_IZR in *. set (k := (2 ^ Z.of_nat (Z.to_nat (e2 - e1)))%Z) in *.
  assert (B : 0 < powerRZ 2 e1) by (apply powerRZ_lt; lra). replace (IZR m2 * (IZR k * powerRZ 2 e1) - IZR m1 * powerRZ 2 e1) with (IZR (m2 * k - m1) * powerRZ 2 e1) by (rewrite minus_IZR, mult_IZR; ring).
  rewrite Rabs_mult, (Rabs_right (powerRZ 2 e1)) by lra. rewrite <- (Rmult_1_l (powerRZ 2 e1)) at 1. apply Rmult_le_compat_r; [lra|]. rewrite <- abs_IZR. apply IZR_le.
  assert (m2 * k - m1 <> 0)%Z; [|lia]. intros Z. apply N. replace m1 with (m2 * k)%Z by lia. rewrite mult_IZR. ring.
Qed.
Section Apart.
Variables (emin prec : Z).
Hypothesis Pp : (0 < prec)%Z.
Notation u := (unit_of prec).
Notation eta := (tiny_of emin).
Lemma two_eta : 2 * eta = powerRZ 2 emin.
Proof. unfold tiny_of. replace emin with (1 + (emin - 1))%Z at 2 by lia. rewrite powerRZ_add by lra. cbn [powerRZ]. change (Pos.to_nat 1) with 1%nat. cbn [pow]. ring. Qed.
Lemma pow_mono e e' : (e <= e')%Z -> powerRZ 2 e <= powerRZ 2 e'.
Proof. intros H. rewrite !pow2. apply Flocq.Core.Raux.bpow_le. exact H. Qed.
Lemma apart x y : representable emin prec x -> representable emin prec y -> x <> y -> u * Rabs x <= (1 + u) * Rabs (y - x) /\ 2 * eta <= Rabs (y - x).
Proof.
  intros (m1 & e1 & E1 & M1 & H1) (m2 & e2 & E2 & M2 & H2) N. pose proof (u_pos prec) as U0. rewrite two_eta. rewrite E1, E2 in N.
  destruct (Z_le_gt_dec e1 e2) as [L|G].
  - pose proof (multiple m1 e1 m2 e2 L N) as D. rewrite <- E1, <- E2 in D. pose proof (mant_lt prec m1 e1 M1 ltac:(lia)) as A. rewrite <- E1 in A.
    assert (0 <= u * Rabs (y - x)) by (apply Rmult_le_pos; [lra | apply Rabs_pos]). pose proof (pow_mono emin e1 H1). lra.
  - assert (N' : IZR m2 * powerRZ 2 e2 <> IZR m1 * powerRZ 2 e1) by (intros Z; apply N; symmetry; exact Z).
    pose proof (multiple m2 e2 m1 e1 ltac:(lia) N') as D. rewrite <- E1, <- E2 in D. rewrite Rabs_minus_sym in D. pose proof (mant_lt prec m2 e2 M2 ltac:(lia)) as A. rewrite <- E2 in A.
    assert (B : Rabs x <= Rabs y + Rabs (y - x)) by (replace x with (y + - (y - x)) at 1 by ring; eapply Rle_trans; [apply Rabs_triang|]; rewrite Rabs_Ropp; lra).
    assert (u * Rabs x <= u * (Rabs y + Rabs (y - x))) by (apply Rmult_le_compat_l; lra). pose proof (pow_mono emin e2 H2). lra.
Qed.
End Apart.
