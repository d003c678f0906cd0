From Coq Require Import Reals ZArith Lra Lia Bool.
From Flocq Require Import Core.
From Coquelicot Require Import Coquelicot.
From Verif Require Import Base SparseModel GeoModel GeoSpec GeoFacts RndModel RndSpec RndProps BirFacts RgeoModel RgeoFacts.
Open Scope R_scope.
Lemma mult_le a b c d : 0 <= a -> 0 <= c -> a <= b -> c <= d -> a * c <= b * d.
Proof. intros. apply Rmult_le_compat; assumption. Qed.
Lemma format_is emin prec x : (0 < prec)%Z -> generic_format radix2 (FLT_exp emin prec) x -> representable emin prec x.
Proof.
  intros Pp F. apply (@FLT_format_generic radix2 emin prec Pp) in F. destruct F as [f E M H]. exists (Fnum f), (Fexp f). split; [|split; [exact M | exact H]]. rewrite E. unfold F2R. rewrite pow2. reflexivity.
Qed.
Lemma quotient p q d d' e e' : d <> 0 -> 0 <= e <= / 64 -> Rabs (d' - d) <= e * Rabs d -> Rabs (p - q) <= e' -> Rabs (p / d' - q / d) * Rabs d <= (1 + / 62) * (e' + e * Rabs q).
Proof.
  intros D E Hd Hp. pose proof (Rabs_pos_lt d D) as DP. pose proof (Rabs_pos (p - q)) as P0. pose proof (Rabs_pos q) as Q0.
  assert (L : (1 - / 64) * Rabs d <= Rabs d').
  { assert (e * Rabs d <= / 64 * Rabs d) by (apply Rmult_le_compat_r; lra). pose proof (Rabs_triang d' (d - d')) as T. replace (d' + (d - d')) with d in T by ring. rewrite (Rabs_minus_sym d d') in T. lra. }
  assert (D' : d' <> 0) by (intros Z; rewrite Z, Rabs_R0 in L; lra). assert (DP' : 0 < Rabs d') by (apply Rabs_pos_lt, D').
  replace (p / d' - q / d) with (((p - q) * d + q * (d - d')) * / (d' * d)) by (field; split; assumption).
  rewrite Rabs_mult, Rabs_inv, (Rabs_mult d' d). rewrite Rinv_mult. replace (Rabs ((p - q) * d + q * (d - d')) * (/ Rabs d' * / Rabs d) * Rabs d) with (Rabs ((p - q) * d + q * (d - d')) * / Rabs d') by (field; lra).
  apply (Rmult_le_reg_r (Rabs d')); [exact DP'|]. rewrite Rmult_assoc, Rinv_l, Rmult_1_r by lra.
  apply Rle_trans with ((e' + e * Rabs q) * Rabs d).
  - eapply Rle_trans; [apply Rabs_triang|]. rewrite !Rabs_mult. rewrite (Rabs_minus_sym d d').
    assert (Rabs (p - q) * Rabs d <= e' * Rabs d) by (apply Rmult_le_compat_r; lra). assert (Rabs q * Rabs (d' - d) <= Rabs q * (e * Rabs d)) by (apply Rmult_le_compat_l; lra). lra.
  - assert (0 <= e' + e * Rabs q) by (assert (0 <= e * Rabs q) by (apply Rmult_le_pos; lra); lra).
    rewrite (Rmult_comm (1 + / 62)), Rmult_assoc. apply Rmult_le_compat_l; [assumption|]. lra.
Qed.
Section Line.
Variables (emin prec : Z).
Hypothesis Pp : (0 < prec)%Z.
Notation rn := (rndp emin prec).
Notation u := (unit_of prec).
Notation eta := (tiny_of emin).
Notation fm := (generic_format radix2 (FLT_exp emin prec)).
Hypothesis U1 : u <= / 64.
Hypothesis He : eta <= u * u.
Variables (M x1 y1 x2 y2 : R).
Hypothesis M1 : 1 <= M.
Hypothesis R1 : representable emin prec x1.
Hypothesis R2 : representable emin prec y1.
Hypothesis R3 : representable emin prec x2.
Hypothesis R4 : representable emin prec y2.
Hypothesis B1 : Rabs x1 <= M.
Hypothesis B2 : Rabs y1 <= M.
Hypothesis B3 : Rabs x2 <= M.
Hypothesis B4 : Rabs y2 <= M.
Hypothesis N : x1 <> x2.
Definition ra := rn (rn (y2 - y1) / rn (x2 - x1)).
Definition rb := rn (y1 - rn (ra * x1)).
Definition ry x := rn (rn (ra * x) + rb).
Definition ls := (y2 - y1) / (x2 - x1).
Definition XX := Rmax (Rabs x1) (Rabs x2).
Let dx := Rabs (x2 - x1).
Let P := u * (Rabs ra * XX).
Lemma u0 : 0 < u. Proof. apply u_pos. Qed.
Lemma eu : eta <= / 64 * u. Proof. pose proof u0. apply Rle_trans with (1 := He). apply Rmult_le_compat_r; lra. Qed.
Lemma sub_error x y : fm x -> fm y -> Rabs (rn (x - y) - (x - y)) <= u * Rabs (x - y).
Proof. intros F F'. apply (add_error emin prec Pp x (- y)); [exact F | apply format_opp, F']. Qed.
Lemma dx_pos : 0 < dx. Proof. apply Rabs_pos_lt. lra. Qed.
Lemma dx_M : dx <= 2 * M. Proof. unfold dx. unfold Rminus. eapply Rle_trans; [apply Rabs_triang|]. rewrite Rabs_Ropp. lra. Qed.
Lemma dy_M : Rabs (y2 - y1) <= 2 * M. Proof. unfold Rminus. eapply Rle_trans; [apply Rabs_triang|]. rewrite Rabs_Ropp. lra. Qed.
Lemma slope_near : Rabs (ra - ls) * dx <= 9 * u * M.
Proof.
  pose proof u0 as U0. pose proof dx_pos as D0. pose proof eu as EU. pose proof dx_M as DM. pose proof dy_M as DY.
  pose proof (sub_error x2 x1 (format_representable _ _ _ R3) (format_representable _ _ _ R1)) as Hx. pose proof (sub_error y2 y1 (format_representable _ _ _ R4) (format_representable _ _ _ R2)) as Hy.
  assert (D : x2 - x1 <> 0) by lra.
  pose proof (quotient (rn (y2 - y1)) (y2 - y1) (x2 - x1) (rn (x2 - x1)) u _ D ltac:(lra) Hx Hy) as Q. fold dx in Q. fold ls in Q.
  set (q := rn (y2 - y1) / rn (x2 - x1)) in *. pose proof (rn_err emin prec Pp q) as E. change (rndp emin prec q) with ra in E. pose proof (tri ra q ls) as T.
  assert (L : Rabs ls * dx = Rabs (y2 - y1)). { unfold ls, dx. rewrite <- Rabs_mult. f_equal. field. exact D. }
  assert (UY : u * Rabs (y2 - y1) <= u * (2 * M)) by (apply Rmult_le_compat_l; lra).
  assert (UM : 0 <= u * M <= / 64 * M) by (split; [apply Rmult_le_pos; lra | apply Rmult_le_compat_r; lra]).
  assert (Q' : Rabs (q - ls) * dx <= 407 / 100 * (u * M)) by lra. clear Q.
  assert (Lq : Rabs q <= Rabs ls + Rabs (q - ls)) by (replace q with (ls + (q - ls)) at 1 by ring; apply Rabs_triang).
  assert (Lq' : Rabs q * dx <= (Rabs ls + Rabs (q - ls)) * dx) by (apply Rmult_le_compat_r; lra).
  assert (Lu : u * (Rabs q * dx) <= u * (207 / 100 * M)) by (apply Rmult_le_compat_l; lra).
  pose proof (eta_pos emin) as T0. assert (Le : eta * dx <= / 64 * u * (2 * M)) by (apply mult_le; lra).
  apply Rle_trans with ((Rabs (ra - q) + Rabs (q - ls)) * dx); [apply Rmult_le_compat_r; lra|].
  assert (Rabs (ra - q) * dx <= (u * Rabs q + eta) * dx) by (apply Rmult_le_compat_r; lra). lra.
Qed.
Lemma ls_dx : Rabs ls * dx <= 2 * M.
Proof. pose proof dy_M. assert (L : Rabs ls * dx = Rabs (y2 - y1)). { unfold ls, dx. rewrite <- Rabs_mult. f_equal. field. lra. } lra. Qed.
Lemma ra_dx : Rabs ra * dx <= 22 / 10 * M.
Proof.
  pose proof slope_near as S. pose proof ls_dx as L. pose proof dx_pos. pose proof u0. assert (u * M <= / 64 * M) by (apply Rmult_le_compat_r; lra).
  assert (Rabs ra <= Rabs ls + Rabs (ra - ls)) by (replace ra with (ls + (ra - ls)) at 1 by ring; apply Rabs_triang). assert (Rabs ra * dx <= (Rabs ls + Rabs (ra - ls)) * dx) by (apply Rmult_le_compat_r; lra). lra.
Qed.
Lemma XX_M : 0 <= XX <= M. Proof. unfold XX. pose proof (Rabs_pos x1). split; [eapply Rle_trans; [exact H | apply Rmax_l]|]. apply Rmax_lub; assumption. Qed.
Lemma XX_dx : u * XX <= (1 + u) * dx.
Proof.
  unfold XX, dx. destruct (apart emin prec Pp x1 x2 R1 R3 N) as [A _]. destruct (apart emin prec Pp x2 x1 R3 R1 (not_eq_sym N)) as [B _]. rewrite (Rabs_minus_sym x1 x2) in B.
  unfold Rmax. destruct (Rle_dec (Rabs x1) (Rabs x2)); assumption.
Qed.
Lemma P_0 : 0 <= P. Proof. pose proof u0. pose proof XX_M. unfold P. apply Rmult_le_pos; [lra|]. apply Rmult_le_pos; [apply Rabs_pos | lra]. Qed.
Lemma P_M : P <= 225 / 100 * M.
Proof.
  pose proof XX_dx as X. pose proof ra_dx as A. pose proof u0. pose proof dx_pos. unfold P. replace (u * (Rabs ra * XX)) with (Rabs ra * (u * XX)) by ring.
  apply Rle_trans with (Rabs ra * ((1 + u) * dx)); [apply Rmult_le_compat_l; [apply Rabs_pos | exact X]|].
  replace (Rabs ra * ((1 + u) * dx)) with ((1 + u) * (Rabs ra * dx)) by ring. apply Rle_trans with ((1 + / 64) * (22 / 10 * M)); [|lra]. apply mult_le; try lra. apply Rmult_le_pos; [apply Rabs_pos | lra].
Qed.
Lemma P_dx : P * dx <= 22 / 10 * u * M * M.
Proof.
  pose proof ra_dx as A. pose proof u0. pose proof XX_M. pose proof dx_pos. unfold P. replace (u * (Rabs ra * XX) * dx) with (u * XX * (Rabs ra * dx)) by ring.
  replace (22 / 10 * u * M * M) with (u * M * (22 / 10 * M)) by ring. apply mult_le; [apply Rmult_le_pos; lra | apply Rmult_le_pos; [apply Rabs_pos | lra] | apply Rmult_le_compat_l; lra | exact A].
Qed.
Lemma prod_P x : Rabs x <= XX -> u * Rabs (ra * x) <= P.
Proof. intros H. unfold P. rewrite Rabs_mult. apply Rmult_le_compat_l; [pose proof u0; lra|]. apply Rmult_le_compat_l; [apply Rabs_pos | exact H]. Qed.
Lemma q_near x : Rabs x <= XX -> Rabs (rn (ra * x) - ra * x) <= P + eta.
Proof. intros H. pose proof (rn_err emin prec Pp (ra * x)). pose proof (prod_P x H). lra. Qed.
Lemma b_near : Rabs (rb - (y1 - ra * x1)) <= u * M + 22 / 10 * P + 11 / 10 * eta.
Proof.
  pose proof u0 as U0. pose proof P_0 as P0. pose proof (eta_pos emin) as T0. assert (X1 : Rabs x1 <= XX) by apply Rmax_l. pose proof (q_near x1 X1) as Q. pose proof (prod_P x1 X1) as PP.
  pose proof (sub_error y1 (rn (ra * x1)) (format_representable _ _ _ R2) (format_round emin prec Pp _)) as S. fold rb in S. pose proof (tri rb (y1 - rn (ra * x1)) (y1 - ra * x1)) as T.
  replace (y1 - rn (ra * x1) - (y1 - ra * x1)) with (- (rn (ra * x1) - ra * x1)) in T by ring. rewrite Rabs_Ropp in T.
  assert (L : Rabs (y1 - rn (ra * x1)) <= M + (Rabs (ra * x1) + (P + eta))).
  { replace (y1 - rn (ra * x1)) with (y1 + - (ra * x1 + (rn (ra * x1) - ra * x1))) by ring. eapply Rle_trans; [apply Rabs_triang|]. rewrite Rabs_Ropp. pose proof (Rabs_triang (ra * x1) (rn (ra * x1) - ra * x1)). lra. }
  assert (u * Rabs (y1 - rn (ra * x1)) <= u * (M + (Rabs (ra * x1) + (P + eta)))) by (apply Rmult_le_compat_l; lra). assert (u * P <= / 64 * P) by (apply Rmult_le_compat_r; lra). assert (u * eta <= / 64 * eta) by (apply Rmult_le_compat_r; lra). lra.
Qed.
(** The ordinate computed at an abscissa of the segment. *)
Lemma ordinate x : Rabs x <= XX -> Rabs (x - x1) <= dx ->
  Rabs (rn (ra * x) + rb) <= 105 / 10 * M /\ Rabs (ry x - (rn (ra * x) + rb)) <= u * Rabs (rn (ra * x) + rb) /\ Rabs (ry x - (y1 + (x - x1) * ls)) <= 21 * u * M + 32 / 10 * P.
Proof.
  intros X D. pose proof u0 as U0. pose proof P_0 as P0. pose proof P_M as PM. pose proof (eta_pos emin) as T0. pose proof eu as EU. pose proof (q_near x X) as Q. pose proof b_near as B. pose proof ra_dx as RA. pose proof slope_near as SL. pose proof dx_pos as D0.
  assert (UM : 0 <= u * M <= / 64 * M) by (split; [apply Rmult_le_pos; lra | apply Rmult_le_compat_r; lra]).
  assert (UU : u <= u * M) by (rewrite <- (Rmult_1_r u) at 1; apply Rmult_le_compat_l; lra).
  assert (A1 : Rabs (ra * (x - x1)) <= 22 / 10 * M) by (rewrite Rabs_mult; apply Rle_trans with (Rabs ra * dx); [apply Rmult_le_compat_l; [apply Rabs_pos | exact D] | exact RA]).
  assert (A2 : Rabs ((ra - ls) * (x - x1)) <= 9 * u * M) by (rewrite Rabs_mult; apply Rle_trans with (Rabs (ra - ls) * dx); [apply Rmult_le_compat_l; [apply Rabs_pos | exact D] | exact SL]).
  set (q := rn (ra * x)) in *. set (qe := q - ra * x) in *. set (be := rb - (y1 - ra * x1)) in *.
  assert (E1 : q + rb = y1 + (ra * (x - x1) + (qe + be))) by (unfold qe, be; ring).
  assert (S : Rabs (q + rb) <= 105 / 10 * M).
  { rewrite E1. pose proof (Rabs_triang y1 (ra * (x - x1) + (qe + be))). pose proof (Rabs_triang (ra * (x - x1)) (qe + be)). pose proof (Rabs_triang qe be). lra. }
  split; [exact S|]. pose proof (add_error emin prec Pp q rb (format_round emin prec Pp _) (format_round emin prec Pp _)) as Y. unfold ry. fold q. split; [exact Y|].
  assert (u * Rabs (q + rb) <= u * (105 / 10 * M)) by (apply Rmult_le_compat_l; lra).
  set (ye := rn (q + rb) - (q + rb)) in *. replace (rn (q + rb) - (y1 + (x - x1) * ls)) with (ye + ((ra - ls) * (x - x1) + (qe + be))) by (unfold ye; rewrite E1; ring).
  pose proof (Rabs_triang ye ((ra - ls) * (x - x1) + (qe + be))). pose proof (Rabs_triang ((ra - ls) * (x - x1)) (qe + be)). pose proof (Rabs_triang qe be). lra.
Qed.
End Line.
