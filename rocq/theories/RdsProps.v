(** C148: distances to a centre with rounded operations. *)
From Coq Require Import ZArith Reals Lra Lia List.
From Flocq Require Import Core.
From Verif Require Import Base DataSpec RndModel RndSpec RndProps BirFacts RgnFacts RmdModel RmdProps RbaFacts RprProps RdsModel.
Import ListNotations.
Open Scope R_scope.

Section T.
Variables (emin prec : Z).
Notation rn := (rndp emin prec).
Notation u := (unit_of prec).
Notation eta := (tiny_of emin).
Hypothesis Pp : (24 <= prec)%Z.
Hypothesis Pe : (emin <= 1 - 4 * prec)%Z.
Let Pe2 : (emin <= 1 - 2 * prec)%Z. Proof. lia. Qed.
Let P0 : (0 < prec)%Z := RmdProps.Q0 prec Pp.
Let U0 : 0 < u := V0 prec.
Let U2 : u <= / 16777216 := RmdProps.V2 prec Pp.
Lemma idx_small i : (Z.abs i <= 2 ^ prec)%Z -> Rabs (IZR i) * u <= 1.
Proof. intros H. rewrite <- abs_IZR. pose proof (u_top prec Pp) as T. rewrite <- T, Rmult_comm. apply Rmult_le_compat_l; [lra|]. apply IZR_le, H. Qed.
Lemma shift_near i o : representable emin prec o -> (Z.abs i <= 2 ^ prec)%Z -> Rabs (rn (rn (IZR i) - o) - (IZR i - o)) <= u * Rabs (IZR i - o).
Proof.
  intros Ho Hi. apply idx_small in Hi. rewrite (int_exact emin prec Pp Pe2 i Hi). assert (Fi : generic_format radix2 (FLT_exp emin prec) (IZR i)) by (rewrite <- (int_exact emin prec Pp Pe2 i Hi); apply (format_round emin prec P0)).
  apply (add_error emin prec P0); [exact Fi|apply format_opp, format_representable, Ho].
Qed.
Lemma one_near o s i : representable emin prec o -> (Z.abs i <= 2 ^ prec)%Z -> let d := Rabs (s * (IZR i - o)) in Rabs (distance_1d_r emin prec o s i - d) <= 2.01 * u * d + eta.
Proof.
  intros Ho Hi d. pose proof (shift_near i o Ho Hi) as A. unfold distance_1d_r. set (a := IZR i - o) in *. set (h := rn (rn (IZR i) - o)) in *. assert (d0 : 0 <= d) by apply Rabs_pos.
  assert (M : Rabs (s * h - s * a) <= u * d). { rewrite <- Rmult_minus_distr_l. unfold d. rewrite !Rabs_mult. replace (u * (Rabs s * Rabs a)) with (Rabs s * (u * Rabs a)) by ring. apply Rmult_le_compat_l; [apply Rabs_pos|exact A]. }
  pose proof (rn_err emin prec P0 (s * h)) as R. pose proof (near_abs _ _ d _ M (Rle_refl _)) as B. assert (u * Rabs (s * h) <= u * (d + u * d)) by (apply Rmult_le_compat_l; lra). assert (u * (u * d) <= / 16777216 * (u * d)) by (apply Rmult_le_compat_r; [apply Rmult_le_pos; lra|lra]).
  pose proof (tri (rn (s * h)) (s * h) (s * a)). pose proof (Rabs_triang_inv2 (rn (s * h)) (s * a)) as T. fold d in T. assert (0 <= u * d) by (apply Rmult_le_pos; lra). lra.
Qed.
(** A scaled square; t is the rounded square of s. *)
Lemma square_near t s o i : representable emin prec o -> (Z.abs i <= 2 ^ prec)%Z -> eta <= u * (s * s) -> t = rn (s * s) -> let q := s * (IZR i - o) * (s * (IZR i - o)) in
  Rabs (distance2_1d_r emin prec o t i - q) <= 6.2 * u * q + 1.2 * (s * s) * eta + eta /\ 0 <= distance2_1d_r emin prec o t i.
Proof.
  intros Ho Hi Hs -> q. pose proof (side emin prec Pp Pe i o Ho (idx_small i Hi)) as [A A0]. cbv zeta in A, A0. unfold distance2_1d_r. cbv zeta. set (p := rn (rn (rn (IZR i) - o) * rn (rn (IZR i) - o))) in *. set (a := IZR i - o) in *.
  pose proof (sq_pos s) as s0. pose proof (sq_pos a) as a0. assert (qe : q = s * s * (a * a)) by (unfold q; ring). assert (q0 : 0 <= q) by (rewrite qe; apply Rmult_le_pos; assumption).
  pose proof (rn_err emin prec P0 (s * s)) as T. rewrite (Rabs_pos_eq (s * s)) in T by exact s0. set (c := s * s) in *. set (t := rn c) in *. set (b := a * a) in *. pose proof (eta4 emin prec Pe) as E4.
  assert (t0 : 0 <= t) by (apply (rn_pos emin prec Pp Pe2); exact s0). assert (Tb : Rabs (t - c) <= 2 * u * c) by lra. assert (uc : u * c <= / 16777216 * c) by (apply Rmult_le_compat_r; lra). assert (t1 : t <= 1.001 * c) by (apply Rabs_le_inv in Tb; lra).
  assert (uq : u * q <= / 16777216 * q) by (apply Rmult_le_compat_r; lra). assert (uq0 : 0 <= u * q) by (apply Rmult_le_pos; lra). assert (ce : 0 <= c * eta) by (apply Rmult_le_pos; lra).
  assert (M : Rabs (t * p - q) <= 5.1 * u * q + 1.001 * c * eta).
  { rewrite qe. replace (t * p - c * b) with (t * (p - b) + b * (t - c)) by ring. eapply Rle_trans; [apply Rabs_triang|]. rewrite !Rabs_mult, (Rabs_pos_eq t), (Rabs_pos_eq b) by assumption.
    assert (t * Rabs (p - b) <= 1.001 * c * (3.01 * u * b + eta)) by (apply Rmult_le_compat; [exact t0|apply Rabs_pos|exact t1|exact A]). assert (b * Rabs (t - c) <= b * (2 * u * c)) by (apply Rmult_le_compat_l; assumption).
    replace (u * q) with (u * (c * b)) in * by (rewrite qe; ring). lra. }
  split; [|apply (rn_pos emin prec Pp Pe2); apply Rmult_le_pos; assumption].
  pose proof (rn_err emin prec P0 (t * p)) as R. pose proof (near_abs _ _ q _ M (Req_le _ _ (Rabs_pos_eq q q0))) as B. assert (Rabs (t * p) <= 1.001 * q + 1.001 * c * eta) by lra. assert (u * Rabs (t * p) <= u * (1.001 * q + 1.001 * c * eta)) by (apply Rmult_le_compat_l; lra).
  assert (u * (c * eta) <= / 16777216 * (c * eta)) by (apply Rmult_le_compat_r; lra). pose proof (tri (rn (t * p)) (t * p) q). lra.
Qed.
Lemma root_scale r d h e : 0 <= r -> 0 <= d -> 0 <= h -> 0 <= e -> e <= 5 * (u * u * h * (u * u * h)) -> Rabs (r - d * d) <= 7.4 * u * (d * d) + e -> Rabs (sqrt r - d) <= 4.2 * u * d + u * h / 1000.
Proof.
  intros R0 D0 H0 E0 Eu H. pose proof (uu_le prec Pp) as UU. pose proof (sqrt_pos r) as S0. pose proof (sqrt_sqrt r R0) as SS. set (s := sqrt r) in *. apply Rabs_le_inv in H. set (w := u * u * h) in *. assert (w0 : 0 <= w) by (apply Rmult_le_pos; [apply Rmult_le_pos|]; lra).
  assert (wu : w <= / 16777216 * (u * h)). { unfold w. apply Rle_trans with (/ 16777216 * u * h); [apply Rmult_le_compat_r; lra|right; ring]. }
  assert (uh : 0 <= u * h) by (apply Rmult_le_pos; lra). assert (ud : 0 <= u * d) by (apply Rmult_le_pos; lra). assert (udd : 0 <= u * (d * d)) by (apply Rmult_le_pos; [lra|apply sq_pos]). assert (wd : 0 <= w * d) by (apply Rmult_le_pos; lra). assert (ww : 0 <= w * w) by apply sq_pos.
  set (t := 4.2 * (u * d) + 3 * w) in *. assert (T : 0 <= t) by (unfold t; lra).
  assert (dt : d * t = 4.2 * (u * (d * d)) + 3 * (w * d)) by (unfold t; ring).
  assert (t2 : 9 * (w * w) <= t * t). { replace (9 * (w * w)) with (3 * w * (3 * w)) by ring. apply Rmult_le_compat; unfold t; lra. }
  assert (Up : s <= d + t). { apply Rnot_lt_le. intros N. assert ((d + t) * (d + t) < s * s) by (apply Rmult_le_0_lt_compat; lra). replace ((d + t) * (d + t)) with (d * d + 2 * (d * t) + t * t) in * by ring. lra. }
  apply Rabs_le. split; [|unfold t in Up; lra].
  destruct (Rle_dec (100 * w) d) as [C|C]; [|lra].
  assert (td : t <= d / 10). { unfold t. assert (u * d <= / 16777216 * d) by (apply Rmult_le_compat_r; lra). lra. }
  assert (Lo : d - t <= s); [|unfold t in Lo; lra]. apply Rnot_lt_le. intros N. assert (s * s < (d - t) * (d - t)) by (apply Rmult_le_0_lt_compat; lra). replace ((d - t) * (d - t)) with (d * d - 2 * (d * t) + t * t) in * by ring.
  assert (t * t <= d / 10 * t) by (apply Rmult_le_compat_r; lra). assert (100 * w * w <= w * d) by (rewrite (Rmult_comm w d); apply Rmult_le_compat_r; lra). lra.
Qed.
Variables (ox oy sx sy : R).
Hypothesis Ox : representable emin prec ox.
Hypothesis Oy : representable emin prec oy.
Hypothesis Sx : eta <= u * u * (u * u) * (sx * sx).
Hypothesis Sy : eta <= u * u * (u * u) * (sy * sy).
Lemma scale_ok s : eta <= u * u * (u * u) * (s * s) -> eta <= u * (s * s).
Proof.
  intros H. eapply Rle_trans; [exact H|]. apply Rmult_le_compat_r; [apply sq_pos|]. pose proof (uu_le prec Pp). assert (0 <= u * u) by apply sq_pos. assert (u * u * (u * u) <= 1 * (u * u)) by (apply Rmult_le_compat_r; lra). lra.
Qed.
Lemma sum_ok i j : (Z.abs i <= 2 ^ prec)%Z -> (Z.abs j <= 2 ^ prec)%Z -> let q := norm2 [sx; sy] [ox; oy] [i; j] in let r := distance2_2d_r emin prec (ox, oy) (squared_r emin prec (sx, sy)) i j in
  Rabs (r - q) <= 7.4 * u * q + 5 * (u * u * (u * u)) * (sx * sx + sy * sy) /\ 0 <= r /\ 0 <= q.
Proof.
  intros Hi Hj q r. destruct (square_near _ sx ox i Ox Hi (scale_ok sx Sx) eq_refl) as [A A0]. destruct (square_near _ sy oy j Oy Hj (scale_ok sy Sy) eq_refl) as [B B0]. cbv zeta in A, B. unfold r, distance2_2d_r, squared_r. cbn [fst snd]. cbv zeta.
  unfold q. cbn [norm2]. rewrite Rplus_0_r. set (a := sx * (IZR i - ox) * (sx * (IZR i - ox))) in *. set (b := sy * (IZR j - oy) * (sy * (IZR j - oy))) in *. assert (a0 : 0 <= a) by apply sq_pos. assert (b0 : 0 <= b) by apply sq_pos.
  set (x := distance2_1d_r emin prec ox _ i) in *. set (y := distance2_1d_r emin prec oy _ j) in *. split; [|split; [apply (rn_pos emin prec Pp Pe2); lra|lra]].
  pose proof (eta4 emin prec Pe) as E4. set (v := u * u * (u * u)) in *. set (cx := sx * sx) in *. set (cy := sy * sy) in *. assert (cx0 : 0 <= cx) by apply sq_pos. assert (cy0 : 0 <= cy) by apply sq_pos.
  assert (cx * eta <= cx * v) by (apply Rmult_le_compat_l; lra). assert (cy * eta <= cy * v) by (apply Rmult_le_compat_l; lra).
  assert (uab : u * (a + b) <= / 16777216 * (a + b)) by (apply Rmult_le_compat_r; lra). assert (uab0 : 0 <= u * (a + b)) by (apply Rmult_le_pos; lra). assert (vc : 0 <= v * (cx + cy)) by (apply Rmult_le_pos; lra).
  assert (S : Rabs (x + y - (a + b)) <= 6.2 * u * (a + b) + 2.2 * v * (cx + cy)) by (apply Rabs_le_inv in A; apply Rabs_le_inv in B; apply Rabs_le; lra).
  pose proof (rn_err emin prec P0 (x + y)) as R. rewrite (Rabs_pos_eq (x + y)) in R by lra. assert (Xy : x + y <= 1.001 * (a + b) + 2.2 * v * (cx + cy)) by (apply Rabs_le_inv in S; lra).
  assert (u * (x + y) <= u * (1.001 * (a + b) + 2.2 * v * (cx + cy))) by (apply Rmult_le_compat_l; lra). assert (u * (v * (cx + cy)) <= / 16777216 * (v * (cx + cy))) by (apply Rmult_le_compat_r; lra).
  pose proof (tri (rn (x + y)) (x + y) (a + b)). lra.
Qed.
Lemma two_near i j : (Z.abs i <= 2 ^ prec)%Z -> (Z.abs j <= 2 ^ prec)%Z -> let d := sqrt (norm2 [sx; sy] [ox; oy] [i; j]) in
  Rabs (distance_2d_r emin prec (ox, oy) (sx, sy) i j - d) <= 5.3 * u * d + u * sqrt (sx * sx + sy * sy) / 500.
Proof.
  intros Hi Hj d. destruct (sum_ok i j Hi Hj) as [A [R0 Q0']]. cbv zeta in A, R0, Q0'. unfold distance_2d_r. cbv zeta. cbn [fst snd]. change (rn (distance2_1d_r emin prec ox (rn (sx * sx)) i + distance2_1d_r emin prec oy (rn (sy * sy)) j)) with (distance2_2d_r emin prec (ox, oy) (squared_r emin prec (sx, sy)) i j).
  set (r := distance2_2d_r emin prec (ox, oy) (squared_r emin prec (sx, sy)) i j) in *. pose proof (sq_pos sx). pose proof (sq_pos sy). set (h := sqrt (sx * sx + sy * sy)). assert (h0 : 0 <= h) by apply sqrt_pos. assert (hh : h * h = sx * sx + sy * sy) by (apply sqrt_sqrt; lra).
  assert (d0 : 0 <= d) by apply sqrt_pos. assert (dd : d * d = norm2 [sx; sy] [ox; oy] [i; j]) by (apply sqrt_sqrt; exact Q0'). rewrite <- dd, <- hh in A. pose proof (eta4 emin prec Pe) as E4.
  assert (Q : Rabs (sqrt r - d) <= 4.2 * u * d + u * h / 1000). { apply root_scale with (e := 5 * (u * u * (u * u)) * (h * h)); [exact R0|exact d0|exact h0| |right; ring|exact A]. apply Rmult_le_pos; [|apply sq_pos]. lra. }
  assert (eh : eta <= u * u * (u * u) * h).
  { assert (eta <= u * u * (u * u) * (h * h)) by (rewrite hh; assert (0 <= u * u * (u * u) * (sy * sy)) by (apply Rmult_le_pos; lra); lra). destruct (Rle_dec h 1).
    - eapply Rle_trans; [eassumption|]. apply Rmult_le_compat_l; [lra|]. assert (h * h <= 1 * h) by (apply Rmult_le_compat_r; lra). lra.
    - assert (u * u * (u * u) * 1 <= u * u * (u * u) * h) by (apply Rmult_le_compat_l; lra). lra. }
  assert (uh : 0 <= u * h) by (apply Rmult_le_pos; lra). assert (u4 : u * u * (u * u) * h <= / 16777216 * (u * h)).
  { pose proof (uu_le prec Pp). assert (0 <= u * u) by apply sq_pos. assert (u * u * (u * u) <= 1 * (u * u)) by (apply Rmult_le_compat_r; lra). apply Rle_trans with (/ 16777216 * u * h); [apply Rmult_le_compat_r; lra|right; ring]. }
  pose proof (sqrt_pos r) as s0. pose proof (rn_err emin prec P0 (sqrt r)) as R2. rewrite (Rabs_pos_eq (sqrt r)) in R2 by exact s0. assert (u1 : u * d <= / 16777216 * d) by (apply Rmult_le_compat_r; lra). assert (u10 : 0 <= u * d) by (apply Rmult_le_pos; lra).
  assert (Sb : sqrt r <= 1.001 * d + u * h / 1000) by (apply Rabs_le_inv in Q; lra). assert (u * sqrt r <= u * (1.001 * d + u * h / 1000)) by (apply Rmult_le_compat_l; lra). assert (u * (u * h) <= / 16777216 * (u * h)) by (apply Rmult_le_compat_r; lra).
  pose proof (tri (rn (sqrt r)) (sqrt r) d). lra.
Qed.
End T.

(** C148.  Distances and squares of distances to a centre, on one and two axes; the scales are such that their squares are far from the smallest numbers. *)
Theorem C148_distance emin prec ox sx i : (24 <= prec)%Z -> (emin <= 1 - 4 * prec)%Z -> representable emin prec ox -> (Z.abs i <= 2 ^ prec)%Z ->
  let d := Rabs (sx * (IZR i - ox)) in Rabs (distance_1d_r emin prec ox sx i - d) <= 2.01 * unit_of prec * d + tiny_of emin.
Proof. intros. apply one_near; assumption. Qed.
Print Assumptions C148_distance.
Theorem C148_distance_2d emin prec ox oy sx sy i j : (24 <= prec)%Z -> (emin <= 1 - 4 * prec)%Z -> representable emin prec ox -> representable emin prec oy ->
  tiny_of emin <= unit_of prec * unit_of prec * (unit_of prec * unit_of prec) * (sx * sx) -> tiny_of emin <= unit_of prec * unit_of prec * (unit_of prec * unit_of prec) * (sy * sy) -> (Z.abs i <= 2 ^ prec)%Z -> (Z.abs j <= 2 ^ prec)%Z ->
  let q := norm2 [sx; sy] [ox; oy] [i; j] in
  Rabs (distance_2d_r emin prec (ox, oy) (sx, sy) i j - sqrt q) <= 5.3 * unit_of prec * sqrt q + unit_of prec * sqrt (sx * sx + sy * sy) / 500 /\
  Rabs (distance2_2d_r emin prec (ox, oy) (squared_r emin prec (sx, sy)) i j - q) <= 7.4 * unit_of prec * q + 5 * (unit_of prec * unit_of prec * (unit_of prec * unit_of prec)) * (sx * sx + sy * sy).
Proof. intros Pp Pe Ox Oy Sx Sy Hi Hj q. split; [apply (two_near emin prec Pp Pe ox oy sx sy Ox Oy Sx Sy i j Hi Hj)|apply (sum_ok emin prec Pp Pe ox oy sx sy Ox Oy Sx Sy i j Hi Hj)]. Qed.
Print Assumptions C148_distance_2d.
Theorem C148_squares emin prec ox sx i : (24 <= prec)%Z -> (emin <= 1 - 4 * prec)%Z -> representable emin prec ox -> (Z.abs i <= 2 ^ prec)%Z -> tiny_of emin <= unit_of prec * (sx * sx) ->
  let q := sx * (IZR i - ox) * (sx * (IZR i - ox)) in Rabs (distance2_1d_r emin prec ox (rndp emin prec (sx * sx)) i - q) <= 6.2 * unit_of prec * q + 1.2 * (sx * sx) * tiny_of emin + tiny_of emin.
Proof. intros Pp Pe Ox Hi Sx q. exact (proj1 (square_near emin prec Pp Pe _ sx ox i Ox Hi Sx eq_refl)). Qed.
Print Assumptions C148_squares.
(** Double precision, centre (1/2, 0), scales 3 and 4: the exact distance of the pixel (2, 1) is sqrt (145/4). *)
Example C148_example : let d := sqrt (norm2 [3; 4] [/ 2; 0] [2; 1]%Z) in d = sqrt (145 / 4) /\ Rabs (distance_2d_r (-1074) 53 (/ 2, 0) (3, 4) 2 1 - d) <= 5.3 * unit_of 53 * d + unit_of 53 * 5 / 500.
Proof.
  assert (T : forall s, 1 <= s * s -> tiny_of (-1074) <= unit_of 53 * unit_of 53 * (unit_of 53 * unit_of 53) * (s * s)).
  { intros s H. destruct (eta4 (-1074) 53 ltac:(lia)) as [_ E]. assert (0 <= unit_of 53 * unit_of 53 * (unit_of 53 * unit_of 53)) by (apply sq_pos). assert (unit_of 53 * unit_of 53 * (unit_of 53 * unit_of 53) * 1 <= unit_of 53 * unit_of 53 * (unit_of 53 * unit_of 53) * (s * s)) by (apply Rmult_le_compat_l; lra). lra. }
  assert (Q : norm2 [3; 4] [/ 2; 0] [2; 1]%Z = 145 / 4) by (cbn [norm2]; lra). intros d. split; [unfold d; rewrite Q; reflexivity|].
  assert (S5 : sqrt (3 * 3 + 4 * 4) = 5) by (replace (3 * 3 + 4 * 4) with (5 * 5) by ring; apply sqrt_square; lra).
  assert (H : representable (-1074) 53 (/ 2)) by (exists 1%Z, (-1)%Z; split; [rewrite pow2; change (bpow radix2 (-1)) with (/ 2); lra|lia]). assert (H0 : representable (-1074) 53 0) by (exists 0%Z, 0%Z; split; [lra|lia]).
  destruct (C148_distance_2d (-1074) 53 (/ 2) 0 3 4 2 1 ltac:(lia) ltac:(lia) H H0 (T 3 ltac:(lra)) (T 4 ltac:(lra)) ltac:(lia) ltac:(lia)) as [A _]. rewrite S5 in A. exact A.
Qed.
(** The condition on the scales is necessary: in double precision, with scales of 2^-540 all distances on two axes are zero, while those on one axis are right. *)
Theorem C148_underflow_refuted : forall i j, distance_2d_r (-1074) 53 (0, 0) (bpow radix2 (-540), bpow radix2 (-540)) i j = 0 /\ distance_1d_r (-1074) 53 0 (bpow radix2 (-540)) 1 = bpow radix2 (-540).
Proof.
  intros i j. assert (Z0 : rndp (-1074) 53 0 = 0) by (apply (rndp_int 0); lia). assert (O : rndp (-1074) 53 1 = 1) by (apply (rndp_int 1); lia). split.
  - assert (T : rndp (-1074) 53 (bpow radix2 (-540) * bpow radix2 (-540)) = 0).
    { rewrite <- bpow_plus. change (-540 + -540)%Z with (-1080)%Z. apply round_N_small_pos with (ex := (-1079)%Z); [split; [apply bpow_le; lia|apply bpow_lt; lia]|unfold FLT_exp; lia]. }
    unfold distance_2d_r, distance2_1d_r. cbn [fst snd]. cbv zeta. rewrite T, !Rmult_0_l, Z0, Rplus_0_l, Z0, sqrt_0, Z0. reflexivity.
  - unfold distance_1d_r. rewrite O, Rminus_0_r, O, Rmult_1_r. unfold rndp. rewrite (round_generic _ _ _ (bpow radix2 (-540))); [apply Rabs_pos_eq, bpow_ge_0|]. apply generic_format_bpow. unfold FLT_exp. lia.
Qed.
Print Assumptions C148_underflow_refuted.
