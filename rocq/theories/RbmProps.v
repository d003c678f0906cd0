(** C151: gaussian beams with rounded operations. *)
From Coq Require Import ZArith Reals Lra Lia List.
From Flocq Require Import Core.
From Verif Require Import Base RndModel RndSpec RndProps BirFacts RgnFacts RmdModel RmdProps RbaFacts RprProps RdsProps RgaProps RgeoFacts2 RbmModel.
Import ListNotations.
Open Scope R_scope.

Lemma ln2_high : ln 2 < 1.
Proof. rewrite <- (ln_exp 1). apply ln_increasing; [lra|]. pose proof (exp_ineq1 1 ltac:(lra)). lra. Qed.
Section T.
Variables (emin prec : Z).
Notation rn := (rndp emin prec).
Notation u := (unit_of prec).
Notation eta := (tiny_of emin).
Hypothesis Pp : (24 <= prec)%Z.
Hypothesis Pe : (emin <= 1 - 4 * prec)%Z.
Let Pe2 : (emin <= 1 - 2 * prec)%Z. Proof. lia. Qed.
Let P0 : (0 < prec)%Z := RmdProps.Q0 prec Pp.
Let U0 : 0 < u := V0 prec.
Let U2 : u <= / 16777216 := RmdProps.V2 prec Pp.
Notation rel := (rel prec).
Lemma rel_sqrt k x y : 0 <= k <= 100 -> rel k x y -> rel k (sqrt x) (sqrt y).
Proof.
  intros K R. destruct (rel_bounds prec Pp k x y K R) as [B _]. destruct R as [Y H]. assert (s0 : 0 < sqrt y) by (apply sqrt_lt_R0; exact Y). split; [exact s0|].
  assert (x0 : 0 <= x) by lra. pose proof (sqrt_pos x) as t0. pose proof (sqrt_sqrt x x0) as X. pose proof (sqrt_sqrt y ltac:(lra)) as Y2. set (s := sqrt y) in *. set (t := sqrt x) in *.
  assert (E : Rabs (t - s) * (t + s) = Rabs (x - y)). { rewrite <- (Rabs_pos_eq (t + s)) by lra. rewrite <- Rabs_mult. f_equal. rewrite <- X, <- Y2. ring. }
  apply (Rmult_le_reg_r s); [exact s0|]. apply Rle_trans with (Rabs (t - s) * (t + s)); [apply Rmult_le_compat_l; [apply Rabs_pos|lra]|]. rewrite E. eapply Rle_trans; [exact H|]. rewrite <- Y2. right. ring.
Qed.
Lemma rel_sq k x y : 0 <= k <= 40 -> rel k x y -> rel (2.01 * k) (x * x) (y * y).
Proof.
  intros K R. destruct (rel_bounds prec Pp k x y ltac:(lra) R) as [B B']. destruct R as [Y H]. split; [apply Rmult_lt_0_compat; exact Y|]. replace (x * x - y * y) with ((x - y) * (x + y)) by ring. rewrite Rabs_mult, (Rabs_pos_eq (x + y)) by lra.
  apply Rle_trans with (k * u * y * (2.01 * y)); [apply Rmult_le_compat; [apply Rabs_pos|lra|exact H|lra]|right; ring].
Qed.
Variables (libexp : R -> R) (log2 r : R).
Hypothesis Lx : forall z, z <= 0 -> Rabs (libexp z - exp z) <= 2 * u * exp z + eta.
Hypothesis L2 : Rabs (log2 - ln 2) <= 2 * u * ln 2.
Hypothesis R0 : 0 < r <= 1.
Hypothesis Re : 64 * eta <= u * (r * r).
Lemma small_8 y : r * r / 8 <= y -> 2 * eta <= u * y.
Proof. intros H. assert (u * (r * r / 8) <= u * y) by (apply Rmult_le_compat_l; lra). assert (0 <= u * (r * r)) by (apply Rmult_le_pos; [lra|apply sq_pos]). lra. Qed.
Lemma sigma_beam f : r <= f <= / r -> rel 18.3 (rn (sigma_r emin prec log2 f * sigma_r emin prec log2 f)) (f * f / (8 * ln 2)) /\ r * r / 8 <= f * f / (8 * ln 2).
Proof.
  intros W. pose proof ln_lt_2 as l0. pose proof ln2_high as l1. destruct (sq_width r R0 f W) as [F F']. assert (r0 : 0 < r) by lra. assert (rr : 0 < r * r) by (apply Rmult_lt_0_compat; lra). assert (r1 : r * r <= r) by (assert (r * r <= 1 * r) by (apply Rmult_le_compat_r; lra); lra).
  assert (ff : 0 < f * f) by lra. set (q := sqrt (8 * ln 2)). assert (qq : q * q = 8 * ln 2) by (apply sqrt_sqrt; lra). assert (q0 : 0 < q) by (apply sqrt_lt_R0; lra). assert (q3 : q <= 3). { destruct (Rle_dec q 3) as [L|L]; [exact L|]. exfalso. assert (3 * 3 <= q * q) by (apply Rmult_le_compat; lra). lra. }
  assert (q2 : 2 <= q). { destruct (Rle_dec 2 q) as [L|L]; [exact L|]. exfalso. assert (q * q <= 2 * 2) by (apply Rmult_le_compat; lra). lra. }
  assert (A : rel 2 (8 * log2) (8 * ln 2)) by (split; [lra|]; replace (8 * log2 - 8 * ln 2) with (8 * (log2 - ln 2)) by ring; rewrite Rabs_mult, (Rabs_pos_eq 8) by lra; lra).
  apply (rel_rn emin prec Pp) in A; [|lra|apply small_8; lra]. apply rel_sqrt in A; [|lra]. fold q in A. apply (rel_rn emin prec Pp) in A; [|lra|apply small_8; lra]. apply (rel_inv prec Pp _ _ _ f) in A; [|lra|lra].
  assert (S0 : r / 3 <= f / q). { apply Rle_trans with (f / 3); [unfold Rdiv; apply Rmult_le_compat_r; lra|]. unfold Rdiv. apply Rmult_le_compat_l; [lra|]. apply Rinv_le_contravar; lra. }
  apply (rel_rn emin prec Pp) in A; [|lra|apply small_8; lra]. change (rn (f / rn (sqrt (rn (8 * log2))))) with (sigma_r emin prec log2 f) in A. set (s := sigma_r emin prec log2 f) in *.
  apply rel_sq in A; [|lra]. assert (SS : f / q * (f / q) = f * f / (8 * ln 2)) by (rewrite <- qq; field; lra). rewrite SS in A.
  assert (S8 : r * r / 8 <= f * f / (8 * ln 2)). { unfold Rdiv. apply Rmult_le_compat; [lra|lra|lra|]. apply Rinv_le_contravar; lra. }
  apply (rel_rn emin prec Pp) in A; [|lra|apply small_8; exact S8]. split; [|exact S8]. destruct A as [c0 A]. split; [exact c0|]. eapply Rle_trans; [exact A|]. apply Rmult_le_compat_r; [lra|]. apply Rmult_le_compat_r; lra.
Qed.
Lemma rel_times k l x y x' y' : 0 <= k <= 40 -> 0 <= l <= 40 -> rel k x y -> rel l x' y' -> rel (k + l + / 10) (x * x') (y * y').
Proof.
  intros K L A B. destruct (rel_bounds prec Pp k x y ltac:(lra) A) as [A1 A2]. destruct A as [Y A]. destruct B as [Y' B]. split; [apply Rmult_lt_0_compat; assumption|]. replace (x * x' - y * y') with (x * (x' - y') + (x - y) * y') by ring. eapply Rle_trans; [apply Rabs_triang|]. rewrite !Rabs_mult, (Rabs_pos_eq x), (Rabs_pos_eq y') by lra.
  assert (X : x <= (1 + k * u) * y) by (apply Rabs_le_inv in A; lra). assert (x * Rabs (x' - y') <= (1 + k * u) * y * (l * u * y')) by (apply Rmult_le_compat; [lra|apply Rabs_pos|exact X|exact B]). assert (Rabs (x - y) * y' <= k * u * y * y') by (apply Rmult_le_compat_r; lra).
  assert (yy : 0 < y * y') by (apply Rmult_lt_0_compat; assumption). assert (kl : k * l * u <= / 10). { assert (k * l <= 40 * 40) by (apply Rmult_le_compat; lra). assert (k * l * u <= 40 * 40 * / 16777216) by (apply Rmult_le_compat; [apply Rmult_le_pos; lra|lra|lra|lra]). lra. }
  assert (k * l * u * (u * (y * y')) <= / 10 * (u * (y * y'))) by (apply Rmult_le_compat_r; [apply Rmult_le_pos; lra|exact kl]). lra.
Qed.
(** The coefficient, without its sign. *)
Lemma coef_beam f : r <= f <= / r -> let c := 4 * ln 2 / (f * f) in rel 21 (rn (/ 2 / rn (sigma_r emin prec log2 f * sigma_r emin prec log2 f))) c /\ c * eta <= u / 16.
Proof.
  intros W c. destruct (sigma_beam f W) as [A S8]. pose proof ln_lt_2 as l0. pose proof ln2_high as l1. destruct (sq_width r R0 f W) as [F F']. assert (r0 : 0 < r) by lra. assert (rr : 0 < r * r) by (apply Rmult_lt_0_compat; lra). assert (ff : 0 < f * f) by lra.
  set (s := sigma_r emin prec log2 f) in *.
  apply (rel_inv prec Pp _ _ _ (/ 2)) in A; [|lra|lra]. replace (/ 2 / (f * f / (8 * ln 2))) with c in A by (unfold c; field; lra).
  assert (if1 : r * r <= / (f * f)). { replace (r * r) with (/ / (r * r)) by (field; lra). apply Rinv_le_contravar; lra. } assert (if2 : / (f * f) <= / (r * r)) by (apply Rinv_le_contravar; lra).
  assert (c1 : 2 * (r * r) <= c) by (unfold c, Rdiv; apply Rmult_le_compat; lra). assert (c2 : c <= 4 * / (r * r)). { unfold c, Rdiv. apply Rmult_le_compat; [lra| |lra|exact if2]. lra. }
  split.
  - apply (rel_rn emin prec Pp) in A; [|lra|apply small_8; lra]. destruct A as [c0 A]. split; [exact c0|]. eapply Rle_trans; [exact A|]. apply Rmult_le_compat_r; [lra|]. apply Rmult_le_compat_r; lra.
  - pose proof (eta4 emin prec Pe) as E4. apply Rle_trans with (4 * / (r * r) * eta); [apply Rmult_le_compat_r; lra|]. apply (Rmult_le_reg_r (r * r)); [exact rr|]. replace (4 * / (r * r) * eta * (r * r)) with (4 * eta) by (field; lra). lra.
Qed.
Lemma argument_beam f t g : r <= f <= / r -> Rabs (t - g) <= u * Rabs g -> let x := 4 * ln 2 / (f * f) * (g * g) in
  exists z, rn (rn (- / 2 / rn (sigma_r emin prec log2 f * sigma_r emin prec log2 f)) * rn (t * t)) = - z /\ 0 <= z /\ 0 <= x /\ Rabs (z - x) <= 25.3 * u * x + u / 10.
Proof.
  intros W T x. destruct (coef_beam f W) as [C E]. cbv zeta in C, E. set (s := sigma_r emin prec log2 f) in *. set (c := 4 * ln 2 / (f * f)) in *. set (h := rn (/ 2 / rn (s * s))) in *.
  assert (O : rn (- / 2 / rn (s * s)) = - h) by (unfold h, rndp; rewrite <- round_NE_opp; f_equal; unfold Rdiv; ring). rewrite O. destruct (rel_bounds prec Pp 21 h c ltac:(lra) C) as [h0 h1]. destruct C as [c0 C]. set (b := g * g) in *. assert (b0 : 0 <= b) by apply sq_pos.
  set (p := rn (t * t)). assert (p0 : 0 <= p) by (apply (rn_pos emin prec Pp Pe2), sq_pos). exists (rn (h * p)). assert (hp : 0 <= h * p) by (apply Rmult_le_pos; lra). assert (x0 : 0 <= x) by (apply Rmult_le_pos; lra).
  split; [unfold rndp; rewrite <- round_NE_opp; f_equal; ring|]. split; [apply (rn_pos emin prec Pp Pe2), hp|]. split; [exact x0|]. pose proof (eta4 emin prec Pe) as E4. pose proof (eta_small emin prec Pp Pe) as Es. pose proof (uu_le prec Pp) as UU.
  assert (ub : 0 <= u * b) by (apply Rmult_le_pos; lra). assert (ux : 0 <= u * x) by (apply Rmult_le_pos; lra).
  assert (A : Rabs (t * t - b) <= 2.01 * (u * b)).
  { unfold b. replace (t * t - g * g) with ((t - g) * (t + g)) by ring. rewrite Rabs_mult. assert (G : Rabs (t + g) <= 2.01 * Rabs g). { replace (t + g) with (t - g + 2 * g) by ring. pose proof (Rabs_triang (t - g) (2 * g)) as Q. rewrite (Rabs_mult 2), (Rabs_pos_eq 2) in Q by lra. pose proof (Rabs_pos g). assert (u * Rabs g <= / 16777216 * Rabs g) by (apply Rmult_le_compat_r; lra). lra. }
    apply Rle_trans with (u * Rabs g * (2.01 * Rabs g)); [apply Rmult_le_compat; try apply Rabs_pos; assumption|]. right. replace (g * g) with (Rabs g * Rabs g) by (rewrite <- Rabs_mult; apply Rabs_pos_eq, sq_pos). ring. }
  assert (B : Rabs (p - b) <= 3.02 * (u * b) + eta).
  { pose proof (rn_err emin prec P0 (t * t)) as R. rewrite (Rabs_pos_eq (t * t)) in R by apply sq_pos. pose proof A as A'. apply Rabs_le_inv in A'. assert (u * (t * t) <= u * (b + 2.01 * (u * b))) by (apply Rmult_le_compat_l; lra). assert (u * (u * b) <= / 16777216 * (u * b)) by (apply Rmult_le_compat_r; lra). pose proof (tri p (t * t) b). fold p in R. lra. }
  assert (M : Rabs (h * p - x) <= 24.05 * (u * x) + 1.001 * (c * eta)).
  { unfold x. replace (h * p - c * b) with (h * (p - b) + b * (h - c)) by ring. eapply Rle_trans; [apply Rabs_triang|]. rewrite !Rabs_mult, (Rabs_pos_eq h), (Rabs_pos_eq b) by lra. assert (h * Rabs (p - b) <= 1.001 * c * (3.02 * (u * b) + eta)) by (apply Rmult_le_compat; [lra|apply Rabs_pos|exact h1|exact B]). assert (b * Rabs (h - c) <= b * (21 * u * c)) by (apply Rmult_le_compat_l; assumption). assert (0 <= u * (c * b)) by (apply Rmult_le_pos; [lra|exact x0]). lra. }
  pose proof (rn_err emin prec P0 (h * p)) as R. rewrite (Rabs_pos_eq (h * p)) in R by exact hp. pose proof M as M'. apply Rabs_le_inv in M'. assert (ce : 0 <= c * eta) by (apply Rmult_le_pos; lra). assert (u * (h * p) <= u * (x + 24.05 * (u * x) + 1.001 * (c * eta))) by (apply Rmult_le_compat_l; lra).
  assert (u * (u * x) <= / 16777216 * (u * x)) by (apply Rmult_le_compat_r; lra). assert (u * (c * eta) <= / 16777216 * (c * eta)) by (apply Rmult_le_compat_r; lra). pose proof (tri (rn (h * p)) (h * p) x).
  assert (/ 16777216 * u * u <= / 16777216 * (/ 16777216 * u)) by (rewrite Rmult_assoc; apply Rmult_le_compat_l; lra). lra.
Qed.
Lemma exp_beam x z : 0 <= x -> 0 <= z -> x * u <= / 1024 -> Rabs (z - x) <= 25.3 * u * x + u / 10 -> Rabs (libexp (- z) - exp (- x)) <= (31 * x + 2.5) * u * exp (- x) + eta.
Proof.
  intros X Z B H. assert (ux : 0 <= u * x) by (apply Rmult_le_pos; lra). pose proof (Lx (- z) ltac:(lra)) as L. assert (D : Rabs (x - z) <= / 10) by (rewrite Rabs_minus_sym; lra). pose proof (exp_near _ D) as E. rewrite (Rabs_minus_sym x z) in E.
  pose proof (exp_pos (- x)) as e0. assert (F : exp (- z) = exp (- x) * exp (x - z)) by (rewrite <- exp_plus; f_equal; ring). set (e := exp (- x)) in *. set (f := exp (x - z)) in *.
  assert (G : Rabs (exp (- z) - e) <= (30.4 * (u * x) + 0.12 * u) * e). { rewrite F. replace (e * f - e) with (e * (f - 1)) by ring. rewrite Rabs_mult, (Rabs_pos_eq e), Rmult_comm by lra. apply Rmult_le_compat_r; lra. }
  assert (S : exp (- z) <= 1.04 * e). { apply Rabs_le_inv in G. assert ((30.4 * (u * x) + 0.12 * u) * e <= 0.04 * e) by (apply Rmult_le_compat_r; lra). lra. }
  assert (2 * u * exp (- z) <= 2 * u * (1.04 * e)) by (apply Rmult_le_compat_l; lra). pose proof (tri (libexp (- z)) (exp (- z)) e). assert (0 <= u * e) by (apply Rmult_le_pos; lra). assert (0 <= u * x * e) by (apply Rmult_le_pos; lra). lra.
Qed.
Lemma solid_beam pi f : Rabs (pi - PI) <= 2 * u * PI -> r <= f <= / r -> rel 25 (solid_angle_r emin prec log2 pi f) (2 * PI * (f * f / (8 * ln 2))).
Proof.
  intros Pi W. destruct (sigma_beam f W) as [A S8]. pose proof pi_low. pose proof pi_high. assert (rr : 0 < r * r <= 1) by (split; [apply Rmult_lt_0_compat; lra|]; assert (r * r <= 1 * 1) by (apply Rmult_le_compat; lra); lra).
  assert (B : rel 2 (2 * pi) (2 * PI)) by (split; [lra|]; replace (2 * pi - 2 * PI) with (2 * (pi - PI)) by ring; rewrite Rabs_mult, (Rabs_pos_eq 2) by lra; lra).
  apply (rel_rn emin prec Pp) in B; [|lra|apply small_8; lra]. pose proof (rel_times (2 + 2) 18.3 _ _ _ _ ltac:(lra) ltac:(lra) B A) as M. assert (S : 1 * (r * r / 8) <= 2 * PI * (f * f / (8 * ln 2))) by (apply Rmult_le_compat; lra).
  apply (rel_rn emin prec Pp) in M; [|lra|apply small_8; lra]. unfold solid_angle_r. destruct M as [m0 M]. split; [exact m0|]. eapply Rle_trans; [exact M|]. apply Rmult_le_compat_r; [lra|]. apply Rmult_le_compat_r; lra.
Qed.
End T.

(** C151.  The value of the beam is 2 to the power - n^2, n being the angle from the axis in units of half the width, within 31 n^2 + 2.5 units of roundoff relative to it, plus the smallest number.
    The angle from the axis of a backward beam is counted from the number [pi] of the machine. *)
Theorem C151_beam emin prec libexp log2 pi r fwhm backward theta : (24 <= prec)%Z -> (emin <= 1 - 4 * prec)%Z ->
  (forall z, z <= 0 -> Rabs (libexp z - exp z) <= 2 * unit_of prec * exp z + tiny_of emin) -> Rabs (log2 - ln 2) <= 2 * unit_of prec * ln 2 ->
  0 < r <= 1 -> 64 * tiny_of emin <= unit_of prec * (r * r) -> r <= fwhm <= / r -> representable emin prec pi -> representable emin prec theta ->
  let n := (if backward : bool then pi - theta else theta) / (fwhm / 2) in n * n * unit_of prec <= / 1024 ->
  let g := Rpower 2 (- (n * n)) in
  Rabs (beam_r emin prec libexp log2 pi fwhm backward theta - g) <= (31 * (n * n) + 2.5) * unit_of prec * g + tiny_of emin.
Proof.
  intros Pp Pe Lx L2 R0 Re W Op Ot n Hn g. pose proof (V0 prec) as U0. set (a := if backward then pi - theta else theta) in *. pose proof ln_lt_2 as l0. pose proof ln2_high as l1.
  assert (T : Rabs ((if backward then rndp emin prec (pi - theta) else theta) - a) <= unit_of prec * Rabs a).
  { unfold a. destruct backward; [|rewrite Rminus_eq_0, Rabs_R0; apply Rmult_le_pos; [lra|apply Rabs_pos]]. apply (add_error emin prec ltac:(lia)); [apply format_representable, Op|apply format_opp, format_representable, Ot]. }
  destruct (argument_beam emin prec Pp Pe log2 r L2 R0 Re fwhm _ a W T) as [z [Z [z0 [x0 N]]]]. unfold beam_r. cbv zeta. rewrite Z.
  assert (X : 4 * ln 2 / (fwhm * fwhm) * (a * a) = n * n * ln 2) by (unfold n; field; lra). rewrite X in N, x0. pose proof (sq_pos n) as n0. assert (X1 : n * n * ln 2 <= n * n * 1) by (apply Rmult_le_compat_l; lra).
  assert (Xu : n * n * ln 2 * unit_of prec <= / 1024). { eapply Rle_trans; [|exact Hn]. apply Rmult_le_compat_r; lra. }
  pose proof (exp_beam emin prec Pp libexp Lx _ z x0 z0 Xu N) as E. assert (G : g = exp (- (n * n * ln 2))) by (unfold g, Rpower; f_equal; ring). rewrite <- G in E. eapply Rle_trans; [exact E|]. apply Rplus_le_compat_r.
  apply Rmult_le_compat_r; [rewrite G; left; apply exp_pos|]. apply Rmult_le_compat_r; lra.
Qed.
Print Assumptions C151_beam.
(** At half the width from the axis, the value is one half within 17 units of roundoff and the smallest number; on the axis it is one within three units. *)
Theorem C151_half emin prec libexp log2 pi r fwhm : (24 <= prec)%Z -> (emin <= 1 - 4 * prec)%Z ->
  (forall z, z <= 0 -> Rabs (libexp z - exp z) <= 2 * unit_of prec * exp z + tiny_of emin) -> Rabs (log2 - ln 2) <= 2 * unit_of prec * ln 2 ->
  0 < r <= 1 -> 64 * tiny_of emin <= unit_of prec * (r * r) -> r <= fwhm <= / r -> representable emin prec pi -> representable emin prec (fwhm / 2) ->
  Rabs (beam_r emin prec libexp log2 pi fwhm false (fwhm / 2) - / 2) <= 17 * unit_of prec + tiny_of emin /\
  Rabs (beam_r emin prec libexp log2 pi fwhm false 0 - 1) <= 3 * unit_of prec + tiny_of emin /\
  Rabs (beam_r emin prec libexp log2 pi fwhm true pi - 1) <= 3 * unit_of prec + tiny_of emin.
Proof.
  intros Pp Pe Lx L2 R0 Re W Op Oh. pose proof (V0 prec) as U0. pose proof (RmdProps.V2 prec Pp) as U2. assert (H0 : representable emin prec 0) by (exists 0%Z, (Z.max emin 0); split; [lra|split; [|lia]; apply Z.pow_pos_nonneg; lia]).
  assert (B := fun b t => C151_beam emin prec libexp log2 pi r fwhm b t Pp Pe Lx L2 R0 Re W Op). cbv zeta in B.
  assert (Q0 : Rpower 2 (- (0 * 0)) = 1) by (unfold Rpower; rewrite Rmult_0_l, Ropp_0, Rmult_0_l; apply exp_0). assert (Q1 : Rpower 2 (- (1 * 1)) = / 2) by (rewrite Rmult_1_l, Rpower_Ropp, Rpower_1; lra).
  split; [|split].
  - specialize (B false (fwhm / 2) Oh). cbv iota in B. replace (fwhm / 2 / (fwhm / 2)) with 1 in B by (field; lra). rewrite Q1 in B. specialize (B ltac:(lra)). lra.
  - specialize (B false 0 H0). cbv iota in B. replace (0 / (fwhm / 2)) with 0 in B by (field; lra). rewrite Q0 in B. specialize (B ltac:(lra)). lra.
  - specialize (B true pi Op). cbv iota in B. replace ((pi - pi) / (fwhm / 2)) with 0 in B by (field; lra). rewrite Q0 in B. specialize (B ltac:(lra)). lra.
Qed.
Print Assumptions C151_half.
(** The solid angle is 2 PI times the variance, that is PI fwhm^2 / (4 ln 2), within 25 units of roundoff relative to it. *)
Theorem C151_solid_angle emin prec log2 pi r fwhm : (24 <= prec)%Z -> (emin <= 1 - 4 * prec)%Z -> Rabs (log2 - ln 2) <= 2 * unit_of prec * ln 2 -> Rabs (pi - PI) <= 2 * unit_of prec * PI ->
  0 < r <= 1 -> 64 * tiny_of emin <= unit_of prec * (r * r) -> r <= fwhm <= / r ->
  let w := PI * (fwhm * fwhm) / (4 * ln 2) in Rabs (solid_angle_r emin prec log2 pi fwhm - w) <= 25 * unit_of prec * w.
Proof.
  intros Pp Pe L2 Pi R0 Re W w. pose proof ln_lt_2. replace w with (2 * PI * (fwhm * fwhm / (8 * ln 2))) by (unfold w; field; lra). apply (solid_beam emin prec Pp log2 r L2 R0 Re pi fwhm Pi W).
Qed.
Print Assumptions C151_solid_angle.

(** Double precision, an exponential and constants rounded once, a width of 1: the hypotheses hold at the angle 3/2, which is three times half the width, where the beam is 2^-9. *)
Example C151_example : let libexp := fun z => rndp (-1074) 53 (exp z) in let log2 := rndp (-1074) 53 (ln 2) in let pi := rndp (-1074) 53 PI in
  Rabs (beam_r (-1074) 53 libexp log2 pi 1 false (3 / 2) - / 512) <= 282 * unit_of 53 * / 512 + tiny_of (-1074) /\
  Rabs (beam_r (-1074) 53 libexp log2 pi 1 false (1 / 2) - / 2) <= 17 * unit_of 53 + tiny_of (-1074) /\
  Rabs (solid_angle_r (-1074) 53 log2 pi 1 - PI / (4 * ln 2)) <= 25 * unit_of 53 * (PI / (4 * ln 2)).
Proof.
  intros libexp log2 pi. pose proof (V0 53) as U0. pose proof (eta4 (-1074) 53 ltac:(lia)) as E4. pose proof (eta_small (-1074) 53 ltac:(lia) ltac:(lia)) as Es. pose proof (uu_le 53 ltac:(lia)) as UU. pose proof pi_low as PL. pose proof ln_lt_2 as l0. assert (U53 := unit_53).
  assert (u1 : / 16777216 * unit_of 53 * unit_of 53 <= / 16777216 * (/ 16777216 * unit_of 53)) by (rewrite Rmult_assoc; apply Rmult_le_compat_l; lra).
  assert (C : forall v, / 2 <= v -> Rabs (rndp (-1074) 53 v - v) <= 2 * unit_of 53 * v). { intros v V. pose proof (rn_err (-1074) 53 ltac:(lia) v) as R. rewrite (Rabs_pos_eq v) in R by lra. assert (unit_of 53 * / 2 <= unit_of 53 * v) by (apply Rmult_le_compat_l; lra). lra. }
  assert (Lx : forall z, z <= 0 -> Rabs (libexp z - exp z) <= 2 * unit_of 53 * exp z + tiny_of (-1074)). { intros z _. unfold libexp. pose proof (rn_err (-1074) 53 ltac:(lia) (exp z)) as R. pose proof (exp_pos z) as e0. rewrite (Rabs_pos_eq (exp z)) in R by lra. assert (0 <= unit_of 53 * exp z) by (apply Rmult_le_pos; lra). lra. }
  assert (L2 : Rabs (log2 - ln 2) <= 2 * unit_of 53 * ln 2) by (apply C; lra). assert (Pi : Rabs (pi - PI) <= 2 * unit_of 53 * PI) by (apply C; lra).
  assert (Op : representable (-1074) 53 pi) by (apply format_is; [lia|apply (format_round (-1074) 53); lia]).
  assert (H : forall m, (Z.abs m < 100)%Z -> representable (-1074) 53 (IZR m / 2)) by (intros m Hm; exists m, (-1)%Z; split; [rewrite pow2; change (bpow radix2 (-1)) with (/ 2); lra|lia]).
  assert (R1 : 64 * tiny_of (-1074) <= unit_of 53 * (1 * 1)) by lra. assert (W : 1 <= 1 <= / 1) by lra. assert (r1 : 0 < 1 <= 1) by lra.
  split; [|split].
  - pose proof (C151_beam (-1074) 53 libexp log2 pi 1 1 false (3 / 2) ltac:(lia) ltac:(lia) Lx L2 r1 R1 W Op (H 3%Z ltac:(lia))) as B. cbv zeta iota in B. replace (3 / 2 / (1 / 2)) with 3 in B by field.
    replace (Rpower 2 (- (3 * 3))) with (/ 512) in B. { specialize (B ltac:(rewrite U53; lra)). lra. } rewrite Rpower_Ropp. f_equal. replace (3 * 3) with (INR 9) by (cbn; ring). rewrite Rpower_pow by lra. ring.
  - exact (proj1 (C151_half (-1074) 53 libexp log2 pi 1 1 ltac:(lia) ltac:(lia) Lx L2 r1 R1 W Op (H 1%Z ltac:(lia)))).
  - pose proof (C151_solid_angle (-1074) 53 log2 pi 1 1 ltac:(lia) ltac:(lia) L2 Pi r1 R1 W) as B. cbv zeta in B. rewrite !Rmult_1_r in B. exact B.
Qed.
