(** C126: the pointing matrices of bolometric interferometry rotate the polarisation within
    some rounding errors, which grow near the poles of the two frames. *)
From Coq Require Import Reals ZArith Lra Lia.
From Flocq Require Import Core.
From Verif Require Import Base SkyModel RndModel RndSpec RndProps BiModel BiSpec BiFacts BiProps BirModel BirSpec BirFacts BirFacts2 BirFacts3.
Open Scope R_scope.

(** [e] multiplies the Stokes parameters by [val] and rotates them, up to [B] times the sum
    of their absolute values. *)
Definition rotates_within (B val : R) (e : R * R) (a b a' b' : R) : Prop :=
  let '(_, q, u) := stokes a b in
  let '(_, q', u') := stokes a' b' in
  let '(q1, u1) := apply2d e q u in
  Rabs (q1 - val * q') <= B * (Rabs q + Rabs u) /\ Rabs (u1 - val * u') <= B * (Rabs q + Rabs u).
(** The error on the two numbers of an element, [W] being less than the squares of the sines
    of the distances to the poles; and once stored with less digits. *)
Definition element_error (emin prec : Z) (W val : R) : R := 3000 * (unit_of prec / W) * Rabs val + 5 * tiny_of emin.
Definition stored_error (emin' prec' : Z) (B val : R) : R := B + unit_of prec' * (Rabs val + B) + tiny_of emin'.

Lemma tiny_unit emin prec : (0 < prec)%Z -> (emin <= 1 - 2 * prec)%Z -> tiny_of emin <= unit_of prec * unit_of prec.
Proof. intros P H. unfold tiny_of, unit_of. rewrite !pow2, <- bpow_plus. apply bpow_le. lia. Qed.
Lemma spread x y x' y' B q s : Rabs (x - x') <= B -> Rabs (y - y') <= B ->
  Rabs (x * q - y * s - (x' * q - y' * s)) <= B * (Rabs q + Rabs s) /\ Rabs (y * q + x * s - (y' * q + x' * s)) <= B * (Rabs q + Rabs s).
Proof.
  intros X Y. pose proof (Rabs_pos q). pose proof (Rabs_pos s). split.
  - replace (x * q - y * s - (x' * q - y' * s)) with ((x - x') * q + - ((y - y') * s)) by ring. eapply Rle_trans; [apply Rabs_triang|]. rewrite Rabs_Ropp, !Rabs_mult.
    assert (Rabs (x - x') * Rabs q <= B * Rabs q) by (apply Rmult_le_compat_r; assumption). assert (Rabs (y - y') * Rabs s <= B * Rabs s) by (apply Rmult_le_compat_r; assumption). lra.
  - replace (y * q + x * s - (y' * q + x' * s)) with ((y - y') * q + (x - x') * s) by ring. eapply Rle_trans; [apply Rabs_triang|]. rewrite !Rabs_mult.
    assert (Rabs (y - y') * Rabs q <= B * Rabs q) by (apply Rmult_le_compat_r; assumption). assert (Rabs (x - x') * Rabs s <= B * Rabs s) by (apply Rmult_le_compat_r; assumption). lra.
Qed.
Lemma within x y x' y' B val a b a' b' : Rabs (x - x') <= B -> Rabs (y - y') <= B -> rotates2d val (Some (x', y')) a b a' b' -> rotates_within B val (x, y) a b a' b'.
Proof.
  intros X Y H. unfold rotates2d, rotates_within, stokes, apply2d in *. destruct H as [H _].
  pose proof (f_equal fst H) as H1. pose proof (f_equal snd H) as H2. unfold fst, snd in H1, H2. rewrite <- H1, <- H2. apply spread; assumption.
Qed.
Section Any.
Variables (emin prec : Z) (W : R) (m rot : mat) (enf : vec) (ti fi tf ff val a b a' b' : R).
Hypothesis Pp : (0 < prec)%Z.
Hypothesis Pe : (emin <= 1 - 2 * prec)%Z.
Hypothesis HW : 4096 * unit_of prec <= W.
Hypothesis Wi : W <= sin ti ^ 2.
Hypothesis Wf : W <= sin tf ^ 2.
Hypothesis S : seen m ti fi tf ff a b a' b'.
Hypothesis Hr : close_mat (3 * unit_of prec) rot (swapaxes m).
Hypothesis Hn : close (2 * unit_of prec) enf (direction tf ff).
Let u := unit_of prec.
Lemma numbers : exists x y x' y', element_r emin prec rot enf val = Some (x, y) /\ rotates2d val (Some (x', y')) a b a' b' /\
  Rabs x' <= Rabs val /\ Rabs y' <= Rabs val /\ Rabs (x - x') <= element_error emin prec W val /\ Rabs (y - y') <= element_error emin prec W val.
Proof.
  pose proof (u_pos prec) as U0. fold u in U0, HW. pose proof (element_stokes m ti fi tf ff val a b a' b' S) as R. destruct S as (Hm & Hi & Hf & Em & _).
  assert (Wi' : W <= sin ti * sin ti) by lra. assert (Wf' : W <= sin tf * sin tf) by lra.
  assert (WP : 0 < W <= 1) by (split; [lra|]; apply Rle_trans with (1 := Wi'); pose proof (sc ti); pose proof (sq_pos (cos ti)); lra).
  assert (Ue : unit_of prec = unit_of prec / W * W) by (field; lra).
  assert (E1 : unit_of prec / W <= / 4096). { apply (Rmult_le_reg_r W); [lra|]. rewrite <- Ue. fold u. lra. }
  destruct (element_near emin prec W (unit_of prec / W) Pp WP Ue E1 (tiny_unit _ _ Pp Pe) m rot enf ti fi tf ff val Hm Hi Hf Wi' Wf' Em Hr Hn) as (x & y & x' & y' & E & E' & Bx & By & Dx & Dy).
  rewrite E' in R. exists x, y, x', y'. exact (conj E (conj R (conj Bx (conj By (conj Dx Dy))))).
Qed.
End Any.
(** The rotation matrix, within 3 units, is that of the frames of the sky and of the
    instrument; the direction, within 2 units, is that of the pixel. *)
Theorem C126_rotation : forall emin prec W m rot enf ti fi tf ff val a b a' b', (0 < prec)%Z -> (emin <= 1 - 2 * prec)%Z ->
  4096 * unit_of prec <= W -> W <= sin ti ^ 2 -> W <= sin tf ^ 2 -> seen m ti fi tf ff a b a' b' ->
  close_mat (3 * unit_of prec) rot (swapaxes m) -> close (2 * unit_of prec) enf (direction tf ff) ->
  exists e, element_r emin prec rot enf val = Some e /\ rotates_within (element_error emin prec W val) val e a b a' b'.
Proof.
  intros emin prec W m rot enf ti fi tf ff val a b a' b' Pp Pe HW Wi Wf S Hr Hn.
  destruct (numbers emin prec W m rot enf ti fi tf ff val a b a' b' Pp Pe HW Wi Wf S Hr Hn) as (x & y & x' & y' & E & R & _ & _ & X & Y).
  exists (x, y). split; [exact E|]. apply (within x y x' y'); assumption.
Qed.
Print Assumptions C126_rotation.
(** The same for what is stored, with a precision of its own. *)
Theorem C126_stored : forall emin prec emin' prec' W m rot enf ti fi tf ff val a b a' b', (0 < prec)%Z -> (emin <= 1 - 2 * prec)%Z -> (0 < prec')%Z ->
  4096 * unit_of prec <= W -> W <= sin ti ^ 2 -> W <= sin tf ^ 2 -> seen m ti fi tf ff a b a' b' ->
  close_mat (3 * unit_of prec) rot (swapaxes m) -> close (2 * unit_of prec) enf (direction tf ff) ->
  exists e, element_r emin prec rot enf val = Some e /\
    rotates_within (stored_error emin' prec' (element_error emin prec W val) val) val (stored emin' prec' e) a b a' b'.
Proof.
  intros emin prec emin' prec' W m rot enf ti fi tf ff val a b a' b' Pp Pe Pp' HW Wi Wf S Hr Hn.
  destruct (numbers emin prec W m rot enf ti fi tf ff val a b a' b' Pp Pe HW Wi Wf S Hr Hn) as (x & y & x' & y' & E & R & Bx & By & X & Y).
  exists (x, y). split; [exact E|]. set (B := element_error emin prec W val) in *. pose proof (u_pos prec') as U0.
  assert (G : forall z z', Rabs z' <= Rabs val -> Rabs (z - z') <= B -> Rabs (rndp emin' prec' z - z') <= stored_error emin' prec' B val).
  { intros z z' Hz D. pose proof (rn_err emin' prec' Pp' z) as H. pose proof (tri (rndp emin' prec' z) z z') as T. pose proof (near_abs _ _ _ _ D Hz) as M.
    assert (unit_of prec' * Rabs z <= unit_of prec' * (Rabs val + B)) by (apply Rmult_le_compat_l; lra). unfold stored_error. lra. }
  unfold stored, fst, snd. apply (within _ _ x' y'); [apply G; assumption | apply G; assumption | exact R].
Qed.
Print Assumptions C126_stored.
(** Correctly rounded matrices and directions are close to the exact ones. *)
Definition round_vec (emin prec : Z) (v : vec) : vec := let '(x, y, z) := v in (rndp emin prec x, rndp emin prec y, rndp emin prec z).
Definition round_mat (emin prec : Z) (m : mat) : mat := let '(x, y, z) := m in (round_vec emin prec x, round_vec emin prec y, round_vec emin prec z).
Lemma round_close emin prec v k : (0 < prec)%Z -> (emin <= 1 - 2 * prec)%Z -> dot3 v v = 1 -> 2 <= k -> close (k * unit_of prec) (round_vec emin prec v) v.
Proof.
  intros P H N K. apply unit_small in N. destruct v as [[x y] z]. destruct N as (X & Y & Z). pose proof (u_pos prec) as U0. pose proof (tiny_unit emin prec P H) as T.
  assert (U1 : unit_of prec <= 1). { unfold unit_of. rewrite pow2. change 1 with (bpow radix2 0). apply bpow_le. lia. }
  assert (unit_of prec * unit_of prec <= unit_of prec * 1) by (apply Rmult_le_compat_l; lra).
  assert (G : forall t, Rabs t <= 1 -> Rabs (rndp emin prec t - t) <= k * unit_of prec).
  { intros t Ht. pose proof (rn_err emin prec P t). assert (unit_of prec * Rabs t <= unit_of prec * 1) by (apply Rmult_le_compat_l; lra). assert (2 * unit_of prec <= k * unit_of prec) by (apply Rmult_le_compat_r; lra). lra. }
  unfold round_vec, close. repeat split; apply G; assumption.
Qed.
Theorem C126_inputs : forall emin prec m t f, (0 < prec)%Z -> (emin <= 1 - 2 * prec)%Z -> rotation m ->
  close_mat (3 * unit_of prec) (round_mat emin prec (swapaxes m)) (swapaxes m) /\ close (2 * unit_of prec) (round_vec emin prec (direction t f)) (direction t f).
Proof.
  intros emin prec m t f P H Hm. split; [|apply round_close; try assumption; [apply direction_unit | lra]].
  pose proof (columns_unit m Hm) as C. destruct (swapaxes m) as [[p q] r]. destruct C as (C1 & C2 & C3). unfold round_mat, close_mat. repeat split; apply round_close; try assumption; lra.
Qed.
Print Assumptions C126_inputs.
(** A quarter of a turn around the first axis: what comes from (1, 1, 0) / sqrt 2 is seen in
    (1, 0, 1) / sqrt 2, 45 degrees away from the pole. *)
Example C126_example : let m := ((1, 0, 0), (0, 0, -1), (0, 1, 0)) in
  exists e, element_r (-1074) 53 (round_mat (-1074) 53 (swapaxes m)) (round_vec (-1074) 53 (direction (PI / 4) 0)) 3 = Some e /\
  rotates_within (3000 * (unit_of 53 / / 2) * 3 + 5 * tiny_of (-1074)) 3 e 1 0 0 1.
Proof.
  intros m.
  assert (Hm : rotation m) by (split; [intros [[x y] z] [[x' y'] z']; unfold m, apply_mat, dot3; ring | unfold m, det3; ring]).
  assert (S : seen m (PI / 2) (PI / 4) (PI / 4) 0 1 0 0 1).
  { split; [exact Hm|]. split; [rewrite sin_PI2; lra|]. split; [apply sin_gt_0; pose proof PI_RGT_0; lra|].
    unfold m, apply_mat, direction, comb, south, east, dot3. rewrite sin_PI2, cos_PI2, sin_0, cos_0, cos_PI4, sin_PI4. split; apply vec3; ring. }
  destruct (C126_inputs (-1074) 53 m (PI / 4) 0) as [I1 I2]; [lia | lia | exact Hm|].
  assert (HU : 4096 * unit_of 53 <= / 2).
  { unfold unit_of. rewrite pow2. apply Rle_trans with (4096 * bpow radix2 (-13)); [apply Rmult_le_compat_l; [lra | apply bpow_le; lia]|]. unfold bpow. change (Z.pow_pos radix2 13) with 8192%Z. lra. }
  assert (W1 : / 2 <= sin (PI / 2) ^ 2) by (rewrite sin_PI2; lra).
  assert (W2 : / 2 <= sin (PI / 4) ^ 2).
  { replace (sin (PI / 4) ^ 2) with (sin (PI / 4) * sin (PI / 4)) by ring. pose proof (sc (PI / 4)) as C. rewrite <- sin_cos_PI4 in C. lra. }
  destruct (C126_rotation (-1074) 53 (/ 2) m _ _ _ _ _ _ 3 1 0 0 1 ltac:(lia) ltac:(lia) HU W1 W2 S I1 I2) as (e & E & R).
  exists e. split; [exact E|]. unfold element_error in R. rewrite (Rabs_right 3) in R by lra. exact R.
Qed.
(** Near the poles: a direction that is not a pole, of which (2^-27, 0, 1) are the nearest
    numbers of real64, has no frame. *)
Theorem C126_pole_refuted : ~ (forall t f en, 0 < sin t -> close (unit_of 53 / 2) en (direction t f) ->
    (let '(x, y, z) := en in representable (-1074) 53 x /\ representable (-1074) 53 y /\ representable (-1074) 53 z) ->
    exists e, en2ephi_r (-1074) 53 en = Some e).
Proof.
  intros H. set (d := / IZR (2 ^ 27)). assert (D : 0 < d) by (apply Rinv_0_lt_compat, IZR_lt; reflexivity). assert (D1 : d <= / 2) by (unfold d; apply Rinv_le_contravar; [lra | apply IZR_le; lia]).
  set (t := asin d). assert (St : sin t = d) by (apply sin_asin; lra).
  assert (Ct : cos t = sqrt (1 - d * d)) by (unfold t; rewrite cos_asin by lra; unfold Rsqr; reflexivity).
  assert (DD : d * d = bpow radix2 (-54)) by (unfold d; rewrite <- Rinv_mult; rewrite <- mult_IZR; reflexivity).
  assert (U : unit_of 53 / 2 = bpow radix2 (-54)). { unfold unit_of. rewrite pow2. change (bpow radix2 (- (53))) with (bpow radix2 (1 + -54)). rewrite bpow_plus. change (bpow radix2 1) with 2. field. }
  assert (B0 : 0 < bpow radix2 (-54)) by apply bpow_gt_0. assert (B1 : bpow radix2 (-54) <= 1) by (change 1 with (bpow radix2 0); apply bpow_le; lia).
  assert (Cl : 1 - d * d <= cos t <= 1).
  { rewrite Ct. set (w := 1 - d * d). assert (0 <= w <= 1) by (unfold w; rewrite DD; lra). split; [|rewrite <- sqrt_1; apply sqrt_le_1_alt; lra].
    destruct (Req_dec w 0) as [Z|Z]; [rewrite Z, sqrt_0; lra|]. rewrite <- (sqrt_square w) at 1 by lra. apply sqrt_le_1_alt. rewrite <- (Rmult_1_r w) at 3. apply Rmult_le_compat_l; lra. }
  destruct (H t 0 (d, 0, 1)) as (e & E).
  - rewrite St. exact D.
  - unfold close, direction. rewrite sin_0, cos_0, St, U, Rmult_1_r, Rmult_0_r, !Rminus_eq_0, Rabs_R0. repeat split; try lra. rewrite Rabs_right by lra. lra.
  - split; [|split].
    + exists 1%Z, (-27)%Z. split; [|split; lia]. unfold d. rewrite Rmult_1_l, pow2. reflexivity.
    + exists 0%Z, 0%Z. split; [ring | split; lia].
    + exists 1%Z, 0%Z. split; [cbn; ring | split; lia].
  - unfold en2ephi_r, radicand in E. assert (R1 : rndp (-1074) 53 (1 * 1) = 1) by (rewrite Rmult_1_r; apply (rndp_int 1); lia). assert (R0 : rndp (-1074) 53 0 = 0) by (apply (rndp_int 0); lia).
    rewrite R1, Rminus_eq_0, R0 in E. unfold root in E. destruct (Rlt_dec 0 0) as [L|_]; [lra|]. rewrite sqrt_0, R0 in E. unfold inverse in E. destruct (Req_EM_T 0 0) as [_|N]; [discriminate | apply N; reflexivity].
Qed.
Print Assumptions C126_pole_refuted.
