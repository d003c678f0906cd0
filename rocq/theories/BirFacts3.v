From Coq Require Import Reals ZArith Lra Lia.
From Verif Require Import Base SkyModel RndModel RndSpec RndProps BiModel BiSpec BiFacts BiProps BirModel BirSpec BirFacts BirFacts2.
Open Scope R_scope.
Section Elem.
Variables (emin prec : Z) (W e : R).
Hypothesis Pp : (0 < prec)%Z.
Notation rn := (rndp emin prec).
Notation u := (unit_of prec).
Notation eta := (tiny_of emin).
Hypothesis Wp : 0 < W <= 1.
Hypothesis Ue : u = e * W.
Hypothesis E1 : e <= / 4096.
Hypothesis He : eta <= u * u.
(** val * d. *)
Lemma scaled val d d' : Rabs d' <= 1 -> Rabs (d - d') <= 2970 * e -> Rabs (rn (val * d) - val * d') <= 3000 * e * Rabs val + 5 * eta.
Proof.
  intros D' D. pose proof (e0 prec W e Wp Ue) as E0. pose proof (ue prec W e Wp Ue) as UE. pose proof (u_pos prec) as U0. pose proof (eta_pos emin) as T0. pose proof (Rabs_pos val) as V0.
  pose proof (rn_err emin prec Pp (val * d)) as R. pose proof (tri (rn (val * d)) (val * d) (val * d')) as T.
  assert (A : Rabs (val * d - val * d') <= Rabs val * (2970 * e)) by (replace (val * d - val * d') with (val * (d - d')) by ring; rewrite Rabs_mult; apply Rmult_le_compat_l; assumption).
  assert (B : Rabs (val * d) <= Rabs val * 2) by (rewrite Rabs_mult; apply Rmult_le_compat_l; [exact V0|]; pose proof (near_abs _ _ _ _ D D'); lra).
  assert (C : u * Rabs (val * d) <= e * (Rabs val * 2)) by (apply Rmult_le_compat; [lra | apply Rabs_pos | exact UE | exact B]).
  assert (0 <= Rabs val * e) by (apply Rmult_le_pos; lra). lra.
Qed.
(** val * 2 * a * b. *)
Lemma scaled_2 val a b a' b' : Rabs a' <= 1 -> Rabs b' <= 1 -> Rabs (a - a') <= 570 * e -> Rabs (b - b') <= 790 * e ->
  Rabs (rn (rn (rn (val * 2) * a) * b) - val * 2 * a' * b') <= 3000 * e * Rabs val + 5 * eta.
Proof.
  intros A' B' A B. pose proof (e0 prec W e Wp Ue) as E0. pose proof (ue prec W e Wp Ue) as UE. pose proof (u_pos prec) as U0. pose proof (eta_pos emin) as T0. pose proof (Rabs_pos val) as V0.
  assert (UU : u <= / 4096) by lra. set (v := Rabs val) in *. assert (VE : 0 <= e * v) by (apply Rmult_le_pos; lra). assert (VE' : e * v <= / 4096 * v) by (apply Rmult_le_compat_r; lra).
  assert (AA : Rabs a <= 114 / 100) by (pose proof (near_abs _ _ _ _ A A'); lra). assert (BB : Rabs b <= 12 / 10) by (pose proof (near_abs _ _ _ _ B B'); lra).
  assert (V2 : Rabs (val * 2) = 2 * v) by (unfold v; rewrite Rabs_mult, (Rabs_right 2) by lra; ring).
  pose proof (rn_err emin prec Pp (val * 2)) as R1. rewrite V2 in R1. set (w := rn (val * 2)) in *.
  assert (UV : u * v <= e * v) by (apply Rmult_le_compat_r; assumption).
  assert (D1 : Rabs (w - val * 2) <= 2 * (e * v) + eta) by lra.
  assert (WW : Rabs w <= 201 / 100 * v + eta) by (pose proof (near_abs w (val * 2) (2 * v) _ D1 ltac:(lra)); lra).
  assert (D2 : Rabs (w * a - val * 2 * a') <= 1145 * (e * v) + 114 / 100 * eta).
  { replace (w * a - val * 2 * a') with ((w - val * 2) * a + val * 2 * (a - a')) by ring. eapply Rle_trans; [apply Rabs_triang|]. rewrite !Rabs_mult with (x := w - val * 2), !Rabs_mult with (x := val * 2), V2.
    assert (Rabs (w - val * 2) * Rabs a <= (2 * (e * v) + eta) * (114 / 100)) by (apply Rmult_le_compat; try apply Rabs_pos; assumption).
    assert (2 * v * Rabs (a - a') <= 2 * v * (570 * e)) by (apply Rmult_le_compat_l; [lra | exact A]). lra. }
  pose proof (rn_err emin prec Pp (w * a)) as R2. set (w2 := rn (w * a)) in *.
  assert (WA : Rabs (w * a) <= (201 / 100 * v + eta) * (114 / 100)) by (rewrite Rabs_mult; apply Rmult_le_compat; try apply Rabs_pos; assumption).
  assert (UA : u * Rabs (w * a) <= u * ((201 / 100 * v + eta) * (114 / 100))) by (apply Rmult_le_compat_l; [lra | exact WA]).
  assert (UT : u * eta <= / 4096 * eta) by (apply Rmult_le_compat_r; lra).
  assert (D3 : Rabs (w2 - val * 2 * a') <= 1148 * (e * v) + 215 / 100 * eta) by (pose proof (tri w2 (w * a) (val * 2 * a')); lra).
  assert (VA : Rabs (val * 2 * a') <= 2 * v) by (rewrite Rabs_mult, V2; rewrite <- (Rmult_1_r (2 * v)) at 2; apply Rmult_le_compat_l; [lra | exact A']).
  assert (D4 : Rabs (w2 * b - val * 2 * a' * b') <= 2960 * (e * v) + 26 / 10 * eta).
  { replace (w2 * b - val * 2 * a' * b') with ((w2 - val * 2 * a') * b + val * 2 * a' * (b - b')) by ring. eapply Rle_trans; [apply Rabs_triang|]. rewrite Rabs_mult with (x := w2 - val * 2 * a'), Rabs_mult with (x := val * 2 * a').
    assert (Rabs (w2 - val * 2 * a') * Rabs b <= (1148 * (e * v) + 215 / 100 * eta) * (12 / 10)) by (apply Rmult_le_compat; try apply Rabs_pos; assumption).
    assert (Rabs (val * 2 * a') * Rabs (b - b') <= 2 * v * (790 * e)) by (apply Rmult_le_compat; try apply Rabs_pos; assumption). lra. }
  pose proof (rn_err emin prec Pp (w2 * b)) as R3.
  assert (W2 : Rabs w2 <= 3 * v + 3 * eta) by (pose proof (near_abs w2 _ _ _ D3 VA); lra).
  assert (WB : Rabs (w2 * b) <= (3 * v + 3 * eta) * (12 / 10)) by (rewrite Rabs_mult; apply Rmult_le_compat; try apply Rabs_pos; assumption).
  assert (UB : u * Rabs (w2 * b) <= u * ((3 * v + 3 * eta) * (12 / 10))) by (apply Rmult_le_compat_l; [lra | exact WB]).
  pose proof (tri (rn (w2 * b)) (w2 * b) (val * 2 * a' * b')). lra.
Qed.
Lemma element_near m rot enf ti fi tf ff val :
  rotation m -> 0 < sin ti -> 0 < sin tf -> W <= sin ti * sin ti -> W <= sin tf * sin tf -> apply_mat m (direction ti fi) = direction tf ff ->
  close_mat (3 * u) rot (swapaxes m) -> close (2 * u) enf (direction tf ff) ->
  exists x y x' y', element_r emin prec rot enf val = Some (x, y) /\
    element2d (swapaxes m) (direction tf ff) val (en2etheta_ephi (direction tf ff)) = Some (x', y') /\ Rabs x' <= Rabs val /\ Rabs y' <= Rabs val /\
    Rabs (x - x') <= 3000 * e * Rabs val + 5 * eta /\ Rabs (y - y') <= 3000 * e * Rabs val + 5 * eta.
Proof.
  intros Hm Hi Hf Wi Wf Em Hr Hn.
  destruct (angles_near emin prec W e Pp Wp Ue E1 He m rot enf ti fi tf ff Hm Hi Hf Wi Wf Em Hr Hn) as (et & ep & r23 & r33 & E2 & E3 & D23 & D33).
  unfold element_r, element2d. rewrite E2, E3, (angles_of m ti fi tf ff Hm Hi Hf Em). pose proof (east_image m ti fi tf ff Hm Em) as N. cbv zeta in N.
  set (q23 := dot3 (south tf ff) _) in *. set (q33 := dot3 (east tf ff) _) in *.
  assert (N23 : Rabs q23 <= 1) by (apply abs_1; pose proof (sq_pos q33); lra). assert (N33 : Rabs q33 <= 1) by (apply abs_1; pose proof (sq_pos q23); lra).
  assert (D33' : Rabs (- r33 - - q33) <= 570 * e) by (replace (- r33 - - q33) with (- (r33 - q33)) by ring; rewrite Rabs_Ropp; exact D33). assert (N33' : Rabs (- q33) <= 1) by (rewrite Rabs_Ropp; exact N33).
  assert (S33 : Rabs (rn (- r33 * - r33) - - q33 * - q33) <= 1225 * e) by (apply (prod_e emin prec W e Pp Wp Ue E1 He _ _ _ _ 570 570 1 1); try assumption; lra).
  assert (S23 : Rabs (rn (r23 * r23) - q23 * q23) <= 1734 * e) by (apply (prod_e emin prec W e Pp Wp Ue E1 He _ _ _ _ 790 790 1 1); try assumption; lra).
  assert (Q : Rabs (- q33 * - q33 - q23 * q23) <= 1) by (pose proof (sq_pos q23); pose proof (sq_pos q33); apply Rabs_le; lra).
  assert (D : Rabs (rn (rn (- r33 * - r33) - rn (r23 * r23)) - (- q33 * - q33 - q23 * q23)) <= 2962 * e) by (apply (sub_e emin prec W e Pp Wp Ue E1 He _ _ _ _ 1225 1734 1); try assumption; lra).
  assert (P : Rabs (2 * (- q33 * q23)) <= 1) by (pose proof (sq_pos (q33 + q23)); pose proof (sq_pos (q33 - q23)); apply Rabs_le; lra).
  do 4 eexists. split; [reflexivity | split; [reflexivity|]]. pose proof (Rabs_pos val) as V0.
  split; [|split; [|split]].
  - rewrite Rabs_mult. rewrite <- (Rmult_1_r (Rabs val)) at 2. apply Rmult_le_compat_l; [exact V0|]. replace ((- q33) ^ 2 - q23 ^ 2) with (- q33 * - q33 - q23 * q23) by ring. exact Q.
  - replace (- val * 2 * - q33 * q23) with (val * (- (2 * (- q33 * q23)))) by ring. rewrite Rabs_mult, Rabs_Ropp. rewrite <- (Rmult_1_r (Rabs val)) at 2. apply Rmult_le_compat_l; [exact V0 | exact P].
  - replace ((- q33) ^ 2 - q23 ^ 2) with (- q33 * - q33 - q23 * q23) by ring. apply scaled; [exact Q|]. pose proof (e0 prec W e Wp Ue). lra.
  - replace (- val * 2 * - q33 * q23) with (- (val * 2 * - q33 * q23)) by ring. rewrite Rabs_minus_sym. replace (- (val * 2 * - q33 * q23) - - rn (rn (rn (val * 2) * - r33) * r23)) with (rn (rn (rn (val * 2) * - r33) * r23) - val * 2 * - q33 * q23) by ring. apply scaled_2; assumption.
Qed.
End Elem.
