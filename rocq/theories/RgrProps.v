(** C133: surfaces, rotations and grids within some rounding errors. *)
From Coq Require Import Reals ZArith List Lra Lia.
From Flocq Require Import Core.
From Verif Require Import Base GeoModel GeoSpec GeoFacts RndModel RndSpec RndProps RksProps BiFacts BirFacts BirFacts2 RgnFacts RgnProps RgrModel.
Import ListNotations.
Open Scope R_scope.

Section Sum.
Variables (emin prec : Z).
Notation rn := (rndp emin prec).
Notation u := (unit_of prec).
Notation eta := (tiny_of emin).
Hypothesis Pp : (0 < prec)%Z.
Lemma term s p T t M k : 0 <= k -> 4 * (k + 1) * u <= 1 -> 0 <= M -> Rabs T <= M -> Rabs (s - T) <= 2 * (k + 1) * u * M + 4 * k * eta -> Rabs (p - t) <= u * Rabs t + eta ->
  Rabs (rn (s + p) - (T + t)) <= 2 * (k + 2) * u * (M + Rabs t) + 4 * (k + 1) * eta.
Proof.
  intros Hk Ku HM HT HE Hp. pose proof (u_pos prec) as U0. pose proof (eta_pos emin) as E0. pose proof (Rabs_pos t) as T0. pose proof (rn_err emin prec Pp (s + p)) as E. pose proof (tri (rn (s + p)) (s + p) (T + t)) as Tr.
  assert (H : Rabs (s + p - (T + t)) <= 2 * (k + 1) * u * M + 4 * k * eta + (u * Rabs t + eta)). { replace (s + p - (T + t)) with ((s - T) + (p - t)) by ring. eapply Rle_trans; [apply Rabs_triang|]. lra. }
  assert (A : Rabs (T + t) <= M + Rabs t) by (eapply Rle_trans; [apply Rabs_triang | lra]). pose proof (near_abs _ _ _ _ H A) as B.
  assert (U1 : u <= / 4) by (assert (0 <= k * u) by (apply Rmult_le_pos; lra); lra). assert (UM : 0 <= u * M) by (apply Rmult_le_pos; lra). assert (UT : 0 <= u * Rabs t) by (apply Rmult_le_pos; lra). assert (KM : 0 <= k * (u * M)) by (apply Rmult_le_pos; lra). assert (KT : 0 <= k * (u * Rabs t)) by (apply Rmult_le_pos; lra).
  assert (X1 : u * (2 * (k + 1) * u * M) <= / 2 * (u * M)). { replace (u * (2 * (k + 1) * u * M)) with (2 * (k + 1) * u * (u * M)) by ring. apply Rmult_le_compat_r; lra. }
  assert (X2 : u * (4 * k * eta) <= eta). { replace (u * (4 * k * eta)) with (4 * k * u * eta) by ring. rewrite <- (Rmult_1_l eta) at 2. apply Rmult_le_compat_r; lra. }
  assert (X3 : u * (u * Rabs t) <= / 4 * (u * Rabs t)) by (apply Rmult_le_compat_r; lra). assert (X4 : u * eta <= / 4 * eta) by (apply Rmult_le_compat_r; lra).
  assert (X5 : u * Rabs (s + p) <= u * (M + Rabs t + (2 * (k + 1) * u * M + 4 * k * eta + (u * Rabs t + eta)))) by (apply Rmult_le_compat_l; lra). lra.
Qed.
Definition magnitude (e : (R * R) * (R * R)) : R := Rabs (fst (fst e) * snd (snd e)) + Rabs (snd (fst e) * fst (snd e)).
Lemma magnitude_pos e : 0 <= magnitude e. Proof. unfold magnitude. pose proof (Rabs_pos (fst (fst e) * snd (snd e))). pose proof (Rabs_pos (snd (fst e) * fst (snd e))). lra. Qed.
Lemma loop_near : forall xy j out T M k, 0 <= k -> 4 * (k + 2 * INR (length xy) + 1) * u <= 1 -> 0 <= M -> Rabs T <= M -> Rabs (out - T) <= 2 * (k + 1) * u * M + 4 * k * eta ->
  let S := rsum (map (fun e => fst (fst e) * snd (snd e) - snd (fst e) * fst (snd e)) (combine (j :: xy) xy)) in let M' := rsum (map magnitude (combine (j :: xy) xy)) in
  0 <= M' /\ Rabs (T + S) <= M + M' /\ Rabs (surface_loop_r emin prec j xy out - (T + S)) <= 2 * (k + 2 * INR (length xy) + 1) * u * (M + M') + 4 * (k + 2 * INR (length xy)) * eta.
Proof.
  induction xy as [|i xy IH]; intros j out T M k Hk Ku HM HT HE; cbv zeta.
  - cbn [length INR surface_loop_r combine map]. unfold rsum. cbn [fold_right]. rewrite Rmult_0_r, !Rplus_0_r. split; [lra|]. split; [exact HT | exact HE].
  - pose proof (u_pos prec) as U0. pose proof (pos_INR (length xy)) as L0. cbn [length] in *. rewrite S_INR in *. assert (KU : 0 <= INR (length xy) * u) by (apply Rmult_le_pos; lra).
    set (a := fst j * snd i) in *. set (b := snd j * fst i) in *.
    assert (K1 : 4 * (k + 1) * u <= 1) by lra. pose proof (term out (rn a) T a M k Hk K1 HM HT HE (rn_err emin prec Pp a)) as H1. pose proof (Rabs_pos a) as A0. pose proof (Rabs_pos b) as B0.
    assert (HT1 : Rabs (T + a) <= M + Rabs a) by (eapply Rle_trans; [apply Rabs_triang | lra]). replace (2 * (k + 2) * u * (M + Rabs a)) with (2 * (k + 1 + 1) * u * (M + Rabs a)) in H1 by ring.
    assert (Hb : Rabs (- rn b - - b) <= u * Rabs (- b) + eta). { replace (- rn b - - b) with (- (rn b - b)) by ring. rewrite !Rabs_Ropp. exact (rn_err emin prec Pp b). }
    pose proof (term (rn (out + rn a)) (- rn b) (T + a) (- b) (M + Rabs a) (k + 1) ltac:(lra) ltac:(lra) ltac:(lra) HT1 H1 Hb) as H2. rewrite Rabs_Ropp in H2.
    assert (HT2 : Rabs (T + (a - b)) <= M + (Rabs a + Rabs b)). { replace (T + (a - b)) with ((T + a) + - b) by ring. eapply Rle_trans; [apply Rabs_triang|]. rewrite Rabs_Ropp. lra. }
    replace (rn (out + rn a) + - rn b) with (rn (out + rn a) - rn b) in H2 by ring. replace (T + a + - b) with (T + (a - b)) in H2 by ring. replace (2 * (k + 1 + 2) * u * (M + Rabs a + Rabs b)) with (2 * (k + 2 + 1) * u * (M + (Rabs a + Rabs b))) in H2 by ring. replace (4 * (k + 1 + 1) * eta) with (4 * (k + 2) * eta) in H2 by ring.
    destruct (IH i (rn (rn (out + rn a) - rn b)) (T + (a - b)) (M + (Rabs a + Rabs b)) (k + 2) ltac:(lra) ltac:(lra) ltac:(lra) HT2 H2) as (P & Q & W).
    cbn [surface_loop_r]. fold a b. change (combine (j :: i :: xy) (i :: xy)) with ((j, i) :: combine (i :: xy) xy). cbn [map]. unfold rsum in *. cbn [fold_right]. fold (rsum (map magnitude (combine (i :: xy) xy))) in *. unfold magnitude at 1 3 5. cbn [fst snd]. fold a b.
    set (Sr := fold_right Rplus 0 (map (fun e => fst (fst e) * snd (snd e) - snd (fst e) * fst (snd e)) (combine (i :: xy) xy))) in *. set (Mr := fold_right Rplus 0 (map magnitude (combine (i :: xy) xy))) in *.
    split; [lra|]. replace (T + (a - b + Sr)) with (T + (a - b) + Sr) by ring. split; [lra|]. replace (2 * (k + 2 * (INR (length xy) + 1) + 1) * u * (M + (Rabs a + Rabs b + Mr))) with (2 * (k + 2 + 2 * INR (length xy) + 1) * u * (M + (Rabs a + Rabs b) + Mr)) by ring. lra.
Qed.
End Sum.
(** The surface: the error follows the distance of the polygon to the origin, not its size. *)
Theorem C133_surface : forall emin prec xy, (0 < prec)%Z -> let n := INR (length xy) in 4 * (2 * n + 1) * unit_of prec <= 1 ->
  Rabs (surface_r emin prec xy - shoelace xy) <= (2 * n + 2) * unit_of prec * rsum (map magnitude (edges xy)) + (4 * n + 2) * tiny_of emin.
Proof.
  intros emin prec xy Pp n Hn. pose proof (u_pos prec) as U0. pose proof (eta_pos emin) as E0. assert (N0 : 0 <= n) by apply pos_INR.
  destruct (loop_near emin prec Pp xy (last xy (0, 0)) 0 0 0 0 ltac:(lra) ltac:(fold n; lra) ltac:(lra) ltac:(rewrite Rabs_R0; lra) ltac:(rewrite Rminus_0_r, Rabs_R0; lra)) as (M0 & B & W). fold n in W. fold (edges xy) in *.
  unfold surface_r, shoelace. set (s := surface_loop_r emin prec (last xy (0, 0)) xy 0) in *. set (A := rsum (map (fun e => fst (fst e) * snd (snd e) - snd (fst e) * fst (snd e)) (edges xy))) in *. set (M := rsum (map magnitude (edges xy))) in *. rewrite !Rplus_0_l in *.
  pose proof (rn_err emin prec Pp (/ 2 * s)) as E. pose proof (near_abs _ _ _ _ W B) as As. pose proof (tri (rndp emin prec (/ 2 * s)) (/ 2 * s) (/ 2 * A)) as T. replace (/ 2 * s - / 2 * A) with (/ 2 * (s - A)) in T by ring. rewrite (Rabs_mult (/ 2) s), (Rabs_right (/ 2)) in E by lra. rewrite (Rabs_mult (/ 2) (s - A)), (Rabs_right (/ 2)) in T by lra.
  assert (NU : 0 <= n * unit_of prec) by (apply Rmult_le_pos; lra). assert (UM : 0 <= unit_of prec * M) by (apply Rmult_le_pos; lra).
  assert (X1 : 2 * (2 * n + 1) * unit_of prec * M <= / 2 * M) by (apply Rmult_le_compat_r; lra). assert (X2 : unit_of prec * (/ 2 * Rabs s) <= unit_of prec * (/ 2 * (M + (/ 2 * M + 4 * (2 * n) * tiny_of emin)))) by (apply Rmult_le_compat_l; lra).
  assert (X3 : n * unit_of prec * tiny_of emin <= / 8 * tiny_of emin) by (apply Rmult_le_compat_r; lra). lra.
Qed.
Print Assumptions C133_surface.
(** Refuted: the surface does not depend on the position.  That of a triangle is found zero. *)
Lemma multiple m : (Z.abs m <= 2 ^ 40)%Z -> rndp (-1074) 53 (IZR (m * 2 ^ 27)) = IZR (m * 2 ^ 27).
Proof.
  intros H. apply round_generic; [apply valid_rnd_N|]. apply generic_format_FLT. exists (Float radix2 m 27); [|cbn; lia|cbn; lia]. unfold F2R. cbn [Fnum Fexp]. rewrite mult_IZR. reflexivity.
Qed.
Theorem C133_translation_refuted : exists xy c, (forall v, In v (translate c xy) -> representable (-1074) 53 (fst v) /\ representable (-1074) 53 (snd v)) /\ shoelace xy = / 2 /\ shoelace (translate c xy) = / 2 /\ surface_r (-1074) 53 xy = / 2 /\ surface_r (-1074) 53 (translate c xy) = 0.
Proof.
  exists [(0, 0); (1, 0); (0, 1)], (IZR (2 ^ 27), IZR (2 ^ 27)).
  assert (Rp : forall z, (0 <= z <= 2 ^ 28)%Z -> representable (-1074) 53 (IZR z)). { intros z Hz. exists z, 0%Z. split; [cbn; ring | lia]. }
  assert (E1 : 1 + IZR (2 ^ 27) = IZR (2 ^ 27 + 1)) by (rewrite plus_IZR; ring). assert (E0 : 0 + IZR (2 ^ 27) = IZR (2 ^ 27)) by ring.
  assert (R0 : rndp (-1074) 53 0 = 0) by (apply (rndp_int 0); lia). assert (R1 : rndp (-1074) 53 1 = 1) by (apply (rndp_int 1); lia).
  split; [|split; [|split; [|split]]].
  - unfold translate. cbn [map fst snd]. rewrite E0, E1. intros v [<- | [<- | [<- | []]]]; cbn [fst snd]; split; apply Rp; lia.
  - unfold shoelace, edges, rsum. cbn [last combine map fold_right fst snd]. lra.
  - unfold translate, shoelace, edges, rsum. cbn [last combine map fold_right fst snd]. lra.
  - unfold surface_r. cbn [last surface_loop_r fst snd]. repeat (rewrite ?Rmult_0_l, ?Rmult_0_r, ?Rmult_1_l, ?Rmult_1_r, ?R0, ?R1, ?Rplus_0_l, ?Rplus_0_r, ?Rminus_0_r).
    apply round_generic; [apply valid_rnd_N|]. apply generic_format_FLT. exists (Float radix2 1 (-1)); [|cbn; lia|cbn; lia]. unfold F2R. cbn. lra.
  - unfold translate, surface_r. cbn [map last surface_loop_r fst snd]. rewrite !E0, !E1. rewrite <- !mult_IZR.
    assert (P1 : rndp (-1074) 53 (IZR (2 ^ 27 * 2 ^ 27)) = IZR (2 ^ 27 * 2 ^ 27)) by (apply (multiple (2 ^ 27)); lia).
    assert (P2 : rndp (-1074) 53 (IZR ((2 ^ 27 + 1) * 2 ^ 27)) = IZR ((2 ^ 27 + 1) * 2 ^ 27)) by (apply (multiple (2 ^ 27 + 1)); lia).
    assert (P3 : rndp (-1074) 53 (IZR (2 ^ 27 * (2 ^ 27 + 1))) = IZR ((2 ^ 27 + 1) * 2 ^ 27)) by (rewrite Z.mul_comm; exact P2).
    assert (P4 : rndp (-1074) 53 (IZR ((2 ^ 27 + 1) * (2 ^ 27 + 1))) = IZR ((2 ^ 27 + 2) * 2 ^ 27)).
    { rewrite (rndp_integer _ 55 ((2 ^ 27 + 2) * 2 ^ 25)) by lia. f_equal. }
    rewrite P1, P2, P3, P4. rewrite Rplus_0_l, P1.
    rewrite <- minus_IZR. replace (2 ^ 27 * 2 ^ 27 - (2 ^ 27 + 1) * 2 ^ 27)%Z with (-1 * 2 ^ 27)%Z by lia. rewrite multiple by lia.
    rewrite <- plus_IZR. replace (-1 * 2 ^ 27 + 2 ^ 27 * 2 ^ 27)%Z with ((2 ^ 27 - 1) * 2 ^ 27)%Z by lia. rewrite multiple by lia.
    rewrite <- minus_IZR. replace ((2 ^ 27 - 1) * 2 ^ 27 - (2 ^ 27 + 1) * 2 ^ 27)%Z with (-2 * 2 ^ 27)%Z by lia. rewrite multiple by lia.
    rewrite <- plus_IZR. replace (-2 * 2 ^ 27 + (2 ^ 27 + 2) * 2 ^ 27)%Z with (2 ^ 27 * 2 ^ 27)%Z by lia. rewrite multiple by lia.
    rewrite <- minus_IZR, Z.sub_diag, R0, Rmult_0_r. exact R0.
Qed.
Print Assumptions C133_translation_refuted.

(** ** Rotations *)
Section Rot.
Variables (emin prec : Z) (sn cs : R -> R) (deg rad : R).
Notation rn := (rndp emin prec).
Notation u := (unit_of prec).
Notation eta := (tiny_of emin).
Hypothesis Pp : (0 < prec)%Z.
Hypothesis Pe : (emin <= 1 - 2 * prec)%Z.
Hypothesis L : libm prec sn cs deg rad.
(** The error of the sine and cosine of an angle in degrees, in units of rounding. *)
Definition angle_error (angle : R) : R := Rabs angle / 14 + 3.
Hypothesis U1 : u <= / 4096.
Lemma trig_near angle : Rabs (sn (rn (angle * deg)) - sin (angle * PI / 180)) <= angle_error angle * u /\ Rabs (cs (rn (angle * deg)) - cos (angle * PI / 180)) <= angle_error angle * u.
Proof.
  pose proof pi_high as P4. pose proof pi_low as P3. pose proof (Rabs_pos angle) as A0. assert (M : Rabs (angle * (PI / 180)) <= Rabs angle * (3.15 / 180)). { rewrite Rabs_mult, (Rabs_right (PI / 180)) by lra. apply Rmult_le_compat_l; lra. }
  assert (H : Rabs (rn (angle * deg) - angle * (PI / 180)) <= (Rabs angle / 14 + 1) * u) by (apply (RgnFacts.angle emin prec sn cs deg rad Pp L U1 (eta_uu emin prec Pe) angle (Rabs angle * (3.15 / 180))); [lra | exact M | lra]).
  replace (angle * PI / 180) with (angle * (PI / 180)) by field. unfold angle_error. replace (Rabs angle / 14 + 3) with (Rabs angle / 14 + 1 + 2) by ring. split; [eapply sin_near | eapply cos_near]; eassumption.
Qed.
(** A rounded product with a coefficient that is near [c']. *)
Lemma coef_prod c c' k x x' w : 0 <= k -> k * u <= / 4 -> Rabs (c - c') <= k * u -> Rabs c' <= 1 -> 0 <= w <= 2 -> Rabs (x - x') <= w * (u * Rabs x' + eta) -> Rabs (rn (c * x) - c' * x') <= (k + 1.3 * w + 1.3) * u * Rabs x' + (1.3 * w + 1.1) * eta.
Proof.
  intros K0 Ku Hc C1 Hw Hx. pose proof (u_pos prec) as U0. pose proof (eta_pos emin) as E0. pose proof (Rabs_pos x') as X0. pose proof (rn_err emin prec Pp (c * x)) as E. pose proof (tri (rn (c * x)) (c * x) (c' * x')) as T. set (X := Rabs x') in *.
  assert (UX : 0 <= u * X) by (apply Rmult_le_pos; lra). assert (UX2 : u * X <= / 4096 * X) by (apply Rmult_le_compat_r; lra). assert (UE : u * eta <= / 4096 * eta) by (apply Rmult_le_compat_r; lra). set (q := u * X + eta) in *. assert (Q0 : 0 <= q) by (unfold q; lra).
  assert (WQ : 0 <= w * q) by (apply Rmult_le_pos; lra). assert (WQ2 : w * q <= 2 * q) by (apply Rmult_le_compat_r; lra). assert (Ax : Rabs x <= X + w * q) by exact (near_abs _ _ _ _ Hx (Rle_refl _)). pose proof (near_abs _ _ _ _ Hc C1) as Ac. pose proof (Rabs_pos c) as C0. pose proof (Rabs_pos x) as X00.
  assert (D : Rabs (c * x - c' * x') <= 1.25 * (w * q) + k * u * X).
  { replace (c * x - c' * x') with (c * (x - x') + (c - c') * x') by ring. eapply Rle_trans; [apply Rabs_triang|]. rewrite !Rabs_mult. fold X. assert (Rabs c * Rabs (x - x') <= 1.25 * (w * q)) by (apply Rmult_le_compat; try apply Rabs_pos; lra). assert (Rabs (c - c') * X <= k * u * X) by (apply Rmult_le_compat_r; lra). lra. }
  assert (P : Rabs (c * x) <= 1.25 * (X + w * q)) by (rewrite Rabs_mult; apply Rmult_le_compat; lra). assert (P2 : u * Rabs (c * x) <= u * (1.25 * (X + w * q))) by (apply Rmult_le_compat_l; lra). assert (P3 : u * (w * q) <= / 4096 * (w * q)) by (apply Rmult_le_compat_r; lra).
  assert (Wq : w * q = w * (u * X) + w * eta) by (unfold q; ring). assert (W1 : 0 <= w * (u * X)) by (apply Rmult_le_pos; lra). assert (W2 : 0 <= w * eta) by (apply Rmult_le_pos; lra). lra.
Qed.
(** Two such products, and a number. *)
Lemma two_terms p q P Q X Y k h : 0 <= k -> k * u <= / 2 -> 0 <= h <= 4 -> Rabs P <= X -> Rabs Q <= Y -> Rabs (p - P) <= k * u * X + h * eta -> Rabs (q - Q) <= k * u * Y + h * eta ->
  Rabs (rn (p + q) - (P + Q)) <= (k + 1.5) * u * (X + Y) + (2 * h + 1.1) * eta.
Proof.
  intros K0 Ku Hh HX HY Hp Hq. pose proof (u_pos prec) as U0. pose proof (eta_pos emin) as E0. pose proof (Rabs_pos P) as P0. pose proof (Rabs_pos Q) as Q0. pose proof (rn_err emin prec Pp (p + q)) as E. pose proof (tri (rn (p + q)) (p + q) (P + Q)) as T.
  assert (UE : u * eta <= / 4096 * eta) by (apply Rmult_le_compat_r; lra). assert (HE : h * (u * eta) <= h * (/ 4096 * eta)) by (apply Rmult_le_compat_l; lra). assert (HE2 : h * eta <= 4 * eta) by (apply Rmult_le_compat_r; lra).
  assert (D : Rabs (p + q - (P + Q)) <= k * u * (X + Y) + 2 * h * eta). { replace (p + q - (P + Q)) with ((p - P) + (q - Q)) by ring. eapply Rle_trans; [apply Rabs_triang|]. lra. }
  assert (A : Rabs (P + Q) <= X + Y) by (eapply Rle_trans; [apply Rabs_triang | lra]). pose proof (near_abs _ _ _ _ D A) as B. assert (S0 : 0 <= X + Y) by lra. set (S := X + Y) in *. assert (KS : k * u * S <= / 2 * S) by (apply Rmult_le_compat_r; lra).
  assert (UB : u * Rabs (p + q) <= u * (1.5 * S + 2 * h * eta)) by (apply Rmult_le_compat_l; lra). replace (u * (1.5 * S + 2 * h * eta)) with (1.5 * (u * S) + 2 * (h * (u * eta))) in UB by ring. replace ((k + 1.5) * u * S) with (k * u * S + 1.5 * (u * S)) by ring. lra.
Qed.
End Rot.
Theorem C133_rotation : forall emin prec sn cs deg rad angle v, (12 <= prec)%Z -> (emin <= 1 - 2 * prec)%Z -> libm prec sn cs deg rad -> angle_error angle * unit_of prec <= / 8 ->
  let c := cos (angle * PI / 180) in let s := sin (angle * PI / 180) in let w := rotate_r emin prec sn cs deg angle v in
  let err := (angle_error angle + 3) * unit_of prec * (Rabs (fst v) + Rabs (snd v)) + 4 * tiny_of emin in
  Rabs (fst w - (c * fst v - s * snd v)) <= err /\ Rabs (snd w - (s * fst v + c * snd v)) <= err.
Proof.
  intros emin prec sn cs deg rad angle [x y] Pp Pe L Ha. cbv zeta. unfold rotate_r. cbn [fst snd]. assert (P0 : (0 < prec)%Z) by lia. pose proof (u_pos prec) as U0. pose proof (eta_pos emin) as E0.
  assert (U1 : unit_of prec <= / 4096). { unfold unit_of. rewrite pow2. apply Rle_trans with (bpow radix2 (-12)); [apply bpow_le; lia|]. unfold bpow. change (Z.pow_pos radix2 12) with 4096%Z. lra. }
  destruct (trig_near emin prec sn cs deg rad P0 Pe L U1 angle) as [S C]. assert (K0 : 0 <= angle_error angle) by (unfold angle_error; pose proof (Rabs_pos angle); lra). set (k := angle_error angle) in *. set (sa := sn (rndp emin prec (angle * deg))) in *. set (ca := cs (rndp emin prec (angle * deg))) in *. set (sr := sin (angle * PI / 180)) in *. set (cr := cos (angle * PI / 180)) in *.
  assert (S1 : Rabs sr <= 1) by apply sin_1. assert (C1 : Rabs cr <= 1) by apply cos_1.
  assert (G : forall c c' z, Rabs (c - c') <= k * unit_of prec -> Rabs c' <= 1 -> Rabs (rndp emin prec (c * z) - c' * z) <= (k + 1.3) * unit_of prec * Rabs z + 1.1 * tiny_of emin).
  { intros c c' z Hc Hc'. pose proof (coef_prod emin prec P0 U1 c c' k z z 0 K0 ltac:(lra) Hc Hc' ltac:(lra)) as Q. rewrite Rminus_eq_0, Rabs_R0 in Q. specialize (Q ltac:(lra)). lra. }
  assert (B : forall c z, Rabs c <= 1 -> Rabs (c * z) <= Rabs z). { intros c z Hc. rewrite Rabs_mult. rewrite <- (Rmult_1_l (Rabs z)) at 2. apply Rmult_le_compat_r; [apply Rabs_pos | exact Hc]. }
  pose proof (Rabs_pos x) as X0. pose proof (Rabs_pos y) as Y0. assert (UN : 0 <= unit_of prec * (Rabs x + Rabs y)) by (apply Rmult_le_pos; lra).
  split.
  - pose proof (two_terms emin prec P0 U1 (rndp emin prec (ca * x)) (- rndp emin prec (sa * y)) (cr * x) (- (sr * y)) (Rabs x) (Rabs y) (k + 1.3) 1.1) as Q. unfold Rminus in Q |- *. unfold Rminus. eapply Rle_trans; [apply Q|]; try lra; try (apply B; assumption); try (apply G; assumption).
    + rewrite Rabs_Ropp. apply B, S1.
    + replace (- rndp emin prec (sa * y) + - - (sr * y)) with (- (rndp emin prec (sa * y) - sr * y)) by ring. rewrite Rabs_Ropp. now apply G.
  - eapply Rle_trans; [apply (two_terms emin prec P0 U1 _ _ _ _ (Rabs x) (Rabs y) (k + 1.3) 1.1)|]; try lra; try (apply B; assumption); try (apply G; assumption).
Qed.
Print Assumptions C133_rotation.

(** ** Grids *)
Section Grid.
Variables (emin prec : Z).
Notation rn := (rndp emin prec).
Notation u := (unit_of prec).
Notation eta := (tiny_of emin).
Hypothesis Pp : (12 <= prec)%Z.
Hypothesis Pe : (emin <= 1 - 2 * prec)%Z.
Lemma half_exact z : (Z.abs z < 2 ^ prec)%Z -> rn (/ 2 * IZR z) = / 2 * IZR z.
Proof.
  intros H. assert (P0 : (0 < prec)%Z) by lia. apply round_generic; [apply valid_rnd_N|]. apply generic_format_FLT. exists (Float radix2 z (-1)); [unfold F2R; cbn; lra | cbn [Fnum]; exact H | cbn; lia].
Qed.
Lemma position n i : (0 <= n)%Z -> (n + 1 < 2 ^ prec)%Z -> (1 <= i <= n)%Z -> rn (rn (- / 2 * IZR (n + 1)) + IZR i) = IZR i - (IZR n + 1) / 2.
Proof.
  intros Hn Hp Hi. replace (- / 2 * IZR (n + 1)) with (/ 2 * IZR (- (n + 1))) by (rewrite opp_IZR; ring). rewrite half_exact by lia. replace (/ 2 * IZR (- (n + 1)) + IZR i) with (/ 2 * IZR (2 * i - (n + 1))) by (rewrite minus_IZR, mult_IZR, opp_IZR; field).
  rewrite half_exact by lia. rewrite minus_IZR, mult_IZR, plus_IZR. field.
Qed.
Lemma three_terms c p q P Q X Y k : u <= / 4096 -> 0 <= k -> k * u <= / 2 -> Rabs P <= X -> Rabs Q <= Y -> Rabs (p - P) <= k * u * X + 2.4 * eta -> Rabs (q - Q) <= k * u * Y + 2.4 * eta ->
  Rabs (rn (rn (c + p) + q) - (c + P + Q)) <= (k + 3.4) * u * (X + Y) + 3 * u * Rabs c + 8 * eta.
Proof.
  intros U1 K0 Ku HX HY Hp Hq. assert (P0 : (0 < prec)%Z) by lia. pose proof (u_pos prec) as U0. pose proof (eta_pos emin) as E0. pose proof (Rabs_pos P) as PP. pose proof (Rabs_pos Q) as QQ. pose proof (Rabs_pos c) as C0.
  assert (UE : u * eta <= / 4096 * eta) by (apply Rmult_le_compat_r; lra). assert (KX : k * u * X <= / 2 * X) by (apply Rmult_le_compat_r; lra). assert (KY : k * u * Y <= / 2 * Y) by (apply Rmult_le_compat_r; lra). assert (UX : 0 <= u * X) by (apply Rmult_le_pos; lra). assert (UY : 0 <= u * Y) by (apply Rmult_le_pos; lra). assert (UC : 0 <= u * Rabs c) by (apply Rmult_le_pos; lra).
  assert (D1 : Rabs (c + p - (c + P)) <= k * u * X + 2.4 * eta) by (replace (c + p - (c + P)) with (p - P) by ring; exact Hp). assert (A1 : Rabs (c + P) <= Rabs c + X) by (eapply Rle_trans; [apply Rabs_triang | lra]). pose proof (near_abs _ _ _ _ D1 A1) as B1.
  pose proof (rn_err emin prec P0 (c + p)) as E1. pose proof (tri (rn (c + p)) (c + p) (c + P)) as T1. assert (M1 : u * Rabs (c + p) <= u * (Rabs c + 1.5 * X + 2.4 * eta)) by (apply Rmult_le_compat_l; lra).
  assert (H1 : Rabs (rn (c + p) - (c + P)) <= k * u * X + 1.5 * (u * X) + u * Rabs c + 3.5 * eta) by lra. set (t := rn (c + p)) in *.
  assert (D2 : Rabs (t + q - (c + P + Q)) <= k * u * X + k * u * Y + 1.5 * (u * X) + u * Rabs c + 5.9 * eta). { replace (t + q - (c + P + Q)) with ((t - (c + P)) + (q - Q)) by ring. eapply Rle_trans; [apply Rabs_triang|]. lra. }
  assert (A2 : Rabs (c + P + Q) <= Rabs c + X + Y) by (eapply Rle_trans; [apply Rabs_triang | lra]). pose proof (near_abs _ _ _ _ D2 A2) as B2. assert (UX2 : u * X <= / 4096 * X) by (apply Rmult_le_compat_r; lra). assert (UC2 : u * Rabs c <= / 4096 * Rabs c) by (apply Rmult_le_compat_r; lra).
  pose proof (rn_err emin prec P0 (t + q)) as E2. pose proof (tri (rn (t + q)) (t + q) (c + P + Q)) as T2. assert (M2 : u * Rabs (t + q) <= u * (1.1 * Rabs c + 1.6 * X + 1.6 * Y + 5.9 * eta)) by (apply Rmult_le_compat_l; lra).
  replace ((k + 3.4) * u * (X + Y)) with (k * u * X + k * u * Y + 3.4 * (u * X) + 3.4 * (u * Y)) by ring. lra.
Qed.
End Grid.
Theorem C133_grid : forall emin prec sn cs deg rad m n spacing xr yr angle center i j, (12 <= prec)%Z -> (emin <= 1 - 2 * prec)%Z -> libm prec sn cs deg rad -> angle_error angle * unit_of prec <= / 8 ->
  (n + 1 < 2 ^ prec)%Z -> (m + 1 < 2 ^ prec)%Z -> (1 <= i <= n)%Z -> (1 <= j <= m)%Z ->
  let x := (IZR i - (IZR n + 1) / 2) * spacing in let y := (IZR j - (IZR m + 1) / 2) * spacing in
  let v := grid_r emin prec sn cs deg m n spacing xr yr angle center i j in let w := create_grid m n spacing xr yr angle center i j in
  let err c := (angle_error angle + 6) * unit_of prec * (Rabs x + Rabs y) + 3 * unit_of prec * Rabs c + 8 * tiny_of emin in
  Rabs (fst v - fst w) <= err (fst center) /\ Rabs (snd v - snd w) <= err (snd center).
Proof.
  intros emin prec sn cs deg rad m n spacing xr yr angle [c1 c2] i j Pp Pe L Ha Hn Hm Hi Hj x y v w err. subst v w err. unfold grid_r, create_grid. cbn [fst snd]. assert (P0 : (0 < prec)%Z) by lia. pose proof (u_pos prec) as U0. pose proof (eta_pos emin) as E0.
  assert (U1 : unit_of prec <= / 4096). { unfold unit_of. rewrite pow2. apply Rle_trans with (bpow radix2 (-12)); [apply bpow_le; lia|]. unfold bpow. change (Z.pow_pos radix2 12) with 4096%Z. lra. }
  rewrite !(position emin prec Pp Pe) by lia. fold x y.
  assert (Ex : (- / 2 * IZR (n + 1) + IZR i) * spacing = x) by (unfold x; rewrite plus_IZR; field). assert (Ey : (- / 2 * IZR (m + 1) + IZR j) * spacing = y) by (unfold y; rewrite plus_IZR; field). rewrite Ex, Ey.
  destruct (trig_near emin prec sn cs deg rad P0 Pe L U1 angle) as [S C]. assert (K0 : 0 <= angle_error angle) by (unfold angle_error; pose proof (Rabs_pos angle); lra). unfold grid_matrix_r, grid_matrix. rewrite (Rmult_comm deg), (Rmult_comm DEG2RAD). unfold DEG2RAD. replace (angle * (PI / 180)) with (angle * PI / 180) by field.
  set (k := angle_error angle) in *. set (sa := sn (rndp emin prec (angle * deg))) in *. set (ca := cs (rndp emin prec (angle * deg))) in *. set (sr := sin (angle * PI / 180)) in *. set (cr := cos (angle * PI / 180)) in *.
  assert (S1 : Rabs sr <= 1) by apply sin_1. assert (C1 : Rabs cr <= 1) by apply cos_1.
  assert (S' : Rabs (- sa - - sr) <= k * unit_of prec) by (replace (- sa - - sr) with (- (sa - sr)) by ring; now rewrite Rabs_Ropp). assert (C' : Rabs (- ca - - cr) <= k * unit_of prec) by (replace (- ca - - cr) with (- (ca - cr)) by ring; now rewrite Rabs_Ropp).
  assert (S1' : Rabs (- sr) <= 1) by now rewrite Rabs_Ropp. assert (C1' : Rabs (- cr) <= 1) by now rewrite Rabs_Ropp.
  assert (G : forall c a a' b b', Rabs (a - a') <= k * unit_of prec -> Rabs a' <= 1 -> Rabs (b - b') <= k * unit_of prec -> Rabs b' <= 1 ->
    Rabs (rndp emin prec (rndp emin prec (c + rndp emin prec (a * rndp emin prec x)) + rndp emin prec (b * rndp emin prec y)) - (c + a' * x + b' * y)) <= (k + 6) * unit_of prec * (Rabs x + Rabs y) + 3 * unit_of prec * Rabs c + 8 * tiny_of emin).
  { intros c a a' b b' Da Ba Db Bb. assert (Rx : forall z, Rabs (rndp emin prec z - z) <= 1 * (unit_of prec * Rabs z + tiny_of emin)) by (intros z; rewrite Rmult_1_l; exact (rn_err emin prec P0 z)).
    pose proof (coef_prod emin prec P0 U1 a a' k (rndp emin prec x) x 1 K0 ltac:(lra) Da Ba ltac:(lra) (Rx x)) as H1. pose proof (coef_prod emin prec P0 U1 b b' k (rndp emin prec y) y 1 K0 ltac:(lra) Db Bb ltac:(lra) (Rx y)) as H2.
    assert (B : forall e z, Rabs e <= 1 -> Rabs (e * z) <= Rabs z). { intros e z He. rewrite Rabs_mult. rewrite <- (Rmult_1_l (Rabs z)) at 2. apply Rmult_le_compat_r; [apply Rabs_pos | exact He]. }
    pose proof (three_terms emin prec Pp c (rndp emin prec (a * rndp emin prec x)) (rndp emin prec (b * rndp emin prec y)) (a' * x) (b' * y) (Rabs x) (Rabs y) (k + 2.6) U1 ltac:(lra) ltac:(lra) (B a' x Ba) (B b' y Bb) ltac:(lra) ltac:(lra)) as H. replace (k + 6) with (k + 2.6 + 3.4) by lra. exact H. }
  assert (N : forall z, - - z = z) by (intros; ring).
  destruct xr, yr; cbn [negb fst snd]; rewrite ?N; split; apply G; rewrite ?N; assumption.
Qed.
Print Assumptions C133_grid.
Example C133_example : 4 * (2 * INR (length [(0, 0); (1, 0); (0, 1)]) + 1) * unit_of 53 <= 1 /\ angle_error 45 * unit_of 53 <= / 8 /\
  libm 53 (fun x => rndp (-1074) 53 (sin x)) (fun x => rndp (-1074) 53 (cos x)) (rndp (-1074) 53 (PI / 180)) (rndp (-1074) 53 (180 / PI)) /\ create_grid 2 2 2 false false 90 (0, 0) 1 1 = (- sin (PI / 180 * 90), - sin (PI / 180 * 90)).
Proof.
  assert (U : unit_of 53 <= / 4096). { unfold unit_of. rewrite pow2. apply Rle_trans with (bpow radix2 (-12)); [apply bpow_le; lia|]. unfold bpow. change (Z.pow_pos radix2 12) with 4096%Z. lra. }
  split; [cbn [length INR]; lra|]. split; [unfold angle_error; rewrite Rabs_right by lra; lra|]. split; [apply C132_rounded; lia|].
  unfold create_grid, grid_matrix, DEG2RAD. cbn [negb fst snd]. replace (PI / 180 * 90) with (PI / 2) by field. rewrite cos_PI2, sin_PI2. f_equal; cbn; lra.
Qed.
