From Coq Require Import Reals ZArith Lra Lia.
From Verif Require Import Base SkyModel RndModel RndSpec RndProps BiModel BiSpec BiFacts BirModel BirSpec BirFacts.
Open Scope R_scope.
Definition small (v : vec) : Prop := let '(x, y, z) := v in Rabs x <= 1 /\ Rabs y <= 1 /\ Rabs z <= 1.
Lemma abs_1 x : x * x <= 1 -> Rabs x <= 1.
Proof. intros H. pose proof (Rabs_pos x). destruct (Rle_lt_dec (Rabs x) 1) as [L|L]; [exact L|]. assert (1 * 1 < Rabs x * Rabs x) by (apply Rmult_le_0_lt_compat; lra). rewrite <- Rabs_mult, Rabs_right in H1; [lra | apply Rle_ge, Rle_0_sqr]. Qed.
Lemma sq_pos x : 0 <= x * x. Proof. apply Rle_0_sqr. Qed.
Lemma unit_small v : dot3 v v = 1 -> small v.
Proof. destruct v as [[x y] z]. unfold dot3, small. intros H. pose proof (sq_pos x). pose proof (sq_pos y). pose proof (sq_pos z). repeat split; apply abs_1; lra. Qed.
Lemma cauchy v v' : dot3 v v = 1 -> dot3 v' v' = 1 -> Rabs (dot3 v v') <= 1.
Proof.
  destruct v as [[a b] c], v' as [[x y] z]. unfold dot3. intros H H'. apply abs_1.
  assert (X : (a * x + b * y + c * z) * (a * x + b * y + c * z) = (a * a + b * b + c * c) * (x * x + y * y + z * z) - ((b * z - c * y) * (b * z - c * y) + (c * x - a * z) * (c * x - a * z) + (a * y - b * x) * (a * y - b * x))) by ring.
  rewrite X, H, H'. pose proof (sq_pos (b * z - c * y)). pose proof (sq_pos (c * x - a * z)). pose proof (sq_pos (a * y - b * x)). lra.
Qed.
Lemma abs_le_add a b A B : Rabs a <= A -> Rabs b <= B -> Rabs (a + b) <= A + B.
Proof. intros. eapply Rle_trans; [apply Rabs_triang|]. lra. Qed.
Lemma abs_le_mul a b : Rabs a <= 1 -> Rabs b <= 1 -> Rabs (a * b) <= 1.
Proof. intros. rewrite Rabs_mult. replace 1 with (1 * 1) by ring. apply Rmult_le_compat; try apply Rabs_pos; assumption. Qed.
Section Err.
Variables (emin prec : Z) (W e : R).
Hypothesis Pp : (0 < prec)%Z.
Notation rn := (rndp emin prec).
Notation u := (unit_of prec).
Notation eta := (tiny_of emin).
Hypothesis Wp : 0 < W <= 1.
Hypothesis Ue : u = e * W.
Hypothesis E1 : e <= / 4096.
Hypothesis He : eta <= u * u.
Notation prod := (prod_e emin prec W e Pp Wp Ue E1 He).
Notation sum := (sum_e emin prec W e Pp Wp Ue E1 He).
(** A scalar product: errors i and j of the two vectors (third components i3 and j3). *)
Lemma dot_near (r v : vec) a b c x y z i i3 j k :
  0 <= i -> 0 <= i3 -> 0 <= j -> i <= 100 -> i3 <= 100 -> j <= 200 ->
  (let '(r1, r2, r3) := r in let '(v1, v2, v3) := v in
   (Rabs (r1 - a) <= i * e /\ Rabs (r2 - b) <= i * e /\ Rabs (r3 - c) <= i3 * e) /\
   Rabs (v1 - x) <= j * e /\ Rabs (v2 - y) <= j * e /\ Rabs (v3 - z) <= j * e) ->
  small (a, b, c) -> small (x, y, z) -> Rabs (dot3 (a, b, c) (x, y, z)) <= 1 ->
  (2 * i + i3) + 3 * j + 75 / 10 + (2 * i + i3) * j / 4000 <= k -> Rabs (dot_r emin prec r v - dot3 (a, b, c) (x, y, z)) <= k * e.
Proof.
  destruct r as [[r1 r2] r3], v as [[v1 v2] v3]. intros I I3 J I' I3' J' ((R1 & R2 & R3) & V1 & V2 & V3) (A & B & C) (X & Y & Z) D K. unfold dot_r, dot3 in *.
  assert (IJ : 0 <= i * j) by (apply Rmult_le_pos; assumption). assert (IJ3 : 0 <= i3 * j) by (apply Rmult_le_pos; assumption).
  assert (M : forall q t, 0 <= q * t -> (1 + q / 4096) * (1 + t / 4096) = 1 + q / 4096 + t / 4096 + q * t / 16777216) by (intros; field).
  assert (P1 : Rabs (rn (r1 * v1) - a * x) <= (i + j + i * j / 4050 + 12 / 10) * e) by (apply (prod _ _ _ _ i j 1 1); try assumption; try lra; rewrite M by assumption; lra).
  assert (P2 : Rabs (rn (r2 * v2) - b * y) <= (i + j + i * j / 4050 + 12 / 10) * e) by (apply (prod _ _ _ _ i j 1 1); try assumption; try lra; rewrite M by assumption; lra).
  assert (P3 : Rabs (rn (r3 * v3) - c * z) <= (i3 + j + i3 * j / 4050 + 12 / 10) * e) by (apply (prod _ _ _ _ i3 j 1 1); try assumption; try lra; rewrite M by assumption; lra).
  assert (I2 : i * j <= 100 * 200) by (apply Rmult_le_compat; lra). assert (I32 : i3 * j <= 100 * 200) by (apply Rmult_le_compat; lra).
  set (p := i * j) in *. set (p3 := i3 * j) in *.
  assert (S1 : Rabs (rn (rn (r1 * v1) + rn (r2 * v2)) - (a * x + b * y)) <= (2 * (i + j + p / 4050 + 12 / 10) + 23 / 10) * e).
  { apply (sum _ _ _ _ _ _ 2 _) with (3 := P1) (4 := P2); try lra. replace 2 with (1 + 1) by ring. apply abs_le_add; apply abs_le_mul; assumption. }
  apply (sum _ _ _ _ _ _ 1 _) with (3 := S1) (4 := P3); try lra. unfold p, p3 in *. lra.
Qed.
Lemma dot_near_2 p1 p2 v1 v2 a b x y i j k :
  0 <= i -> 0 <= j -> i <= 100 -> j <= 200 -> Rabs (p1 - a) <= i * e -> Rabs (p2 - b) <= i * e -> Rabs (v1 - x) <= j * e -> Rabs (v2 - y) <= j * e ->
  Rabs a <= 1 -> Rabs b <= 1 -> Rabs x <= 1 -> Rabs y <= 1 -> Rabs (a * x + b * y) <= 1 ->
  2 * i + 2 * j + 4 + 2 * i * j / 4000 <= k -> Rabs (rn (rn (p1 * v1) + rn (p2 * v2)) - (a * x + b * y)) <= k * e.
Proof.
  intros I J I' J' R1 R2 V1 V2 A B X Y D K.
  assert (IJ : 0 <= i * j) by (apply Rmult_le_pos; assumption).
  assert (M : forall q t, 0 <= q * t -> (1 + q / 4096) * (1 + t / 4096) = 1 + q / 4096 + t / 4096 + q * t / 16777216) by (intros; field).
  assert (P1 : Rabs (rn (p1 * v1) - a * x) <= (i + j + i * j / 4050 + 12 / 10) * e) by (apply (prod _ _ _ _ i j 1 1); try assumption; try lra; rewrite M by assumption; lra).
  assert (P2 : Rabs (rn (p2 * v2) - b * y) <= (i + j + i * j / 4050 + 12 / 10) * e) by (apply (prod _ _ _ _ i j 1 1); try assumption; try lra; rewrite M by assumption; lra).
  assert (I2 : i * j <= 100 * 200) by (apply Rmult_le_compat; lra). replace (2 * i * j / 4000) with (2 * (i * j) / 4000) in K by (field).
  set (p := i * j) in *.
  apply (sum _ _ _ _ _ _ 1 _) with (3 := P1) (4 := P2); try lra.
Qed.
End Err.
Lemma columns_unit m (Hm : rotation m) : let '(a, b, c) := swapaxes m in dot3 a a = 1 /\ dot3 b b = 1 /\ dot3 c c = 1.
Proof. pose proof (rotation_columns m Hm) as C. destruct m as [[[[a b] c] [[d f] g]] [[h i] j]]. unfold swapaxes, dot3, columns in *. tauto. Qed.
Lemma direction_unit t f : dot3 (direction t f) (direction t f) = 1.
Proof. unfold direction, dot3. pose proof (sc t) as T. pose proof (sc f) as F. transitivity (sin t * sin t * (sin f * sin f + cos f * cos f) + cos t * cos t); [ring|]. rewrite F. lra. Qed.
Section Near.
Variables (emin prec : Z) (W e : R).
Hypothesis Pp : (0 < prec)%Z.
Notation rn := (rndp emin prec).
Notation u := (unit_of prec).
Notation eta := (tiny_of emin).
Hypothesis Wp : 0 < W <= 1.
Hypothesis Ue : u = e * W.
Hypothesis E1 : e <= / 4096.
Hypothesis He : eta <= u * u.
(** The direction seen from the other frame. *)
Lemma eni_near rot rot' enf enf' : close_mat (3 * u) rot rot' -> close (2 * u) enf enf' ->
  (let '(a, b, c) := rot' in dot3 a a = 1 /\ dot3 b b = 1 /\ dot3 c c = 1) -> dot3 enf' enf' = 1 ->
  close (25 * u) (rotinv_e_r emin prec rot enf) (apply_mat rot' enf').
Proof.
  destruct rot as [[a b] c], rot' as [[a' b'] c']. intros (Ra & Rb & Rc) HE (Na & Nb & Nc) NE.
  assert (W1 : 0 < 1 <= 1) by lra. assert (U1 : u = u * 1) by (symmetry; apply Rmult_1_r). assert (EU : u <= / 4096) by (exact (u1 prec W e Wp Ue E1)).
  assert (G : forall r r', close (3 * u) r r' -> dot3 r' r' = 1 -> Rabs (dot_r emin prec r enf - dot3 r' enf') <= 25 * u).
  { intros [[r1 r2] r3] [[p q] s] (H1 & H2 & H3) N. destruct enf as [[x y] z], enf' as [[x' y'] z'].
    apply (dot_near emin prec 1 u Pp W1 U1 EU He _ _ p q s x' y' z' 3 3 2 25); [lra | lra | lra | lra | lra | lra | | apply unit_small, N | apply unit_small, NE | apply cauchy; assumption | lra].
    destruct HE as (X & Y & Z). tauto. }
  unfold rotinv_e_r, apply_mat, close. split; [|split]; apply G; assumption.
Qed.
Lemma cos_1 t : Rabs (cos t) <= 1. Proof. apply abs_1. pose proof (sc t). pose proof (sq_pos (sin t)). lra. Qed.
Lemma sin_1 t : Rabs (sin t) <= 1. Proof. apply abs_1. pose proof (sc t). pose proof (sq_pos (cos t)). lra. Qed.
Lemma root_sin t : 0 < sin t -> sqrt (1 - cos t * cos t) = sin t.
Proof. intros H. replace (1 - cos t * cos t) with (sin t * sin t) by (pose proof (sc t); lra). apply sqrt_square. lra. Qed.
Lemma sin_le t f : 0 < sin t -> Rabs (sin t * f) <= sin t * Rabs f. Proof. intros H. rewrite Rabs_mult, (Rabs_right (sin t)) by lra. apply Rle_refl. Qed.
(** The frame of a direction. *)
Lemma ephi_near en t f : 0 < sin t -> W <= sin t * sin t -> close (25 * u) en (direction t f) ->
  exists p1 p2, en2ephi_r emin prec en = Some (p1, p2) /\ Rabs (p1 - - sin f) <= 88 * e /\ Rabs (p2 - cos f) <= 88 * e.
Proof.
  destruct en as [[x y] z]. intros St HW (X & Y & Z). pose proof (cos_1 t) as C1. pose proof (root_sin t St) as RS.
  assert (Hw : W <= 1 - cos t * cos t) by (pose proof (sc t); lra). unfold en2ephi_r.
  destruct (root_near emin prec W e Pp Wp Ue E1 He z (cos t) Z C1 Hw) as (s & -> & Hs).
  destruct (inverse_near emin prec W e Pp Wp Ue E1 He (cos t) Hw s Hs) as (tt & -> & Ht).
  pose proof (component emin prec W e Pp Wp Ue E1 He (cos t) Hw) as G. rewrite RS in G, Ht. do 2 eexists. split; [reflexivity|].
  assert (Y' : Rabs (- y - - (sin t * sin f)) <= 25 * u) by (replace (- y - - (sin t * sin f)) with (- (y - sin t * sin f)) by ring; rewrite Rabs_Ropp; exact Y).
  split.
  - replace (- sin f) with (- (sin t * sin f) / sin t) by (field; lra). apply G; [exact Y' | | exact Ht]. rewrite Rabs_Ropp. eapply Rle_trans; [apply sin_le, St|]. rewrite <- (Rmult_1_r (sin t)) at 2. apply Rmult_le_compat_l; [lra | apply sin_1].
  - replace (cos f) with (sin t * cos f / sin t) by (field; lra). apply G; [exact X | | exact Ht]. eapply Rle_trans; [apply sin_le, St|]. rewrite <- (Rmult_1_r (sin t)) at 2. apply Rmult_le_compat_l; [lra | apply cos_1].
Qed.
Lemma frame_near en t f : 0 < sin t -> W <= sin t * sin t -> close (2 * u) en (direction t f) ->
  exists t1 t2 t3 p1 p2, en2etheta_ephi_r emin prec en = Some ((t1, t2, t3), (p1, p2)) /\
    (Rabs (t1 - cos t * cos f) <= 70 * e /\ Rabs (t2 - cos t * sin f) <= 70 * e /\ Rabs (t3 - - sin t) <= 57 * e) /\
    Rabs (p1 - - sin f) <= 88 * e /\ Rabs (p2 - cos f) <= 88 * e.
Proof.
  destruct en as [[x y] z]. intros St HW HE. pose proof (u0 prec) as U0.
  assert (HE' : close (25 * u) (x, y, z) (direction t f)) by (unfold close, direction in *; repeat split; lra).
  destruct (ephi_near _ t f St HW HE') as (p1 & p2 & Ep & P1 & P2). destruct HE as (X & Y & Z). destruct HE' as (_ & _ & Z').
  pose proof (cos_1 t) as C1. pose proof (root_sin t St) as RS. assert (Hw : W <= 1 - cos t * cos t) by (pose proof (sc t); lra). unfold en2ephi_r in Ep. unfold en2etheta_ephi_r.
  destruct (root_near emin prec W e Pp Wp Ue E1 He z (cos t) Z' C1 Hw) as (s & Es & Hs). rewrite Es in Ep |- *.
  destruct (inverse_near emin prec W e Pp Wp Ue E1 He (cos t) Hw s Hs) as (tt & Et & Ht). rewrite Et in Ep |- *.
  pose proof (component_z emin prec W e Pp Wp Ue E1 He z (cos t) C1 Hw) as G. rewrite RS in G, Ht, Hs.
  assert (Q1 : rn (- y * tt) = p1) by (apply (f_equal (fun o => match o with Some q => fst q | None => 0 end) Ep)).
  assert (Q2 : rn (x * tt) = p2) by (apply (f_equal (fun o => match o with Some q => snd q | None => 0 end) Ep)).
  do 5 eexists. split; [reflexivity|]. rewrite Q1, Q2. split; [|split; assumption]. split; [|split].
  - replace (cos t * cos f) with (sin t * cos f * (cos t / sin t)) by (field; lra). apply G; [exact X | | exact Ht | exact Z]. eapply Rle_trans; [apply sin_le, St|]. rewrite <- (Rmult_1_r (sin t)) at 2. apply Rmult_le_compat_l; [lra | apply cos_1].
  - replace (cos t * sin f) with (sin t * sin f * (cos t / sin t)) by (field; lra). apply G; [exact Y | | exact Ht | exact Z]. eapply Rle_trans; [apply sin_le, St|]. rewrite <- (Rmult_1_r (sin t)) at 2. apply Rmult_le_compat_l; [lra | apply sin_1].
  - replace (- s - - sin t) with (- (s - sin t)) by ring. rewrite Rabs_Ropp. apply Rle_trans with (1 := Hs). pose proof (e0 prec W e Wp Ue). assert (sin t <= 1) by (pose proof (SIN_bound t); lra). rewrite <- (Rmult_1_r (57 * e)) at 2. apply Rmult_le_compat_l; lra.
Qed.
(** The two components of the rotated vector. *)
Section Angles.
Variables (m rot : mat) (enf : vec) (ti fi tf ff : R).
Hypothesis Hm : rotation m.
Hypothesis Hi : 0 < sin ti.
Hypothesis Hf : 0 < sin tf.
Hypothesis Wi : W <= sin ti * sin ti.
Hypothesis Wf : W <= sin tf * sin tf.
Hypothesis Em : apply_mat m (direction ti fi) = direction tf ff.
Hypothesis Hr : close_mat (3 * u) rot (swapaxes m).
Hypothesis Hn : close (2 * u) enf (direction tf ff).
Let q23 := dot3 (south tf ff) (apply_mat m (east ti fi)).
Let q33 := dot3 (east tf ff) (apply_mat m (east ti fi)).
Lemma south_unit t f : dot3 (south t f) (south t f) = 1.
Proof. unfold south, dot3. pose proof (sc t) as T. pose proof (sc f) as F. transitivity (cos t * cos t * (sin f * sin f + cos f * cos f) + sin t * sin t); [ring|]. rewrite F. lra. Qed.
Lemma east_unit t f : dot3 (east t f) (east t f) = 1.
Proof. unfold east, dot3. pose proof (sc f) as F. lra. Qed.
Lemma back v : apply_mat (swapaxes m) (apply_mat m v) = v.
Proof. rewrite <- (rot_back m v Hm) at 2. destruct m as [[[[a b] c] [[d f] g]] [[h i] j]], (apply_mat _ v) as [[x y] z]. reflexivity. Qed.
Lemma angles_near : exists ethetaf ephif r23 r33, en2etheta_ephi_r emin prec enf = Some (ethetaf, ephif) /\
  eni2rotation_r emin prec rot ethetaf ephif (rotinv_e_r emin prec rot enf) = Some (r23, r33) /\
  Rabs (r23 - q23) <= 790 * e /\ Rabs (r33 - q33) <= 570 * e.
Proof.
  pose proof (eni_near rot (swapaxes m) enf (direction tf ff) Hr Hn (columns_unit m Hm) (direction_unit _ _)) as EN. rewrite <- Em, back in EN.
  destruct (ephi_near _ ti fi Hi Wi EN) as (p1 & p2 & Ep & P1 & P2).
  destruct (frame_near enf tf ff Hf Wf Hn) as (t1 & t2 & t3 & f1 & f2 & Ef & (T1 & T2 & T3) & F1 & F2).
  exists (t1, t2, t3), (f1, f2). unfold eni2rotation_r. rewrite Ep.
  pose proof (e0 prec W e Wp Ue) as E0. pose proof (ue prec W e Wp Ue) as UE.
  assert (N : dot3 (apply_mat m (east ti fi)) (apply_mat m (east ti fi)) = 1) by (rewrite (proj1 Hm); apply east_unit). pose proof (unit_small _ N) as SN.
  assert (CM : let '(a, b, c) := swapaxes m in small a /\ small b /\ small c) by (pose proof (columns_unit m Hm) as C; destruct (swapaxes m) as [[a b] c]; destruct C as (C1 & C2 & C3); repeat split; apply unit_small; assumption).
  assert (Q23 : Rabs q23 <= 1) by (apply cauchy; [apply south_unit | exact N]). assert (Q33 : Rabs q33 <= 1) by (apply cauchy; [apply east_unit | exact N]).
  unfold q23, q33 in *.
  assert (RE : exists x y z, rot_ephi_r emin prec rot (p1, p2) = (x, y, z) /\ let '(x', y', z') := apply_mat m (east ti fi) in Rabs (x - x') <= 190 * e /\ Rabs (y - y') <= 190 * e /\ Rabs (z - z') <= 190 * e).
  { destruct m as [[[[a b] c] [[d f] g]] [[h i] j]]. destruct rot as [[[[r11 r12] r13] [[r21 r22] r23]] r3]. unfold swapaxes, close_mat, close in Hr. destruct r3 as [[r31 r32] r33]. destruct Hr as ((A1 & A2 & A3) & (B1 & B2 & B3) & _). destruct CM as ((a1 & a2 & a3) & (b1 & b2 & b3) & _).
    unfold apply_mat, dot3, east in SN |- *. destruct SN as (s1 & s2 & s3). pose proof (sin_1 fi) as SF. pose proof (cos_1 fi) as CF.
    assert (SF' : Rabs (- sin fi) <= 1) by (rewrite Rabs_Ropp; exact SF). rewrite !Rmult_0_r, !Rplus_0_r in *.
    do 3 eexists. split; [reflexivity|]. split; [|split]; eapply (dot_near_2 emin prec W e Pp Wp Ue E1 He _ _ _ _ _ _ _ _ 3 88); try eassumption; try lra. }
  destruct RE as (x & y & z & Er & RE). rewrite Er. do 2 eexists. split; [exact Ef | split; [reflexivity|]].
  destruct (apply_mat m (east ti fi)) as [[x' y'] z']. destruct RE as (X & Y & Z). split.
  - unfold south in *. apply (dot_near emin prec W e Pp Wp Ue E1 He _ _ _ _ _ _ _ _ 70 57 190 790); [lra | lra | lra | lra | lra | lra | tauto | apply unit_small, (south_unit tf ff) | exact SN | exact Q23 | lra].
  - unfold dot3, east in *. rewrite Rmult_0_l, Rplus_0_r in *. destruct SN as (s1 & s2 & s3). pose proof (sin_1 ff) as SF. pose proof (cos_1 ff) as CF. assert (SF' : Rabs (- sin ff) <= 1) by (rewrite Rabs_Ropp; exact SF).
    eapply (dot_near_2 emin prec W e Pp Wp Ue E1 He _ _ _ _ _ _ _ _ 88 190); try eassumption; lra.
Qed.
End Angles.
End Near.
