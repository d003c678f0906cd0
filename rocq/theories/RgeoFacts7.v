(** What lies under an edge, when its ends move. *)
From Coq Require Import Reals ZArith Lra Lia Bool List.
From Coquelicot Require Import Coquelicot.
From Verif Require Import Base SparseModel GeoModel GeoSpec GeoFacts BirFacts RgeoFacts5.
Open Scope R_scope.
Definition flow (p q : R * R) : R := RInt (fun x => clamp 0 1 (line p q x)) (clamp 0 1 (fst p)) (clamp 0 1 (fst q)).
Definition flip (p : R * R) : R * R := (snd p, fst p).
Lemma line_ex p q a b : ex_RInt (fun x => clamp 0 1 (line p q x)) a b.
Proof. apply (@ex_RInt_continuous R_CompleteNormedModule). intros z _. apply clamp_cont, line_cont. Qed.
Lemma flow_vertical p q : clamp 0 1 (fst p) = clamp 0 1 (fst q) -> flow p q = 0.
Proof. intros E. unfold flow. rewrite E, RInt_point. reflexivity. Qed.
Definition point (t : R) (p q : R * R) : R * R := (fst p + t * (fst q - fst p), snd p + t * (snd q - snd p)).
Lemma flow_split t p q : 0 <= t <= 1 -> flow p q = flow p (point t p q) + flow (point t p q) q.
Proof.
  intros T. destruct (Req_dec (fst p) (fst q)) as [E|N].
  { assert (Et : fst (point t p q) = fst q) by (unfold point; cbn [fst]; rewrite E; ring). rewrite (flow_vertical p q), (flow_vertical p (point t p q)), (flow_vertical (point t p q) q) by congruence. ring. }
  assert (E0 : point 0 p q = p) by (unfold point; destruct p; cbn [fst snd]; f_equal; ring). assert (E1 : point 1 p q = q) by (unfold point; destruct q; cbn [fst snd]; f_equal; ring).
  destruct (Req_dec t 0) as [-> |N0]; [rewrite E0, (flow_vertical p p) by reflexivity; ring|]. destruct (Req_dec t 1) as [-> |N1]; [rewrite E1, (flow_vertical q q) by reflexivity; ring|].
  unfold flow. rewrite <- (RInt_Chasles (fun x => clamp 0 1 (line p q x)) _ (clamp 0 1 (fst (point t p q))) _) by apply line_ex. unfold plus; cbn -[clamp line point RInt].
  assert (L1 : forall x, line p (point t p q) x = line p q x).
  { intros x. unfold line, point. cbn [fst snd]. replace (snd p + t * (snd q - snd p) - snd p) with (t * (snd q - snd p)) by ring. replace (fst p + t * (fst q - fst p) - fst p) with (t * (fst q - fst p)) by ring. f_equal. f_equal. field. split; [lra | exact N0]. }
  assert (L2 : forall x, line (point t p q) q x = line p q x).
  { intros x. unfold line, point. cbn [fst snd]. replace (snd q - (snd p + t * (snd q - snd p))) with ((1 - t) * (snd q - snd p)) by ring. replace (fst q - (fst p + t * (fst q - fst p))) with ((1 - t) * (fst q - fst p)) by ring.
    field. split; [lra | apply Rminus_eq_contra; lra]. }
  f_equal; apply RInt_ext; intros x _; [rewrite L1 | rewrite L2]; reflexivity.
Qed.
Lemma flow_lin p q : fst p <> fst q -> exists a b, (forall x, line p q x = a * x + b) /\ a * fst p + b = snd p /\ a * fst q + b = snd q.
Proof.
  intros N. exists ((snd q - snd p) / (fst q - fst p)), (snd p - fst p * ((snd q - snd p) / (fst q - fst p))). split; [apply line_lin|]. split; [ring | field; lra].
Qed.
Lemma flow_value p q : 0 <= fst p <= 1 -> 0 <= fst q <= 1 ->
  (snd p <= 0 -> snd q <= 0 -> flow p q = 0) /\ (1 <= snd p -> 1 <= snd q -> flow p q = fst q - fst p) /\
  (0 <= snd p <= 1 -> 0 <= snd q <= 1 -> flow p q = / 2 * (fst q - fst p) * (snd p + snd q)).
Proof.
  intros P Q. destruct (Req_dec (fst p) (fst q)) as [E|N].
  { rewrite flow_vertical by (rewrite E; reflexivity). rewrite E. repeat split; intros; ring. }
  destruct (flow_lin p q N) as (a & b & L & Lp & Lq). assert (Cp : clamp 0 1 (fst p) = fst p) by (mm; lra). assert (Cq : clamp 0 1 (fst q) = fst q) by (mm; lra).
  unfold flow. rewrite Cp, Cq. rewrite (RInt_ext _ (fun x => clamp 0 1 (a * x + b))) by (intros x _; rewrite L; reflexivity). rewrite <- Lp, <- Lq. repeat split; intros.
  - apply F_below; assumption.
  - apply F_above; assumption.
  - apply F_middle; assumption.
Qed.
Definition corner (p : R * R) : R := clamp 0 1 (fst p) * clamp 0 1 (snd p).
Definition parts (p q : R * R) : Prop := flow p q + flow (flip p) (flip q) = corner q - corner p.
Definition same (c a b : R) : Prop := (a <= c /\ b <= c) \/ (c <= a /\ c <= b).
Lemma parts_split t p q : 0 <= t <= 1 -> parts p (point t p q) -> parts (point t p q) q -> parts p q.
Proof.
  unfold parts. intros T A B. rewrite (flow_split t p q T), (flow_split t (flip p) (flip q) T). change (point t (flip p) (flip q)) with (flip (point t p q)). lra.
Qed.
Lemma cross_at c a b : ~ same c a b -> exists t, 0 <= t <= 1 /\ a + t * (b - a) = c.
Proof.
  unfold same. intros H. assert (N : a < c < b \/ b < c < a) by lra. exists ((c - a) / (b - a)). split; [|field; lra]. destruct N.
  - split; [apply Rdiv_le_0_compat; lra|]. apply (Rmult_le_reg_r (b - a)); [lra|]. unfold Rdiv. rewrite Rmult_assoc, Rinv_l; lra.
  - replace ((c - a) / (b - a)) with ((a - c) / (a - b)) by (field; lra). split; [apply Rdiv_le_0_compat; lra|]. apply (Rmult_le_reg_r (a - b)); [lra|]. unfold Rdiv. rewrite Rmult_assoc, Rinv_l; lra.
Qed.
Lemma same_sub c a b t : 0 <= t <= 1 -> same c a b -> same c a (a + t * (b - a)) /\ same c (a + t * (b - a)) b.
Proof.
  intros T H. assert (B : Rmin a b <= a + t * (b - a) <= Rmax a b).
  { unfold Rmin, Rmax. destruct (Rle_dec a b).
    - assert (0 <= t * (b - a) <= 1 * (b - a)) by (split; [apply Rmult_le_pos; lra | apply Rmult_le_compat_r; lra]). lra.
    - assert (0 <= t * (a - b) <= 1 * (a - b)) by (split; [apply Rmult_le_pos; lra | apply Rmult_le_compat_r; lra]). lra. }
  unfold same in *. unfold Rmin, Rmax in B. destruct (Rle_dec a b); lra.
Qed.
Lemma parts_region p q : same 0 (fst p) (fst q) -> same 1 (fst p) (fst q) -> same 0 (snd p) (snd q) -> same 1 (snd p) (snd q) -> parts p q.
Proof.
  intros X0 X1 Y0 Y1. unfold parts, corner.
  assert (R3 : forall a b, same 0 a b -> same 1 a b -> (a <= 0 /\ b <= 0 /\ clamp 0 1 a = 0 /\ clamp 0 1 b = 0) \/ (1 <= a /\ 1 <= b /\ clamp 0 1 a = 1 /\ clamp 0 1 b = 1) \/ (0 <= a <= 1 /\ 0 <= b <= 1 /\ clamp 0 1 a = a /\ clamp 0 1 b = b)).
  { intros a b A B. unfold same in *.
    destruct (Rle_dec a 0), (Rle_dec b 0); [left; mm; lra | | |].
    - right; right; mm; lra.
    - right; right; mm; lra.
    - destruct (Rle_dec 1 a), (Rle_dec 1 b); [right; left; mm; lra | | |]; right; right; mm; lra. }
  destruct (R3 _ _ X0 X1) as [(A & B & C & D)|[(A & B & C & D)|(A & B & C & D)]], (R3 _ _ Y0 Y1) as [(A' & B' & C' & D')|[(A' & B' & C' & D')|(A' & B' & C' & D')]]; rewrite C, D, C', D'.
  - rewrite !flow_vertical by (unfold flip; cbn [fst snd]; congruence). ring.
  - rewrite !flow_vertical by (unfold flip; cbn [fst snd]; congruence). ring.
  - rewrite (flow_vertical p q) by congruence. destruct (flow_value (flip p) (flip q) A' B') as (V & _ & _). rewrite V by assumption. ring.
  - rewrite !flow_vertical by (unfold flip; cbn [fst snd]; congruence). ring.
  - rewrite !flow_vertical by (unfold flip; cbn [fst snd]; congruence). ring.
  - rewrite (flow_vertical p q) by congruence. destruct (flow_value (flip p) (flip q) A' B') as (_ & V & _). rewrite V by assumption. unfold flip. cbn [fst snd]. ring.
  - rewrite (flow_vertical (flip p)) by (unfold flip; cbn [fst snd]; congruence). destruct (flow_value p q A B) as (V & _ & _). rewrite V by assumption. ring.
  - rewrite (flow_vertical (flip p)) by (unfold flip; cbn [fst snd]; congruence). destruct (flow_value p q A B) as (_ & V & _). rewrite V by assumption. ring.
  - destruct (flow_value p q A B) as (_ & _ & V). destruct (flow_value (flip p) (flip q) A' B') as (_ & _ & V'). rewrite V, V' by assumption. unfold flip. cbn [fst snd]. field.
Qed.
Lemma same_dec c a b : same c a b \/ ~ same c a b.
Proof. unfold same. destruct (Rle_dec a c), (Rle_dec b c), (Rle_dec c a), (Rle_dec c b); lra || (left; lra) || (right; lra). Qed.
Lemma parts_ok p q : parts p q.
Proof.
  assert (S1 : forall p q, same 0 (fst p) (fst q) -> same 1 (fst p) (fst q) -> same 0 (snd p) (snd q) -> parts p q).
  { clear. intros p q A B C. destruct (same_dec 1 (snd p) (snd q)) as [D|D]; [now apply parts_region|]. destruct (cross_at _ _ _ D) as (t & T & E).
    destruct (same_sub _ _ _ t T A), (same_sub _ _ _ t T B), (same_sub _ _ _ t T C). apply (parts_split t); [exact T | |]; apply parts_region; try assumption; unfold point, same; cbn [snd]; lra. }
  assert (S2 : forall p q, same 0 (fst p) (fst q) -> same 1 (fst p) (fst q) -> parts p q).
  { clear - S1. intros p q A B. destruct (same_dec 0 (snd p) (snd q)) as [D|D]; [now apply S1|]. destruct (cross_at _ _ _ D) as (t & T & E).
    destruct (same_sub _ _ _ t T A), (same_sub _ _ _ t T B). apply (parts_split t); [exact T | |]; apply S1; try assumption; unfold point, same; cbn [snd]; lra. }
  assert (S3 : forall p q, same 0 (fst p) (fst q) -> parts p q).
  { clear - S2. intros p q A. destruct (same_dec 1 (fst p) (fst q)) as [D|D]; [now apply S2|]. destruct (cross_at _ _ _ D) as (t & T & E).
    destruct (same_sub _ _ _ t T A). apply (parts_split t); [exact T | |]; apply S2; try assumption; unfold point, same; cbn [fst]; lra. }
  destruct (same_dec 0 (fst p) (fst q)) as [D|D]; [now apply S3|]. destruct (cross_at _ _ _ D) as (t & T & E).
  apply (parts_split t); [exact T | |]; apply S3; unfold point, same; cbn [fst]; lra.
Qed.
Lemma clamp_between a b x : Rmin (clamp 0 1 a) (clamp 0 1 b) < x < Rmax (clamp 0 1 a) (clamp 0 1 b) -> Rmin a b <= x <= Rmax a b.
Proof. intros H. mm; lra. Qed.
Lemma flow_up x1 y1 y1' x2 y2 y2' d : Rabs (y1 - y1') <= d -> Rabs (y2 - y2') <= d -> Rabs (flow (x1, y1) (x2, y2) - flow (x1, y1') (x2, y2')) <= d.
Proof.
  intros H1 H2. assert (D0 : 0 <= d) by (pose proof (Rabs_pos (y1 - y1')); lra). destruct (Req_dec x1 x2) as [E|N].
  { rewrite !flow_vertical by (cbn [fst]; rewrite E; reflexivity). rewrite Rminus_eq_0, Rabs_R0. exact D0. }
  unfold flow. cbn [fst]. pose proof (line_ex (x1, y1) (x2, y2) (clamp 0 1 x1) (clamp 0 1 x2)) as E1. pose proof (line_ex (x1, y1') (x2, y2') (clamp 0 1 x1) (clamp 0 1 x2)) as E2.
  apply (@RInt_correct R_CompleteNormedModule) in E1. apply (@RInt_correct R_CompleteNormedModule) in E2. pose proof (is_RInt_minus _ _ _ _ _ _ E1 E2) as S.
  assert (W : Rabs (clamp 0 1 x2 - clamp 0 1 x1) <= 1) by (apply Rabs_le; mm; lra).
  apply Rle_trans with (Rabs (clamp 0 1 x2 - clamp 0 1 x1) * d); [|rewrite <- (Rmult_1_l d) at 2; apply Rmult_le_compat_r; assumption].
  assert (Z : clamp 0 1 x1 = clamp 0 1 x2 \/ clamp 0 1 x1 <> clamp 0 1 x2) by lra. destruct Z as [Z|Z].
  { rewrite Z, !RInt_point. unfold zero; cbn. rewrite !Rminus_eq_0, Rabs_R0. lra. }
  change (Rabs (minus (RInt (fun x => clamp 0 1 (line (x1, y1) (x2, y2) x)) (clamp 0 1 x1) (clamp 0 1 x2)) (RInt (fun x => clamp 0 1 (line (x1, y1') (x2, y2') x)) (clamp 0 1 x1) (clamp 0 1 x2))) <= Rabs (clamp 0 1 x2 - clamp 0 1 x1) * d).
  apply (norm_RInt_le_const_abs (fun x => minus (clamp 0 1 (line (x1, y1) (x2, y2) x)) (clamp 0 1 (line (x1, y1') (x2, y2') x))) (clamp 0 1 x1) (clamp 0 1 x2) _ d); [|exact S].
  intros x X. change (Rabs (clamp 0 1 (line (x1, y1) (x2, y2) x) - clamp 0 1 (line (x1, y1') (x2, y2') x)) <= d). apply clamp_lip.
  assert (X' : Rmin x1 x2 <= x <= Rmax x1 x2) by (mm; lra).
  set (l := (x - x1) / (x2 - x1)). assert (L : 0 <= l <= 1).
  { unfold l. destruct (Rlt_le_dec x1 x2).
    - rewrite Rmin_left, Rmax_right in X' by lra. split; [apply Rdiv_le_0_compat; lra|]. apply (Rmult_le_reg_r (x2 - x1)); [lra|]. unfold Rdiv. rewrite Rmult_assoc, Rinv_l; lra.
    - rewrite Rmin_right, Rmax_left in X' by lra. replace ((x - x1) / (x2 - x1)) with ((x1 - x) / (x1 - x2)) by (field; lra). split; [apply Rdiv_le_0_compat; lra|]. apply (Rmult_le_reg_r (x1 - x2)); [lra|]. unfold Rdiv. rewrite Rmult_assoc, Rinv_l; lra. }
  unfold line. cbn [fst snd]. replace (y1 + (x - x1) * ((y2 - y1) / (x2 - x1)) - (y1' + (x - x1) * ((y2' - y1') / (x2 - x1)))) with ((1 - l) * (y1 - y1') + l * (y2 - y2')) by (unfold l; field; lra).
  eapply Rle_trans; [apply Rabs_triang|]. rewrite !Rabs_mult, (Rabs_right (1 - l)), (Rabs_right l) by lra.
  assert ((1 - l) * Rabs (y1 - y1') <= (1 - l) * d) by (apply Rmult_le_compat_l; lra). assert (l * Rabs (y2 - y2') <= l * d) by (apply Rmult_le_compat_l; lra). lra.
Qed.
Lemma corner_move x x' y d : Rabs (x - x') <= d -> Rabs (corner (x, y) - corner (x', y)) <= d.
Proof.
  intros H. unfold corner. cbn [fst snd]. rewrite <- Rmult_minus_distr_r, Rabs_mult. apply clamp_lip in H. assert (0 <= clamp 0 1 y <= 1) by (mm; lra). rewrite (Rabs_right (clamp 0 1 y)) by lra.
  apply Rle_trans with (Rabs (clamp 0 1 x - clamp 0 1 x') * 1); [apply Rmult_le_compat_l; [apply Rabs_pos | lra] | lra].
Qed.
Lemma flow_across x1 x1' y1 x2 x2' y2 d : Rabs (x1 - x1') <= d -> Rabs (x2 - x2') <= d -> Rabs (flow (x1, y1) (x2, y2) - flow (x1', y1) (x2', y2)) <= 3 * d.
Proof.
  intros H1 H2. pose proof (parts_ok (x1, y1) (x2, y2)) as A. pose proof (parts_ok (x1', y1) (x2', y2)) as B. unfold parts, flip in A, B. cbn [fst snd] in A, B.
  pose proof (flow_up y1 x1 x1' y2 x2 x2' d H1 H2) as U. pose proof (corner_move x1 x1' y1 d H1) as C1. pose proof (corner_move x2 x2' y2 d H2) as C2.
  replace (flow (x1, y1) (x2, y2) - flow (x1', y1) (x2', y2)) with ((corner (x2, y2) - corner (x2', y2)) + (- (corner (x1, y1) - corner (x1', y1)) + - (flow (y1, x1) (y2, x2) - flow (y1, x1') (y2, x2')))) by lra.
  eapply Rle_trans; [apply Rabs_triang|]. eapply Rle_trans; [apply Rplus_le_compat_l, Rabs_triang|]. rewrite !Rabs_Ropp. lra.
Qed.
Definition moved (d : R) (p p' : R * R) : Prop := Rabs (fst p - fst p') <= d /\ Rabs (snd p - snd p') <= d.
Lemma flow_moved d p q p' q' : moved d p p' -> moved d q q' -> Rabs (flow p q - flow p' q') <= 4 * d.
Proof.
  destruct p as [x1 y1], q as [x2 y2], p' as [x1' y1'], q' as [x2' y2']. intros [A B] [C D]. cbn [fst snd] in *.
  pose proof (flow_up x1 y1 y1' x2 y2 y2' d B D). pose proof (flow_across x1 x1' y1' x2 x2' y2' d A C). pose proof (tri (flow (x1, y1) (x2, y2)) (flow (x1, y1') (x2, y2')) (flow (x1', y1') (x2', y2'))). lra.
Qed.
Lemma loop_moved d xy xy' : Forall2 (moved d) xy xy' -> forall j j' out out' e, moved d j j' -> Rabs (out - out') <= e -> Rabs (intersection_loop j xy out - intersection_loop j' xy' out') <= e + INR (length xy) * (4 * d).
Proof.
  induction 1 as [|i i' xy xy' H F IH]; intros j j' out out' e J E; [cbn [intersection_loop length INR]; lra|]. cbn [intersection_loop length]. rewrite S_INR.
  replace (e + (INR (length xy) + 1) * (4 * d)) with (e + 4 * d + INR (length xy) * (4 * d)) by ring. apply IH; [exact H|].
  destruct i as [x1 y1], i' as [x1' y1'], j as [x2 y2], j' as [x2' y2']. cbn [fst snd]. rewrite !segment_ok. pose proof (flow_moved d _ _ _ _ H J) as G. unfold flow in G. cbn [fst] in G.
  eapply Rle_trans; [|apply Rplus_le_compat; [exact E | exact G]]. eapply Rle_trans; [|apply Rabs_triang]. apply Req_le. f_equal. lra.
Qed.
Lemma polygon_moved d xy xy' : 0 <= d -> Forall2 (moved d) xy xy' -> Rabs (intersection_polygon xy - intersection_polygon xy') <= INR (length xy) * (4 * d).
Proof.
  intros D H. unfold intersection_polygon. rewrite <- (Rplus_0_l (INR (length xy) * (4 * d))). apply loop_moved; [exact H | | rewrite Rminus_eq_0, Rabs_R0; lra].
  assert (Z : moved d (0, 0) (0, 0)) by (unfold moved; rewrite !Rminus_eq_0, Rabs_R0; lra). induction H as [|i i' l l' H F IH]; [exact Z|]. destruct F; [exact H|]. exact IH.
Qed.
