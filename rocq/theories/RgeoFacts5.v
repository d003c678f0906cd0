From Coq Require Import Reals ZArith Lra Lia Bool List.
From Flocq Require Import Core.
From Coquelicot Require Import Coquelicot.
From Verif Require Import Base SparseModel GeoModel GeoSpec GeoFacts RndModel RndSpec RndProps BirFacts RgeoModel RgeoFacts RgeoFacts2 RgeoFacts3 RgeoFacts4.
Open Scope R_scope.
Lemma clip_inside x1 x2 : x1 <> x2 -> 0 <= x1 <= 1 -> 0 <= x2 <= 1 -> clip_x x1 x2 = Some (x1, x2).
Proof.
  intros N A B. unfold clip_x. destruct (ltb_spec x1 x2).
  - destruct (leb_spec 1 x1); [lra|]. destruct (leb_spec x2 0); [lra|]. cbn [orb]. rewrite Rmax_left, Rmin_left by lra. reflexivity.
  - destruct (leb_spec 1 x2); [lra|]. destruct (leb_spec x1 0); [lra|]. cbn [orb]. rewrite Rmax_left, Rmin_left by lra. reflexivity.
Qed.
Lemma tail_exact x1 y1 x2 y2 out : x1 <> x2 -> 0 <= x1 <= 1 -> 0 <= x2 <= 1 ->
  let a := (y2 - y1) / (x2 - x1) in let b := y1 - a * x1 in intersection_segment x1 y1 x2 y2 out = tail (- b / a) ((1 - b) / a) x1 y1 x2 y2 out.
Proof.
  intros N A B a b. unfold intersection_segment. destruct (eqb_spec x1 x2); [contradiction|]. rewrite clip_inside by assumption. cbv zeta. fold a. fold b.
  assert (E1 : a * x1 + b = y1) by (unfold b; ring). assert (E2 : a * x2 + b = y2) by (unfold b, a; field; lra). rewrite E1, E2. reflexivity.
Qed.
Lemma clip_clamp x1 x2 p q : x1 <> x2 -> clip_x x1 x2 = Some (p, q) ->
  p = clamp 0 1 x1 /\ q = clamp 0 1 x2 /\ p <> q /\ 0 <= p <= 1 /\ 0 <= q <= 1 /\ Rmin x1 x2 <= p <= Rmax x1 x2 /\ Rmin x1 x2 <= q <= Rmax x1 x2 /\ (p = x1 \/ p = 0 \/ p = 1) /\ (q = x2 \/ q = 0 \/ q = 1).
Proof.
  intros N. unfold clip_x. destruct (ltb_spec x1 x2).
  - destruct (leb_spec 1 x1); cbn [orb]; [discriminate|]. destruct (leb_spec x2 0); cbn [orb]; [discriminate|]. intros E. injection E as <- <-. repeat split; mm; try lra; tauto.
  - destruct (leb_spec 1 x2); cbn [orb]; [discriminate|]. destruct (leb_spec x1 0); cbn [orb]; [discriminate|]. intros E. injection E as <- <-. repeat split; mm; try lra; tauto.
Qed.
Lemma clamp_lip a b D : Rabs (a - b) <= D -> Rabs (clamp 0 1 a - clamp 0 1 b) <= D.
Proof. intros H. apply Rabs_le_inv in H. apply Rabs_le. mm; lra. Qed.
(** The integrals of two clamped lines that differ by D at most. *)
Lemma chord_area f g p q D : p <> q -> (forall x, f x = f p + (x - p) * ((f q - f p) / (q - p))) -> (forall x, g x = g p + (x - p) * ((g q - g p) / (q - p))) ->
  (forall x, continuous f x) -> (forall x, continuous g x) -> Rabs (f p - g p) <= D -> Rabs (f q - g q) <= D ->
  Rabs (RInt (fun x => clamp 0 1 (f x)) p q - RInt (fun x => clamp 0 1 (g x)) p q) <= Rabs (q - p) * D.
Proof.
  intros N Lf Lg Cf Cg Hp Hq.
  assert (Ef : ex_RInt (fun x => clamp 0 1 (f x)) p q) by (apply (@ex_RInt_continuous R_CompleteNormedModule); intros z _; apply clamp_cont, Cf).
  assert (Eg : ex_RInt (fun x => clamp 0 1 (g x)) p q) by (apply (@ex_RInt_continuous R_CompleteNormedModule); intros z _; apply clamp_cont, Cg).
  apply (@RInt_correct R_CompleteNormedModule) in Ef. apply (@RInt_correct R_CompleteNormedModule) in Eg. pose proof (is_RInt_minus _ _ _ _ _ _ Ef Eg) as S.
  apply (norm_RInt_le_const_abs (fun x => minus (clamp 0 1 (f x)) (clamp 0 1 (g x))) p q _ D); [|exact S].
  intros x X. change (Rabs (clamp 0 1 (f x) - clamp 0 1 (g x)) <= D). apply clamp_lip. rewrite Lf, Lg.
  set (l := (x - p) / (q - p)). assert (L : 0 <= l <= 1).
  { unfold l. destruct (Rlt_le_dec p q).
    - rewrite Rmin_left, Rmax_right in X by lra. split; [apply Rdiv_le_0_compat; lra|]. apply (Rmult_le_reg_r (q - p)); [lra|]. unfold Rdiv. rewrite Rmult_assoc, Rinv_l; lra.
    - rewrite Rmin_right, Rmax_left in X by lra. replace ((x - p) / (q - p)) with ((p - x) / (p - q)) by (field; lra). split; [apply Rdiv_le_0_compat; lra|]. apply (Rmult_le_reg_r (p - q)); [lra|]. unfold Rdiv. rewrite Rmult_assoc, Rinv_l; lra. }
  replace (f p + (x - p) * ((f q - f p) / (q - p)) - (g p + (x - p) * ((g q - g p) / (q - p)))) with ((1 - l) * (f p - g p) + l * (f q - g q)) by (unfold l; field; lra).
  eapply Rle_trans; [apply Rabs_triang|]. rewrite !Rabs_mult, (Rabs_right (1 - l)), (Rabs_right l) by lra.
  assert ((1 - l) * Rabs (f p - g p) <= (1 - l) * D) by (apply Rmult_le_compat_l; lra). assert (l * Rabs (f q - g q) <= l * D) by (apply Rmult_le_compat_l; lra). lra.
Qed.
Section Seg.
Variables (emin prec : Z).
Hypothesis Pp : (0 < prec)%Z.
Notation rn := (rndp emin prec).
Notation u := (unit_of prec).
Notation eta := (tiny_of emin).
Notation fm := (generic_format radix2 (FLT_exp emin prec)).
Hypothesis U1 : u <= / 64.
Hypothesis He : eta <= u * u.
Hypothesis F1 : fm 1.
Lemma k0_near a b : a <> 0 -> Rabs (- rn (b / a) - kst a b 0) <= 21 / 10 * u * Rabs (kst a b 0) + eta.
Proof.
  intros A. pose proof (rn_err emin prec Pp (b / a)) as E. assert (U0 : 0 < u) by apply u_pos. unfold kst. replace ((0 - b) / a) with (- (b / a)) by (field; exact A).
  replace (- rn (b / a) - - (b / a)) with (- (rn (b / a) - b / a)) by ring. rewrite !Rabs_Ropp. assert (0 <= u * Rabs (b / a)) by (apply Rmult_le_pos; [lra | apply Rabs_pos]). lra.
Qed.
Lemma k1_near a b : fm b -> a <> 0 -> Rabs (rn (rn (1 - b) / a) - kst a b 1) <= 21 / 10 * u * Rabs (kst a b 1) + eta.
Proof.
  intros Fb A. assert (U0 : 0 < u) by apply u_pos. pose proof (sub_err emin prec Pp 1 b F1 Fb) as S. set (t := rn (1 - b)) in *. pose proof (rn_err emin prec Pp (t / a)) as E. unfold kst.
  pose proof (Rabs_pos_lt a A) as A0. set (k := (1 - b) / a).
  assert (T : Rabs (t / a - k) <= u * Rabs k).
  { unfold k. replace (t / a - (1 - b) / a) with ((t - (1 - b)) * / a) by (field; exact A). unfold Rdiv. rewrite !Rabs_mult, !Rabs_inv. rewrite <- Rmult_assoc. apply Rmult_le_compat_r; [|exact S]. apply Rlt_le, Rinv_0_lt_compat, A0. }
  pose proof (Rabs_pos k) as K0. assert (UK : u * Rabs k <= / 64 * Rabs k) by (apply Rmult_le_compat_r; lra). assert (UK0 : 0 <= u * Rabs k) by (apply Rmult_le_pos; lra).
  pose proof (near_abs _ _ _ _ T (Rle_refl _)) as B. assert (u * Rabs (t / a) <= u * (65 / 64 * Rabs k)) by (apply Rmult_le_compat_l; lra).
  pose proof (tri (rn (t / a)) (t / a) k). lra.
Qed.
Lemma cross_ok M a b p q c k : 1 <= M -> fm a -> fm b -> fm c -> c = 0 \/ c = 1 -> 0 <= p <= 1 -> 0 <= q <= 1 ->
  let yp := rn (rn (a * p) + b) in let yq := rn (rn (a * q) + b) in Rabs yp <= 107 / 10 * M -> Rabs yq <= 107 / 10 * M ->
  (a <> 0 -> Rabs (k - kst a b c) <= 21 / 10 * u * Rabs (kst a b c) + eta) -> p <> q -> crossing c yp yq ->
  Rabs k <= 4 /\ Rabs (k - (c - (yp - (yq - yp) / (q - p) * p)) / ((yq - yp) / (q - p))) * Rabs (yq - yp) <= 260 * u * M.
Proof.
  intros M1 Fa Fb Fc C P Q yp yq Yp Yq K N X. apply Rabs_le_inv in Yp. apply Rabs_le_inv in Yq. destruct X as [[A B]|[A B]].
  - assert (A0 : a <> 0) by exact (a_not_0 emin prec Pp a b p q c Fc A B). specialize (K A0).
    pose proof (near_cross emin prec Pp U1 He M a b p q c M1 Fa Fb Fc C P Q ltac:(fold yp yq; lra) A B k K) as [H1 H2]. split; [exact H1|].
    rewrite (Rabs_right (yq - yp)) by lra. unfold xi in H2. fold yp yq in H2.
    replace ((c - (yp - (yq - yp) / (q - p) * p)) / ((yq - yp) / (q - p))) with (p + (c - yp) * ((q - p) / (yq - yp))) by (field; lra). exact H2.
  - assert (A0 : a <> 0) by exact (a_not_0 emin prec Pp a b q p c Fc A B). specialize (K A0).
    pose proof (near_cross emin prec Pp U1 He M a b q p c M1 Fa Fb Fc C Q P ltac:(fold yp yq; lra) A B k K) as [H1 H2]. split; [exact H1|].
    rewrite (Rabs_left (yq - yp)) by lra. unfold xi in H2. fold yp yq in H2.
    replace ((c - (yp - (yq - yp) / (q - p) * p)) / ((yq - yp) / (q - p))) with (q + (c - yq) * ((p - q) / (yp - yq))) by (field; lra). rewrite Ropp_minus_distr. exact H2.
Qed.
Lemma segment_near M x1 y1 x2 y2 out : 1 <= M -> representable emin prec x1 -> representable emin prec y1 -> representable emin prec x2 -> representable emin prec y2 ->
  Rabs x1 <= M -> Rabs y1 <= M -> Rabs x2 <= M -> Rabs y2 <= M -> fm out ->
  fm (intersection_segment_r emin prec x1 y1 x2 y2 out) /\
  Rabs (intersection_segment_r emin prec x1 y1 x2 y2 out - intersection_segment x1 y1 x2 y2 out) <= 31 / 10 * u * Rabs out + 352 * u * M * M.
Proof.
  intros M1 R1 R2 R3 R4 B1 B2 B3 B4 Fo. assert (U0 : 0 < u) by apply u_pos. assert (UO : 0 <= u * Rabs out) by (apply Rmult_le_pos; [lra | apply Rabs_pos]).
  assert (MM : M <= M * M) by (rewrite <- (Rmult_1_r M) at 1; apply Rmult_le_compat_l; lra). assert (UM1 : u <= u * M) by (rewrite <- (Rmult_1_r u) at 1; apply Rmult_le_compat_l; lra).
  assert (UM2 : u * M <= u * (M * M)) by (apply Rmult_le_compat_l; lra). assert (TR : 0 <= 31 / 10 * u * Rabs out + 352 * u * M * M) by lra.
  assert (F0 : fm 0) by apply (zero_format emin prec Pp).
  unfold intersection_segment_r. destruct (eqb_spec x1 x2) as [E|N].
  { split; [exact Fo|]. subst x2. unfold intersection_segment. destruct (eqb_spec x1 x1); [|contradiction]. rewrite Rminus_eq_0, Rabs_R0. exact TR. }
  destruct (clip_x x1 x2) as [[p q]|] eqn:CL.
  2:{ split; [exact Fo|]. unfold intersection_segment. destruct (eqb_spec x1 x2); [contradiction|]. rewrite CL, Rminus_eq_0, Rabs_R0. exact TR. }
  destruct (clip_clamp x1 x2 p q N CL) as (Ep & Eq & Npq & P & Q & Bp & Bq & Cp & Cq).
  fold (ra emin prec x1 y1 x2 y2). set (a := ra emin prec x1 y1 x2 y2). change (rn (y1 - rn (a * x1))) with (rb emin prec x1 y1 x2 y2). set (b := rb emin prec x1 y1 x2 y2).
  assert (Fa : fm a) by apply (format_round emin prec Pp). assert (Fb : fm b) by apply (format_round emin prec Pp).
  change (fm (tail_r emin prec (- rn (b / a)) (rn (rn (1 - b) / a)) p (rn (rn (a * p) + b)) q (rn (rn (a * q) + b)) out) /\
    Rabs (tail_r emin prec (- rn (b / a)) (rn (rn (1 - b) / a)) p (rn (rn (a * p) + b)) q (rn (rn (a * q) + b)) out - intersection_segment x1 y1 x2 y2 out) <= 31 / 10 * u * Rabs out + 352 * u * M * M).
  set (yp := rn (rn (a * p) + b)). set (yq := rn (rn (a * q) + b)). set (k0 := - rn (b / a)). set (k1 := rn (rn (1 - b) / a)).
  assert (Fk0 : fm k0) by (apply format_opp, format_round, Pp). assert (Fk1 : fm k1) by (apply format_round, Pp). assert (Fyp : fm yp) by (apply format_round, Pp). assert (Fyq : fm yq) by (apply format_round, Pp).
  assert (Fp : fm p) by (destruct Cp as [-> | [-> | ->]]; [apply format_representable, R1 | exact F0 | exact F1]). assert (Fq : fm q) by (destruct Cq as [-> | [-> | ->]]; [apply format_representable, R3 | exact F0 | exact F1]).
  split.
  { unfold tail_r. cbv zeta. repeat match goal with |- context[if ?c then _ else _] => destruct c end; first [exact Fo | apply format_round, Pp]. }
  assert (G : forall x, Rmin x1 x2 <= x <= Rmax x1 x2 -> Rabs x <= XX x1 x2 /\ Rabs (x - x1) <= Rabs (x2 - x1)).
  { intros x H. unfold XX. clear - H. unfold Rmin, Rmax, Rabs in *. repeat match goal with |- context[Rcase_abs ?z] => destruct (Rcase_abs z) | |- context[Rle_dec ?z ?t] => destruct (Rle_dec z t) | H : context[Rle_dec ?z ?t] |- _ => destruct (Rle_dec z t) end; lra. }
  destruct (G p Bp) as [Gp Gp']. destruct (G q Bq) as [Gq Gq'].
  pose proof (ordinate emin prec Pp U1 He M x1 y1 x2 y2 M1 R1 R2 R3 R4 B1 B2 B3 B4 N) as OR.
  destruct (OR p Gp Gp') as (Sp & Tp & Lp). destruct (OR q Gq Gq') as (Sq & Tq & Lq). clear OR. unfold ry in *. fold a b in Sp, Tp, Lp, Sq, Tq, Lq. fold yp in Tp, Lp. fold yq in Tq, Lq.
  assert (Yp : Rabs yp <= 107 / 10 * M).
  { assert (u * Rabs (rn (a * p) + b) <= / 64 * (105 / 10 * M)) by (apply mult_le; try lra; apply Rabs_pos). pose proof (near_abs _ _ _ _ Tp Sp). lra. }
  assert (Yq : Rabs yq <= 107 / 10 * M).
  { assert (u * Rabs (rn (a * q) + b) <= / 64 * (105 / 10 * M)) by (apply mult_le; try lra; apply Rabs_pos). pose proof (near_abs _ _ _ _ Tq Sq). lra. }
  pose proof (cross_ok M a b p q 0 k0 M1 Fa Fb F0 (or_introl eq_refl) P Q Yp Yq (k0_near a b) Npq) as X0. cbv zeta in X0. fold yp yq in X0.
  pose proof (cross_ok M a b p q 1 k1 M1 Fa Fb F1 (or_intror eq_refl) P Q Yp Yq (k1_near a b Fb) Npq) as X1. cbv zeta in X1. fold yp yq in X1.
  pose proof (tail_near emin prec Pp U1 He F1 k0 k1 p yp q yq out Fo Fk0 Fk1 Fp Fyp Fq Fyq P Q (fun c => proj1 (X0 c)) (fun c => proj1 (X1 c))) as TN.
  set (al := (yq - yp) / (q - p)) in *. set (be := yp - al * p) in *. rewrite Rminus_0_l in X0.
  pose proof (tail_diff k0 k1 (- be / al) ((1 - be) / al) p yp q yq (260 * u * M) out ltac:(lra) (fun c => proj2 (X0 c)) (fun c => proj2 (X1 c))) as TD.
  pose proof (tail_exact p yp q yq out Npq P Q) as TE. cbv zeta in TE. fold al in TE. fold be in TE. rewrite <- TE in TD. clear TE.
  rewrite segment_ok in TD. rewrite segment_ok. rewrite <- Ep, <- Eq. assert (Ip : clamp 0 1 p = p) by (mm; lra). assert (Iq : clamp 0 1 q = q) by (mm; lra). rewrite Ip, Iq in TD.
  assert (LL : forall A B A' B' x, A <> B -> A' <> B' -> line (A, line (A', y1) (B', y2) A) (B, line (A', y1) (B', y2) B) x = line (A', y1) (B', y2) x).
  { intros. unfold line. cbn [fst snd]. field. lra. }
  pose proof (chord_area (line (p, yp) (q, yq)) (line (x1, y1) (x2, y2)) p q (21 * u * M + 32 / 10 * (u * (Rabs a * XX x1 x2))) Npq) as CA.
  assert (lp : line (p, yp) (q, yq) p = yp) by (unfold line; cbn [fst snd]; ring). assert (lq : line (p, yp) (q, yq) q = yq) by (unfold line; cbn [fst snd]; field; lra).
  rewrite lp, lq in CA. specialize (CA ltac:(intros x; unfold line; cbn [fst snd]; reflexivity) ltac:(intros x; unfold line; cbn [fst snd]; field; lra) (line_cont _ _) (line_cont _ _) Lp Lq).
  pose proof (P_dx emin prec Pp U1 He M x1 y1 x2 y2 M1 R1 R2 R3 R4 B1 B2 B3 B4 N) as PD. fold a in PD.
  pose proof (P_0 emin prec M x1 y1 x2 y2 B1 B3) as P0. fold a in P0. set (PP := u * (Rabs a * XX x1 x2)) in *.
  assert (W1 : Rabs (q - p) <= 1) by (apply Rabs_le; lra). assert (W2 : Rabs (q - p) <= Rabs (x2 - x1)).
  { clear - Bp Bq. unfold Rmin, Rmax, Rabs in *. repeat match goal with |- context[Rcase_abs ?z] => destruct (Rcase_abs z) | H : context[Rle_dec ?z ?t] |- _ => destruct (Rle_dec z t) end; lra. }
  assert (V1 : Rabs (q - p) * (u * M) <= 1 * (u * M)) by (apply Rmult_le_compat_r; lra). assert (V2 : Rabs (q - p) * PP <= Rabs (x2 - x1) * PP) by (apply Rmult_le_compat_r; lra).
  set (T := tail k0 k1 p yp q yq out) in *. set (I1 := RInt (fun x => clamp 0 1 (line (p, yp) (q, yq) x)) p q) in *. set (I2 := RInt (fun x => clamp 0 1 (line (x1, y1) (x2, y2) x)) p q) in *. set (TRr := tail_r emin prec k0 k1 p yp q yq out) in *.
  replace (TRr - (out + I2)) with ((TRr - T) + ((T - (out + I1)) + (I1 - I2))) by ring.
  eapply Rle_trans; [apply Rabs_triang|]. pose proof (Rabs_triang (T - (out + I1)) (I1 - I2)). lra.
Qed.
End Seg.
