(** All edges. *)
From Coq Require Import Reals ZArith Lra Lia Bool List.
From Flocq Require Import Core.
From Coquelicot Require Import Coquelicot.
From Verif Require Import Base SparseModel GeoModel GeoSpec GeoFacts RndModel RndSpec RndProps BirFacts RgeoModel RgeoFacts RgeoFacts2 RgeoFacts3 RgeoFacts4 RgeoFacts5.
Open Scope R_scope.
Lemma clamp_01 x : 0 <= clamp 0 1 x <= 1.
Proof. mm; lra. Qed.
Lemma segment_small x1 y1 x2 y2 out : Rabs (intersection_segment x1 y1 x2 y2 out - out) <= 1.
Proof.
  rewrite segment_ok. replace (out + _ - out) with (RInt (fun x => clamp 0 1 (line (x1, y1) (x2, y2) x)) (clamp 0 1 x1) (clamp 0 1 x2) : R) by lra.
  assert (E : ex_RInt (fun x => clamp 0 1 (line (x1, y1) (x2, y2) x)) (clamp 0 1 x1) (clamp 0 1 x2)) by (apply (@ex_RInt_continuous R_CompleteNormedModule); intros z _; apply clamp_cont, line_cont).
  apply (@RInt_correct R_CompleteNormedModule) in E.
  assert (H : Rabs (RInt (fun x => clamp 0 1 (line (x1, y1) (x2, y2) x)) (clamp 0 1 x1) (clamp 0 1 x2)) <= Rabs (clamp 0 1 x2 - clamp 0 1 x1) * 1).
  { apply (norm_RInt_le_const_abs (fun x => clamp 0 1 (line (x1, y1) (x2, y2) x)) _ _ _ 1); [|exact E]. intros x _. change (Rabs (clamp 0 1 (line (x1, y1) (x2, y2) x)) <= 1). pose proof (clamp_01 (line (x1, y1) (x2, y2) x)). apply Rabs_le. lra. }
  apply Rle_trans with (1 := H). rewrite Rmult_1_r. pose proof (clamp_01 x1). pose proof (clamp_01 x2). apply Rabs_le. lra.
Qed.
Lemma segment_out x1 y1 x2 y2 out out' : intersection_segment x1 y1 x2 y2 out - intersection_segment x1 y1 x2 y2 out' = out - out'.
Proof. rewrite !segment_ok. ring. Qed.
Section Poly.
Variables (emin prec : Z) (M : R).
Notation rn := (rndp emin prec).
Notation u := (unit_of prec).
Notation eta := (tiny_of emin).
Notation fm := (generic_format radix2 (FLT_exp emin prec)).
Hypothesis Pp : (0 < prec)%Z.
Hypothesis U1 : u <= / 64.
Hypothesis He : eta <= u * u.
Hypothesis F1 : fm 1.
Hypothesis M1 : 1 <= M.
Definition vertex_ok (p : R * R) : Prop := representable emin prec (fst p) /\ representable emin prec (snd p) /\ Rabs (fst p) <= M /\ Rabs (snd p) <= M.
Lemma loop_near xy : forall j k r e K, vertex_ok j -> (forall p, In p xy -> vertex_ok p) -> 352 * u * M * M <= K -> fm r -> Rabs e <= INR k ->
  let n := (k + length xy)%nat in INR n * (31 / 10 * u * INR n + K) <= 1 -> Rabs (r - e) <= INR k * (31 / 10 * u * INR n + K) ->
  Rabs (intersection_loop_r emin prec j xy r - intersection_loop j xy e) <= INR n * (31 / 10 * u * INR n + K).
Proof.
  induction xy as [|i xy IH]; intros j k r e K Hj Hi HK Fr He' n Hn D; cbn [intersection_loop_r intersection_loop].
  { unfold n. rewrite Nat.add_0_r in *. unfold n in *. cbn [length] in *. rewrite Nat.add_0_r in *. exact D. }
  assert (U0 : 0 < u) by apply u_pos. destruct (Hi i (or_introl eq_refl)) as (I1 & I2 & I3 & I4). destruct Hj as (J1 & J2 & J3 & J4).
  destruct (segment_near emin prec Pp U1 He F1 M (fst i) (snd i) (fst j) (snd j) r M1 I1 I2 J1 J2 I3 I4 J3 J4 Fr) as [F E].
  set (r' := intersection_segment_r emin prec (fst i) (snd i) (fst j) (snd j) r) in *. set (e' := intersection_segment (fst i) (snd i) (fst j) (snd j) e).
  pose proof (segment_small (fst i) (snd i) (fst j) (snd j) e) as SS. fold e' in SS. pose proof (segment_out (fst i) (snd i) (fst j) (snd j) r e) as O. fold e' in O.
  assert (Lk : INR k + 1 <= INR n) by (rewrite <- S_INR; apply le_INR; unfold n; cbn [length]; lia). pose proof (pos_INR k) as K0.
  set (q := 31 / 10 * u * INR n + K) in *. assert (Q0 : 0 <= q) by (unfold q; assert (0 <= u * INR n) by (apply Rmult_le_pos; lra); assert (0 <= 352 * u * M * M) by (repeat apply Rmult_le_pos; lra); lra).
  assert (Kq : INR k * q <= INR n * q) by (apply Rmult_le_compat_r; lra).
  assert (Rr : Rabs r <= INR n). { replace r with (e + (r - e)) by ring. eapply Rle_trans; [apply Rabs_triang|]. lra. }
  assert (Ur : 31 / 10 * u * Rabs r <= 31 / 10 * u * INR n) by (apply Rmult_le_compat_l; lra).
  pose proof (IH i (S k) r' e' K) as IH'. cbv zeta in IH'. assert (En : (S k + length xy)%nat = n) by (unfold n; cbn [length]; lia). rewrite En in IH'. fold q in IH'. apply IH'; clear IH IH'.
  - repeat split; assumption.
  - intros p Hp. apply Hi. now right.
  - exact HK.
  - exact F.
  - rewrite S_INR. replace e' with (e + (e' - e)) by ring. eapply Rle_trans; [apply Rabs_triang|]. lra.
  - exact Hn.
  - rewrite S_INR. set (w := intersection_segment (fst i) (snd i) (fst j) (snd j) r) in *.
    replace (r' - e') with ((r' - w) + (r - e)) by lra. eapply Rle_trans; [apply Rabs_triang|]. unfold q in D |- *. lra.
Qed.
Lemma polygon_near xy : (forall p, In p xy -> vertex_ok p) -> let n := INR (length xy) in let B := n * (31 / 10 * u * n + 352 * u * M * M) in B <= 1 ->
  Rabs (intersection_polygon_r emin prec xy - intersection_polygon xy) <= B.
Proof.
  intros H n B L. assert (U0 : 0 < u) by apply u_pos. destruct xy as [|p xy]; [unfold intersection_polygon_r, intersection_polygon, B, n; cbn [intersection_loop_r intersection_loop length INR]; rewrite Rminus_eq_0, Rabs_R0; lra|].
  unfold intersection_polygon_r, intersection_polygon. apply (loop_near (p :: xy) _ 0 0 0 (352 * u * M * M)); try assumption.
  - apply H. destruct (exists_last (l := p :: xy) ltac:(discriminate)) as (l & x & E). rewrite E, last_last. apply in_or_app. right. left. reflexivity.
  - lra.
  - apply (zero_format emin prec Pp).
  - rewrite Rabs_R0. cbn. lra.
  - rewrite Rminus_eq_0, Rabs_R0. cbn [INR]. lra.
Qed.
End Poly.
