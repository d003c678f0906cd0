(** Pixels and rows. *)
From Coq Require Import Reals ZArith Lra Lia Bool List.
From Flocq Require Import Core.
From Coquelicot Require Import Coquelicot.
From Verif Require Import Base BaseFacts SparseModel PmModel PmSpec PmFacts2 GeoModel GeoSpec GeoFacts GeoFacts3 RndModel RndSpec RndProps BirFacts RgeoModel RgeoSpec RgeoFacts RgeoFacts2 RgeoFacts3 RgeoFacts4 RgeoFacts5 RgeoFacts6 RgeoFacts7.
Open Scope R_scope.
Lemma area_cell xy ix iy : pixel_area xy ix iy = cell_value xy ix iy.
Proof. unfold pixel_area, cell_value. rewrite intersection_ok. reflexivity. Qed.
Section Pixel.
Variables (emin prec : Z).
Notation rn := (rndp emin prec).
Notation u := (unit_of prec).
Notation eta := (tiny_of emin).
Notation fm := (generic_format radix2 (FLT_exp emin prec)).
Hypothesis Pp : (6 <= prec)%Z.
Hypothesis Ee : (emin <= 1 - 2 * prec)%Z.
Let P0 : (0 < prec)%Z. Proof. lia. Qed.
Lemma U1 : u <= / 64.
Proof. unfold unit_of. rewrite pow2. replace (/ 64) with (bpow radix2 (-6)) by (cbn; lra). apply bpow_le. lia. Qed.
Lemma He : eta <= u * u.
Proof. unfold unit_of, tiny_of. rewrite !pow2, <- bpow_plus. apply bpow_le. lia. Qed.
Lemma int_fm i : (Z.abs i < 2 ^ prec)%Z -> fm (IZR i).
Proof. intros H. apply format_representable. exists i, 0%Z. split; [cbn; ring|]. lia. Qed.
Lemma F1 : fm 1.
Proof. apply int_fm. cbn. apply Z.pow_gt_1; lia. Qed.
Lemma corner_exact i : (Z.abs i <= 2 ^ (prec - 1) - 1)%Z -> corner_r emin prec i = IZR i - / 2 /\ fm (IZR i - / 2).
Proof.
  intros H. assert (E : (2 ^ prec = 2 * 2 ^ (prec - 1))%Z) by (rewrite <- (Z.pow_succ_r 2 (prec - 1)) by lia; f_equal; lia).
  assert (F : fm (IZR i - / 2)).
  { apply format_representable. exists (2 * i - 1)%Z, (-1)%Z. split; [|lia]. rewrite minus_IZR, mult_IZR. change (powerRZ 2 (-1)) with (/ (2 * 1)). field. }
  split; [|exact F]. unfold corner_r. rewrite (rn_id emin prec (IZR i)) by (apply int_fm; lia). apply rn_id, F.
Qed.
Lemma pixel_near xy ix iy M : 1 <= M -> (Z.abs ix <= 2 ^ (prec - 1) - 1)%Z -> (Z.abs iy <= 2 ^ (prec - 1) - 1)%Z ->
  (forall p, In p xy -> representable emin prec (fst p) /\ representable emin prec (snd p) /\ Rabs (fst p - (IZR ix - / 2)) <= M /\ Rabs (snd p - (IZR iy - / 2)) <= M) ->
  pixel_error prec (length xy) M <= 1 -> Rabs (cell_value_r emin prec xy ix iy - pixel_area xy ix iy) <= pixel_error prec (length xy) M.
Proof.
  intros M1 Ix Iy H L. destruct (corner_exact ix Ix) as [Ex Fx]. destruct (corner_exact iy Iy) as [Ey Fy]. assert (U0 : 0 < u) by apply u_pos. pose proof U1 as U1.
  assert (K : forall v s, representable emin prec v -> fm s -> Rabs (v - s) <= M -> representable emin prec (rn (v - s)) /\ Rabs (rn (v - s) - (v - s)) <= u * M /\ Rabs (rn (v - s)) <= 65 / 64 * M).
  { intros v s V S Q. pose proof (sub_err emin prec P0 v s (format_representable _ _ _ V) S) as E. assert (u * Rabs (v - s) <= u * M) by (apply Rmult_le_compat_l; lra). assert (u * M <= / 64 * M) by (apply Rmult_le_compat_r; lra).
    split; [apply format_is; [exact P0 | apply format_round, P0]|]. split; [lra|]. pose proof (near_abs _ _ _ _ E Q). lra. }
  unfold cell_value_r. rewrite Ex, Ey. rewrite area_cell. unfold cell_value.
  set (xy' := map (fun v => (rn (fst v - (IZR ix - / 2)), rn (snd v - (IZR iy - / 2)))) xy).
  assert (V : forall p, In p xy' -> vertex_ok emin prec (65 / 64 * M) p).
  { intros p Hp. unfold xy' in Hp. apply in_map_iff in Hp as (q & <- & Hq). destruct (H q Hq) as (A & B & C & D). destruct (K _ _ A Fx C) as (A1 & A2 & A3). destruct (K _ _ B Fy D) as (B1 & B2 & B3). repeat split; assumption. }
  pose proof (polygon_near emin prec (65 / 64 * M) P0 U1 He F1 ltac:(lra) xy' V) as PN. cbv zeta in PN. assert (Ln : length xy' = length xy) by apply map_length. rewrite Ln in PN.
  assert (Mv : Forall2 (moved (u * M)) xy' (shifted (IZR ix - / 2, IZR iy - / 2) xy)).
  { unfold xy', shifted. cbn [fst snd]. clear - H K Fx Fy. induction xy as [|q xy IH]; cbn [map]; [constructor|]. constructor; [|apply IH; intros p Hp; apply H; now right].
    destruct (H q (or_introl eq_refl)) as (A & B & C & D). destruct (K _ _ A Fx C) as (A1 & A2 & A3). destruct (K _ _ B Fy D) as (B1 & B2 & B3). split; cbn [fst snd]; assumption. }
  apply polygon_moved in Mv; [|apply Rmult_le_pos; lra]. rewrite Ln in Mv. set (n := INR (length xy)) in *. assert (N0 : 0 <= n) by apply pos_INR.
  assert (NU : 0 <= n * u) by (apply Rmult_le_pos; lra). assert (MM : M <= M * M) by (rewrite <- (Rmult_1_r M) at 1; apply Rmult_le_compat_l; lra).
  assert (T1 : 0 <= n * u * n) by (apply Rmult_le_pos; lra). assert (T2 : n * u * M <= n * u * (M * M)) by (apply Rmult_le_compat_l; lra). assert (T3 : 0 <= n * u * M) by (apply Rmult_le_pos; lra).
  assert (Q : n * (31 / 10 * u * n + 352 * u * (65 / 64 * M) * (65 / 64 * M)) + n * (4 * (u * M)) <= pixel_error prec (length xy) M) by (unfold pixel_error; fold n; lra).
  specialize (PN ltac:(lra)). pose proof (tri (intersection_polygon_r emin prec xy') (intersection_polygon xy') (intersection_polygon (shifted (IZR ix - / 2, IZR iy - / 2) xy))). lra.
Qed.
(** Pixels that the rounded bounds leave out. *)
Lemma htpi_r C x i : Rabs x <= C -> (i < round_htpi_r emin prec x)%Z -> representable emin prec x -> IZR i + / 2 <= x + u * (C + / 2).
Proof.
  intros Hx H Rx. assert (U0 : 0 < u) by apply u_pos. unfold round_htpi_r, floor in H. destruct (base_Int_part (rn (x + / 2))) as [B _]. assert (IZR (i + 1) <= IZR (Int_part (rn (x + / 2)))) by (apply IZR_le; lia). rewrite plus_IZR in *.
  assert (Fh : fm (/ 2)). { apply format_representable. exists 1%Z, (-1)%Z. split; [change (powerRZ 2 (-1)) with (/ (2 * 1)); field|]. split; [|lia]. change (Z.abs 1) with 1%Z. apply Z.pow_gt_1; lia. }
  pose proof (add_error emin prec P0 x (/ 2) (format_representable _ _ _ Rx) Fh) as E. assert (Rabs (x + / 2) <= C + / 2) by (eapply Rle_trans; [apply Rabs_triang|]; rewrite (Rabs_right (/ 2)); lra).
  assert (u * Rabs (x + / 2) <= u * (C + / 2)) by (apply Rmult_le_compat_l; lra). apply Rabs_le_inv in E. lra.
Qed.
Lemma htmi_r C x i : Rabs x <= C -> (round_htmi_r emin prec x < i)%Z -> representable emin prec x -> x - u * (C + / 2) <= IZR i - / 2.
Proof.
  intros Hx H Rx. assert (U0 : 0 < u) by apply u_pos. unfold round_htmi_r, ceiling in H. destruct (base_Int_part (- rn (x - / 2))) as [B _]. assert (IZR (- Int_part (- rn (x - / 2)) + 1) <= IZR i) by (apply IZR_le; lia). rewrite plus_IZR, opp_IZR in *.
  assert (Fh : fm (/ 2)). { apply format_representable. exists 1%Z, (-1)%Z. split; [change (powerRZ 2 (-1)) with (/ (2 * 1)); field|]. split; [|lia]. change (Z.abs 1) with 1%Z. apply Z.pow_gt_1; lia. }
  pose proof (sub_err emin prec P0 x (/ 2) (format_representable _ _ _ Rx) Fh) as E. assert (Rabs (x - / 2) <= C + / 2) by (apply sub_big; [lra | rewrite Rabs_right; lra]).
  assert (u * Rabs (x - / 2) <= u * (C + / 2)) by (apply Rmult_le_compat_l; lra). apply Rabs_le_inv in E. lra.
Qed.
Lemma htpi_in C x i : Rabs x <= C -> (round_htpi_r emin prec x <= i)%Z -> representable emin prec x -> x <= IZR i + / 2 + u * (C + / 2).
Proof.
  intros Hx H Rx. assert (U0 : 0 < u) by apply u_pos. unfold round_htpi_r, floor in H. destruct (base_Int_part (rn (x + / 2))) as [_ B]. apply IZR_le in H.
  assert (Fh : fm (/ 2)). { apply format_representable. exists 1%Z, (-1)%Z. split; [change (powerRZ 2 (-1)) with (/ (2 * 1)); field|]. split; [|lia]. change (Z.abs 1) with 1%Z. apply Z.pow_gt_1; lia. }
  pose proof (add_error emin prec P0 x (/ 2) (format_representable _ _ _ Rx) Fh) as E. assert (Rabs (x + / 2) <= C + / 2) by (eapply Rle_trans; [apply Rabs_triang|]; rewrite (Rabs_right (/ 2)); lra).
  assert (u * Rabs (x + / 2) <= u * (C + / 2)) by (apply Rmult_le_compat_l; lra). apply Rabs_le_inv in E. lra.
Qed.
Lemma htmi_in C x i : Rabs x <= C -> (i <= round_htmi_r emin prec x)%Z -> representable emin prec x -> IZR i - / 2 - u * (C + / 2) <= x.
Proof.
  intros Hx H Rx. assert (U0 : 0 < u) by apply u_pos. unfold round_htmi_r, ceiling in H. destruct (base_Int_part (- rn (x - / 2))) as [_ B]. apply IZR_le in H. rewrite opp_IZR in H.
  assert (Fh : fm (/ 2)). { apply format_representable. exists 1%Z, (-1)%Z. split; [change (powerRZ 2 (-1)) with (/ (2 * 1)); field|]. split; [|lia]. change (Z.abs 1) with 1%Z. apply Z.pow_gt_1; lia. }
  pose proof (sub_err emin prec P0 x (/ 2) (format_representable _ _ _ Rx) Fh) as E. assert (Rabs (x - / 2) <= C + / 2) by (apply sub_big; [lra | rewrite Rabs_right; lra]).
  assert (u * Rabs (x - / 2) <= u * (C + / 2)) by (apply Rmult_le_compat_l; lra). apply Rabs_le_inv in E. lra.
Qed.
End Pixel.
(** A polygon that is on one side of a pixel, but for w. *)
Lemma aside xy ix iy w (g : R * R -> R * R) : 0 <= w -> (forall p, In p xy -> moved w p (g p)) ->
  (forall p, In p xy -> IZR ix + / 2 <= fst (g p)) \/ (forall p, In p xy -> fst (g p) <= IZR ix - / 2) \/ (forall p, In p xy -> IZR iy + / 2 <= snd (g p)) \/ (forall p, In p xy -> snd (g p) <= IZR iy - / 2) ->
  Rabs (pixel_area xy ix iy) <= INR (length xy) * (4 * w).
Proof.
  intros W H D. rewrite area_cell. assert (Z : cell_value (map g xy) ix iy = 0).
  { unfold cell_value. rewrite intersection_ok. destruct xy as [|v xy]; [reflexivity|]. rewrite edges_map by discriminate. rewrite map_map. destruct D as [D|[D|[D|D]]].
    - apply rsum_0. intros e He. apply edges_in in He as [A B]. pose proof (D _ A). pose proof (D _ B). apply under_left; cbn [fst snd]; lra.
    - apply rsum_0. intros e He. apply edges_in in He as [A B]. pose proof (D _ A). pose proof (D _ B). apply under_right; cbn [fst snd]; lra.
    - set (x0 := IZR ix - / 2). rewrite <- (edges_telescope (fun p => clamp x0 (x0 + 1) (fst (g p))) (v :: xy)). apply rsum_ext. intros e He. apply edges_in in He as [A B]. pose proof (D _ A). pose proof (D _ B).
      apply (under_below x0 (IZR iy - / 2) (g (fst e), g (snd e))); cbn [fst snd]; lra.
    - apply rsum_0. intros e He. apply edges_in in He as [A B]. pose proof (D _ A). pose proof (D _ B). apply under_above; cbn [fst snd]; lra. }
  assert (F : Forall2 (moved w) (shifted (IZR ix - / 2, IZR iy - / 2) xy) (shifted (IZR ix - / 2, IZR iy - / 2) (map g xy))).
  { unfold shifted. rewrite map_map. clear - H. induction xy as [|p xy IH]; cbn [map]; [constructor|]. constructor; [|apply IH; intros q Hq; apply H; now right].
    destruct (H p (or_introl eq_refl)) as [A B]. unfold moved. cbn [fst snd]. split; [replace (fst p - (IZR ix - / 2) - (fst (g p) - (IZR ix - / 2))) with (fst p - fst (g p)) by ring | replace (snd p - (IZR iy - / 2) - (snd (g p) - (IZR iy - / 2))) with (snd p - snd (g p)) by ring]; assumption. }
  apply polygon_moved in F; [|exact W]. unfold cell_value in *. rewrite Z, Rminus_0_r in F. unfold shifted in F at 2. rewrite map_length in F. exact F.
Qed.
