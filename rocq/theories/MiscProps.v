(** C99: planes, copies, positions in memory, volumes and Airy patterns. *)
From Coq Require Import Reals Lra Lia Sorted.
From Verif Require Import Base BaseFacts MedianModel MedianSpec MedianProps SortModel SortSpec NumModel NumSpec NumProps DataModel DataSpec DataProps MiscModel.
Open Scope Z_scope.

(** Planes: the column j of the plane k is the column j - d of the input, d the offset of its block of planes, or zeros. *)
Theorem C99_planes_partial : forall T (zero : T) inplace m n (input output : list (list (list T))) offset,
  0 < zlen offset -> zlen input mod zlen offset = 0 -> length output = length input ->
  Forall (fun p => zlen p = n) input -> Forall (fun p => zlen p = n) output ->
  exists out, shift_medium zero inplace m n input output offset = Ok out /\ length out = length input /\
    forall k pi po, nth_error input k = Some pi -> nth_error out k = Some po ->
      exists d, nth_error offset (k / (length input / length offset)) = Some d /\ length po = Z.to_nat n /\
      forall j, 0 <= j < n -> nth_error po (Z.to_nat j) = if (0 <=? j - d) && (j - d <? n) then nth_error pi (Z.to_nat (j - d)) else Some (repeat zero (Z.to_nat m)).
Proof. intros T zero ip m n. exact (C53_shift_partial (list T) (repeat zero (Z.to_nat m)) ip n). Qed.
Print Assumptions C99_planes_partial.
Example C99_planes_case : shift_medium 0 true 2 3 [[[1; 2]; [3; 4]; [5; 6]]; [[7; 8]; [9; 10]; [11; 12]]] [[]; []] [1; -2] =
  Ok [[[0; 0]; [1; 2]; [3; 4]]; [[11; 12]; [0; 0]; [0; 0]]].
Proof. reflexivity. Qed.
Theorem C99_planes_refuted : shift_medium 0 false 1 1 [[[1]]; [[2]]; [[3]]] [[[0]]; [[0]]; [[0]]] [5; 7] = Err IndexError /\
  shift_medium 0 false 1 1 [[[1]]; [[2]]; [[3]]] [[[0]]; [[0]]; [[0]]] [1; 2; 3; 4] = Err ZeroDivisionError.
Proof. split; reflexivity. Qed.
Print Assumptions C99_planes_refuted.

(** Medians of copies. *)
Lemma pack_mask arr : forall mask, pack arr (map negb mask) = unmasked arr mask.
Proof. induction arr as [|x arr IH]; intros [|b mask]; cbn; try reflexivity. destruct b; cbn; now rewrite IH. Qed.
Lemma pack_nan arr : finite (pack arr (map (fun x => negb (is_nan x)) arr)) = finite arr /\ Forall (fun x => is_nan x = false) (pack arr (map (fun x => negb (is_nan x)) arr)).
Proof. induction arr as [|[|z] arr [IH F]]; cbn; [split; [reflexivity|constructor]|auto|]. split; [now f_equal|constructor; auto]. Qed.
Lemma pack_both arr : forall mask, pack arr (map (fun xb => negb (is_nan (fst xb)) && negb (snd xb)) (combine arr mask)) = pack (unmasked arr mask) (map (fun x => negb (is_nan x)) (unmasked arr mask)).
Proof. induction arr as [|x arr IH]; intros [|b mask]; cbn; try reflexivity. destruct b; cbn; [rewrite andb_false_r; apply IH|]. rewrite andb_true_r. cbn. destruct (is_nan x); cbn; now rewrite IH. Qed.
Theorem C99_median_copy_partial : forall arr remove_nan mask, match mask with Some m => length arr = length m | None => True end ->
  let l := match mask with Some m => unmasked arr m | None => arr end in
  (remove_nan = true \/ Forall (fun x => is_nan x = false) l) ->
  exists x, median_copy arr remove_nan mask = Ok x /\ match finite l with [] => x = NaN | l => exists z, x = Fin z /\ is_median l z end.
Proof.
  intros arr rn mask L l H. unfold median_copy.
  set (c := match mask with Some _ => _ | None => _ end).
  assert (C : finite c = finite l /\ Forall (fun x => is_nan x = false) c).
  { unfold c, l in *. destruct mask as [m|], rn; try (destruct H as [H|H]; [discriminate|]).
    - rewrite pack_both. apply pack_nan.
    - rewrite pack_mask. auto.
    - apply pack_nan.
    - auto. }
  destruct C as [C F]. clearbody c. destruct (C41_median_nomask c false (or_intror F)) as [x [arr' [E G]]]. rewrite E. cbn. exists x. split; [reflexivity|]. rewrite <- C. exact G.
Qed.
Print Assumptions C99_median_copy_partial.
Example C99_median_copy_case : median_copy [Fin 7; NaN; Fin 3; Fin 3; Fin 9; Fin 1] true (Some [false; false; true; true; false; false]) = Ok (Fin 7) /\
  is_median (finite (unmasked [Fin 7; NaN; Fin 3; Fin 3; Fin 9; Fin 1] [false; false; true; true; false; false])) 7.
Proof. split; [reflexivity|]. unfold is_median, has_rank. cbn. split; [tauto|lia]. Qed.
(** Refuted: with numbers that are not a number and that are kept. *)
Theorem C99_median_copy_refuted : exists arr, median_copy arr false None = Err IndexError.
Proof. exists [NaN; Fin 1; Fin 2; Fin 10]. reflexivity. Qed.
Print Assumptions C99_median_copy_refuted.

(** Positions in memory of the true elements of an array. *)
Lemma positions_in mask : forall s p, In p (map fst (filter snd (combine (map Z.of_nat (seq s (length mask))) mask))) <-> exists q, p = Z.of_nat (s + q) /\ nth_error mask q = Some true.
Proof.
  induction mask as [|b mask IH]; intros s p; cbn; [split; [intros []|intros [[|q] [_ H]]; discriminate]|].
  destruct b; cbn; rewrite (IH (S s)).
  - split.
    + intros [<-|[q [-> N]]]; [exists O; split; [f_equal; lia|reflexivity]|exists (S q); split; [f_equal; lia|exact N]].
    + intros [[|q] [-> N]]; [left; f_equal; lia|right; exists q; split; [f_equal; lia|exact N]].
  - split; [intros [q [-> N]]; exists (S q); split; [f_equal; lia|exact N]|]. intros [[|q] [-> N]]; [discriminate|]. exists q. split; [f_equal; lia|exact N].
Qed.
Lemma positions_sorted mask : forall s, StronglySorted Z.lt (map fst (filter snd (combine (map Z.of_nat (seq s (length mask))) mask))).
Proof.
  induction mask as [|b mask IH]; intros s; cbn; [constructor|]. destruct b; cbn; [|apply IH]. constructor; [apply IH|]. apply Forall_forall. intros p P. apply positions_in in P. destruct P as [q [-> _]]. lia.
Qed.
Lemma concat_nth {A} m (cols : list (list A)) : Forall (fun c => length c = m) cols -> forall q x, nth_error (concat cols) q = Some x <-> exists i j c, (i < m)%nat /\ nth_error cols j = Some c /\ nth_error c i = Some x /\ q = (j * m + i)%nat.
Proof.
  induction 1 as [|c cols L F IH]; intros q x; cbn.
  - split; [destruct q; discriminate|]. intros [i [[|j] [c [_ [H _]]]]]; discriminate.
  - split.
    + intros H. destruct (Nat.lt_ge_cases q m) as [Q|Q].
      * rewrite nth_error_app1 in H by lia. exists q, O, c. repeat split; auto.
      * rewrite nth_error_app2 in H by lia. apply IH in H. destruct H as [i [j [c' [I [J [X E]]]]]]. exists i, (S j), c'. repeat split; auto. cbn. lia.
    + intros [i [[|j] [c' [I [J [X E]]]]]]; cbn in *.
      * injection J as ->. rewrite nth_error_app1 by lia. now rewrite E.
      * rewrite nth_error_app2 by lia. apply IH. exists i, j, c'. repeat split; auto. lia.
Qed.
Theorem C99_positions_partial : forall m cols, Forall (fun c => length c = m) cols -> exists indices,
  where_2d_1d cols true = Ok (indices, Z.of_nat (length indices)) /\ StronglySorted Z.lt indices /\
  forall p, In p indices <-> exists i j c, nth_error cols j = Some c /\ nth_error c i = Some true /\ p = Z.of_nat (j * m + i + 1).
Proof.
  intros m cols F. eexists. split; [reflexivity|]. split; [apply positions_sorted|]. intros p. rewrite positions_in. split.
  - intros [q [-> H]]. apply (concat_nth m cols F) in H. destruct H as [i [j [c [I [J [X ->]]]]]]. exists i, j, c. split; [exact J|]. split; [exact X|]. f_equal. lia.
  - intros [i [j [c [J [X ->]]]]]. exists (j * m + i)%nat. split; [f_equal; lia|]. apply (concat_nth m cols F). exists i, j, c. split; [|auto].
    rewrite Forall_forall in F. rewrite <- (F c (nth_error_In _ _ J)). apply nth_error_Some. congruence.
Qed.
Print Assumptions C99_positions_partial.
Example C99_positions_case : where_2d_1d [[true; false; true]; [false; true; false]] true = Ok ([1; 3; 5], 3).
Proof. reflexivity. Qed.
(** Refuted: the number of elements, which is optional, is assigned even if it is not there. *)
Theorem C99_optional_refuted : forall cols, where_2d_1d cols false = Err RuntimeError.
Proof. reflexivity. Qed.
Print Assumptions C99_optional_refuted.

Open Scope R_scope.
Theorem C99_distance_3d : forall o1 o2 o3 r1 r2 r3 i j k, distance_3d (o1, o2, o3) (r1, r2, r3) i j k = sqrt (norm2 [r1; r2; r3] [o1; o2; o3] [i; j; k]).
Proof. intros. unfold distance_3d. cbn [norm2]. f_equal. ring. Qed.
Print Assumptions C99_distance_3d.
Example C99_distance_3d_case : distance_3d (0, 0, 0) (1, 1, 2) 2 3 3 = 7.
Proof. rewrite C99_distance_3d. cbn [norm2]. match goal with |- sqrt ?x = _ => replace x with (7 * 7) by ring end. apply sqrt_square. lra. Qed.

(** The Airy pattern of the reduced radius x. *)
Definition airy (j1 : R -> R) (x : R) : R := (2 * j1 x / x) ^ 2.
(** The reduced radius: 1.61633 at the half width, or 3.8317 at the first dark ring. *)
Definition reduced (fwhm r0 : option R) (d : R) : option R :=
  match fwhm, r0 with Some w, _ => Some (1.61633 * d / (w / 2)) | None, Some r0 => Some (3.8317 * d / r0) | None, None => None end.
Definition at_centre (d : R) : R := if Req_EM_T d 0 then / 10 ^ 30 else d.
Lemma airy_value_ok j1 fwhm r0 d x : reduced fwhm r0 (at_centre d) = Some x -> match fwhm, r0 with Some w, _ => w <> 0 | None, Some r => r <> 0 | None, None => True end ->
  airy_value j1 fwhm r0 d = Ok (airy j1 x).
Proof.
  unfold reduced, airy_value, airy. fold (at_centre d). intros H N. destruct fwhm as [w|]; [|destruct r0 as [r|]; [|discriminate]]; injection H as <-; cbn.
  - replace (at_centre d * (1.61633 / (w / 2))) with (1.61633 * at_centre d / (w / 2)) by (field; exact N). f_equal. ring.
  - replace (at_centre d * (3.8317 / r)) with (3.8317 * at_centre d / r) by (field; exact N). f_equal. ring.
Qed.
Lemma sum_nonneg l : Forall (fun x => 0 <= x) l -> 0 <= fold_right Rplus 0 l /\ ((exists x, In x l /\ 0 < x) -> 0 < fold_right Rplus 0 l).
Proof.
  induction 1 as [|x l P F [IH1 IH2]]; cbn; [split; [lra|intros [x [[] _]]]|]. split; [lra|]. intros [y [[ -> |I] Y]]; [lra|]. assert (0 < fold_right Rplus 0 l) by eauto. lra.
Qed.
Lemma sum_div c l : fold_right Rplus 0 (map (fun x => x / c) l) = fold_right Rplus 0 l / c.
Proof. induction l as [|x l IH]; cbn; [unfold Rdiv; ring|]. rewrite IH. unfold Rdiv. ring. Qed.
Lemma indices2_nth ny nx j i : (0 <= j < ny)%Z -> (0 <= i < nx)%Z -> nth_error (indices2 ny nx) (Z.to_nat (j * nx + i)) = Some [j; i].
Proof.
  intros J I. unfold indices2. rewrite flat_map_concat_map. apply (concat_nth (Z.to_nat nx)).
  - apply Forall_forall. intros c C. apply in_map_iff in C. destruct C as [k [<- _]]. now rewrite map_length, seq_length.
  - exists (Z.to_nat i), (Z.to_nat j), (map (fun i => [Z.of_nat (Z.to_nat j); Z.of_nat i]) (seq 0 (Z.to_nat nx))). split; [lia|].
    assert (S : forall n k, (k < n)%nat -> nth_error (seq 0 n) k = Some k). { intros n k K. rewrite nth_error_nth' with (d := O) by (rewrite seq_length; exact K). now rewrite seq_nth. }
    split; [rewrite nth_error_map, S by lia; reflexivity|]. split; [rewrite nth_error_map, S by lia; cbn; rewrite !Z2Nat.id by lia; reflexivity|].
    rewrite Z2Nat.inj_add, Z2Nat.inj_mul by (try apply Z.mul_nonneg_nonneg; lia). reflexivity.
Qed.
Lemma indices2_in ny nx idx : In idx (indices2 ny nx) -> exists j i, idx = [j; i] /\ (0 <= j < ny)%Z /\ (0 <= i < nx)%Z.
Proof.
  unfold indices2. intros H. apply in_flat_map in H. destruct H as [j [J H]]. apply in_map_iff in H. destruct H as [i [<- I]]. apply in_seq in J, I. exists (Z.of_nat j), (Z.of_nat i). split; [reflexivity|]. lia.
Qed.
Lemma indices2_length ny nx : (0 <= ny)%Z -> (0 <= nx)%Z -> length (indices2 ny nx) = Z.to_nat (ny * nx).
Proof.
  intros NY NX. unfold indices2. rewrite Z2Nat.inj_mul by assumption. rewrite <- (seq_length (Z.to_nat ny) 0) at 2. generalize (seq 0 (Z.to_nat ny)). intros l.
  induction l as [|a l IH]; cbn; [reflexivity|]. now rewrite app_length, map_length, seq_length, IH.
Qed.
(** The disk is the pattern at the distance to its centre, the values of the pixels in the same ratio as the pattern, and their
    sum is one if the pattern does not vanish on all pixels.  The width has priority on the radius of the ring. *)
Theorem C99_airy_partial : forall j1 ny nx fwhm r0 ox oy sx sy, (0 <= ny)%Z -> (0 <= nx)%Z ->
  match fwhm, r0 with Some w, _ => w <> 0 | None, Some r => r <> 0 | None, None => False end ->
  let dist j i := sqrt ((sy * (IZR j - oy)) * (sy * (IZR j - oy)) + (sx * (IZR i - ox)) * (sx * (IZR i - ox))) in
  exists l c, airy_disk j1 ny nx fwhm r0 (Some [ox; oy]) (Each [sx; sy]) = Ok l /\ length l = Z.to_nat (ny * nx) /\
  (forall j i, (0 <= j < ny)%Z -> (0 <= i < nx)%Z -> exists x, reduced fwhm r0 (at_centre (dist j i)) = Some x /\ nth_error l (Z.to_nat (j * nx + i)) = Some (airy j1 x / c)) /\
  ((exists j i x, (0 <= j < ny)%Z /\ (0 <= i < nx)%Z /\ reduced fwhm r0 (at_centre (dist j i)) = Some x /\ airy j1 x <> 0) -> 0 < c /\ fold_right Rplus 0 l = 1).
Proof.
  intros j1 ny nx fwhm r0 ox oy sx sy NY NX W dist.
  set (rd := fun d => match reduced fwhm r0 (at_centre d) with Some x => x | None => 0 end).
  assert (RD : forall d, reduced fwhm r0 (at_centre d) = Some (rd d)). { intros d. unfold rd. destruct (reduced fwhm r0 (at_centre d)) as [x|] eqn:E; [reflexivity|]. unfold reduced in E. destruct fwhm, r0; try discriminate; contradiction. }
  set (g := fun idx : list Z => match idx with [j; i] => airy j1 (rd (dist j i)) | _ => 0 end).
  assert (V : map_res (fun idx => do d <- distance [ny; nx] (Some [ox; oy]) (Each [sx; sy]) idx; airy_value j1 fwhm r0 d) (indices2 ny nx) = Ok (map g (indices2 ny nx))).
  { apply map_res_pure. intros idx I. destruct (indices2_in _ _ _ I) as [j [i [ -> _]]].
    rewrite C63_distance by (cbn; auto; discriminate). cbn [each rev app norm2 length]. replace (sqrt _) with (dist j i) by (unfold dist; f_equal; ring).
    cbn [bind]. unfold g. apply airy_value_ok; [apply RD|]. destruct fwhm, r0; auto. }
  exists (map (fun x => x / sum_python (map g (indices2 ny nx))) (map g (indices2 ny nx))), (sum_python (map g (indices2 ny nx))).
  split; [unfold airy_disk; rewrite V; reflexivity|]. split; [rewrite !map_length; now apply indices2_length|]. split.
  - intros j i J I. exists (rd (dist j i)). split; [apply RD|]. rewrite !nth_error_map, indices2_nth by assumption. reflexivity.
  - intros [j [i [x [J [I [X A]]]]]]. rewrite RD in X. injection X as <-. rewrite sum_div, DataFacts2.sum_python_ok. set (L := map g (indices2 ny nx)).
    assert (P : 0 < fold_right Rplus 0 L).
    { apply sum_nonneg. - unfold L. apply Forall_forall. intros v Hv. apply in_map_iff in Hv. destruct Hv as [idx [<- Hi]]. destruct (indices2_in _ _ _ Hi) as [j' [i' [ -> _]]]. unfold g, airy. apply pow2_ge_0.
      - exists (airy j1 (rd (dist j i))). split.
        + unfold L. apply in_map_iff. exists [j; i]. split; [reflexivity|]. eapply nth_error_In. apply (indices2_nth ny nx j i J I).
        + unfold airy in *. set (z := 2 * j1 (rd (dist j i)) / rd (dist j i)) in *. assert (z <> 0) by (intros Z0; apply A; rewrite Z0; ring). assert (0 <= z ^ 2) by apply pow2_ge_0. lra. }
    split; [exact P|]. field. lra.
Qed.
Print Assumptions C99_airy_partial.
Theorem C99_airy_missing : forall j1 ny nx center scale, (0 < ny)%Z -> (0 < nx)%Z -> exists e, airy_disk j1 ny nx None None center scale = Err e.
Proof.
  intros j1 ny nx center scale NY NX. unfold airy_disk. assert (N := indices2_nth ny nx 0 0 ltac:(lia) ltac:(lia)). destruct (indices2 ny nx) as [|idx l]; [destruct (Z.to_nat _); discriminate|]. cbn [map_res].
  destruct (distance [ny; nx] center scale idx) as [d|e]; cbn; eexists; reflexivity.
Qed.
Print Assumptions C99_airy_missing.
Example C99_airy_case : let dist j i := sqrt ((1 * (IZR j - 0)) * (1 * (IZR j - 0)) + (1 * (IZR i - 0)) * (1 * (IZR i - 0))) in
  exists j i x, (0 <= j < 1)%Z /\ (0 <= i < 2)%Z /\ reduced (Some 2) None (at_centre (dist j i)) = Some x /\ airy (fun x => x / 2) x <> 0.
Proof.
  exists 0%Z, 1%Z, 1.61633. split; [lia|]. split; [lia|]. split; [|unfold airy; lra]. unfold reduced, at_centre. replace (sqrt _) with 1. 2:{ symmetry. replace (_ + _) with (1 * 1) by ring. apply sqrt_square. lra. }
  destruct (Req_EM_T 1 0); [lra|]. f_equal. field.
Qed.
