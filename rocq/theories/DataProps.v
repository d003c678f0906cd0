(** C42: radial profiles.  C63: distances and gaussians.  C64: beams. *)
From Coq Require Import Reals Lra Lia Permutation.
From Coquelicot Require Import Coquelicot.
From Verif Require Import Base BaseFacts ConstModel DataModel DataSpec DataFacts DataFacts2.
Open Scope R_scope.

(** ** C42 *)
(** Bin by bin: the number of valid pixels of the ring, their mean distance and their mean
    value, however the pixels are shared between the threads and in whatever order. *)
Theorem C42_bins : forall nan c bin nbins pixels threads, 0 < bin -> Permutation (concat threads) pixels -> fits c bin pixels ->
  exists r, profile_axisymmetric nan c bin nbins threads = Ok r /\ length r = nbins /\
  forall k, (k < nbins)%nat -> let ring := ring c (INR k * bin) ((INR k + 1) * bin) pixels in
    exists x y n, nth_error r k = Some (x, y, n) /\ n = zlen ring /\
    (n = 0%Z -> x = bin * (INR k + / 2) /\ y = nan) /\
    (n <> 0%Z -> IZR n * x = rtotal (map fst ring) /\ exists m, y = Fin m /\ IZR n * m = rtotal (map snd ring)).
Proof. intros nan c bin nbins pixels threads Hb P F. exact (profile_bins nan c bin nbins pixels threads Hb P F). Qed.
Print Assumptions C42_bins.
(** The counts sum to the number of valid pixels closer than nbins * bin, and the mean times
    the count sums to their total. *)
Theorem C42_conservation : forall nan c bin nbins pixels threads r, 0 < bin -> Permutation (concat threads) pixels -> fits c bin pixels ->
  profile_axisymmetric nan c bin nbins threads = Ok r ->
  let disc := ring c 0 (INR nbins * bin) pixels in
  rtotal (map (fun b => IZR (snd b)) r) = IZR (zlen disc) /\
  rtotal (map (fun b => match snd (fst b) with Fin m => IZR (snd b) * m | _ => 0 end) (filter (fun b => negb (snd b =? 0)%Z) r)) = rtotal (map snd disc).
Proof.
  intros nan c bin nbins pixels threads r Hb P F E. cbv zeta. destruct (profile_bins nan c bin nbins pixels threads Hb P F) as [r' [E' [L B]]]. rewrite E in E'. injection E' as <-.
  split.
  - rewrite <- rtotal_ones. rewrite (disc_total c bin nbins (fun _ => 1) pixels Hb). apply sum_bins; [exact L|]. intros k b Hk. destruct (B k) as [x [y [n [N [En _]]]]]; [rewrite <- L; now apply (nth_error_lt r k b)|].
    rewrite N in Hk. injection Hk as <-. cbn [snd]. rewrite En. symmetry. apply rtotal_ones.
  - assert (Z0 : forall f : R * num * Z -> R, rtotal (map f (filter (fun b => negb (snd b =? 0)%Z) r)) = rtotal (map (fun b => if (snd b =? 0)%Z then 0 else f b) r)).
    { intros f. clear. unfold rtotal. induction r as [|b r IH]; [reflexivity|]. cbn [filter map fold_right]. destruct (snd b =? 0)%Z; cbn [negb map fold_right]; rewrite IH; ring. }
    rewrite Z0. rewrite (disc_total c bin nbins snd pixels Hb). apply sum_bins; [exact L|]. intros k b Hk. destruct (B k) as [x [y [n [N [En [_ Y]]]]]]; [rewrite <- L; now apply (nth_error_lt r k b)|].
    rewrite N in Hk. injection Hk as <-. cbn [fst snd]. destruct (Z.eqb_spec n 0) as [Q|Q].
    + destruct (bin_ring c bin k pixels); [reflexivity|]. unfold zlen in En. cbn [length] in En. lia.
    + destruct (Y Q) as [_ [m [-> M]]]. exact M.
Qed.
Print Assumptions C42_conservation.
(** The Python function: the ring k has the distances [k bin, (k+1) bin) when the distance
    between two pixels is the scale. *)
Theorem C42_profile : forall nan share nx input bin nbins center scale, 0 < bin -> 0 < scale -> (0 <= nbins)%Z ->
  let c := match center with Some c => c | None => ((INR nx - 1) / 2, (INR (length input) - 1) / 2) end in
  Permutation (concat (share (pixels_of input))) (pixels_of input) -> fits c (bin / scale) (pixels_of input) ->
  exists r, profile nan share nx input bin (Some nbins) center scale = Ok r /\ length r = Z.to_nat nbins /\
  forall k, (k < Z.to_nat nbins)%nat -> let ring := ring c (INR k * bin / scale) ((INR k + 1) * bin / scale) (pixels_of input) in
    exists x y n, nth_error r k = Some (x, y, n) /\ n = zlen ring /\
    (n = 0%Z -> x = bin * (INR k + / 2) /\ y = nan) /\
    (n <> 0%Z -> IZR n * x = rtotal (map (fun p => fst p * scale) ring) /\ exists m, y = Fin m /\ IZR n * m = rtotal (map snd ring)).
Proof.
  intros nan share nx input bin nbins center scale Hb Hs Hn c P F. assert (H0 : 0 < bin / scale) by (apply Rmult_lt_0_compat; [exact Hb | now apply Rinv_0_lt_compat]).
  destruct (profile_bins nan c (bin / scale) (Z.to_nat nbins) (pixels_of input) (share (pixels_of input)) H0 P F) as [r [E [L B]]].
  unfold profile. destruct (Req_EM_T scale 0) as [|_]; [lra|]. cbv zeta. cbn [bind]. replace (nbins <? 0)%Z with false by lia. change (match center with Some c => c | None => default_center nx (length input) end) with c. rewrite E. cbn [bind].
  eexists. split; [reflexivity|]. split; [now rewrite map_length|]. intros k Hk. destruct (B k Hk) as [x [y [n [N [En [X Y]]]]]].
  unfold bin_ring in *. replace (INR k * (bin / scale)) with (INR k * bin / scale) in * by (field; lra). replace ((INR k + 1) * (bin / scale)) with ((INR k + 1) * bin / scale) in * by (field; lra).
  rewrite nth_error_map, N. cbn [option_map]. do 3 eexists. split; [reflexivity|]. split; [exact En|]. split.
  - intros Q. destruct (X Q) as [-> ->]. split; [field; lra | reflexivity].
  - intros Q. destruct (Y Q) as [Y1 [m [-> M]]]. split; [|eauto]. rewrite <- Rmult_assoc, Y1. clear. unfold rtotal. set (l := ring _ _ _ _). clearbody l. induction l as [|p l IH]; cbn [map fold_right]; [ring|]. rewrite <- IH. ring.
Qed.
Print Assumptions C42_profile.
(** The integrated profile is the total inside of the upper boundary of each bin. *)
Theorem C42_integrated : forall nan share nx input bin nbins center scale, 0 < bin -> 0 < scale -> (0 <= nbins)%Z ->
  let c := match center with Some c => c | None => ((INR nx - 1) / 2, (INR (length input) - 1) / 2) end in
  Permutation (concat (share (pixels_of input))) (pixels_of input) -> fits c (bin / scale) (pixels_of input) ->
  exists x y, integrated_profile nan share nx input bin (Some nbins) center scale = Ok (x, y) /\ length x = Z.to_nat nbins /\ length y = Z.to_nat nbins /\
  forall k, (k < Z.to_nat nbins)%nat -> nth_error y k = Some (scale * scale * rtotal (map snd (ring c 0 ((INR k + 1) * bin / scale) (pixels_of input)))).
Proof.
  intros nan share nx input bin nbins center scale Hb Hs Hn c P F. destruct (C42_profile nan share nx input bin nbins center scale Hb Hs Hn P F) as [r [E [L B]]]. fold c in B.
  unfold integrated_profile. rewrite E. cbn [bind]. do 2 eexists. split; [reflexivity|]. rewrite cumsum_length, !map_length. split; [exact L|]. split; [exact L|].
  intros k Hk. rewrite cumsum_nth by (rewrite map_length; lia). f_equal. rewrite Rplus_0_l. assert (H0 : 0 < bin / scale) by (apply Rmult_lt_0_compat; [exact Hb | now apply Rinv_0_lt_compat]).
  replace ((INR k + 1) * bin / scale) with (INR (S k) * (bin / scale)) by (rewrite S_INR; field; lra). rewrite (disc_total c (bin / scale) (S k) snd (pixels_of input) H0).
  rewrite firstn_map. set (g := fun k => rtotal (map snd (bin_ring c (bin / scale) k (pixels_of input)))).
  transitivity (rtotal (map (fun k => scale * scale * g k) (seq 0 (S k)))).
  2:{ clear. unfold rtotal. generalize (seq 0 (S k)). induction l as [|j l IH]; cbn [map fold_right]; [ring|]. rewrite IH. ring. }
  apply sum_bins; [rewrite firstn_length; lia|]. intros j b Hj. assert (Hjk : (j < S k)%nat) by (apply nth_error_lt in Hj; rewrite firstn_length in Hj; lia).
  assert (Nj : nth_error r j = Some b). { rewrite <- (firstn_skipn (S k) r). rewrite nth_error_app1 by (now apply nth_error_lt in Hj). exact Hj. }
  destruct (B j ltac:(lia)) as [x [y [n [N [En [X Y]]]]]]. rewrite N in Nj. injection Nj as <-.
  replace (INR j * bin / scale) with (INR j * (bin / scale)) in * by (field; lra). replace ((INR j + 1) * bin / scale) with ((INR j + 1) * (bin / scale)) in * by (field; lra).
  unfold g, bin_ring. destruct (Z.eq_dec n 0) as [Q|Q].
  - destruct (ring c (INR j * (bin / scale)) ((INR j + 1) * (bin / scale)) (pixels_of input)); [|unfold zlen in En; cbn [length] in En; lia]. rewrite Q. cbn [map]. unfold rtotal. cbn [fold_right]. ring.
  - destruct (Y Q) as [_ [m [-> M]]]. rewrite <- M. ring.
Qed.
Print Assumptions C42_integrated.
(** A line of three pixels, one of them NaN, with one thread or two. *)
Example C42_example : forall nan threads, Permutation (concat threads) (pixels_of [[Some 2; Some 3; None]]) ->
  fits (0, 0) 1 (pixels_of [[Some 2; Some 3; None]]) /\ exists x0 x1, profile_axisymmetric nan (0, 0) 1 2 threads = Ok [(x0, Fin 2, 1%Z); (x1, Fin 3, 1%Z)].
Proof.
  intros nan threads P. assert (D0 : pixel_distance (0, 0) 0 0 = 0) by (unfold pixel_distance; cbn [fst snd]; replace ((0 - 0) * (0 - 0) + (0 - 0) * (0 - 0)) with 0 by ring; apply sqrt_0).
  assert (D1 : pixel_distance (0, 0) 1 0 = 1) by (unfold pixel_distance; cbn [fst snd]; replace ((1 - 0) * (1 - 0) + (0 - 0) * (0 - 0)) with 1 by ring; apply sqrt_1).
  assert (F : fits (0, 0) 1 (pixels_of [[Some 2; Some 3; None]])).
  { assert (1 < IZR (2 ^ 31 - 1)) by (apply IZR_lt; reflexivity). intros i j v [W|[W|[W|[]]]]; inversion W; subst; cbn [Z.of_nat fst]; rewrite ?D0; try change (Z.pos (Pos.of_succ_nat 0)) with 1%Z; rewrite ?D1; lra. }
  split; [exact F|]. destruct (C42_bins nan (0, 0) 1 2 _ threads ltac:(lra) P F) as [r [E [L B]]]. rewrite E.
  assert (R : forall k, ring (0, 0) (INR k * 1) ((INR k + 1) * 1) (pixels_of [[Some 2; Some 3; None]]) = (if (k =? 0)%nat then [(0, 2)] else if (k =? 1)%nat then [(1, 3)] else [])).
  { intros k. unfold ring, pixels_of. cbn [length seq combine flat_map map fst snd app Z.of_nat]. change (Z.pos (Pos.of_succ_nat 0)) with 1%Z. rewrite D0, D1. cbv zeta.
    destruct k as [|[|k]]; cbn [Nat.eqb].
    - cbn [INR]. repeat (destruct (Rle_dec _ _) || destruct (Rlt_dec _ _)); try lra; reflexivity.
    - cbn [INR]. repeat (destruct (Rle_dec _ _) || destruct (Rlt_dec _ _)); try lra; reflexivity.
    - rewrite !S_INR. pose proof (pos_INR k). repeat (destruct (Rle_dec _ _) || destruct (Rlt_dec _ _)); try lra; reflexivity. }
  destruct r as [|b0 [|b1 [|? ?]]]; cbn in L; try discriminate. destruct (B 0%nat ltac:(lia)) as [x0 [y0 [n0 [N0 [C0 [_ Y0]]]]]]. destruct (B 1%nat ltac:(lia)) as [x1 [y1 [n1 [N1 [C1 [_ Y1]]]]]].
  rewrite R in C0, Y0. rewrite R in C1, Y1. cbn in N0, N1, C0, C1. injection N0 as ->. injection N1 as ->. subst n0 n1. destruct Y0 as [_ [m0 [-> M0]]]; [discriminate|]. destruct Y1 as [_ [m1 [-> M1]]]; [discriminate|].
  unfold rtotal in M0, M1. cbn in M0, M1. exists x0, x1. replace m0 with 2 by lra. replace m1 with 3 by lra. reflexivity.
Qed.
(** The default number of bins is the number of whole bins in the largest distance, along the
    axes, between the centre and the sides of the map. *)
Theorem C42_default_bins : forall nan share nx input bin center scale, 0 < bin -> 0 < scale ->
  let c := match center with Some c => c | None => ((INR nx - 1) / 2, (INR (length input) - 1) / 2) end in
  let sides := [INR (length input) - snd c; snd c; INR nx - fst c; fst c] in
  exists n t, profile nan share nx input bin None center scale = profile nan share nx input bin (Some n) center scale /\
    In t sides /\ (forall t', In t' sides -> t' <= t) /\ (0 <= n)%Z /\ IZR n * bin <= t * scale < (IZR n + 1) * bin.
Proof.
  intros nan share nx input bin center scale Hb Hs c sides.
  set (t := Rmax (Rmax (INR (length input) - snd c) (snd c)) (Rmax (INR nx - fst c) (fst c))).
  assert (T0 : 0 <= t).
  { unfold t. pose proof (Rmax_l (Rmax (INR (length input) - snd c) (snd c)) (Rmax (INR nx - fst c) (fst c))).
    pose proof (Rmax_l (INR (length input) - snd c) (snd c)). pose proof (Rmax_r (INR (length input) - snd c) (snd c)).
    pose proof (pos_INR (length input)). lra. }
  assert (Q : 0 < bin / scale) by (apply Rdiv_lt_0_compat; lra).
  assert (TQ : 0 <= t / (bin / scale)) by (apply Rmult_le_pos; [lra|apply Rlt_le, Rinv_0_lt_compat, Q]).
  exists (trunc (t / (bin / scale))), t. destruct (trunc_pos _ TQ) as [E P]. split; [|split; [|split; [|split]]].
  - unfold profile. fold c. change (default_center nx (length input)) with ((INR nx - 1) / 2, (INR (length input) - 1) / 2). fold c.
    destruct (Req_EM_T scale 0); [lra|]. destruct (Req_EM_T (bin / scale) 0); [lra|]. reflexivity.
  - unfold t, sides, Rmax. repeat destruct Rle_dec; cbn; tauto.
  - intros t' [<-|[<-|[<-|[<-|[]]]]]; unfold t;
    [eapply Rle_trans; [apply Rmax_l|apply Rmax_l]|eapply Rle_trans; [apply Rmax_r|apply Rmax_l]|eapply Rle_trans; [apply Rmax_l|apply Rmax_r]|eapply Rle_trans; [apply Rmax_r|apply Rmax_r]].
  - exact P.
  - rewrite E. pose proof (Int_part_bounds (t / (bin / scale))) as [B1 B2]. set (n := IZR (Int_part _)) in *.
    assert (X : t * scale = t / (bin / scale) * bin) by (field; lra). rewrite X.
    split; [apply Rmult_le_compat_r; lra|apply Rmult_lt_compat_r; lra].
Qed.
Print Assumptions C42_default_bins.
Example C42_default_bins_example : profile NAN_8 (fun l => [l]) 4 (repeat (repeat (Some 1) 4) 3) 1 None (Some (3, 1)) 1 =
  profile NAN_8 (fun l => [l]) 4 (repeat (repeat (Some 1) 4) 3) 1 (Some 3%Z) (Some (3, 1)) 1.
Proof.
  destruct (C42_default_bins NAN_8 (fun l => [l]) 4 (repeat (repeat (Some 1) 4) 3) 1 (Some (3, 1)) 1 ltac:(lra) ltac:(lra)) as [n [t [E [I [M [P B]]]]]].
  rewrite E. cbn [fst snd] in I, M. assert (T : t = 3).
  { pose proof (M 3 ltac:(cbn; tauto)). cbn in I. destruct I as [I|[I|[I|[I|[]]]]]; lra. }
  subst t. assert (n = 3%Z).
  { destruct B as [B1 B2]. apply Z.le_antisymm; [apply le_IZR; lra|]. apply Z.lt_succ_r, lt_IZR. unfold Z.succ. rewrite plus_IZR. lra. }
  subst n. reflexivity.
Qed.
(** Empty bins of double precision are not NaN. *)
Theorem C42_nan_refuted : exists r x y, profile_axisymmetric NAN_8 (0, 0) 1 1 [] = Ok r /\ nth_error r 0 = Some (x, Fin y, 0%Z) /\ 0 < y.
Proof.
  do 3 eexists. split; [reflexivity|]. split; [reflexivity|]. apply Rmult_lt_0_compat; [now apply IZR_lt | apply powerRZ_lt; lra].
Qed.
Print Assumptions C42_nan_refuted.
Lemma distance_one : sqrt ((1 - 0) * (1 - 0) + (0 - 0) * (0 - 0)) = 1.
Proof. replace ((1 - 0) * (1 - 0) + (0 - 0) * (0 - 0)) with 1 by ring. apply sqrt_1. Qed.
(** A bin that is small enough makes the number of the bin overflow. *)
Theorem C42_overflow_refuted : profile_axisymmetric NAN_8 (0, 0) (/ 2 ^ 31) 1 [[(1%Z, 0%Z, Some 1)]] = Err RuntimeError.
Proof.
  unfold profile_axisymmetric. cbn [profile_threads profile_pixels]. unfold profile_pixel. cbn [fst snd]. rewrite distance_one.
  assert (P0 : 0 < 2 ^ 31) by (apply pow_lt; lra). unfold int32_quotient. destruct (Req_EM_T (/ 2 ^ 31) 0) as [Q|_]; [pose proof (Rinv_0_lt_compat _ P0); lra|]. unfold int32.
  replace (trunc (1 / / 2 ^ 31)) with (2 ^ 31)%Z; [reflexivity|]. replace (1 / / 2 ^ 31) with (IZR (2 ^ 31)).
  - destruct (trunc_pos (IZR (2 ^ 31))) as [-> _]; [apply IZR_le; lia|]. symmetry. apply Int_part_unique. lra.
  - change (2 ^ 31)%Z with (2 ^ Z.of_nat 31)%Z. rewrite <- pow_IZR. field; lra.
Qed.
Print Assumptions C42_overflow_refuted.
(** A negative width writes before the arrays. *)
Theorem C42_negative_refuted : profile_axisymmetric NAN_8 (0, 0) (-1) 1 [[(1%Z, 0%Z, Some 1)]] = Err IndexError.
Proof.
  unfold profile_axisymmetric. cbn [profile_threads profile_pixels]. unfold profile_pixel. cbn [fst snd]. rewrite distance_one.
  unfold int32_quotient. destruct (Req_EM_T (-1) 0) as [|_]; [lra|]. unfold int32. replace (trunc (1 / -1)) with (-1)%Z; [reflexivity|].
  unfold trunc. replace (1 / -1) with (-1) by field. destruct (Rle_dec 0 (-1)); [lra|]. replace (Int_part (- -1)) with 1%Z; [reflexivity|]. symmetry. apply Int_part_unique. lra.
Qed.
Print Assumptions C42_negative_refuted.
(** The abscissae of the integrated profile are mean distances, not the upper boundaries. *)
Theorem C42_boundary_refuted : exists x y, integrated_profile NAN_8 (fun l => [l]) 1 [[Some 1]] 1 (Some 1%Z) (Some (0, 0)) 1 = Ok (x, y) /\ nth_error x 0 = Some 0.
Proof.
  assert (F : fits (0, 0) (1 / 1) (pixels_of [[Some 1]])).
  { assert (0 < IZR (2 ^ 31 - 1)) by (apply IZR_lt; reflexivity). intros i j v [W|[]]. inversion W; subst. unfold pixel_distance. cbn [fst snd Z.of_nat]. replace ((0 - 0) * (0 - 0) + (0 - 0) * (0 - 0)) with 0 by ring. rewrite sqrt_0. lra. }
  destruct (C42_profile NAN_8 (fun l => [l]) 1 [[Some 1]] 1 1 (Some (0, 0)) 1 ltac:(lra) ltac:(lra) ltac:(lia)) as [r [E [L B]]]; [cbn; reflexivity | exact F|].
  unfold integrated_profile. rewrite E. cbn [bind]. do 2 eexists. split; [reflexivity|]. destruct (B 0%nat ltac:(cbn; lia)) as [x [y [n [N [En [_ Y]]]]]]. rewrite nth_error_map, N. cbn [option_map fst]. f_equal.
  assert (R : ring (0, 0) (INR 0 * 1 / 1) ((INR 0 + 1) * 1 / 1) (pixels_of [[Some 1]]) = [(0, 1)]).
  { unfold ring, pixels_of. cbn [length seq combine flat_map map fst snd app Z.of_nat INR]. unfold pixel_distance. cbn [fst snd]. replace ((0 - 0) * (0 - 0) + (0 - 0) * (0 - 0)) with 0 by ring. rewrite sqrt_0.
    repeat (destruct (Rle_dec _ _) || destruct (Rlt_dec _ _)); try lra; reflexivity. }
  rewrite R in En, Y. cbn in En. subst n. destruct Y as [X _]; [discriminate|]. unfold rtotal in X. cbn in X. lra.
Qed.
Print Assumptions C42_boundary_refuted.

(** ** C63 *)
(** Distances are Euclidean, for any number of axes: with one coordinate and one scale by
    axis, in the reverse order of the axes; a scalar scale is that of all axes; the default
    centre is that of the array. *)
Definition each (ndim : nat) (s : scaling) : list R := match s with Same s => repeat s ndim | Each l => l end.
Theorem C63_distance : forall shape center scale idx, let c := match center with Some c => c | None => map (fun n => (IZR n - 1) / 2) (rev shape) end in
  idx <> [] -> length idx = length shape -> length c = length shape -> length (each (length shape) scale) = length shape ->
  distance shape center scale idx = Ok (sqrt (norm2 (rev (each (length shape) scale)) (rev c) idx)).
Proof.
  intros shape center scale idx c N L Lc Ls. unfold distance. fold c. change (scales (length shape) scale) with (each (length shape) scale). set (s := each (length shape) scale) in *. clearbody s c.
  destruct idx as [|j [|i [|h idx]]]; [contradiction | | |].
  - destruct c as [|o [|? ?]], s as [|t [|? ?]]; cbn in *; try lia. rewrite distance_1d_ok, Rplus_0_r. reflexivity.
  - destruct c as [|ox [|oy [|? ?]]], s as [|sx [|sy [|? ?]]]; cbn in *; try lia. unfold distance_2d, distance2_1d. cbn [fst snd]. do 2 f_equal. ring.
  - rewrite sum_python_ok, squares_ok by (rewrite rev_length; lia). reflexivity.
Qed.
Print Assumptions C63_distance.
Theorem C63_distance2_partial : forall shape center scale idx, let c := match center with Some c => c | None => map (fun n => (IZR n - 1) / 2) (rev shape) end in
  (length idx = 1 \/ length idx = 2)%nat -> length idx = length shape -> length c = length shape -> length (each (length shape) scale) = length shape ->
  distance2 shape center scale idx = Ok (norm2 (rev (each (length shape) scale)) (rev c) idx) /\
  forall diameter, 0 <= diameter -> exists d, distance shape center scale idx = Ok d /\ aperture_circular shape diameter center scale idx = Ok (if Rle_dec d (diameter / 2) then 1 else 0).
Proof.
  intros shape center scale idx c N L Lc Ls. assert (E : distance2 shape center scale idx = Ok (norm2 (rev (each (length shape) scale)) (rev c) idx)).
  { unfold distance2. fold c. change (scales (length shape) scale) with (each (length shape) scale). set (s := each (length shape) scale) in *. clearbody s c.
    destruct idx as [|j [|i [|h idx]]]; cbn in N; try lia.
    - destruct c as [|o [|? ?]], s as [|t [|? ?]]; cbn in *; try lia. unfold distance2_1d. f_equal. ring.
    - destruct c as [|ox [|oy [|? ?]]], s as [|sx [|sy [|? ?]]]; cbn in *; try lia. unfold distance2_2d, distance2_1d. cbn [fst snd]. f_equal. ring. }
  split; [exact E|]. intros d Hd. eexists. split; [apply C63_distance; auto; destruct idx; [cbn in N; lia | discriminate]|].
  unfold aperture_circular. rewrite E. cbn [bind]. fold c. f_equal. set (q := norm2 _ _ _). assert (Q : 0 <= q) by apply norm2_nonneg.
  destruct (Rle_dec q (d / 2 * (d / 2))) as [A|A], (Rle_dec (sqrt q) (d / 2)) as [B|B]; try reflexivity; exfalso.
  - apply B. rewrite <- (sqrt_square (d / 2)) by lra. now apply sqrt_le_1_alt.
  - apply A. rewrite <- (sqrt_sqrt q Q). apply Rmult_le_compat; auto using sqrt_pos.
Qed.
Print Assumptions C63_distance2_partial.
(** Squared distances of three axes or more always fail. *)
Theorem C63_distance2_refuted : forall shape center scale idx, (3 <= length idx)%nat -> distance2 shape center scale idx = Err TypeError.
Proof. intros shape center scale [|i [|j [|k idx]]] H; cbn in H; try lia. reflexivity. Qed.
Print Assumptions C63_distance2_refuted.
(** With three axes, a centre without its last coordinates is accepted, and the coordinates
    are those of other axes. *)
Theorem C63_center_refuted : distance [1; 1; 3]%Z (Some [2]) (Same 1) [0; 0; 2]%Z = Ok 2.
Proof.
  unfold distance. cbn [scales length repeat rev app combine squares]. unfold sum_python. cbn [fold_left]. f_equal. replace (0 + 1 * (0 - 2) * (1 * (0 - 2))) with (2 * 2) by ring. apply sqrt_square. lra.
Qed.
Print Assumptions C63_center_refuted.
Example C63_example : distance [3; 3]%Z None (Same 1) [1; 1]%Z = Ok 0 /\ distance [1; 1; 5]%Z (Some [0; 0; 0]) (Each [3; 1; 1]) [0; 0; 4]%Z = Ok 12.
Proof.
  split.
  - rewrite C63_distance by (cbn; auto; discriminate). cbn. f_equal. match goal with |- sqrt ?x = _ => replace x with 0 by field end. apply sqrt_0.
  - rewrite C63_distance by (cbn; auto; discriminate). cbn. f_equal. match goal with |- sqrt ?x = _ => replace x with (12 * 12) by ring end. apply sqrt_square. lra.
Qed.
(** Gaussians are products of normal laws, with the dedicated routine for two axes and the
    general code for the others. *)
Theorem C63_gaussian : forall shape sigma fwhm center idx c s,
  c = match center with Some c => c | None => map (fun n => (IZR n - 1) / 2) (rev shape) end ->
  s = match sigma, fwhm with Some s, _ => each (length shape) s | None, Some f => map (fun f => f / sqrt (8 * ln 2)) (each (length shape) f) | None, None => [] end ->
  Forall2 (fun n i => (0 <= i < n)%Z) shape idx -> length c = length shape -> length s = length shape -> (forall x, In x s -> 0 < x) -> (sigma <> None \/ fwhm <> None) ->
  gaussian shape sigma fwhm center idx = Ok (normals (rev c) (rev s) idx).
Proof.
  intros shape sigma fwhm center idx c s -> Es F Lc Ls Hs Hsf. unfold gaussian. set (c := match center with Some c => c | None => _ end) in *.
  assert (E : exists s', match sigma, fwhm with Some s, _ => Ok s | None, Some f => Ok (match f with Same f => Same (fwhm2sigma f) | Each l => Each (map fwhm2sigma l) end) | None, None => Err ValueError end = Ok s' /\ scales (length shape) s' = s).
  { destruct sigma as [t|]; [exists t; now rewrite Es|]. destruct fwhm as [f|]; [|destruct Hsf; contradiction]. eexists. split; [reflexivity|]. rewrite Es. destruct f as [f|l]; [|reflexivity]. cbn [scales each]. unfold fwhm2sigma. clear. induction (length shape); cbn; congruence. }
  destruct E as [s' [-> E]]. cbn [bind]. rewrite E. assert (L : length idx = length shape) by (clear - F; induction F; cbn; auto).
  destruct idx as [|j [|i [|h idx]]]; try (f_equal; apply gaussian_nd_ok; auto; fail).
  clearbody c. destruct c as [|ox [|oy [|? ?]]], s as [|sx [|sy [|? ?]]]; cbn in *; try lia. rewrite gaussian_2d_ok by (apply Hs; cbn; auto). f_equal. ring.
Qed.
Print Assumptions C63_gaussian.
(** The width is that at half of the maximum. *)
Theorem C63_fwhm : forall mu f, 0 < f -> let sigma := f / sqrt (8 * ln 2) in normal mu sigma (mu + f / 2) = / 2 * normal mu sigma mu /\ normal mu sigma (mu - f / 2) = / 2 * normal mu sigma mu.
Proof.
  intros mu f Hf. cbv zeta. pose proof (half_max f Hf) as H. unfold fwhm2sigma in H. set (s := f / sqrt (8 * ln 2)) in *.
  assert (Hs : 0 < s). { unfold s. apply Rmult_lt_0_compat; [exact Hf|]. apply Rinv_0_lt_compat, sqrt_lt_R0. assert (0 < ln 2) by (rewrite <- ln_1; apply ln_increasing; lra). lra. }
  unfold normal. replace (mu - mu) with 0 by ring. replace (- (0 * 0) / (2 * (s * s))) with 0 by (field; lra). rewrite exp_0.
  split; [replace (- ((mu + f / 2 - mu) * (mu + f / 2 - mu)) / (2 * (s * s))) with (- / 2 / (s * s) * (f / 2 * (f / 2))) by (field; lra) |
          replace (- ((mu - f / 2 - mu) * (mu - f / 2 - mu)) / (2 * (s * s))) with (- / 2 / (s * s) * (f / 2 * (f / 2))) by (field; lra)]; rewrite H; ring.
Qed.
Print Assumptions C63_fwhm.
Example C63_gaussian_example : gaussian [3]%Z (Some (Same 1)) None None [1]%Z = Ok (/ sqrt (2 * PI)).
Proof.
  rewrite (C63_gaussian [3%Z] (Some (Same 1)) None None [1%Z] [(3 - 1) / 2] [1]) by (cbn; auto; try (intros x [<-|[]]; lra); try (left; discriminate); repeat constructor; lia).
  cbn. unfold normal. replace (- ((1 - (3 - 1) / 2) * (1 - (3 - 1) / 2)) / (2 * (1 * 1))) with 0 by field. rewrite exp_0. f_equal. rewrite !Rmult_1_r, Rmult_1_l. reflexivity.
Qed.
(** Four quadrants: the phase where exactly one of the indices is in the second half. *)
Theorem C63_phasemask : forall A (one phase : A) ny nx j i, (0 <= j < ny)%Z -> (0 <= i < nx)%Z ->
  phasemask one phase ny nx j i = if xorb (j <? ny / 2)%Z (i <? nx / 2)%Z then phase else one.
Proof.
  intros A one phase ny nx j i Hj Hi. unfold phasemask. replace (0 <=? j)%Z with true by lia. destruct (Z.ltb_spec j (ny / 2)), (Z.ltb_spec i (nx / 2)), (Z.leb_spec (ny / 2) j), (Z.leb_spec (nx / 2) i); try lia; reflexivity.
Qed.
Print Assumptions C63_phasemask.
Example C63_phasemask_example : map (fun i => phasemask 1%Z (-1)%Z 2 4 0 i) [0; 1; 2; 3]%Z = [1; 1; -1; -1]%Z.
Proof. reflexivity. Qed.

(** ** C64 *)
(** A gaussian beam is 1 on its axis, one half at half of its width, decreasing with the
    distance to its axis; the backward beam is its image. *)
Theorem C64_beam : forall fwhm phi, 0 < fwhm ->
  beam_gaussian fwhm false 0 phi = 1 /\ beam_gaussian fwhm false (fwhm / 2) phi = / 2 /\
  (forall t u, 0 <= t < u -> beam_gaussian fwhm false u phi < beam_gaussian fwhm false t phi) /\
  (forall t, beam_gaussian fwhm true t phi = beam_gaussian fwhm false (PI - t) phi) /\
  (forall T, is_RInt (fun t => 2 * PI * t * beam_gaussian fwhm false t phi) 0 T (beam_solid_angle fwhm * (1 - beam_gaussian fwhm false T phi))).
Proof.
  intros f phi Hf. assert (Hs : 0 < beam_sigma f). { unfold beam_sigma. apply Rmult_lt_0_compat; [exact Hf|]. apply Rinv_0_lt_compat, sqrt_lt_R0. assert (0 < ln 2) by (rewrite <- ln_1; apply ln_increasing; lra). lra. }
  unfold beam_gaussian. split; [|split; [|split; [|split]]].
  - replace (- / 2 / (beam_sigma f * beam_sigma f) * (0 * 0)) with 0 by (field; lra). apply exp_0.
  - now apply half_max.
  - intros t u H. apply exp_increasing. assert (0 < / 2 / (beam_sigma f * beam_sigma f)) by (apply Rmult_lt_0_compat; [lra | apply Rinv_0_lt_compat; nra]).
    replace (- / 2 / (beam_sigma f * beam_sigma f)) with (- (/ 2 / (beam_sigma f * beam_sigma f))) by (field; lra). set (w := / 2 / _) in *. clearbody w. assert (t * t < u * u) by nra. nra.
  - reflexivity.
  - intros T. pose proof (beam_integral (beam_sigma f) T Hs) as B. unfold beam_solid_angle. replace (- / 2 / (beam_sigma f * beam_sigma f) * (T * T)) with (- (T * T) / (2 * (beam_sigma f * beam_sigma f))) by (field; lra). exact B.
Qed.
Print Assumptions C64_beam.
Example C64_example : beam_gaussian 2 true PI 0 = 1.
Proof. destruct (C64_beam 2 0 ltac:(lra)) as [A [_ [_ [B _]]]]. rewrite B, <- A. f_equal. ring. Qed.
