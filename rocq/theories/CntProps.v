(** C119: numbers of samples and of pixels that do not fit in 32 bits. *)
From Coq Require Import Lia.
From Verif Require Import Base BaseFacts SparseModel SparseSpec PmModel CntModel.
Open Scope Z_scope.

Lemma int4_small z : - 2 ^ 31 <= z < 2 ^ 31 -> int4 z = z.
Proof. intros H. unfold int4. rewrite Z.mod_small by lia. lia. Qed.

Lemma counted_all {A} (m : list A) : zlen m < 2 ^ 31 -> counted m = m.
Proof.
  intros H. unfold counted. rewrite int4_small by (unfold zlen in *; lia). unfold zlen. rewrite Nat2Z.id. apply firstn_all.
Qed.

(** What is visited in general: the first n mod 2^32 samples if that is less than 2^31, or none. *)
Lemma counted_spec {A} (m : list A) :
  counted m = if zlen m mod 2 ^ 32 <? 2 ^ 31 then firstn (Z.to_nat (zlen m mod 2 ^ 32)) m else [].
Proof.
  unfold counted, int4. destruct (Z.ltb_spec (zlen m mod 2 ^ 32) (2 ^ 31)) as [H|H].
  - replace ((zlen m + 2 ^ 31) mod 2 ^ 32 - 2 ^ 31) with (zlen m mod 2 ^ 32); [reflexivity|].
    rewrite Z.add_mod by lia. rewrite (Z.mod_small (2 ^ 31) (2 ^ 32)) by lia.
    pose proof (Z.mod_pos_bound (zlen m) (2 ^ 32)). rewrite (Z.mod_small (_ + _)) by lia. lia.
  - replace (Z.to_nat ((zlen m + 2 ^ 31) mod 2 ^ 32 - 2 ^ 31)) with 0%nat; [reflexivity|].
    rewrite Z.add_mod by lia. rewrite (Z.mod_small (2 ^ 31) (2 ^ 32)) by lia.
    pose proof (Z.mod_pos_bound (zlen m) (2 ^ 32)).
    rewrite <- (Z.mod_unique (zlen m mod 2 ^ 32 + 2 ^ 31) (2 ^ 32) 1 (zlen m mod 2 ^ 32 - 2 ^ 31)) by lia. lia.
Qed.

(** Fewer than 2^31 samples: the kernels are those of C37 and C56. *)
Theorem C119_fits : forall K (o : ops K) npps (m : list (list (Z * K))) map_ timeline npixels mask,
  zlen m < 2 ^ 31 -> length timeline = length m ->
  direct4 o npps m map_ timeline = fdirect o npps m map_ timeline /\
  transpose4_events o npps m timeline = ftranspose_events o npps m timeline /\
  ptp4_events o npixels m = ptp_events o npixels m /\
  back4_events o m timeline mask = back_map_events o m timeline mask /\
  back4_weight_events m timeline mask = back_weight_events m timeline mask.
Proof.
  intros K o npps m map_ timeline npixels mask H L.
  unfold direct4, transpose4_events, ptp4_events, back4_events, back4_weight_events. rewrite counted_all by exact H. rewrite <- L.
  rewrite firstn_all, skipn_all. repeat split. destruct (fdirect o npps m map_ timeline); cbn; [rewrite app_nil_r|]; reflexivity.
Qed.
Print Assumptions C119_fits.

Example C119_fits_example :
  direct4 z_ops 2 [[(1, 5); (0, 1)]; [(0, 7); (-1, 0)]] [10; 20] [0; 0] = Ok [110; 70] /\ zlen [[(1, 5); (0, 1)]; [(0, 7); (-1, 0)]] < 2 ^ 31.
Proof. split; reflexivity. Qed.

(** From 2^31 to 2^32 - 1 samples: nothing is done. The projection is what was in the timeline,
    the back projection adds nothing. *)
Theorem C119_sizes_refuted : forall K (o : ops K) npps (m : list (list (Z * K))) map_ timeline npixels mask,
  2 ^ 31 <= zlen m < 2 ^ 32 ->
  direct4 o npps m map_ timeline = Ok timeline /\ transpose4_events o npps m timeline = [] /\
  ptp4_events o npixels m = [] /\ back4_events o m timeline mask = [] /\ back4_weight_events m timeline mask = [].
Proof.
  intros K o npps m map_ timeline npixels mask H.
  assert (C : counted m = []).
  { rewrite counted_spec. rewrite Z.mod_small by lia. destruct (Z.ltb_spec (zlen m) (2 ^ 31)); [lia|reflexivity]. }
  unfold direct4, transpose4_events, ptp4_events, back4_events, back4_weight_events. rewrite C. cbn [length firstn skipn].
  split; [|split; [|split; [reflexivity|]]].
  - unfold fdirect. destruct (npps =? 1); reflexivity.
  - unfold ftranspose_events. destruct (npps =? 1); reflexivity.
  - unfold back_map_events, back_weight_events, unmasked_samples. destruct mask; split; reflexivity.
Qed.
Print Assumptions C119_sizes_refuted.

(** From 2^32 on, the first samples only. *)
Theorem C119_first_refuted : forall K (o : ops K) npps (m : list (list (Z * K))) timeline k,
  zlen m = 2 ^ 32 + Z.of_nat k -> Z.of_nat k < 2 ^ 31 ->
  transpose4_events o npps m timeline = ftranspose_events o npps (firstn k m) (firstn k timeline).
Proof.
  intros K o npps m timeline k H Hk. unfold transpose4_events.
  assert (C : counted m = firstn k m).
  { rewrite counted_spec, H. rewrite <- (Z.mod_unique (2 ^ 32 + Z.of_nat k) (2 ^ 32) 1 (Z.of_nat k)) by lia.
    destruct (Z.ltb_spec (Z.of_nat k) (2 ^ 31)); [|lia]. rewrite Nat2Z.id. reflexivity. }
  rewrite C. f_equal. rewrite firstn_length, Nat.min_l by (unfold zlen in H; lia). reflexivity.
Qed.
Print Assumptions C119_first_refuted.

(** There are such matrices: a projection that should be twice the map is not written. *)
Theorem C119_witness_refuted : exists (m : list (list (Z * Z))) timeline,
  length timeline = length m /\ direct4 z_ops 1 m [21] timeline = Ok timeline /\
  fdirect z_ops 1 m [21] timeline = Ok (repeat 42 (length m)) /\ repeat 42 (length m) <> timeline.
Proof.
  set (n := Z.to_nat (2 ^ 31)). assert (N : Z.of_nat n = 2 ^ 31) by (unfold n; rewrite Z2Nat.id by lia; reflexivity). clearbody n.
  exists (repeat [(0, 2)] n), (repeat 0 n).
  rewrite !repeat_length. split; [reflexivity|]. split; [|split].
  - apply (C119_sizes_refuted Z z_ops 1 (repeat [(0, 2)] n) [21] (repeat 0 n) 1 None). unfold zlen. rewrite repeat_length. lia.
  - unfold fdirect, first_column. cbn [Z.eqb Pos.eqb]. clear N. induction n as [|n IH]; [reflexivity|]. cbn in *. rewrite IH. reflexivity.
  - destruct n as [|n]; [cbn in N; lia|]. cbn. intros E. inversion E.
Qed.
Print Assumptions C119_witness_refuted.

(** ** The index of a pixel *)
Theorem C119_index : forall nx ny ix iy, 0 <= ix < nx -> 0 <= iy < ny -> nx * ny <= 2 ^ 31 -> index4 nx ix iy = ix + iy * nx.
Proof.
  intros nx ny ix iy X Y H. assert (B : 0 <= iy * nx <= (ny - 1) * nx) by nia.
  unfold index4. rewrite (int4_small (iy * nx)) by nia. apply int4_small. nia.
Qed.
Print Assumptions C119_index.

Example C119_index_example : index4 65536 65535 32767 = 2 ^ 31 - 1 /\ 65536 * 32768 <= 2 ^ 31.
Proof. split; [reflexivity|lia]. Qed.

(** Larger maps always have a pixel with a negative index. *)
Theorem C119_index_refuted : forall nx ny, 0 < nx < 2 ^ 31 -> 0 < ny < 2 ^ 31 -> 2 ^ 31 < nx * ny ->
  exists ix iy, 0 <= ix < nx /\ 0 <= iy < ny /\ index4 nx ix iy = - 2 ^ 31.
Proof.
  intros nx ny X Y H. exists (2 ^ 31 mod nx), (2 ^ 31 / nx).
  pose proof (Z.div_mod (2 ^ 31) nx ltac:(lia)) as D. pose proof (Z.mod_pos_bound (2 ^ 31) nx ltac:(lia)) as M.
  set (q := 2 ^ 31 / nx) in *. set (r := 2 ^ 31 mod nx) in *. clearbody q r.
  split; [exact M|]. split; [nia|]. unfold index4.
  assert (Q : q * nx = 2 ^ 31 - r) by lia. rewrite Q. unfold int4.
  destruct (Z.eq_dec r 0) as [->|R]; [reflexivity|].
  rewrite (Z.mod_small (2 ^ 31 - r + 2 ^ 31)) by lia.
  replace (r + (2 ^ 31 - r + 2 ^ 31 - 2 ^ 31) + 2 ^ 31) with (1 * 2 ^ 32) by lia. rewrite Z.mod_mul by lia. reflexivity.
Qed.
Print Assumptions C119_index_refuted.
