(** Property theorems C30 (distribution over processes), C31 (FITS headers) and C32 (files). *)
From Coq Require Import String Ascii QArith Qcanon Lia Permutation.
From Verif Require Import Base BaseFacts PTFacts PTMpiModel PTMpiFacts TemplateModel UnitModel MpiModel MpiSpec MpiFacts MpiHeadFacts MpiFileFacts.
Open Scope nat_scope.

(** ** C30 *)
(** Each (good detector, observation) pair is given to exactly one rank, and each rank has
    a well formed share. *)
Theorem C30_distribute : forall O (mask : list bool) (obs : list O) size nthreads, 1 <= size -> 1 <= nthreads -> NoDup obs -> obs <> [] ->
  (exists i, nth_error mask i = Some false) ->
  (forall rank, share mask obs (distribute mask obs size nthreads rank)) /\
  forall i o, nth_error mask i = Some false -> In o obs -> exactly_one size (fun rank => works (distribute mask obs size nthreads rank) i o).
Proof. intros O mask obs size nthreads S T N H G. split; [intros rank; apply distribute_shares; auto|intros i o; apply distribute_once; auto]. Qed.
Print Assumptions C30_distribute.
Example C30_example : let mask := [false; true; false; false] in
  1 <= 4 /\ 1 <= 2 /\ NoDup [7; 8] /\ nth_error mask 0 = Some false /\
  map (distribute mask [7; 8] 4 2) (seq 0 4) =
    [Ok ([false; true; false; true], [7]); Ok ([true; true; true; false], [7]);
     Ok ([false; true; false; true], [8]); Ok ([true; true; true; false], [8])] /\
  distribute mask [7; 8; 9] 4 2 3 = Ok ([true; true; true; true], []).
Proof. repeat split; try lia; try reflexivity. repeat constructor; cbn; intuition lia. Qed.
(** One process keeps everything, even an empty share. *)
Theorem C30_serial : forall O (mask : list bool) (obs : list O) nthreads rank, distribute mask obs 1 nthreads rank = Ok (mask, obs).
Proof. reflexivity. Qed.
Print Assumptions C30_serial.
(** Without observation or without good detector, several processes raise UnboundLocalError. *)
Lemma no_work nx ny size : nx * ny = 0 -> 2 <= size -> find_blocks (S (nx * ny)) nx ny size (cdivn (nx * ny) size) None = Err UnboundLocalError.
Proof. intros E H. rewrite E. unfold cdivn. rewrite Nat.div_small by lia. reflexivity. Qed.
Theorem C30_empty_refuted : forall O (mask : list bool) (obs : list O) size nthreads rank, 2 <= size -> 1 <= nthreads ->
  obs = [] \/ (forall i, nth_error mask i <> Some false) -> distribute mask obs size nthreads rank = Err UnboundLocalError.
Proof.
  intros O mask obs size nthreads rank S T H. unfold distribute. rewrite (proj2 (Nat.eqb_neq _ _)) by lia.
  rewrite no_work; [reflexivity| |exact S]. destruct H as [->|H]; [reflexivity|].
  destruct (good_positions mask) as [|i l] eqn:E; [|exfalso; apply (H i), good_in; rewrite E; left; reflexivity].
  unfold cdivn. cbn [length]. rewrite (Nat.div_small (0 + nthreads - 1)) by lia. lia.
Qed.
Print Assumptions C30_empty_refuted.
Example C30_empty_example : distribute [true; true] [5] 2 1 0 = Err UnboundLocalError /\ distribute [false] (@nil nat) 2 1 1 = Err UnboundLocalError.
Proof. split; reflexivity. Qed.

(** The grid of an acquisition has one place per process, and each (detector, sampling)
    pair belongs to exactly one process. *)
Theorem C30_grid : forall size ni ns g nd n d s, (1 <= size)%Z -> process_grid size ni ns = Ok g -> (0 <= d < nd)%Z -> (0 <= s < n)%Z ->
  (fst g * snd g = size)%Z /\
  exists rank, (0 <= rank < size)%Z /\
    let holds := fun rank => let c := grid_coords g rank in
      (split_start nd (fst g) (snd c) <= d < split_start nd (fst g) (snd c + 1) /\ split_start n (snd g) (fst c) <= s < split_start n (snd g) (fst c + 1))%Z in
    holds rank /\ forall q, (0 <= q < size)%Z -> holds q -> q = rank.
Proof.
  intros size ni ns g nd n d s S E D N. destruct (process_grid_ok size ni ns g S E) as [A [B C]]. split; [exact A|].
  exact (grid_once size g nd n d s S A B C D N).
Qed.
Print Assumptions C30_grid.
Example C30_grid_example : process_grid 6 (Some 2%Z) None = Ok (2, 3)%Z /\ process_grid 6 None (Some 6%Z) = Ok (1, 6)%Z /\ process_grid 6 None None = Ok (1, 6)%Z.
Proof. repeat split. Qed.
(** Which requests are accepted. *)
Theorem C30_grid_accepts : forall size ni ns, (1 <= size)%Z ->
  ((exists g, process_grid size ni ns = Ok g) <->
   match ni, ns with
   | None, None => True
   | Some i, _ => (1 <= i /\ (i | size))%Z
   | None, Some s => (1 <= s /\ (s | size))%Z
   end).
Proof.
  assert (A : forall (size i a b : Z), (1 <= size)%Z -> (a * b = i * (size / i))%Z ->
    ((exists g, (do g <- (if ((i <? 1) || (size <? i))%Z then Err ValueError else Ok (a, b)); if (fst g * snd g =? size)%Z then Ok g else Err ValueError) = Ok g) <->
     (1 <= i /\ (i | size))%Z)).
  { intros size i a b S E. destruct (Z.ltb_spec i 1) as [C1|C1]; cbn [orb bind fst snd].
    - split; [intros [g H]; discriminate H|lia].
    - destruct (Z.ltb_spec size i) as [C2|C2]; cbn [bind fst snd].
      + split; [intros [g H]; discriminate H|]. intros [_ D]. apply Z.divide_pos_le in D; lia.
      + rewrite E. split.
        * intros [g H]. destruct (Z.eqb_spec (i * (size / i)) size) as [Q|Q]; [|discriminate H]. split; [exact C1|]. exists (size / i)%Z. rewrite Z.mul_comm. symmetry. exact Q.
        * intros [_ [k K]]. rewrite K, Z.div_mul by (intros X; lia). rewrite (Z.mul_comm i k), Z.eqb_refl. eauto. }
  intros size ni ns S. unfold process_grid. destruct ni as [i|], ns as [s|].
  - apply A; [exact S|reflexivity].
  - apply A; [exact S|reflexivity].
  - apply A; [exact S|apply Z.mul_comm].
  - split; [intros _; exact Logic.I|]. intros _. cbn [bind fst snd]. rewrite Z.mul_1_l, Z.eqb_refl. eauto.
Qed.
Print Assumptions C30_grid_accepts.
(** A contradictory number of processes along the samplings is ignored. *)
Theorem C30_grid_ignored_refuted : exists size i s g, process_grid size (Some i) (Some s) = Ok g /\ snd g <> s /\ (i * s <> size)%Z.
Proof. exists 6%Z, 2%Z, 5%Z, (2, 3)%Z. repeat split; discriminate. Qed.
Print Assumptions C30_grid_ignored_refuted.

(** ** C31 *)
(** Each rank has the header of a band of rows; the bands follow each other and cover the
    image; the reference pixel is moved by the first row of the band. *)
Theorem C31_bands : forall h naxis n size, image_header h naxis n -> (0 < size)%Z ->
  exists hs, map_res (scatter_header h size) (iota size) = Ok hs /\ zlen hs = size /\ bands h naxis n hs.
Proof.
  intros h naxis n size H S. exists (map (local h naxis n size) (iota size)). split; [apply scatter_all; auto|].
  split; [rewrite zlen_map; apply zlen_iota; lia|]. apply scatter_bands; auto.
Qed.
Print Assumptions C31_bands.
Theorem C31_round_trip : forall h naxis n size, image_header h naxis n -> (0 < size)%Z ->
  (do hs <- map_res (scatter_header h size) (iota size); gather_headers hs) = Ok (repeat h (Z.to_nat size)).
Proof. intros h naxis n size H S. rewrite (scatter_all h naxis n H). cbn [bind]. apply gather_local; auto. Qed.
Print Assumptions C31_round_trip.
(** Gathering if needed: local headers are gathered, global ones are left alone. *)
Theorem C31_if_needed : forall h naxis n size, image_header h naxis n -> (0 < size)%Z -> (1 <= naxis)%Z -> has_wcs h = Ok true ->
  (do hs <- map_res (scatter_header h size) (iota size); gather_if_needed hs) = Ok (repeat h (Z.to_nat size)) /\
  gather_if_needed (repeat h (Z.to_nat size)) = Ok (repeat h (Z.to_nat size)).
Proof.
  intros h naxis n size H S A W. split; [rewrite (scatter_all h naxis n H); cbn [bind]; apply if_needed_local; auto|].
  apply (if_needed_global h naxis n); auto.
Qed.
Print Assumptions C31_if_needed.

Definition k_ (s : string) := lit s.
Definition image : header :=
  [(k_ "NAXIS", HInt 2); (k_ "NAXIS1", HInt 4); (k_ "NAXIS2", HInt 5); (k_ "CRPIX1", HNum (Q2Qc (5 # 2))); (k_ "CRPIX2", HNum (Q2Qc (3 # 1)));
   (k_ "CRVAL1", HInt 10); (k_ "CRVAL2", HInt 20); (k_ "CTYPE1", HStr (lit "RA---TAN")); (k_ "CTYPE2", HStr (lit "DEC--TAN"))].
Example C31_example : image_header image 2 5 /\ has_wcs image = Ok true /\
  (do g <- scatter_header image 2 1; h_item g (k_ "CRPIX2")) = Ok (HNum (Q2Qc 0)) /\
  (do g <- scatter_header image 2 1; h_item g (k_ "NAXIS2")) = Ok (HInt 2).
Proof.
  split; [split; [reflexivity|]; split; [discriminate|]; split; [reflexivity|]; split; [lia|]; vm_compute; exact Logic.I|].
  split; [reflexivity|]. split; [|reflexivity].
  transitivity (Ok (HNum (Q2Qc (3 # 1) + Q2Qc (inject_Z (-3)))%Qc)); [reflexivity|]. do 2 f_equal; apply Qc_is_canon; reflexivity.
Qed.
(** Headers of different types of axes are accepted: the source checks CRTYPE instead of
    CTYPE. *)
Theorem C31_ctype_refuted : exists h g naxis n hs, image_header h naxis n /\ image_header g naxis n /\
  has_wcs h = Ok true /\ has_wcs g = Ok true /\ h_get h (lit "CTYPE1") <> h_get g (lit "CTYPE1") /\ gather_if_needed [h; g] = Ok hs.
Proof.
  exists image, (h_set image (lit "CTYPE1") (HStr (lit "GLON-TAN"))), 2%Z, 5%Z, [image; h_set image (lit "CTYPE1") (HStr (lit "GLON-TAN"))].
  repeat split; try discriminate; try reflexivity; try lia; try (vm_compute; exact Logic.I).
Qed.
Print Assumptions C31_ctype_refuted.
(** The header read by a rank is the scattered one for images in the RA-DEC gnomonic projection... *)
Theorem C31_read : forall h n size rank, image_header h 2 n ->
  h_get h (lit "CTYPE1") = Some (HStr (lit "RA---TAN")) -> h_get h (lit "CTYPE2") = Some (HStr (lit "DEC--TAN")) ->
  read_header h size rank = scatter_header h size rank.
Proof.
  intros h n size rank H A B. rewrite (scatter_local h 2 n H). destruct H as [H1 [H2 [H3 [H4 H5]]]].
  unfold read_header, h_int, h_item. rewrite H1. cbn [bind]. rewrite H3. cbn [bind]. cbn zeta.
  change (kNAXIS ++ str_int 2) with (lit "NAXIS2") in *. change (kCRPIX ++ str_int 2) with (lit "CRPIX2") in *.
  unfold local, band. change (kNAXIS ++ str_int 2) with (lit "NAXIS2"). change (kCRPIX ++ str_int 2) with (lit "CRPIX2").
  rewrite !h_get_set_other by discriminate. rewrite A, B.
  destruct (h_get h (lit "CRPIX2")) as [[a|q|t]|]; [reflexivity|reflexivity|contradiction|reflexivity].
Qed.
Print Assumptions C31_read.
Example C31_read_example : image_header image 2 5 /\ h_get image (lit "CTYPE1") = Some (HStr (lit "RA---TAN")).
Proof. split; [apply C31_example|reflexivity]. Qed.
(** ... but not for cubes, nor for other projections. *)
Definition cube : header :=
  [(k_ "NAXIS", HInt 3); (k_ "NAXIS1", HInt 4); (k_ "NAXIS2", HInt 5); (k_ "NAXIS3", HInt 6); (k_ "CRPIX1", HInt 2); (k_ "CRPIX2", HInt 3); (k_ "CRPIX3", HInt 1);
   (k_ "CTYPE1", HStr (lit "RA---TAN")); (k_ "CTYPE2", HStr (lit "DEC--TAN"))].
Theorem C31_read_refuted :
  (exists h n g, image_header h 3 n /\ read_header h 2 1 = Ok g /\ h_get g (lit "CRPIX2") <> h_get h (lit "CRPIX2") /\ h_get g (lit "CRPIX3") = h_get h (lit "CRPIX3")) /\
  (exists h n g, image_header h 2 n /\ read_header h 2 1 = Ok g /\ h_get g (lit "NAXIS2") = Some (HInt 2) /\ h_get g (lit "CRPIX2") = h_get h (lit "CRPIX2")).
Proof.
  split.
  - exists cube, 6%Z, (h_set (h_set cube (lit "NAXIS3") (HInt 3)) (lit "CRPIX2") (HInt 0)).
    repeat split; try discriminate; try reflexivity; try lia; vm_compute; exact Logic.I.
  - exists (h_set image (lit "CTYPE1") (HStr (lit "GLON-TAN"))), 5%Z, (h_set (h_set image (lit "CTYPE1") (HStr (lit "GLON-TAN"))) (lit "NAXIS2") (HInt 2)).
    repeat split; try discriminate; try reflexivity; try lia; vm_compute; exact Logic.I.
Qed.
Print Assumptions C31_read_refuted.

(** ** C32 *)
(** The file: the header, the rows in order, the padding, in whatever order the ranks write. *)
Theorem C32_file : forall head unset rows rowbytes datas order, rows <> [] -> Forall (fun n => (0 <= n)%Z) rows ->
  (forall r, (0 <= r < zlen rows)%Z -> check_rows rows r = Ok tt) ->
  Forall2 (fun n d => length d = Z.to_nat n * rowbytes) rows datas ->
  length unset = Z.to_nat (sumZ rows) * rowbytes -> Permutation order (seq 0 (length rows)) ->
  write_file head unset rows rowbytes datas order = head ++ concat datas ++ repeat zero (Z.to_nat (padding (sumZ rows * Z.of_nat rowbytes))).
Proof.
  intros head unset rows rowbytes datas order N P C D U O. apply write_file_ok; auto; [destruct rows; [congruence|cbn; lia]|].
  clear -P. induction P; cbn; [lia|]. unfold sumZ in IHP. lia.
Qed.
Print Assumptions C32_file.
Example C32_example : let a := "a"%char in let b := "b"%char in let rows := [2; 1]%Z in
  Forall (fun n => (0 <= n)%Z) rows /\ (forall r, (0 <= r < zlen rows)%Z -> check_rows rows r = Ok tt) /\
  Forall2 (fun n d => length d = Z.to_nat n * 2) rows [[a; b; a; a]; [b; b]] /\ Permutation [1; 0] (seq 0 2) /\
  firstn 7 (write_file [zero] (repeat zero 6) rows 2 [[a; b; a; a]; [b; b]] [1; 0]) = [zero; a; b; a; a; b; b].
Proof.
  split; [repeat constructor; lia|]. split.
  - intros r R. assert (E : r = 0%Z \/ r = 1%Z) by (change (zlen [2; 1]%Z) with 2%Z in R; lia). destruct E as [-> | ->]; reflexivity.
  - split; [repeat constructor|]. split; [apply perm_swap|vm_compute; reflexivity].
Qed.
(** With a header of complete blocks, the length is a number of complete blocks. *)
Theorem C32_aligned : forall head unset rows rowbytes datas order, rows <> [] -> Forall (fun n => (0 <= n)%Z) rows ->
  (forall r, (0 <= r < zlen rows)%Z -> check_rows rows r = Ok tt) ->
  Forall2 (fun n d => length d = Z.to_nat n * rowbytes) rows datas ->
  length unset = Z.to_nat (sumZ rows) * rowbytes -> Permutation order (seq 0 (length rows)) ->
  (2880 | zlen head)%Z -> (2880 | zlen (write_file head unset rows rowbytes datas order))%Z.
Proof.
  intros head unset rows rowbytes datas order N P C D U O H. rewrite (C32_file _ _ _ _ _ _ N P C D U O).
  assert (S : (0 <= sumZ rows)%Z) by (clear -P; induction P; cbn; [lia|]; unfold sumZ in IHP; lia).
  assert (L : length (concat datas) = Z.to_nat (sumZ rows) * rowbytes) by (apply total_length; auto; destruct rows; [congruence|cbn; lia]).
  rewrite !zlen_app, zlen_repeat. apply Z.divide_add_r; [exact H|]. unfold zlen at 1. rewrite L, Nat2Z.inj_mul, Z2Nat.id by exact S.
  destruct (padding_mod (sumZ rows * Z.of_nat rowbytes)) as [E [B _]]. rewrite Z2Nat.id by lia. apply Z.mod_divide; [lia|exact E].
Qed.
Print Assumptions C32_aligned.
Example C32_aligned_example : (2880 | zlen (repeat zero 2880))%Z.
Proof. rewrite zlen_repeat. exists 1%Z. reflexivity. Qed.
(** The padding is minimal unless the data fills its last block, when a block of padding is
    written. *)
Theorem C32_padding_partial : forall x, (0 <= x)%Z -> (x mod 2880 <> 0)%Z ->
  ((x + padding x) mod 2880 = 0 /\ forall p, 0 <= p -> (x + p) mod 2880 = 0 -> padding x <= p)%Z.
Proof.
  intros x X N. split; [apply padding_mod|]. intros p P E. unfold padding, BLOCK_SIZE. lia.
Qed.
Print Assumptions C32_padding_partial.
Example C32_padding_example : (2881 mod 2880 <> 0 /\ padding 2881 = 2879)%Z.
Proof. split; [discriminate|reflexivity]. Qed.
Theorem C32_padding_refuted : forall x, (0 <= x)%Z -> (x mod 2880 = 0)%Z -> (padding x = 2880 /\ (x + 0) mod 2880 = 0)%Z.
Proof. intros x X E. unfold padding, BLOCK_SIZE. rewrite E, Z.add_0_r. split; [reflexivity|exact E]. Qed.
Print Assumptions C32_padding_refuted.
Example C32_padding_refuted_example : (5760 mod 2880 = 0 /\ padding 5760 = 2880)%Z.
Proof. split; reflexivity. Qed.
(** The rows are accepted by all ranks exactly when they are the ones of the split; but
    other rows are not refused by all ranks, and the others wait. *)
Theorem C32_rows : forall rows, rows <> [] ->
  ((forall r, (0 <= r < zlen rows)%Z -> check_rows rows r = Ok tt) <-> rows = split_counts (sumZ rows) (zlen rows)).
Proof. intros rows N. apply check_rows_counts. destruct rows; [congruence|cbn; lia]. Qed.
Print Assumptions C32_rows.
Example C32_rows_example : [2; 2; 1]%Z = split_counts (sumZ [2; 2; 1]%Z) (zlen [2; 2; 1]%Z).
Proof. reflexivity. Qed.
Theorem C32_rows_refuted : exists rows, check_rows rows 0 <> Ok tt /\ check_rows rows 1 = Ok tt /\ check_rows rows 2 <> Ok tt.
Proof. exists [1; 1; 2]%Z. repeat split; discriminate. Qed.
Print Assumptions C32_rows_refuted.
(** The file is opened by the ranks of its communicator exactly when there are as many rows
    as ranks. *)
Theorem C32_open_partial : forall nglobal size, (0 <= nglobal)%Z -> (1 <= size)%Z -> (opening nglobal size = members nglobal size <-> (size <= nglobal)%Z).
Proof.
  intros n size N S. unfold opening, members. split.
  - intros E. apply (f_equal zlen) in E. rewrite !zlen_iota in E by lia. lia.
  - intros H. rewrite Z.min_l by lia. reflexivity.
Qed.
Print Assumptions C32_open_partial.
Theorem C32_open_refuted : exists nglobal size rank, In rank (members nglobal size) /\ ~ In rank (opening nglobal size).
Proof. exists 1%Z, 2%Z, 1%Z. split; [vm_compute; auto|]. vm_compute. intuition discriminate. Qed.
Print Assumptions C32_open_refuted.

(** Reading gives consecutive parts of the data. *)
Theorem C32_read : forall A (data : list A) size, (0 < size)%Z ->
  concat (map (read_rows data size) (iota size)) = data /\ map zlen (map (read_rows data size) (iota size)) = split_counts (zlen data) size.
Proof. intros A data size S. rewrite read_pieces by exact S. split; [apply concat_pieces, S|apply zlen_pieces, S]. Qed.
Print Assumptions C32_read.
Example C32_read_example : map (read_rows [1; 2; 3; 4; 5] 2) (iota 2) = [[1; 2; 3]; [4; 5]].
Proof. reflexivity. Qed.
(** The first unit with data is found when the units before it have no axis ... *)
Theorem C32_first_unit_partial : forall hdus k n, (forall j, j < k -> exists b, nth_error hdus j = Some (0%Z, b)) -> n <> 0%Z -> nth_error hdus k = Some (n, true) ->
  first_hdu (S k) hdus 0 = Ok k.
Proof. intros hdus k n H N E. apply (first_hdu_ok hdus 0 k); [intros j J; apply H; lia|lia|eauto|lia]. Qed.
Print Assumptions C32_first_unit_partial.
Example C32_first_unit_example : first_hdu 3 [(0, false); (0, true); (2, true)]%Z 0 = Ok 2.
Proof. reflexivity. Qed.
(** ... but the search does not end on a unit with axes and without data. *)
Theorem C32_first_unit_refuted : exists hdus, nth_error hdus 1 = Some (2%Z, true) /\ forall fuel, first_hdu fuel hdus 0 = Err RuntimeError.
Proof. exists [(2, false); (2, true)]%Z. split; [reflexivity|]. apply (first_hdu_loops _ 0 2%Z); [discriminate|reflexivity]. Qed.
Print Assumptions C32_first_unit_refuted.
