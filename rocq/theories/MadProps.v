(** C85: observations in the MADMAP1 format. *)
From Coq Require Import String Ascii Sorted Permutation Lia.
From Verif Require Import Base BaseFacts TemplateModel MadModel MadSpec MadFacts.
Open Scope Z_scope.

Section F.
Context {V : Type} (f8 : Z -> V).

(** A filter is read as it was written, whatever follows it in the file. *)
Theorem C85_filter big first last values rest : int64 first -> int64 last -> zlen values <= 2 ^ 63 -> Forall bits64 values ->
  read_one_filter f8 big (filter_file big first last values ++ rest) = Ok (Filter first last (map f8 values)).
Proof.
  intros H1 H2 Hn F. unfold read_one_filter, filter_file.
  replace (fromfile 8 3 _) with [bytes big 8 first; bytes big 8 last; bytes big 8 (zlen values - 1)].
  2:{ symmetry. rewrite <- !app_assoc. rewrite (app_assoc (bytes big 8 last)), (app_assoc (bytes big 8 first)).
      replace (bytes big 8 first ++ bytes big 8 last ++ bytes big 8 (zlen values - 1)) with (concat [bytes big 8 first; bytes big 8 last; bytes big 8 (zlen values - 1)]) by (cbn; now rewrite app_nil_r).
      apply fromfile_concat; [|reflexivity]. repeat constructor; apply bytes_length. }
  cbn [map]. rewrite !sint_int64; try assumption.
  2:{ pose proof (zlen_nonneg values). unfold int64. lia. }
  replace (fromfile 8 (4 + (zlen values - 1)) _) with (bytes big 8 first :: bytes big 8 last :: bytes big 8 (zlen values - 1) :: map (bytes big 8) values).
  2:{ symmetry. rewrite <- !app_assoc.
      replace (bytes big 8 first ++ _) with (concat (bytes big 8 first :: bytes big 8 last :: bytes big 8 (zlen values - 1) :: map (bytes big 8) values) ++ rest) by (cbn [concat]; now rewrite <- !app_assoc).
      apply fromfile_concat; [|rewrite !zlen_cons, zlen_map; lia]. repeat (constructor; [apply bytes_length|]). apply (Forall_bytes big 8 (fun a => a)). }
  cbn [skipn]. rewrite map_map. do 2 f_equal. apply map_ext_in. intros n Hn'. rewrite Forall_forall in F. now rewrite uint_bits64 by auto.
Qed.

(** A filter of a directory: digits of its number, interval, values. *)
Definition path (name digits : text) : text := name ++ "."%char :: digits.
Definition written (big : bool) (name : text) (f : text * (Z * Z * list Z)) : text * list Z :=
  let '(digits, (first, last, values)) := f in (path name digits, filter_file big first last values).
Definition read (f : text * (Z * Z * list Z)) : filter_ (V := V) := let '(_, (first, last, values)) := f in Filter first last (map f8 values).
Definition written_ok (n : nat) (f : text * (Z * Z * list Z)) : Prop :=
  let '(digits, (first, last, values)) := f in
  digits <> [] /\ Forall (fun c => (48 <= nat_of_ascii c <= 57)%nat) digits /\ int64 first /\ int64 last /\ length values = n /\ Forall bits64 values.

(** The filters name.0, name.1, ... are those read, by increasing numbers, whatever the order of
    the directory and the other files, for names without special characters. *)
Theorem C85_filters_partial big name directory fs others n :
  plain name -> ~ In newline name -> Z.of_nat n <= 2 ^ 63 -> fs <> [] -> Forall (written_ok n) fs ->
  StronglySorted (fun a b => decimal (fst a) < decimal (fst b)) fs ->
  Forall (fun o => ~ numbered name (fst o) /\ ~ In newline (fst o)) others ->
  Permutation directory (map (written big name) fs ++ others) ->
  read_filters f8 big name directory = Ok (map read fs).
Proof.
  intros Hp Hnl Hn Hfs F S O P. unfold read_filters. rewrite plain_special by assumption.
  assert (E : sorted (fun f => suffix_number (fst f)) (List.filter (fun f => match_path name (fst f)) directory) = map (written big name) fs).
  { apply sorted_of_perm.
    - rewrite (filter_perm _ _ _ P), filter_app. replace (List.filter _ others) with (@nil (text * list Z)).
      2:{ symmetry. clear P. induction O as [|o os [Ho Ho'] _ IH]; cbn [List.filter]; [reflexivity|]. destruct (match_path name (fst o)) eqn:M; [|assumption]. now apply match_path_spec in M. }
      rewrite app_nil_r. replace (List.filter _ (map _ fs)) with (map (written big name) fs); [reflexivity|]. clear Hfs S P. induction F as [|(digits, ((first, last), values)) fs Hf _ IH]; [reflexivity|].
      destruct Hf as (Hd & Fd & _). cbn [map List.filter written fst]. rewrite (proj2 (match_path_spec name (path name digits) Hp (numbered_newline name _ Hnl (ex_intro _ digits (conj eq_refl (conj Hd Fd)))))).
      + now f_equal.
      + exists digits. now repeat split.
    - clear Hfs P. induction S as [|f fs S IH Hf]; cbn [map]; constructor; [apply IH; now inversion F|].
      inversion F as [|f' fs' Ff Ffs]; subst. rewrite Forall_map. rewrite Forall_forall in Hf, Ffs |- *. intros g Hg. specialize (Hf g Hg). specialize (Ffs g Hg).
      destruct f as (df, ((a1, a2), a3)), g as (dg, ((b1, b2), b3)). destruct Ff as (_ & Ff & _), Ffs as (_ & Fg & _). cbn [written fst] in Hf |- *. unfold path. rewrite !suffix_number_spec by assumption. assumption. }
  rewrite E. destruct fs as [|f fs]; [easy|]. clear S E P Hfs.
  assert (E : map_res (fun f => read_one_filter f8 big (snd f)) (map (written big name) (f :: fs)) = Ok (map read (f :: fs))).
  { revert F. generalize (f :: fs). induction 1 as [|(digits, ((first, last), values)) l Hf Fl IH]; [reflexivity|]. cbn [map map_res]. destruct Hf as (_ & _ & H1 & H2 & H3 & H4). cbn [written snd].
    rewrite <- (app_nil_r (filter_file _ _ _ _)), C85_filter, IH; try assumption; [reflexivity|]. unfold zlen. lia. }
  rewrite E. cbn [map bind]. replace (forallb _ _) with true; [reflexivity|]. symmetry. apply forallb_forall. intros g Hg. apply Nat.eqb_eq.
  assert (L : forall h, In h (map read (f :: fs)) -> length (f_data h) = n).
  { intros h Hh. apply in_map_iff in Hh. destruct Hh as ((digits, ((first, last), values)) & <- & Hh). rewrite Forall_forall in F. apply F in Hh. destruct Hh as (_ & _ & _ & _ & Hh & _). cbn. now rewrite map_length. }
  rewrite (L g Hg), (L (read f)); [reflexivity|now left].
Qed.

End F.

(** ** TOD and pointing matrix *)
Lemma sample_length big npps s : sample_ok npps s -> length (sample_bytes big s) = (8 * (npps + 1))%nat.
Proof.
  intros (_ & H & _). unfold sample_bytes. rewrite app_length, bytes_length, (concat_length_const 8), map_length, H; [lia|].
  rewrite Forall_map. apply Forall_forall. intros e _. now rewrite app_length, !bytes_length.
Qed.
Definition detector_bytes big (d : list sample) : list Z := concat (map (sample_bytes big) d).
Definition block_bytes big (b : list (list sample)) : list Z := concat (map (detector_bytes big) b).
Lemma block_samples big ndet npps n b : block_ok ndet npps n b ->
  block_bytes big b = concat (map (sample_bytes big) (concat b)) /\ length (concat b) = (ndet * n)%nat /\ Forall (sample_ok npps) (concat b).
Proof.
  intros [L F]. split; [|split].
  - unfold block_bytes, detector_bytes. clear. induction b as [|d b IH]; cbn [map concat]; [reflexivity|]. now rewrite map_app, concat_app, IH.
  - rewrite (concat_length_const n), L; [reflexivity|]. eapply Forall_impl; [|exact F]. cbn. tauto.
  - clear L. induction F as [|d b [_ Hd] _ IH]; cbn [concat]; [constructor|]. apply Forall_app. now split.
Qed.
Lemma block_length big ndet npps n b : block_ok ndet npps n b -> length (block_bytes big b) = (ndet * n * (8 * (npps + 1)))%nat.
Proof.
  intros H. destruct (block_samples big ndet npps n b H) as (-> & L & F). rewrite (concat_length_const (8 * (npps + 1))), map_length, L; [reflexivity|].
  rewrite Forall_map. eapply Forall_impl; [|exact F]. intros s. apply sample_length.
Qed.
Lemma chunks_map {A B} (f : A -> B) size n l : chunks size n (map f l) = map (map f) (chunks size n l).
Proof.
  revert l. induction n as [|n IH]; intros l; cbn [chunks]; [reflexivity|]. rewrite map_length. destruct (length l <? size)%nat; [reflexivity|]. cbn [map]. rewrite firstn_map, skipn_map, IH. reflexivity.
Qed.
Lemma read_header big first last npps npixels blocks : int64 first -> int64 last -> int64 npps -> int64 npixels ->
  map (sint big) (fromfile 8 4 (tod_file big first last npps npixels blocks)) = [first; last; npps; npixels] /\
  skipn 32 (tod_file big first last npps npixels blocks) = concat (map (block_bytes big) blocks).
Proof.
  intros H1 H2 H3 H4. unfold tod_file. change (fun b => concat (map (fun d => concat (map (sample_bytes big) d)) b)) with (block_bytes big).
  replace (bytes big 8 first ++ _) with (concat [bytes big 8 first; bytes big 8 last; bytes big 8 npps; bytes big 8 npixels] ++ concat (map (block_bytes big) blocks)) by (cbn [concat]; now rewrite app_nil_r, <- !app_assoc).
  split; [|apply skipn_app_exact; cbn [concat]; now rewrite !app_length, !bytes_length].
  rewrite fromfile_concat by (try reflexivity; repeat constructor; apply bytes_length). cbn [map]. now rewrite !sint_int64 by assumption.
Qed.
Lemma tod_file_length big first last npps npixels ndet blocks ns : Forall2 (block_ok ndet npps) ns blocks ->
  zlen (tod_file big first last (Z.of_nat npps) npixels blocks) = 32 + (Z.of_nat npps + 1) * Z.of_nat ndet * Z.of_nat (list_sum ns) * 8.
Proof.
  intros F. unfold tod_file. change (fun b => concat (map (fun d => concat (map (sample_bytes big) d)) b)) with (block_bytes big). rewrite !zlen_app, !zlen_bytes.
  assert (E : zlen (concat (map (block_bytes big) blocks)) = (Z.of_nat npps + 1) * Z.of_nat ndet * Z.of_nat (list_sum ns) * 8).
  { induction F as [|n b ns blocks Hb _ IH]; [cbn; lia|]. cbn [map concat list_sum fold_right]. change (fold_right Nat.add 0%nat ns) with (list_sum ns). rewrite zlen_app, IH. unfold zlen at 1. rewrite (block_length big ndet npps n b Hb). lia. }
  rewrite E. lia.
Qed.
Lemma blocks_tile ns : forall start, 0 <= start ->
  concat (map (fun b => progression (b_start b) 1 (Z.to_nat (b_n b))) (blocks_of start (map Z.of_nat ns))) = progression start 1 (list_sum ns) /\
  Forall (fun b => b_stop b = b_start b + b_n b) (blocks_of start (map Z.of_nat ns)).
Proof.
  induction ns as [|n ns IH]; intros start Hs; [split; [reflexivity|constructor]|]. cbn [map blocks_of concat b_start b_n list_sum fold_right]. change (fold_right Nat.add 0%nat ns) with (list_sum ns).
  destruct (IH (start + Z.of_nat n)) as [E F]; [lia|]. split; [|constructor; [reflexivity|assumption]]. rewrite E, Nat2Z.id, progression_app. now rewrite Z.mul_1_r.
Qed.

Section I.
Context {V : Type}.
Lemma set_slice_end (done : list V) junk n k v : length v = n -> set_slice (done ++ repeat junk (n + k)) (zlen done) v = (done ++ v) ++ repeat junk k.
Proof.
  intros H. unfold set_slice. rewrite to_nat_zlen, firstn_app_exact, <- app_assoc by reflexivity. f_equal. f_equal. rewrite H, repeat_app, app_assoc, skipn_app_exact; [reflexivity|]. now rewrite app_length, repeat_length.
Qed.
(** The filters of block k are [fss[k]], the first of which gives the number of samples. *)
Definition samples_of (fs : list (filter_ (V := V))) (n : nat) : Prop := exists f r, fs = f :: r /\ f_last f - f_first f + 1 = Z.of_nat n.
Definition nfilters (fss : list (list (filter_ (V := V)))) : list (list (list V)) := map (map f_data) fss.

Lemma init_ok ndet big fss ns mask first last npps npixels blocks :
  (0 < ndet)%nat -> fss <> [] -> Forall (fun fs => length fs = ndet) fss -> Forall2 samples_of fss ns ->
  int64 first -> int64 last -> int64 npps -> int64 npixels -> npixels = zlen (List.filter negb mask) ->
  exists ncorr, init ndet big (concat fss) mask (tod_file big first last npps npixels blocks) =
    Ok (Observation ndet npps npixels ncorr big mask (nfilters fss) (blocks_of 0 (map Z.of_nat ns)) (Z.of_nat (list_sum ns)) (tod_file big first last npps npixels blocks)).
Proof.
  intros Hd Hf L S H1 H2 H3 H4 Hm. destruct fss as [|fs0 fss]; [easy|]. destruct fs0 as [|f0 fs0]; [inversion L; subst; cbn in *; lia|].
  exists (length (f_data f0)). unfold init. destruct (concat ((f0 :: fs0) :: fss)) as [|g gs] eqn:E; [discriminate|]. rewrite <- E. assert (g = f0) as -> by (cbn in E; congruence). clear E gs.
  destruct (Nat.eqb_spec ndet 0); [lia|]. cbv zeta. rewrite (concat_length_const ndet) by assumption.
  rewrite Nat.div_mul, Nat.eqb_refl by lia. cbn [negb]. destruct (read_header big first last npps npixels blocks H1 H2 H3 H4) as [-> _]. cbn [negb].
  rewrite <- Hm, Z.eqb_refl. cbn [negb].
  assert (E : map (fun f => f_last f - f_first f + 1) (every ndet (length ((f0 :: fs0) :: fss) * ndet) (concat ((f0 :: fs0) :: fss))) = map Z.of_nat ns).
  { rewrite (every_concat ndet _ Hd L _) with (d := f0) by nia. rewrite map_map. clear Hf L. generalize dependent ((f0 :: fs0) :: fss). clear - f0. intros l S. induction S as [|x n l ns (f & r & -> & Hn) _ IH]; cbn [map hd]; [reflexivity|]. now f_equal. }
  rewrite E. replace (sumZ (map Z.of_nat ns)) with (Z.of_nat (list_sum ns)).
  2:{ clear. induction ns as [|n ns IH]; [reflexivity|]. cbn [map list_sum fold_right sumZ]. change (fold_right Nat.add 0%nat ns) with (list_sum ns). change (fold_right Z.add 0 (map Z.of_nat ns)) with (sumZ (map Z.of_nat ns)). lia. }
  destruct (Z.ltb_spec (Z.of_nat (list_sum ns)) 0); [lia|]. do 2 f_equal. rewrite concat_map. unfold nfilters.
  rewrite <- (app_nil_r (concat _)), <- (map_length (map f_data) ((f0 :: fs0) :: fss)). apply chunks_concat. rewrite Forall_map. eapply Forall_impl; [|exact L]. intros a. now rewrite map_length.
Qed.
(** With one block, the inverse noise has the filters of its detectors, with one axis more. *)
Theorem C85_invntt_partial ndet big fs n mask first last npps npixels blocks :
  (0 < ndet)%nat -> length fs = ndet -> samples_of fs n ->
  int64 first -> int64 last -> int64 npps -> int64 npixels -> npixels = zlen (List.filter negb mask) ->
  exists o, init ndet big fs mask (tod_file big first last npps npixels blocks) = Ok o /\ invntt o = [(ndet, Z.of_nat n, [map f_data fs])].
Proof.
  intros Hd L S H1 H2 H3 H4 Hm. destruct (init_ok ndet big [fs] [n] mask first last npps npixels blocks Hd) as (ncorr & E); try assumption; [discriminate|now repeat constructor|now repeat constructor|].
  cbn [concat] in E. rewrite app_nil_r in E. eexists. split; [exact E|]. reflexivity.
Qed.
(** The mask has the pixels equal to the missing value, or those that are not zero. *)
Definition same (isnan : V -> bool) (eqb : V -> V -> bool) (v m : V) : Prop := eqb v m = true \/ (isnan v = true /\ isnan m = true).
Theorem C85_mask_partial isnan isinf eqb zero missing pixels i v :
  (forall a b, isnan a = true \/ isnan b = true -> eqb a b = false) ->
  nth_error pixels i = Some v ->
  match missing with
  | None => nth_error (map_mask isnan isinf eqb zero missing pixels) i = Some true <-> eqb v zero = false
  | Some m => isinf m = false -> (nth_error (map_mask isnan isinf eqb zero missing pixels) i = Some true <-> same isnan eqb v m)
  end.
Proof.
  intros Hn Hv. unfold map_mask, same. destruct missing as [m|].
  - intros Hi. rewrite Hi. destruct (isnan m) eqn:Em; rewrite (map_nth_error _ _ _ Hv).
    + rewrite Hn by (now right). split; [intros H; right; split; congruence|intros [H|[H _]]; congruence].
    + split; [intros H; left; congruence|intros [H|[_ H]]; congruence].
  - rewrite (map_nth_error _ _ _ Hv). destruct (eqb v zero); split; intros; cbn in *; congruence.
Qed.
End I.

Section P.
Context {V : Type} (f8 f4 : Z -> V) (trunc : V -> Z) (ofint : Z -> V).
(** What the reader makes of the entry of weight [f4 w] and of pixel [i]. *)
Definition swapped (e : Z * Z) : pm_entry (V := V) := PmEntry (trunc (f4 (fst e))) (ofint (snd e)).
Lemma decode_sample big npps s : sample_ok npps s -> decode_record f8 f4 trunc ofint big npps (sample_bytes big s) = (f8 (signal s), map swapped (entries s)).
Proof.
  intros (H & L & F). unfold decode_record, sample_bytes. rewrite firstn_app_exact, skipn_app_exact, uint_bits64 by (try apply bytes_length; assumption). f_equal.
  replace npps with (length (map (fun e => bytes big 4 (fst e) ++ bytes big 4 (snd e)) (entries s))) by (now rewrite map_length).
  rewrite <- (app_nil_r (concat _)), chunks_concat by (rewrite Forall_map; apply Forall_forall; intros e _; now rewrite app_length, !bytes_length).
  rewrite map_map. apply map_ext_in. intros e He. rewrite Forall_forall in F. destruct (F e He) as [H1 H2]. unfold decode_entry, assign_by_position, swapped. cbn [fe_value fe_index].
  now rewrite firstn_app_exact, skipn_app_exact, uint_bits32, sint_int32 by (try apply bytes_length; assumption).
Qed.
Definition signal_of (s : sample) : V := f8 (signal s).
Definition matrix_of (s : sample) : list (pm_entry (V := V)) := map swapped (entries s).
Lemma block_data big ndet npps n b rest : block_ok ndet npps n b ->
  fromfile (8 * (npps + 1)) (Z.of_nat n * Z.of_nat ndet) (block_bytes big b ++ rest) = map (sample_bytes big) (concat b) /\
  chunks n ndet (map (decode_record f8 f4 trunc ofint big npps) (map (sample_bytes big) (concat b))) = map (map (fun s => (signal_of s, matrix_of s))) b.
Proof.
  intros H. destruct (block_samples big ndet npps n b H) as (-> & L & F). split.
  - apply fromfile_concat; [|unfold zlen; rewrite map_length, L; lia]. rewrite Forall_map. eapply Forall_impl; [|exact F]. intros s. apply sample_length.
  - rewrite map_map, (map_ext_in _ (fun s => (signal_of s, matrix_of s))).
    2:{ intros s Hs. rewrite Forall_forall in F. now rewrite (decode_sample big npps s (F s Hs)). }
    destruct H as [L' F']. rewrite chunks_map. f_equal. rewrite <- (app_nil_r (concat b)), <- L'. apply chunks_concat. eapply Forall_impl; [|exact F']. cbn. tauto.
Qed.

Lemma read_blocks_ok big ndet npps blocks : forall ns, Forall2 (block_ok ndet npps) ns blocks -> forall (done : nat -> list V) start junk rest, (forall d, zlen (done d) = start) ->
  read_blocks f8 f4 trunc ofint big ndet npps (blocks_of start (map Z.of_nat ns)) (concat (map (block_bytes big) blocks) ++ rest)
    (map (fun d => done d ++ repeat junk (list_sum ns)) (seq 0 ndet)) =
  Ok (map (fun d => done d ++ map signal_of (detector blocks d)) (seq 0 ndet), map (map (map matrix_of)) blocks).
Proof.
  induction blocks as [|b blocks IH]; intros ns F done start junk rest Hs; inversion F as [|n b' ns' bs' Hb Hbs]; subst; [reflexivity|].
  cbn [map blocks_of read_blocks b_n b_start concat list_sum fold_right]. change (fold_right Nat.add 0%nat ns') with (list_sum ns'). rewrite <- app_assoc.
  destruct (block_data big ndet npps n b (concat (map (block_bytes big) blocks) ++ rest) Hb) as [E1 E2]. rewrite E1, Nat2Z.id, E2.
  destruct (block_samples big ndet npps n b Hb) as (_ & L & _).
  replace (zlen (map (sample_bytes big) (concat b)) =? Z.of_nat n * Z.of_nat ndet) with true by (symmetry; apply Z.eqb_eq; unfold zlen; rewrite map_length, L; lia).
  destruct (Z.ltb_spec (Z.of_nat n) 0); [lia|]. cbn [negb orb].
  replace (skipn _ (block_bytes big b ++ _)) with (concat (map (block_bytes big) blocks) ++ rest).
  2:{ symmetry. apply skipn_app_exact. rewrite (block_length big ndet npps n b Hb). f_equal. lia. }
  destruct Hb as [L' F'].
  replace (zip_with _ _ _) with (map (fun d => (if (d <? ndet)%nat then done d ++ map signal_of (nth d b []) else done d ++ repeat junk n) ++ repeat junk (list_sum ns')) (seq 0 ndet)).
  2:{ symmetry. transitivity (map (fun d => (done d ++ map signal_of (nth d b [])) ++ repeat junk (list_sum ns')) (seq 0 ndet)).
      2:{ apply map_ext_in. intros d Hd. apply in_seq in Hd. replace (d <? ndet)%nat with true by (symmetry; apply Nat.ltb_lt; lia). reflexivity. }
      rewrite <- L', <- (map_length (map (fun s => (signal_of s, matrix_of s))) b). rewrite (zip_with_seq _ _ _ []). apply map_ext_in. intros d Hd. apply in_seq in Hd. rewrite map_length in Hd.
      change (@nil (V * list pm_entry)) with (map (fun s => (signal_of s, matrix_of s)) []). rewrite map_nth, map_map. cbn [fst]. rewrite <- (Hs d). apply set_slice_end. rewrite map_length.
      rewrite Forall_forall in F'. apply F'. apply nth_In. lia. }
  rewrite (IH ns' Hbs (fun d => if (d <? ndet)%nat then done d ++ map signal_of (nth d b []) else done d ++ repeat junk n) (start + Z.of_nat n) junk rest).
  - cbn [bind fst snd]. do 2 f_equal.
    + apply map_ext_in. intros d Hd. apply in_seq in Hd. replace (d <? ndet)%nat with true by (symmetry; apply Nat.ltb_lt; lia). unfold detector. cbn [map concat]. now rewrite map_app, app_assoc.
    + f_equal. rewrite map_map. apply map_ext. intros l. rewrite map_map. reflexivity.
  - intros d. destruct (Nat.ltb_spec d ndet) as [Hd|Hd]; rewrite zlen_app, Hs, ?zlen_map, ?zlen_repeat; [|reflexivity]. f_equal. unfold zlen. f_equal. rewrite Forall_forall in F'. apply F'. apply nth_In. lia.
Qed.




(** The signal of each detector is read as it was written, block after block; the blocks tile the
    samples.  The entries of the pointing matrix have their two fields exchanged. *)
Theorem C85_tod ndet big fss ns mask first last npps npixels blocks junk :
  (0 < ndet)%nat -> fss <> [] -> Forall (fun fs => length fs = ndet) fss -> Forall2 samples_of fss ns ->
  int64 first -> int64 last -> int64 (Z.of_nat npps) -> int64 npixels -> npixels = zlen (List.filter negb mask) ->
  Forall2 (block_ok ndet npps) ns blocks ->
  exists o matrix, init ndet big (concat fss) mask (tod_file big first last (Z.of_nat npps) npixels blocks) = Ok o /\
    read_tod_pmatrix f8 f4 trunc ofint junk o = Ok (map (fun d => map (fun s => f8 (signal s)) (detector blocks d)) (seq 0 ndet), matrix).
Proof.
  intros Hd Hf L S H1 H2 H3 H4 Hm F. destruct (init_ok ndet big fss ns mask first last (Z.of_nat npps) npixels blocks Hd Hf L S H1 H2 H3 H4 Hm) as (ncorr & E).
  eexists; eexists. split; [exact E|]. unfold read_tod_pmatrix. cbn [o_file o_npps o_ndetectors o_nsamples o_big o_blocks]. rewrite (tod_file_length big first last npps npixels ndet blocks ns F), Z.eqb_refl. cbn [negb].
  destruct (Z.ltb_spec (Z.of_nat npps) 0); [lia|]. destruct (read_header big first last (Z.of_nat npps) npixels blocks H1 H2 H3 H4) as [_ ->]. rewrite !Nat2Z.id, <- (app_nil_r (concat _)).
  replace (repeat (repeat junk (list_sum ns)) ndet) with (map (fun d : nat => [] ++ repeat junk (list_sum ns)) (seq 0 ndet)).
  2:{ clear. cbn [app]. generalize 0%nat. induction ndet as [|n IH]; intros k; cbn; [reflexivity|]. now rewrite IH. }
  rewrite (read_blocks_ok big ndet npps blocks ns F (fun _ => []) 0 junk []) by reflexivity. reflexivity.
Qed.

(** Entry k of sample s of detector d of block b. *)
Theorem C85_matrix_partial ndet big fss ns mask first last npps npixels blocks junk :
  (0 < ndet)%nat -> fss <> [] -> Forall (fun fs => length fs = ndet) fss -> Forall2 samples_of fss ns ->
  int64 first -> int64 last -> int64 (Z.of_nat npps) -> int64 npixels -> npixels = zlen (List.filter negb mask) ->
  Forall2 (block_ok ndet npps) ns blocks ->
  exists o tod matrix, init ndet big (concat fss) mask (tod_file big first last (Z.of_nat npps) npixels blocks) = Ok o /\
    read_tod_pmatrix f8 f4 trunc ofint junk o = Ok (tod, matrix) /\
    matrix = map (map (map (fun s => map (fun e => PmEntry (trunc (f4 (fst e))) (ofint (snd e))) (entries s)))) blocks.
Proof.
  intros Hd Hf L S H1 H2 H3 H4 Hm F. destruct (init_ok ndet big fss ns mask first last (Z.of_nat npps) npixels blocks Hd Hf L S H1 H2 H3 H4 Hm) as (ncorr & E).
  eexists; eexists; eexists. split; [exact E|]. split; [|reflexivity]. unfold read_tod_pmatrix. cbn [o_file o_npps o_ndetectors o_nsamples o_big o_blocks]. rewrite (tod_file_length big first last npps npixels ndet blocks ns F), Z.eqb_refl. cbn [negb].
  destruct (Z.ltb_spec (Z.of_nat npps) 0); [lia|]. destruct (read_header big first last (Z.of_nat npps) npixels blocks H1 H2 H3 H4) as [_ ->]. rewrite !Nat2Z.id, <- (app_nil_r (concat _)).
  replace (repeat (repeat junk (list_sum ns)) ndet) with (map (fun d : nat => [] ++ repeat junk (list_sum ns)) (seq 0 ndet)).
  2:{ clear. cbn [app]. generalize 0%nat. induction ndet as [|n IH]; intros k; cbn; [reflexivity|]. now rewrite IH. }
  rewrite (read_blocks_ok big ndet npps blocks ns F (fun _ => []) 0 junk []) by reflexivity. reflexivity.
Qed.
End P.

Section P.
Context {V : Type} (f8 f4 : Z -> V) (trunc : V -> Z) (ofint : Z -> V).

(** The blocks tile the samples and have the numbers of samples of their filters, which are kept block by block;
    a TOD file with bytes missing or in excess is refused, and a mask that has another number of pixels too. *)
Theorem C85_blocks ndet big fss ns mask first last npps npixels blocks junk :
  (0 < ndet)%nat -> fss <> [] -> Forall (fun fs => length fs = ndet) fss -> Forall2 (samples_of (V := V)) fss ns ->
  int64 first -> int64 last -> int64 npps -> int64 npixels ->
  (npixels <> zlen (List.filter negb mask) -> init ndet big (concat fss) mask (tod_file big first last npps npixels blocks) = Err ValueError) /\
  (npixels = zlen (List.filter negb mask) -> exists o, init ndet big (concat fss) mask (tod_file big first last npps npixels blocks) = Ok o /\
     map b_n (o_blocks o) = map Z.of_nat ns /\ o_nsamples o = Z.of_nat (list_sum ns) /\
     concat (map (fun b => progression (b_start b) 1 (Z.to_nat (b_n b))) (o_blocks o)) = iota (o_nsamples o) /\
     Forall (fun b => b_stop b = b_start b + b_n b) (o_blocks o) /\
     o_filters o = map (map f_data) fss /\
     (zlen (tod_file big first last npps npixels blocks) <> 32 + (npps + 1) * Z.of_nat ndet * Z.of_nat (list_sum ns) * 8 ->
      read_tod_pmatrix f8 f4 trunc ofint junk o = Err ValueError)).
Proof.
  intros Hd Hf L S H1 H2 H3 H4. split.
  - intros Hm. unfold init. destruct (concat fss) as [|g gs] eqn:E.
    { destruct fss as [|fs0 fss]; [easy|]. inversion L; subst. destruct fs0; [cbn in *; lia|discriminate]. }
    rewrite <- E. destruct (Nat.eqb_spec ndet 0); [lia|]. cbv zeta. rewrite (concat_length_const ndet) by assumption. rewrite Nat.div_mul, Nat.eqb_refl by lia. cbn [negb].
    destruct (read_header big first last npps npixels blocks H1 H2 H3 H4) as [-> _]. destruct (Z.eqb_spec npixels (zlen (List.filter negb mask))); [easy|reflexivity].
  - intros Hm. destruct (init_ok ndet big fss ns mask first last npps npixels blocks Hd Hf L S H1 H2 H3 H4 Hm) as (ncorr & E). eexists. split; [exact E|]. cbn [o_blocks o_nsamples o_filters].
    destruct (blocks_tile ns 0) as [T1 T2]; [lia|]. split; [|split; [reflexivity|split; [|split; [exact T2|split; [reflexivity|]]]]].
    + clear. generalize 0. induction ns as [|n ns IH]; intros k; [reflexivity|]. cbn [map blocks_of b_n]. now rewrite IH.
    + rewrite T1. unfold iota. now rewrite Nat2Z.id.
    + intros Hz. unfold read_tod_pmatrix. cbn [o_file o_npps o_ndetectors o_nsamples]. destruct (Z.eqb_spec (zlen (tod_file big first last npps npixels blocks)) (32 + (npps + 1) * Z.of_nat ndet * Z.of_nat (list_sum ns) * 8)); [easy|reflexivity].
Qed.


End P.
Print Assumptions C85_filter.
Print Assumptions C85_filters_partial.
Print Assumptions C85_tod.
Print Assumptions C85_matrix_partial.
Print Assumptions C85_blocks.
Print Assumptions C85_invntt_partial.
Print Assumptions C85_mask_partial.

(** ** Cases: two detectors, two blocks of 2 and 1 samples, two entries by sample, numbers that are their bits. *)
Definition case_blocks : list (list (list sample)) :=
  [ [ [Sample 10 [(3, 7); (1, -1)]; Sample 11 [(3, 8); (2, 4)]]; [Sample 20 [(5, 1); (6, 0)]; Sample 21 [(5, 2); (6, 3)]] ];
    [ [Sample 12 [(3, 9); (1, 1)]]; [Sample 22 [(5, 5); (6, 6)]] ] ].
Definition case_filters : list (list (filter_ (V := Z))) := [[Filter 0 1 [100; 5]; Filter 0 1 [200; 6]]; [Filter 2 2 [101; 7]; Filter 2 2 [201; 8]]].
Definition case_mask : list bool := repeat false 10 ++ [true].
Definition case_file big := tod_file big 0 2 2 10 case_blocks.
Example C85_tod_case : exists o m, init 2 true (concat case_filters) case_mask (case_file true) = Ok o /\
  read_tod_pmatrix (fun n => n) (fun n => n) (fun v => v) (fun n => n) (-77) o = Ok ([[10; 11; 12]; [20; 21; 22]], m).
Proof.
  apply (C85_tod (fun n => n) (fun n => n) (fun v => v) (fun n => n) 2 true case_filters [2; 1]%nat case_mask 0 2 2%nat 10 case_blocks); try (unfold int64; lia); try discriminate; try reflexivity.
  - repeat constructor.
  - repeat constructor; unfold samples_of; eexists; eexists; split; reflexivity.
  - unfold case_blocks, block_ok, sample_ok, bits64, bits32, int32. repeat (constructor; cbn; try lia).
Qed.
Example C85_tod_little : exists o m, init 2 false (concat case_filters) case_mask (case_file false) = Ok o /\ invntt o <> [] /\
  read_tod_pmatrix (fun n => n) (fun n => n) (fun v => v) (fun n => n) (-77) o = Ok ([[10; 11; 12]; [20; 21; 22]], m).
Proof. eexists; eexists. split; [vm_compute; reflexivity|]. split; [discriminate|vm_compute; reflexivity]. Qed.

(** The weights of the entries are taken for the pixels and the pixels for the weights: pixel 7 with the weight 3 is pixel 3 with the weight 7. *)
Theorem C85_matrix_refuted : exists o tod matrix, init 2 true (concat case_filters) case_mask (case_file true) = Ok o /\
  read_tod_pmatrix (fun n => n) (fun n => n) (fun v => v) (fun n => n) (-77) o = Ok (tod, matrix) /\
  nth_error (entries (Sample 10 [(3, 7); (1, -1)])) 0 = Some (3, 7) /\
  hd [] (hd [] (hd [] matrix)) = [PmEntry 3 7; PmEntry 1 (-1)] /\ hd [] (hd [] (hd [] matrix)) <> [PmEntry 7 3; PmEntry (-1) 1].
Proof. eexists; eexists; eexists. split; [vm_compute; reflexivity|]. split; [vm_compute; reflexivity|]. split; [reflexivity|]. split; [reflexivity|discriminate]. Qed.
(** With two blocks, the operators of both receive the filters of both. *)
Theorem C85_invntt_refuted : exists o, init 2 true (concat case_filters) case_mask (case_file true) = Ok o /\
  invntt o = [(2%nat, 2, map (map f_data) case_filters); (2%nat, 1, map (map f_data) case_filters)].
Proof. eexists. split; [vm_compute; reflexivity|]. reflexivity. Qed.
(** The interval of the TOD file and those of the filters after the first of a block are not compared. *)
Theorem C85_intervals_refuted : exists filters o, map f_last filters = [1; 5; 2; 99] /\ map f_last filters <> map f_last (concat case_filters) /\
  init 2 true filters case_mask (tod_file true 1000 2000 2 10 case_blocks) = Ok o /\
  exists m, read_tod_pmatrix (fun n => n) (fun n => n) (fun v => v) (fun n => n) (-77) o = Ok ([[10; 11; 12]; [20; 21; 22]], m).
Proof.
  exists [Filter 0 1 [100; 5]; Filter 0 5 [200; 6]; Filter 2 2 [101; 7]; Filter 40 99 [201; 8]]. eexists. split; [reflexivity|]. split; [discriminate|]. split; [vm_compute; reflexivity|].
  eexists. vm_compute. reflexivity.
Qed.
(** A filter of 2 correlations that is cut after 2 of its 3 values is read without error. *)
Theorem C85_truncated_refuted : let file := filter_file false 0 9 [1; 2; 3] in
  read_one_filter (fun n => n) false file = Ok (Filter 0 9 [1; 2; 3]) /\ read_one_filter (fun n => n) false (firstn 40 file) = Ok (Filter 0 9 [1; 2]).
Proof. split; vm_compute; reflexivity. Qed.
(** The filters a_b.0 and a.b.1 are those of the name a.b. *)
Theorem C85_name_refuted : let directory := [(lit "a_b.0", filter_file false 0 1 [1]); (lit "a.b.1", filter_file false 2 3 [2])] in
  ~ numbered (lit "a.b") (lit "a_b.0") /\ read_filters (fun n => n) false (lit "a.b") directory = Ok [Filter 0 1 [1]; Filter 2 3 [2]].
Proof. split; [intros (d & H & _); discriminate|vm_compute; reflexivity]. Qed.
Example C85_filters_case :
  let directory := [(lit "d/f.10", filter_file true 4 5 [3]); (lit "d/f.x", []); (lit "d/f.2", filter_file true 2 3 [2]); (lit "d/g.0", [])] in
  read_filters (fun n => n) true (lit "d/f") directory = Ok [Filter 2 3 [2]; Filter 4 5 [3]].
Proof.
  intros directory.
  apply (C85_filters_partial (fun n => n) true (lit "d/f") directory [(lit "2", (2, 3, [2])); (lit "10", (4, 5, [3]))] [(lit "d/f.x", []); (lit "d/g.0", [])] 1).
  - unfold plain. rewrite Forall_forall. intros c H. cbn in H. split; [|intros ->; intuition discriminate]. intros X. cbn in X. destruct H as [<-|[<-|[<-|[]]]]; intuition discriminate.
  - intros H. cbn in H. intuition discriminate.
  - lia.
  - discriminate.
  - repeat (constructor; try discriminate; try (cbn; lia)).
  - repeat constructor.
  - repeat constructor; try (intros (d & H & _ & F); try discriminate; injection H as <-; inversion F as [|c l Hc]; subst; cbn in Hc; lia); intros H; cbn in H; intuition discriminate.
  - unfold directory. cbn [map written app]. apply Permutation_sym. apply (Permutation_trans (l' := [(lit "d/f.10", filter_file true 4 5 [3]); (lit "d/f.2", filter_file true 2 3 [2]); (lit "d/f.x", []); (lit "d/g.0", [])])).
    + apply perm_swap.
    + constructor. apply perm_swap.
Qed.
(** With a missing value that is infinite, the pixels of the other infinity are masked too. *)
Inductive float := Num (z : Z) | PlusInf | MinusInf | NaN.
Definition float_eqb (a b : float) : bool := match a, b with Num x, Num y => x =? y | PlusInf, PlusInf | MinusInf, MinusInf => true | _, _ => false end.
Definition float_nan (a : float) : bool := match a with NaN => true | _ => false end.
Definition float_inf (a : float) : bool := match a with PlusInf | MinusInf => true | _ => false end.
Theorem C85_inf_refuted : map_mask float_nan float_inf float_eqb (Num 0) (Some PlusInf) [Num 1; PlusInf; MinusInf] = [false; true; true] /\ ~ same float_nan float_eqb MinusInf PlusInf.
Proof. split; [reflexivity|]. intros [H|[H _]]; discriminate. Qed.
Example C85_mask_case : map_mask float_nan float_inf float_eqb (Num 0) (Some NaN) [Num 1; NaN; Num 0] = [false; true; false] /\
  map_mask float_nan float_inf float_eqb (Num 0) None [Num 1; NaN; Num 0] = [true; true; false].
Proof. split; reflexivity. Qed.
