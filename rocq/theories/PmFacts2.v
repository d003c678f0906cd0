(** Lemmas for the computation of pointing matrices. *)
From Coq Require Import Lia.
From Verif Require Import Base BaseFacts SparseModel SparseSpec NumModel NumFacts PmModel PmSpec PmFacts.
Open Scope Z_scope.

Lemma upto_filter a b n : upto (Z.max a 0) (Z.min b (Z.of_nat n - 1)) = map Z.of_nat (filter (fun i => (a <=? Z.of_nat i) && (Z.of_nat i <=? b)) (seq 0 n)).
Proof.
  induction n as [|n IH]; [rewrite upto_nil by lia; reflexivity|].
  rewrite seq_S, filter_app, map_app, <- IH. cbn [plus filter].
  destruct (Z.leb_spec a (Z.of_nat n)); destruct (Z.leb_spec (Z.of_nat n) b); cbn [andb map].
  - rewrite upto_snoc by lia. replace (Z.min b (Z.of_nat (S n) - 1)) with (Z.of_nat n) by lia. replace (Z.min b (Z.of_nat n - 1)) with (Z.of_nat n - 1) by lia. reflexivity.
  - rewrite app_nil_r. f_equal. lia.
  - rewrite !upto_nil by lia. reflexivity.
  - rewrite app_nil_r. f_equal. lia.
Qed.
Lemma filter_flat_map {A B} (p : B -> bool) (f : A -> list B) l : filter p (flat_map f l) = flat_map (fun a => filter p (f a)) l.
Proof. induction l as [|a l IH]; cbn; [reflexivity|]. now rewrite filter_app, IH. Qed.
Lemma filter_map_comm {A B} (p : B -> bool) (f : A -> B) l : filter p (map f l) = map f (filter (fun a => p (f a)) l).
Proof. induction l as [|a l IH]; cbn; [reflexivity|]. destruct (p (f a)); cbn; now rewrite IH. Qed.
Lemma flat_map_filter_ {A B} (p : A -> bool) (f : A -> list B) l : flat_map f (filter p l) = flat_map (fun a => if p a then f a else []) l.
Proof. induction l as [|a l IH]; cbn; [reflexivity|]. destruct (p a); cbn; now rewrite IH. Qed.
Lemma flat_map_map_ {A B C} (f : B -> list C) (g : A -> B) l : flat_map f (map g l) = flat_map (fun a => f (g a)) l.
Proof. induction l as [|a l IH]; cbn; [reflexivity|]. now rewrite IH. Qed.
Lemma filter_filter_ {A} (p q : A -> bool) l : filter p (filter q l) = filter (fun a => q a && p a) l.
Proof. induction l as [|a l IH]; cbn; [reflexivity|]. destruct (q a); cbn; [destruct (p a)|]; now rewrite IH. Qed.
Lemma map_flat_map_ {A B C} (f : B -> C) (g : A -> list B) l : map f (flat_map g l) = flat_map (fun a => map f (g a)) l.
Proof. induction l as [|a l IH]; cbn; [reflexivity|]. now rewrite map_app, IH. Qed.

Lemma roi_pixels_ok r nx ny : roi_pixels r (Z.of_nat nx) (Z.of_nat ny) =
  map (fun p => (Z.of_nat (fst p), Z.of_nat (snd p)))
    (filter (fun p => (fst (fst r) <=? Z.of_nat (fst p)) && (Z.of_nat (fst p) <=? snd (fst r)) && (fst (snd r) <=? Z.of_nat (snd p)) && (Z.of_nat (snd p) <=? snd (snd r)))
      (map_pixels nx ny)).
Proof.
  destruct r as [[x1 x2] [y1 y2]]. unfold roi_pixels, map_pixels. cbn [fst snd]. rewrite !upto_filter.
  rewrite flat_map_map_, flat_map_filter_, filter_flat_map, map_flat_map_. apply flat_map_ext. intros iy.
  rewrite filter_map_comm. cbn [fst snd]. rewrite !map_map. cbn [fst snd].
  destruct ((y1 <=? Z.of_nat iy) && (Z.of_nat iy <=? y2)) eqn:E.
  - f_equal. apply filter_ext. intros ix. rewrite <- !andb_assoc. apply andb_prop in E as [-> ->]. cbn. now rewrite andb_true_r.
  - replace (filter _ (seq 0 nx)) with (@nil nat); [reflexivity|]. symmetry.
    rewrite <- (filter_ext (fun _ => false)); [induction (seq 0 nx); auto|]. intros ix. rewrite <- !andb_assoc. rewrite E. now rewrite !andb_false_r.
Qed.

Section R.
Context {K : Type} (o : ops K) (iszero : K -> bool).
Definition hit_list (nx : Z) (abs : K -> K) (area : Z -> Z -> K) (pixels : list (Z * Z)) : list (Z * K) :=
  map (fun p => (fst p + snd p * nx, abs (area (fst p) (snd p)))) (filter (fun p => negb (iszero (area (fst p) (snd p)))) pixels).

Lemma roi_loop_full nx abs area pixels : forall k row, zlen row < k ->
  roi_loop iszero nx abs area pixels k row = Ok (k + zlen (hit_list nx abs area pixels), row).
Proof.
  unfold hit_list. induction pixels as [|[ix iy] r IH]; intros k row H; cbn [roi_loop filter map fst snd].
  - do 2 f_equal. cbn. lia.
  - cbv zeta. destruct (iszero (area ix iy)); cbn [negb map].
    + now apply IH.
    + replace (k <=? zlen row) with false by lia. cbn [bind]. rewrite IH by lia. rewrite zlen_cons. do 2 f_equal. lia.
Qed.
Lemma roi_loop_ok nx abs area pixels : forall pre post,
  roi_loop iszero nx abs area pixels (zlen pre + 1) (pre ++ post) =
    Ok (zlen pre + 1 + zlen (hit_list nx abs area pixels),
        pre ++ firstn (length post) (hit_list nx abs area pixels) ++ skipn (length (hit_list nx abs area pixels)) post).
Proof.
  induction pixels as [|[ix iy] r IH]; intros pre post.
  - cbn. rewrite firstn_nil. do 2 f_equal. lia.
  - destruct post as [|e post].
    + rewrite roi_loop_full by (rewrite app_nil_r; lia). cbn [length firstn app]. now rewrite skipn_nil.
    + cbn [roi_loop]. cbv zeta. unfold hit_list in *. cbn [filter fst snd]. destruct (iszero (area ix iy)); cbn [negb map].
      * apply IH.
      * rewrite zlen_app, zlen_cons. pose proof (zlen_nonneg post) as Np. pose proof (zlen_nonneg pre) as Npre.
        replace (zlen pre + 1 <=? zlen pre + (1 + zlen post)) with true by lia.
        replace (zlen pre + 1 - 1) with (zlen pre) by lia.
        destruct (get_total (pre ++ e :: post) (zlen pre)) as [e' ->]; [rewrite zlen_app, zlen_cons; lia|]. cbn [bind].
        set (h := (ix + iy * nx, abs (area ix iy))).
        assert (S : set_at (pre ++ e :: post) (zlen pre) h = (pre ++ [h]) ++ post).
        { unfold set_at. replace (zlen pre <? 0) with false by lia. rewrite to_nat_zlen. rewrite <- app_assoc. cbn [app].
          clear. induction pre as [|a pre IH]; cbn; [reflexivity|]. now rewrite IH. }
        rewrite S. specialize (IH (pre ++ [h]) post). rewrite zlen_app in IH. change (zlen [h]) with 1 in IH. rewrite IH.
        rewrite zlen_cons. cbn [length firstn skipn app]. rewrite <- app_assoc. cbn [app]. do 2 f_equal. lia.
Qed.
Lemma roi2row_ok nx ny abs r area row :
  let hs := hit_list nx abs area (roi_pixels r nx ny) in
  roi2row o iszero nx ny abs r area row = Ok (zlen hs, firstn (length row) hs ++ repeat (-1, k0 o) (length row - length hs)).
Proof.
  cbv zeta. unfold roi2row. pose proof (roi_loop_ok nx abs area (roi_pixels r nx ny) [] row) as E. cbn [app] in E. change (zlen [] + 1) with 1 in E.
  rewrite E. cbn [bind fst snd]. set (hs := hit_list nx abs area (roi_pixels r nx ny)). clearbody hs.
  replace (1 + zlen hs - 1) with (zlen hs) by lia. do 2 f_equal. unfold clear_from. replace (Z.to_nat (1 + zlen hs - 1)) with (length hs) by (unfold zlen; lia).
  destruct (Nat.le_gt_cases (length row) (length hs)) as [H|H].
  - rewrite (skipn_all2 row) by lia. rewrite app_nil_r. replace (length row - length hs)%nat with O by lia.
    rewrite skipn_all2 by (rewrite firstn_length; lia). cbn [map repeat]. rewrite firstn_all2 by (rewrite firstn_length; lia). reflexivity.
  - rewrite (firstn_all2 hs) by lia. rewrite firstn_app. rewrite Nat.sub_diag, firstn_O, firstn_all2, app_nil_r by lia. f_equal.
    rewrite skipn_app, skipn_all, Nat.sub_diag. cbn [app skipn]. rewrite <- (skipn_length (length hs) row).
    generalize (skipn (length hs) row). intros l. induction l; cbn; [reflexivity | now f_equal].
Qed.
Lemma hit_list_intersected nx ny abs (r : roi) area :
  hit_list (Z.of_nat nx) abs area (roi_pixels r (Z.of_nat nx) (Z.of_nat ny)) =
  intersected iszero abs (fst (fst r)) (snd (fst r)) (fst (snd r)) (snd (snd r)) area nx ny.
Proof.
  unfold hit_list, intersected. rewrite roi_pixels_ok, filter_map_comm, map_map. cbn [fst snd]. rewrite filter_filter_.
  apply map_ext. intros p. f_equal. lia.
Qed.

Lemma intersected_valid xmin xmax ymin ymax abs area nx ny e : In e (intersected iszero abs xmin xmax ymin ymax area nx ny) -> 0 <= fst e < Z.of_nat (nx * ny).
Proof.
  unfold intersected, map_pixels. rewrite in_map_iff. intros [[x y] [<- H]]. apply filter_In in H as [H _]. apply in_flat_map in H as [y' [H1 H2]].
  apply in_map_iff in H2 as [x' [E H2]]. injection E as -> ->. apply in_seq in H1, H2. cbn [fst snd]. nia.
Qed.

(** All detectors. *)
Lemma roi2pmatrix_ok nx ny abs dets : forall m new out, length m = length dets ->
  let hs d := intersected iszero abs (fst (fst (fst d))) (snd (fst (fst d))) (fst (snd (fst d))) (snd (snd (fst d))) (snd d) nx ny in
  roi2pmatrix o iszero (Z.of_nat nx) (Z.of_nat ny) abs dets m new out =
    Ok (fold_right Z.max new (map (fun d => zlen (hs d)) dets),
        existsb (fun d => roi_out (Z.of_nat nx) (Z.of_nat ny) (fst d)) dets || out,
        map (fun dr => firstn (length (snd dr)) (hs (fst dr)) ++ repeat (-1, k0 o) (length (snd dr) - length (hs (fst dr)))) (combine dets m)).
Proof.
  induction dets as [|[r area] dets IH]; intros [|row m] new out L; try discriminate; cbv zeta in *; [reflexivity|].
  cbn [roi2pmatrix]. rewrite roi2row_ok, hit_list_intersected. cbn [bind fst snd]. rewrite IH by (injection L; auto). cbn [bind].
  cbn [combine map fst snd existsb fold_right]. f_equal. f_equal. f_equal.
  - match goal with |- fold_right Z.max (Z.max _ ?z) ?l = _ => generalize z, l end. intros z l. clear. revert new.
    induction l as [|a l IH]; intros new; cbn; [lia|]. rewrite IH. lia.
  - destruct (roi_out (Z.of_nat nx) (Z.of_nat ny) r); cbn [orb]; rewrite ?orb_true_r; reflexivity.
Qed.

(** ** One pixel *)
Lemma xy_fold_ok nx ny xy : forall out l,
  let el c := let ix := nint_up (fst (fst c)) (snd (fst c)) in let iy := nint_up (fst (snd c)) (snd (snd c)) in
    if (ix <? 0) || (nx - 1 <? ix) || (iy <? 0) || (ny - 1 <? iy) then (-1, k0 o) else (ix + iy * nx, k1 o) in
  fold_left (fun acc c =>
    let '(out, l) := acc in
    let ix := nint_up (fst (fst c)) (snd (fst c)) in let iy := nint_up (fst (snd c)) (snd (snd c)) in
    if (ix <? 0) || (nx - 1 <? ix) || (iy <? 0) || (ny - 1 <? iy) then (true, l ++ [(-1, k0 o)])
    else (out, l ++ [(ix + iy * nx, k1 o)])) xy (out, l) =
  (out || existsb (fun c => let ix := nint_up (fst (fst c)) (snd (fst c)) in let iy := nint_up (fst (snd c)) (snd (snd c)) in
      (ix <? 0) || (nx - 1 <? ix) || (iy <? 0) || (ny - 1 <? iy)) xy, l ++ map el xy).
Proof.
  cbv zeta. induction xy as [|c xy IH]; intros out l; cbn [fold_left existsb map]; [now rewrite orb_false_r, app_nil_r|].
  destruct (_ || _) eqn:E; rewrite IH, <- app_assoc; cbn [app orb]; [now rewrite orb_true_r | reflexivity].
Qed.
End R.
