(** Properties C52, C53, C55: compensated sums, shifts and roundings. *)
From Coq Require Import Lia.
From Verif Require Import Base BaseFacts SparseModel SparseSpec RingFacts MedianSpec SortModel NumModel NumSpec NumFacts.
Open Scope Z_scope.

(** C52.  Whatever the rounding of the running additions (the other operations being
    exact), a compensated sum is the exact sum rounded once. *)
Theorem C52_compensated : forall K (o : ops K) (add : K -> K -> K), ring_laws o ->
  (forall l, rounded_once o add l (fst (sum_kahan o add l))) /\
  (forall l m, length l = length m -> rounded_once o add (unmasked l m) (fst (sum_kahan_mask o add l m))).
Proof. intros K o add RL. split; [apply (sum_kahan_once o RL add) | apply (sum_kahan_mask_ok o RL add)]. Qed.
Print Assumptions C52_compensated.
(** An addition that drops the last digit: the naive sum of ten 4 is lost, not this one. *)
Definition chop (a b : Z) : Z := (a + b) / 10 * 10.
Example C52_example : fst (sum_kahan z_ops chop (1000 :: repeat 4 10)) = 1040 /\ fold_left chop (repeat 4 10) 1000 = 1000 /\
  fst (sum_kahan_mask z_ops chop [7; 1000; 4; 4; 4; 4] [true; false; false; true; false; false]) = 1010.
Proof. repeat split; vm_compute; reflexivity. Qed.

(** The norms and the scalar product. *)
Theorem C52_norms : forall K (o : ops K) (add : K -> K -> K), ring_laws o -> forall (abs pow : K -> K) (ltb : K -> K -> bool) (delta : K) (l r : list K),
  rounded_once o add (map abs l) (fst (norm_l1 o add abs l)) /\
  rounded_once o add (map (fun x => kmul o x x) l) (fst (norm2 o add l)) /\
  rounded_once o add (map (fun x => pow (abs x)) l) (fst (normp o add abs pow l)) /\
  rounded_once o add (map (fun xy => kmul o (fst xy) (snd xy)) (combine l r)) (fst (dot o add l r)) /\
  rounded_once o add (map (fun x => if ltb (abs x) delta then kmul o x x
                                    else kadd o (kmul o (kmul o (kadd o (k1 o) (k1 o)) delta) (abs x)) (kopp o (kmul o delta delta))) l)
    (fst (norm_huber o add abs ltb delta l)).
Proof. intros K o add RL abs pow ltb delta l r. repeat split; apply (sum_kahan_once o RL add). Qed.
Print Assumptions C52_norms.
Example C52_norms_example : fst (norm_huber z_ops Z.add Z.abs Z.ltb 3 [2; -3; 5; -10]) = 4 + (6 * 3 - 9) + (6 * 5 - 9) + (6 * 10 - 9).
Proof. reflexivity. Qed.

(** Sums over several dimensions: the sum of the columns, each rounded once; without
    rounding, the sum of all elements. *)
Theorem C52_dimensions : forall K (o : ops K) (add : K -> K -> K), ring_laws o ->
  (forall cols, exists sums, Forall2 (rounded_once o add) cols sums /\ rounded_once o add sums (fst (sum_kahan_2d o add cols))) /\
  (forall cols, fst (sum_kahan_2d o (kadd o) cols) = exact_sum o (concat cols)) /\
  (forall planes, fst (sum_kahan_3d o (kadd o) planes) = exact_sum o (concat (map (@concat K) planes))).
Proof.
  intros K o add RL. repeat split.
  - intros cols. exists (map (fun c => fst (sum_kahan o add c)) cols). split; [|apply (sum_kahan_once o RL add)].
    induction cols as [|c cols IH]; constructor; [apply (sum_kahan_once o RL add) | exact IH].
  - intros cols. now rewrite (sum_kahan_2d_exact o RL).
  - intros planes. now rewrite (sum_kahan_3d_exact o RL).
Qed.
Print Assumptions C52_dimensions.
Example C52_dimensions_example : fst (sum_kahan_3d z_ops Z.add [[[1; 2]; [3]]; [[]; [4; 5; 6]]]) = 21.
Proof. reflexivity. Qed.

(** C53.  When the number of offsets divides the number of columns, each block of
    consecutive columns is shifted by its offset, also in place. *)
Theorem C53_shift_partial : forall T (zero : T) inplace m (input output : list (list T)) offset,
  0 < zlen offset -> zlen input mod zlen offset = 0 -> length output = length input ->
  Forall (fun c => zlen c = m) input -> Forall (fun c => zlen c = m) output ->
  exists out, shift_fast zero inplace m input output offset = Ok out /\ length out = length input /\
    forall k ci co, nth_error input k = Some ci -> nth_error out k = Some co ->
      exists d, nth_error offset (k / (length input / length offset)) = Some d /\ shifted zero m d ci co.
Proof.
  intros T zero ip m input output offset Ho Hm L Fi Fo.
  destruct (shift_cols_ok zero ip m (zlen input) offset Ho Hm input output 1 ltac:(lia) ltac:(lia) L Fi Fo) as [out [E [L' G]]].
  exists out. split; [exact E|]. split; [exact L'|]. intros k ci co A B. destruct (G k ci co A B) as [d [E' S]].
  exists d. split.
  - unfold aget, get in E'. replace (1 - 1 + Z.of_nat k) with (Z.of_nat k) in E' by lia.
    assert (W : zlen input / zlen offset = Z.of_nat (length input / length offset)) by (unfold zlen; now rewrite Nat2Z.inj_div).
    rewrite W, <- Nat2Z.inj_div in E'. replace (Z.of_nat (k / (length input / length offset)) + 1 - 1) with (Z.of_nat (k / (length input / length offset))) in E' by lia.
    rewrite Nat2Z.id in E'. destruct (_ <? 0); [discriminate|]. destruct (nth_error offset _); [now injection E' as -> | discriminate].
  - apply shifted1_spec; [|exact S]. rewrite Forall_forall in Fi. apply Fi. eapply nth_error_In. exact A.
Qed.
Print Assumptions C53_shift_partial.
Example C53_example : shift_fast 0 true 4 [[1;2;3;4]; [5;6;7;8]; [1;2;3;4]; [5;6;7;8]] [[];[];[];[]] [1; -3] =
  Ok [[0;1;2;3]; [0;5;6;7]; [4;0;0;0]; [8;0;0;0]].
Proof. reflexivity. Qed.

(** Otherwise the offsets are read past their end, or the number of columns is divided
    by zero. *)
Theorem C53_refuted : forall T (zero : T) inplace m (input output : list (list T)) offset,
  length output = length input -> Forall (fun c => zlen c = m) input -> Forall (fun c => zlen c = m) output ->
  (0 < zlen offset < zlen input -> zlen input mod zlen offset <> 0 -> shift_fast zero inplace m input output offset = Err IndexError) /\
  (0 < zlen input < zlen offset -> shift_fast zero inplace m input output offset = Err ZeroDivisionError).
Proof.
  intros T zero ip m input output offset L Fi Fo. split.
  - intros H N. apply shift_cols_bad; auto; lia.
  - intros H. destruct input as [|ci ri]; [cbn in H; lia|]. destruct output as [|co ro]; [discriminate|]. apply shift_cols_small; lia.
Qed.
Print Assumptions C53_refuted.
Example C53_refuted_example : shift_fast 0 false 1 [[1]; [2]; [3]] [[0]; [0]; [0]] [5; 7] = Err IndexError /\
  shift_fast 0 false 1 [[1]; [2]; [3]] [[0]; [0]; [0]] [1; 2; 3; 4] = Err ZeroDivisionError.
Proof. split; reflexivity. Qed.

(** C55.  Roundings to the nearest integer, halves down and halves up. *)
Theorem C55_roundings : forall num den, 0 < den ->
  (forall n, nint_down num den = n <-> den * (2 * n - 1) < 2 * num <= den * (2 * n + 1)) /\
  (forall n, nint_up num den = n <-> den * (2 * n - 1) <= 2 * num < den * (2 * n + 1)).
Proof.
  intros num den H. rewrite nint_down_ok, nint_up_ok by exact H. split; intros n.
  - pose proof (Z.div_mod (- (2 * num - den)) (2 * den) ltac:(lia)) as D. pose proof (Z.mod_pos_bound (- (2 * num - den)) (2 * den) ltac:(lia)) as M.
    set (q := _ / _) in *. set (r := _ mod _) in *. clearbody q r. split; [intros <-; nia|]. intros B. nia.
  - pose proof (Z.div_mod (2 * num + den) (2 * den) ltac:(lia)) as D. pose proof (Z.mod_pos_bound (2 * num + den) (2 * den) ltac:(lia)) as M.
    set (q := _ / _) in *. set (r := _ mod _) in *. clearbody q r. split; [intros <-; nia|]. intros B. nia.
Qed.
Print Assumptions C55_roundings.
Example C55_example : map (fun a => (nint_down a 2, nint_up a 2)) [-3; -2; -1; 0; 1; 2; 3] =
  [(-2, -1); (-1, -1); (-1, 0); (0, 0); (0, 1); (1, 1); (1, 2)].
Proof. reflexivity. Qed.
