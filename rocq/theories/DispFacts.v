(** Percentiles and clipped images. *)
From Coq Require Import Reals ZArith Bool String Lra Lia Permutation Sorted List.
From Verif Require Import Base BaseFacts DispModel DispSpec.
Import ListNotations.
Open Scope R_scope.

Lemma insert_perm x l : Permutation (insert_r x l) (x :: l).
Proof. induction l as [|y l IH]; cbn; [reflexivity|]. destruct (Rle_dec x y); [reflexivity|]. rewrite IH. apply perm_swap. Qed.
Lemma sort_perm l : Permutation (sort_r l) l.
Proof. induction l as [|x l IH]; cbn; [reflexivity|]. rewrite insert_perm. now apply perm_skip. Qed.
Lemma insert_sorted x l : Sorted Rle l -> Sorted Rle (insert_r x l).
Proof.
  induction l as [|y l IH]; intros H; cbn [insert_r]; [repeat constructor|]. destruct (Rle_dec x y) as [L|L]; [apply Sorted_cons; [exact H | apply HdRel_cons, L]|].
  apply Sorted_inv in H as [H1 H2]. apply Sorted_cons; [apply IH, H1|]. destruct l as [|z l]; cbn [insert_r]; [apply HdRel_cons; lra|]. destruct (Rle_dec x z); apply HdRel_cons; [lra | now apply HdRel_inv in H2].
Qed.
Lemma sort_sorted l : Sorted Rle (sort_r l).
Proof. induction l as [|x l IH]; cbn; [constructor | now apply insert_sorted]. Qed.
Lemma sorted_nth l : Sorted Rle l -> forall i j, (i <= j < length l)%nat -> nth i l 0 <= nth j l 0.
Proof.
  intros S. apply Sorted_StronglySorted in S; [|intros a b c; apply Rle_trans]. induction S as [|x l S IH H]; cbn; [lia|]. intros [|i] [|j] Hij; try lia; [lra | | apply IH; lia].
  rewrite Forall_forall in H. apply H, nth_In. lia.
Qed.
Lemma count_perm f dec l l' : Permutation l l' -> count f dec l = count f dec l'.
Proof. unfold count. induction 1; cbn; try (destruct (dec x); cbn); try (destruct (dec y); cbn); congruence. Qed.
Lemma count_app f dec l l' : count f dec (l ++ l') = (count f dec l + count f dec l')%nat.
Proof. unfold count. now rewrite filter_app, app_length. Qed.
Lemma count_none f dec l : (forall x, In x l -> ~ f x) -> count f dec l = 0%nat.
Proof. unfold count. induction l as [|x l IH]; intros H; [reflexivity|]. cbn. destruct (dec x) as [h|h]; [exfalso; exact (H x (or_introl eq_refl) h)|]. apply IH. intros y Hy. apply H. now right. Qed.
Lemma count_le f dec l : (count f dec l <= length l)%nat.
Proof. unfold count. induction l as [|x l IH]; cbn; [lia|]. destruct (dec x); cbn; lia. Qed.
Lemma nth_skip {A} (d : A) m l k : nth k (skipn m l) d = nth (m + k) l d.
Proof. revert l. induction m as [|m IH]; intros [|x l]; cbn; try reflexivity; [now destruct k | apply IH]. Qed.
Lemma nth_first {A} (d : A) m l k : (k < m)%nat -> nth k (firstn m l) d = nth k l d.
Proof. revert l k. induction m as [|m IH]; intros [|x l] [|k] H; cbn; try reflexivity; try lia. apply IH. lia. Qed.
Lemma count_below_le s l m : (forall k, (m <= k < length l)%nat -> s <= nth k l 0) -> (count_below s l <= m)%nat.
Proof.
  intros H. rewrite <- (firstn_skipn m l). unfold count_below. rewrite count_app, (count_none _ _ (skipn m l)).
  - pose proof (count_le (fun x => x < s) (fun x => Rlt_dec x s) (firstn m l)). pose proof (firstn_le_length m l). lia.
  - intros x Hx. apply (In_nth _ _ 0) in Hx as (k & Hk & <-). rewrite skipn_length in Hk. rewrite nth_skip. specialize (H (m + k)%nat ltac:(lia)). lra.
Qed.
Lemma count_above_le s l m : (forall k, (k < m)%nat -> (k < length l)%nat -> nth k l 0 <= s) -> (count_above s l <= length l - m)%nat.
Proof.
  intros H. rewrite <- (firstn_skipn m l) at 1. unfold count_above. rewrite count_app, (count_none _ _ (firstn m l)).
  - pose proof (count_le (fun x => s < x) (fun x => Rlt_dec s x) (skipn m l)) as C. rewrite skipn_length in C. lia.
  - intros x Hx. apply (In_nth _ _ 0) in Hx as (k & Hk & <-). rewrite firstn_length in Hk. rewrite nth_first by lia. specialize (H k ltac:(lia) ltac:(lia)). lra.
Qed.

(** The score is on the line between two neighbours of the sorted list. *)
Definition between (l : list R) (q : R) : R := let i := Z.to_nat (Int_part q) in nth i l 0 + (q - INR i) * (nth (S i) l 0 - nth i l 0).
Lemma score_between a per : a <> [] -> 0 <= per <= 100 -> scoreatpercentile a per = Ok (Some (between (sort_r a) (per / 100 * (INR (length a) - 1)))).
Proof.
  intros N P. unfold scoreatpercentile. destruct a as [|x a]; [congruence|]. set (b := x :: a). destruct (Rlt_dec per 0); [lra|]. destruct (Rlt_dec 100 per); [lra|].
  rewrite (Permutation_length (sort_perm b)). set (q := per / 100 * (INR (length b) - 1)).
  assert (B1 : 1 <= INR (length b)) by (unfold b; cbn [length]; rewrite S_INR; pose proof (pos_INR (length a)); lra).
  assert (Q : 0 <= q) by (unfold q; apply Rmult_le_pos; [lra | lra]). destruct (base_Int_part q) as [I1 I2].
  assert (I0 : (0 <= Int_part q)%Z) by (apply Z.lt_succ_r, lt_IZR; rewrite succ_IZR; lra).
  assert (IE : INR (Z.to_nat (Int_part q)) = IZR (Int_part q)) by (rewrite INR_IZR_INZ, Z2Nat.id by exact I0; reflexivity).
  unfold between. rewrite IE. destruct (Req_EM_T q (IZR (Int_part q))) as [E|E].
  - do 2 f_equal. rewrite <- E. replace (q - q) with 0 by ring. ring.
  - do 2 f_equal. replace (Z.to_nat (Int_part q + 1)) with (S (Z.to_nat (Int_part q))) by lia. rewrite plus_IZR. field. lra.
Qed.
Section Between.
Variables (l : list R) (q : R).
Hypotheses (Sl : Sorted Rle l) (Q0 : 0 <= q) (Q1 : q <= INR (length l) - 1).
Let i := Z.to_nat (Int_part q).
Lemma int_q : INR i <= q < INR i + 1 /\ (i < length l)%nat /\ ((S i < length l)%nat \/ q = INR i).
Proof.
  destruct (base_Int_part q) as [I1 I2]. assert (I0 : (0 <= Int_part q)%Z) by (apply Z.lt_succ_r, lt_IZR; rewrite succ_IZR; lra).
  assert (IE : INR i = IZR (Int_part q)) by (unfold i; rewrite INR_IZR_INZ, Z2Nat.id by exact I0; reflexivity). rewrite IE. split; [lra|].
  assert (L : (i < length l)%nat) by (apply INR_lt; lra). split; [exact L|]. destruct (Nat.eq_dec (S i) (length l)) as [E|E]; [right | left; lia].
  apply (f_equal INR) in E. rewrite S_INR in E. lra.
Qed.
Lemma between_bounds : nth i l 0 <= between l q /\ ((S i < length l)%nat -> between l q <= nth (S i) l 0) /\ (q = INR i -> between l q = nth i l 0).
Proof.
  destruct int_q as (H & L & D). unfold between. fold i. split; [|split].
  - destruct D as [D|D]; [|rewrite D; lra]. pose proof (sorted_nth l Sl i (S i) ltac:(lia)). assert (0 <= (q - INR i) * (nth (S i) l 0 - nth i l 0)) by (apply Rmult_le_pos; lra). lra.
  - intros D'. pose proof (sorted_nth l Sl i (S i) ltac:(lia)). assert (0 <= (INR i + 1 - q) * (nth (S i) l 0 - nth i l 0)) by (apply Rmult_le_pos; lra). lra.
  - intros E. rewrite E. ring.
Qed.
Lemma below_between : INR (count_below (between l q) l) < q + 1.
Proof.
  destruct int_q as (H & L & D). destruct between_bounds as (B1 & B2 & B3). destruct (Req_EM_T q (INR i)) as [E|E].
  - assert (C : (count_below (between l q) l <= i)%nat) by (apply count_below_le; intros k Hk; rewrite (B3 E); apply sorted_nth; [exact Sl | exact Hk]). apply le_INR in C. lra.
  - destruct D as [D|D]; [|contradiction]. assert (C : (count_below (between l q) l <= S i)%nat) by (apply count_below_le; intros k Hk; apply Rle_trans with (1 := B2 D), sorted_nth; [exact Sl | exact Hk]). apply le_INR in C. rewrite S_INR in C. lra.
Qed.
Lemma above_between : INR (count_above (between l q) l) < INR (length l) - q.
Proof.
  destruct int_q as (H & L & D). destruct between_bounds as (B1 & B2 & B3).
  assert (C : (count_above (between l q) l <= length l - S i)%nat) by (apply count_above_le; intros k Hk _; apply Rle_trans with (2 := B1), sorted_nth; [exact Sl | lia]).
  apply le_INR in C. rewrite minus_INR, S_INR in C by lia. lra.
Qed.
End Between.
Lemma between_mono l q q' : Sorted Rle l -> 0 <= q -> q <= q' -> q' <= INR (length l) - 1 -> between l q <= between l q'.
Proof.
  intros S0 Q0 Qq Q1. destruct (int_q l q Q0 ltac:(lra)) as (H & L & D). destruct (int_q l q' ltac:(lra) Q1) as (H' & L' & D').
  destruct (between_bounds l q S0 Q0 ltac:(lra)) as (B1 & B2 & B3). destruct (between_bounds l q' S0 ltac:(lra) Q1) as (B1' & B2' & B3').
  set (i := Z.to_nat (Int_part q)) in *. set (j := Z.to_nat (Int_part q')) in *.
  assert (IJ : (i <= j)%nat). { destruct (le_lt_dec i j) as [K|K]; [exact K|]. exfalso. apply Nat.le_succ_l in K. apply le_INR in K. rewrite S_INR in K. lra. }
  destruct (Nat.eq_dec i j) as [E|E].
  - unfold between. fold i. fold j. rewrite <- E. destruct (le_lt_dec (length l) (S i)) as [K|K].
    + assert (q' = INR j) by (destruct D'; [lia | assumption]). assert (q = INR i) by (destruct D; [lia | assumption]). rewrite E in *. replace (q' - INR j) with 0 by lra. replace (q - INR j) with 0 by lra. lra.
    + pose proof (sorted_nth l S0 i (S i) ltac:(lia)). assert (0 <= (q' - q) * (nth (S i) l 0 - nth i l 0)) by (apply Rmult_le_pos; lra). lra.
  - apply Rle_trans with (2 := B1'). apply Rle_trans with (1 := B2 ltac:(lia)). apply sorted_nth; [exact S0 | lia].
Qed.

Lemma combine_seq {A B} (da : A) (db : B) a b : length a = length b -> combine a b = map (fun i => (nth i a da, nth i b db)) (seq 0 (length b)).
Proof.
  revert b. induction a as [|x a IH]; intros [|y b] H; cbn in H; try discriminate; [reflexivity|]. cbn [combine length seq map nth]. f_equal.
  rewrite <- seq_shift, map_map. apply IH. congruence.
Qed.
Lemma nth_combine_map {A B C} (f : A * B -> C) (da : A) (db : B) dc a b i : length a = length b -> (i < length b)%nat -> nth i (map f (combine a b)) dc = f (nth i a da, nth i b db).
Proof. intros H L. rewrite (nth_indep _ dc (f (da, db))) by (rewrite map_length, combine_length; lia). rewrite map_nth. f_equal. now apply combine_nth. Qed.
Definition isnone (v : option R) : bool := match v with None => true | Some _ => false end.
Lemma prepare_ok data mask p : (forall m, mask = Some m -> length m = length data) -> 0 <= fst (percentiles p) -> fst (percentiles p) <= snd (percentiles p) -> snd (percentiles p) <= 100 ->
  exists image range, prepare data mask p = Ok (image, range) /\ shows data mask (percentiles p) image range.
Proof.
  intros Hm P0 P1 P2. unfold prepare. change (match p with inl p0 => (p0 / 2, 100 - p0 / 2) | inr pq => pq end) with (percentiles p). destruct (percentiles p) as [a b]. cbn [fst snd] in *.
  change (map (fun v : option R => match v with Some _ => false | None => true end) data) with (map isnone data).
  assert (M : exists m', match mask with None => Ok (map isnone data) | Some m => if Nat.eqb (length m) (length data) then Ok (map (fun b => fst b || snd b) (combine m (map isnone data))) else Err ValueError end = Ok m' /\ length m' = length data /\
     forall i, (i < length data)%nat -> nth i m' true = masked_at mask i || isnone (nth i data None)).
  { destruct mask as [m|].
    - rewrite (Hm m eq_refl), Nat.eqb_refl. eexists. split; [reflexivity|]. specialize (Hm m eq_refl). split; [rewrite map_length, combine_length, map_length; lia|]. intros i Hi. rewrite (nth_combine_map _ false true) by (rewrite map_length; lia). cbn [fst snd masked_at].
      rewrite (nth_indep _ true (isnone None)) by (rewrite map_length; exact Hi). now rewrite map_nth.
    - eexists. split; [reflexivity|]. split; [now rewrite map_length|]. intros i Hi. cbn [masked_at orb]. rewrite (nth_indep _ true (isnone None)) by (rewrite map_length; exact Hi). now rewrite map_nth. }
  destruct M as (m' & E & Lm & Nm). rewrite E. cbn [bind]. clear E.
  assert (V : flat_map (fun e : bool * option R => if fst e then [] else match snd e with Some v => [v] | None => [] end) (combine m' data) = valid_values data mask).
  { rewrite (combine_seq true None) by exact Lm. unfold valid_values. rewrite flat_map_concat_map, map_map, <- flat_map_concat_map. rewrite !flat_map_concat_map. f_equal. apply map_ext_in. intros i Hi. apply in_seq in Hi. cbn [fst snd]. rewrite Nm by lia. unfold valid_value. destruct (masked_at mask i); cbn [orb]; [reflexivity|]. destruct (nth i data None); reflexivity. }
  rewrite V. unfold shows. set (vs := valid_values data mask) in *.
  assert (Img : forall mn mx, let image := map (fun e : bool * option R => if fst e then None else snd e) (combine m' (map (fun v => if below mx v then mx else v) (map (fun v => if below v mn then mn else v) data))) in
     length image = length data /\ forall i, nth i image None = match valid_value data mask i with None => None | Some v => let w := if below (Some v) mn then mn else Some v in if below mx w then mx else w end).
  { intros mn mx. cbv zeta. rewrite map_map. split; [rewrite map_length, combine_length, map_length; lia|]. intros i. destruct (le_lt_dec (length data) i) as [K|K].
    - rewrite nth_overflow by (rewrite map_length, combine_length, map_length; lia). unfold valid_value. destruct (masked_at mask i); [reflexivity|]. now rewrite nth_overflow.
    - rewrite (nth_combine_map _ true ((fun v => if below mx (if below v mn then mn else v) then mx else if below v mn then mn else v) None)) by (rewrite map_length; lia). cbn [fst snd]. rewrite (map_nth (fun v => if below mx (if below v mn then mn else v) then mx else if below v mn then mn else v)).
      rewrite Nm by exact K. unfold valid_value. destruct (masked_at mask i); cbn [orb]; [reflexivity|]. destruct (nth i data None); reflexivity. }
  destruct vs as [|v0 vs'] eqn:Ev.
  - cbn [scoreatpercentile bind]. eexists _, _. split; [reflexivity|]. destruct (Img None None) as [I1 I2]. split; [exact I1|]. split; [reflexivity|]. intros i. rewrite I2. unfold vs in Ev.
    destruct (valid_value data mask i) as [v|] eqn:Evi; [|reflexivity]. exfalso. assert (In v (valid_values data mask)); [|rewrite Ev in H; contradiction].
    unfold valid_values. apply in_flat_map. exists i. split; [|rewrite Evi; now left]. apply in_seq. split; [lia|]. cbn. unfold valid_value in Evi. destruct (masked_at mask i); [discriminate|]. destruct (le_lt_dec (length data) i) as [K|K]; [rewrite nth_overflow in Evi by exact K; discriminate | exact K].
  - rewrite <- Ev in *. assert (Ne : vs <> []) by (rewrite Ev; discriminate). rewrite !score_between by (try exact Ne; lra). cbn [bind].
    assert (L1 : 1 <= INR (length vs)) by (rewrite Ev; cbn [length]; rewrite S_INR; pose proof (pos_INR (length vs')); lra).
    set (n1 := INR (length vs) - 1). assert (N1 : 0 <= n1) by (unfold n1; lra). pose proof (sort_sorted vs) as Ss. assert (Ls : length (sort_r vs) = length vs) by apply (Permutation_length (sort_perm vs)).
    assert (Q1 : 0 <= a / 100 * n1) by (apply Rmult_le_pos; lra). assert (Q2 : a / 100 * n1 <= b / 100 * n1) by (apply Rmult_le_compat_r; lra). assert (Q3 : b / 100 * n1 <= n1) by (rewrite <- (Rmult_1_l n1) at 2; apply Rmult_le_compat_r; lra).
    set (lo := between (sort_r vs) (a / 100 * n1)). set (hi := between (sort_r vs) (b / 100 * n1)). destruct (Img (Some lo) (Some hi)) as [I1 I2].
    eexists _, _. split; [reflexivity|]. split; [exact I1|]. assert (LH : lo <= hi) by (apply between_mono; try assumption; rewrite Ls; exact Q3).
    assert (CB : INR (count_below lo vs) < 1 + a / 100 * n1). { unfold count_below. rewrite <- (count_perm _ _ _ _ (sort_perm vs)). fold (count_below lo (sort_r vs)). rewrite Rplus_comm. apply below_between; try assumption. rewrite Ls. fold n1. lra. }
    assert (CA : INR (count_above hi vs) < 1 + (100 - b) / 100 * n1). { unfold count_above. rewrite <- (count_perm _ _ _ _ (sort_perm vs)). fold (count_above hi (sort_r vs)). apply Rlt_le_trans with (INR (length (sort_r vs)) - b / 100 * n1); [apply above_between; try assumption; [lra | rewrite Ls; exact Q3]|]. rewrite Ls. unfold n1. lra. }
    clearbody lo hi. rewrite Ev in *. exists lo, hi. split; [reflexivity|]. split; [exact LH|]. split; [|split; assumption].
    intros i. rewrite I2. destruct (valid_value data mask i) as [v|]; [|reflexivity]. cbn [option_map below]. unfold within_range, Rmin, Rmax.
    destruct (Rlt_dec v lo); cbn [below]; destruct (Rle_dec lo v); try lra; repeat match goal with |- context [Rlt_dec ?x ?y] => destruct (Rlt_dec x y) | |- context [Rle_dec ?x ?y] => destruct (Rle_dec x y) end; f_equal; lra.
Qed.
