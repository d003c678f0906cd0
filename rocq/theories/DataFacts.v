From Coq Require Import Reals Lra Lia Permutation.
From Verif Require Import Base BaseFacts DataModel DataSpec SkyFacts.
Open Scope R_scope.

Lemma Int_part_unique x k : IZR k <= x < IZR k + 1 -> Int_part x = k.
Proof. intros H. unfold Int_part. rewrite <- (tech_up x (k + 1)); [lia | rewrite plus_IZR; lra | rewrite plus_IZR; lra]. Qed.
Lemma Int_part_bounds x : IZR (Int_part x) <= x < IZR (Int_part x) + 1.
Proof. destruct (base_Int_part x). lra. Qed.
Lemma trunc_pos x : 0 <= x -> trunc x = Int_part x /\ (0 <= trunc x)%Z.
Proof.
  intros H. unfold trunc. destruct (Rle_dec 0 x); [|contradiction]. split; [reflexivity|]. pose proof (Int_part_bounds x). apply Z.lt_succ_r, lt_IZR. unfold Z.succ. rewrite plus_IZR. lra.
Qed.
Lemma quotient_bin d bin k : 0 < bin -> 0 <= d -> trunc (d / bin) = k <-> IZR k * bin <= d < (IZR k + 1) * bin.
Proof.
  intros Hb Hd. assert (Q : 0 <= d / bin) by (apply Rmult_le_pos; [exact Hd | apply Rlt_le, Rinv_0_lt_compat, Hb]). destruct (trunc_pos _ Q) as [-> _].
  assert (E : d / bin * bin = d) by (field; lra). split.
  - intros <-. pose proof (Int_part_bounds (d / bin)) as [A B]. apply (Rmult_le_compat_r bin) in A; [|lra]. apply (Rmult_lt_compat_r bin) in B; [|lra]. lra.
  - intros [A B]. apply Int_part_unique. split; apply Rnot_lt_le || apply Rnot_le_lt; intros C.
    + apply (Rmult_lt_compat_r bin) in C; [|lra]. lra.
    + apply (Rmult_le_compat_r bin) in C; [|lra]. lra.
Qed.

Definition accu_ok (nbins : nat) (a : accu) : Prop := length (ax a) = nbins /\ length (ay a) = nbins /\ length (an a) = nbins.
Definition bin_ring (c : R * R) (bin : R) (k : nat) (l : list pixel) : list (R * R) := ring c (INR k * bin) ((INR k + 1) * bin) l.
Definition adds (c : R * R) (bin : R) (nbins : nat) (a : accu) (l : list pixel) (b : accu) : Prop := accu_ok nbins b /\ forall k, (k < nbins)%nat ->
  nth k (ax b) 0 = nth k (ax a) 0 + rtotal (map fst (bin_ring c bin k l)) /\
  nth k (ay b) 0 = nth k (ay a) 0 + rtotal (map snd (bin_ring c bin k l)) /\
  nth k (an b) 0%Z = (nth k (an a) 0 + zlen (bin_ring c bin k l))%Z.
Lemma get_nth_r {A} (l : list A) (k : nat) d : (k < length l)%nat -> get l (Z.of_nat k) = Ok (nth k l d).
Proof. intros H. unfold get. replace (Z.of_nat k <? 0)%Z with false by lia. rewrite Nat2Z.id. rewrite (nth_error_nth' _ d H). reflexivity. Qed.
Lemma nth_set_at {A} (l : list A) (k j : nat) v d : (k < length l)%nat -> nth j (set_at l (Z.of_nat k) v) d = if (j =? k)%nat then v else nth j l d.
Proof.
  intros H. assert (L : zlen (set_at l (Z.of_nat k) v) = zlen l) by apply zlen_set_at. destruct (Nat.lt_ge_cases j (length l)) as [Hj|Hj].
  - destruct (Nat.eqb_spec j k) as [->|N].
    + pose proof (get_set_at_same l (Z.of_nat k) v ltac:(unfold zlen; lia)) as G. rewrite (get_nth_r _ _ d) in G by (unfold zlen in L; lia). now injection G.
    + pose proof (get_set_at_other l (Z.of_nat k) (Z.of_nat j) v ltac:(lia)) as G. rewrite (get_nth_r _ _ d), (get_nth_r _ _ d) in G by (unfold zlen in L; lia). now injection G.
  - rewrite !nth_overflow by (unfold zlen in L; lia). destruct (Nat.eqb_spec j k); [lia | reflexivity].
Qed.
Lemma ring_cons c lo hi p l : ring c lo hi (p :: l) = ring c lo hi [p] ++ ring c lo hi l.
Proof. unfold ring. cbn [flat_map]. now rewrite app_nil_r. Qed.
Lemma ring_app c lo hi l l' : ring c lo hi (l ++ l') = ring c lo hi l ++ ring c lo hi l'.
Proof. unfold ring. apply flat_map_app. Qed.
Lemma rtotal_app l l' : rtotal (l ++ l') = rtotal l + rtotal l'.
Proof. unfold rtotal. induction l as [|x l IH]; cbn [app fold_right]; [ring|]. rewrite IH. ring. Qed.
Lemma rtotal_perm l l' : Permutation l l' -> rtotal l = rtotal l'.
Proof. unfold rtotal. induction 1; cbn [fold_right]; lra. Qed.
Lemma distance_pos c i j : 0 <= pixel_distance c i j.
Proof. apply sqrt_pos. Qed.
Lemma one_ring c bin k i j v : 0 < bin -> bin_ring c bin k [(i, j, Some v)] = if (trunc (pixel_distance c i j / bin) =? Z.of_nat k)%Z then [(pixel_distance c i j, v)] else [].
Proof.
  intros Hb. unfold bin_ring, ring. cbn [flat_map]. rewrite app_nil_r. rewrite INR_IZR_INZ. pose proof (quotient_bin (pixel_distance c i j) bin (Z.of_nat k) Hb (distance_pos c i j)) as Q.
  destruct (Z.eqb_spec (trunc (pixel_distance c i j / bin)) (Z.of_nat k)) as [E|E].
  - apply Q in E. destruct (Rle_dec _ _); [|lra]. destruct (Rlt_dec _ _); [reflexivity | lra].
  - destruct (Rle_dec _ _); [|reflexivity]. destruct (Rlt_dec _ _); [|reflexivity]. exfalso. apply E, Q. lra.
Qed.
Lemma pixel_ok c bin nbins a p : 0 < bin -> accu_ok nbins a -> fits c bin [p] -> exists b, profile_pixel c bin nbins a p = Ok b /\ adds c bin nbins a [p] b.
Proof.
  intros Hb [Lx [Ly Ln]] F. destruct p as [[i j] [v|]].
  2:{ exists a. split; [reflexivity|]. split; [now split|]. intros k Hk. cbn. repeat split; try ring; lia. }
  specialize (F i j v (or_introl eq_refl)). cbn [profile_pixel]. change (sqrt _) with (pixel_distance c i j). set (d := pixel_distance c i j) in *. assert (Hd : 0 <= d) by apply distance_pos.
  unfold int32_quotient. destruct (Req_EM_T bin 0) as [|_]; [lra|]. unfold int32. assert (Q : 0 <= d / bin) by (apply Rmult_le_pos; [exact Hd | apply Rlt_le, Rinv_0_lt_compat, Hb]).
  destruct (trunc_pos _ Q) as [_ T0]. assert (T1 : (trunc (d / bin) < 2 ^ 31 - 1)%Z).
  { apply lt_IZR. destruct (proj1 (quotient_bin d bin (trunc (d / bin)) Hb Hd) eq_refl) as [A _]. apply Rnot_le_lt. intros C. apply (Rmult_le_compat_r bin) in C; [|lra]. lra. }
  replace ((- 2 ^ 31 <=? trunc (d / bin)) && (trunc (d / bin) <? 2 ^ 31))%Z with true by lia. cbn [bind].
  replace (2 ^ 31 <=? trunc (d / bin) + 1)%Z with false by lia. set (t := trunc (d / bin)) in *.
  assert (R1 : forall k, bin_ring c bin k [(i, j, Some v)] = if (t =? Z.of_nat k)%Z then [(d, v)] else []) by (intros k; now apply one_ring).
  destruct (Z.of_nat nbins <? t + 1)%Z eqn:B.
  - exists a. split; [reflexivity|]. split; [now split|]. intros k Hk. rewrite R1. replace (t =? Z.of_nat k)%Z with false by lia. cbn. repeat split; try ring; lia.
  - set (m := Z.to_nat t). replace (t + 1 - 1)%Z with (Z.of_nat m) by lia. assert (Hm : (m < nbins)%nat) by lia.
    rewrite (get_nth_r _ _ 0), (get_nth_r _ _ 0), (get_nth_r _ _ 0%Z) by lia. cbn [bind]. eexists. split; [reflexivity|]. cbn [ax ay an]. split.
    + pose proof (zlen_set_at (ax a) (Z.of_nat m) (nth m (ax a) 0 + d)). pose proof (zlen_set_at (ay a) (Z.of_nat m) (nth m (ay a) 0 + v)). pose proof (zlen_set_at (an a) (Z.of_nat m) (nth m (an a) 0 + 1)%Z).
      unfold accu_ok, zlen in *. cbn [ax ay an]. lia.
    + intros k Hk. cbn [ax ay an]. rewrite !nth_set_at by lia. rewrite R1. replace (t =? Z.of_nat k)%Z with (k =? m)%nat by lia. destruct (Nat.eqb_spec k m) as [->|]; cbn; repeat split; try ring; lia.
Qed.
Lemma adds_trans c bin nbins a b d l l' : adds c bin nbins a l b -> adds c bin nbins b l' d -> adds c bin nbins a (l ++ l') d.
Proof.
  intros [_ A] [Hd B]. split; [exact Hd|]. intros k Hk. specialize (A k Hk). specialize (B k Hk). unfold bin_ring in *. rewrite ring_app, !map_app, !rtotal_app, zlen_app.
  destruct A as [A1 [A2 A3]], B as [B1 [B2 B3]]. repeat split; [lra | lra | lia].
Qed.
Lemma pixels_ok c bin nbins : 0 < bin -> forall l a, accu_ok nbins a -> fits c bin l -> exists b, profile_pixels c bin nbins a l = Ok b /\ adds c bin nbins a l b.
Proof.
  intros Hb. induction l as [|p l IH]; intros a Ha F.
  - exists a. split; [reflexivity|]. split; [exact Ha|]. intros k Hk. cbn. repeat split; try ring; lia.
  - destruct (pixel_ok c bin nbins a p Hb Ha) as [b [E A]]; [intros i j v [H|[]]; apply (F i j v); now left|].
    destruct (IH b (proj1 A)) as [d [E' D]]; [intros i j v H; apply (F i j v); now right|].
    exists d. cbn [profile_pixels]. rewrite E. cbn [bind]. split; [exact E'|]. now apply (adds_trans c bin nbins a b d [p] l).
Qed.
Lemma accu0_ok nbins : accu_ok nbins (accu0 nbins).
Proof. unfold accu_ok, accu0. cbn [ax ay an]. now rewrite !repeat_length. Qed.
Lemma nth_sums {A} (f : A -> A -> A) (l l' : list A) k d : length l = length l' -> (k < length l)%nat -> nth k (map (fun p => f (fst p) (snd p)) (combine l l')) d = f (nth k l d) (nth k l' d).
Proof.
  revert l' k. induction l as [|x l IH]; intros [|y l'] k L H; cbn in *; try discriminate; [lia|]. destruct k; [reflexivity|]. apply IH; lia.
Qed.
Lemma threads_ok c bin nbins : 0 < bin -> forall threads a, accu_ok nbins a -> fits c bin (concat threads) -> exists b, profile_threads c bin nbins a threads = Ok b /\ adds c bin nbins a (concat threads) b.
Proof.
  intros Hb. induction threads as [|t r IH]; intros a Ha F.
  - exists a. split; [reflexivity|]. split; [exact Ha|]. intros k Hk. cbn. repeat split; try ring; lia.
  - cbn [concat profile_threads] in *. destruct (pixels_ok c bin nbins Hb t (accu0 nbins) (accu0_ok nbins)) as [b [E [Hb' A]]]; [intros i j v H; apply (F i j v); apply in_or_app; now left|].
    rewrite E. cbn [bind]. assert (S : adds c bin nbins a t (add_accu a b)).
    { destruct Ha as [H1 [H2 H3]], Hb' as [H4 [H5 H6]]. split.
      - unfold accu_ok, add_accu. cbn [ax ay an]. rewrite !map_length, !combine_length. lia.
      - intros k Hk. destruct (A k Hk) as [A1 [A2 A3]]. cbn [add_accu ax ay an].
        rewrite (nth_sums Rplus), (nth_sums Rplus), (nth_sums Z.add) by lia. rewrite A1, A2, A3. cbn [accu0 ax ay an]. rewrite !nth_repeat. repeat split; try ring. }
    destruct (IH (add_accu a b) (proj1 S)) as [d [E' D]]; [intros i j v H; apply (F i j v); apply in_or_app; now right|].
    exists d. split; [exact E'|]. eapply adds_trans; eauto.
Qed.
Lemma ring_perm c lo hi l l' : Permutation l l' -> Permutation (ring c lo hi l) (ring c lo hi l').
Proof. intros H. unfold ring. now apply Permutation_flat_map. Qed.

(** The rings of the bins make the disc. *)
Lemma ring_split c lo mid hi l : lo <= mid <= hi -> Permutation (ring c lo hi l) (ring c lo mid l ++ ring c mid hi l).
Proof.
  intros H. induction l as [|p l IH]; [constructor|]. rewrite !(ring_cons c _ _ p l). destruct p as [[i j] [v|]]; [|exact IH].
  unfold ring at 1 3 5. cbn [flat_map]. rewrite !app_nil_r. set (d := pixel_distance c i j).
  destruct (Rle_dec lo d), (Rle_dec mid d), (Rlt_dec d hi), (Rlt_dec d mid); try lra; cbn [app]; try exact IH; try (now constructor).
  apply Permutation_cons_app. exact IH.
Qed.
Lemma ring_empty c r l : ring c r r l = [].
Proof. induction l as [|p l IH]; [reflexivity|]. rewrite ring_cons, IH, app_nil_r. destruct p as [[i j] [v|]]; [|reflexivity]. unfold ring. cbn [flat_map]. destruct (Rle_dec _ _); [|reflexivity]. destruct (Rlt_dec _ _); [lra | reflexivity]. Qed.
Lemma disc_bins c bin l : 0 < bin -> forall n, Permutation (ring c 0 (INR n * bin) l) (flat_map (fun k => bin_ring c bin k l) (seq 0 n)).
Proof.
  intros Hb. induction n as [|n IH].
  - cbn [INR seq flat_map]. rewrite Rmult_0_l, ring_empty. constructor.
  - rewrite seq_S, flat_map_app. cbn [flat_map Nat.add]. rewrite app_nil_r. rewrite S_INR. rewrite (ring_split c 0 (INR n * bin)).
    + apply Permutation_app; [exact IH | reflexivity].
    + pose proof (pos_INR n). nra.
Qed.
