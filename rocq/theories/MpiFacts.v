(** Lemmas on the distribution of detectors and observations. *)
From Coq Require Import Lia Permutation.
From Verif Require Import Base BaseFacts MpiModel MpiSpec.
Open Scope nat_scope.

Lemma cdivn_div n b o : 1 <= b -> o < n -> o / b < cdivn n b.
Proof.
  intros B O. unfold cdivn. assert (E : n + b - 1 = (n - 1) + 1 * b) by lia. rewrite E, Nat.div_add by lia.
  pose proof (Nat.div_le_mono o (n - 1) b ltac:(lia) ltac:(lia)). lia.
Qed.
Lemma cdivn_self n : 1 <= n -> cdivn n n = 1.
Proof. intros H. unfold cdivn. symmetry. apply (Nat.div_unique (n + n - 1) n 1 (n - 1)); lia. Qed.
Lemma cdivn_pos n b : 1 <= b -> 1 <= n -> 1 <= cdivn n b.
Proof. intros B N. pose proof (cdivn_div n b 0 B N) as H. rewrite Nat.div_0_l in H by lia. exact H. Qed.
Lemma cdivn_le n b : 1 <= b -> cdivn n b <= n.
Proof.
  intros B. unfold cdivn. destruct n as [|n]; [rewrite Nat.div_small; lia|].
  apply Nat.div_le_upper_bound; [lia|]. nia.
Qed.

Definition wf nx ny (l : layout) : Prop := 1 <= xb l /\ 1 <= yb l /\ nxb l = cdivn nx (xb l) /\ nyb l = cdivn ny (yb l).
Lemma for_x_wf nx ny size bs xs last : 1 <= bs -> Forall (fun x => 1 <= x <= bs) xs ->
  (forall l, last = Some l -> wf nx ny l) -> forall l, for_x nx ny size bs xs last = Some l -> wf nx ny l.
Proof.
  intros B F. revert last. induction F as [|x r Hx F IH]; intros last H l E; cbn [for_x] in E; [apply H, E|].
  destruct (Nat.eqb_spec (bs mod x) 0) as [D|D]; [|apply (IH last H l E)].
  assert (W : wf nx ny (Layout x (bs / x) (cdivn nx x) (cdivn ny (bs / x)))).
  { split; [cbn; lia|]. split; [cbn|split; reflexivity]. apply Nat.div_le_lower_bound; lia. }
  destruct (fits size _); [inversion E; subst; exact W|]. apply (IH (Some (Layout x (bs / x) (cdivn nx x) (cdivn ny (bs / x))))); [|exact E].
  intros l' E'. inversion E'; subst. exact W.
Qed.
Lemma for_x_some nx ny size bs xs last : last <> None \/ In bs xs -> bs <> 0 -> for_x nx ny size bs xs last <> None.
Proof.
  revert last. induction xs as [|x r IH]; intros last H N; cbn [for_x]; [destruct H as [H|[]]; auto|].
  destruct (Nat.eqb_spec (bs mod x) 0) as [D|D].
  - destruct (fits size _); [discriminate|]. apply IH; auto. left. discriminate.
  - apply IH; auto. destruct H as [H|[H|H]]; auto. subst x. rewrite Nat.mod_same in D by auto. congruence.
Qed.
Lemma for_x_fits nx ny size bs xs last x : In x xs -> bs mod x = 0 ->
  fits size (Layout x (bs / x) (cdivn nx x) (cdivn ny (bs / x))) = true ->
  exists l, for_x nx ny size bs xs last = Some l /\ fits size l = true.
Proof.
  intros I D F. revert last. induction xs as [|y r IH]; intros last; [destruct I|]. cbn [for_x].
  destruct I as [->|I].
  - rewrite (proj2 (Nat.eqb_eq _ _) D). cbn zeta. rewrite F. eexists; split; [reflexivity|exact F].
  - destruct (bs mod y =? 0); [|apply IH; auto]. cbn zeta. destruct (fits size (Layout y (bs / y) (cdivn nx y) (cdivn ny (bs / y)))) eqn:E; [eexists; split; [reflexivity|exact E]|apply IH; auto].
Qed.

Lemma find_blocks_ok nx ny size : 1 <= nx -> 1 <= ny -> 1 <= size -> forall fuel bs last,
  1 <= bs <= nx * ny -> nx * ny < fuel + bs -> (forall l, last = Some l -> wf nx ny l) ->
  exists l, find_blocks fuel nx ny size bs last = Ok l /\ wf nx ny l /\ nxb l * nyb l <= size.
Proof.
  intros X Y S. induction fuel as [|n IH]; intros bs last B F W; [lia|]. cbn [find_blocks].
  assert (Fx : Forall (fun x => 1 <= x <= bs) (seq 1 bs)) by (apply Forall_forall; intros x Hx; apply in_seq in Hx; lia).
  destruct (for_x nx ny size bs (seq 1 bs) last) as [l|] eqn:E.
  2: { exfalso. apply (for_x_some nx ny size bs (seq 1 bs) last); auto; [|lia]. right. apply in_seq. lia. }
  pose proof (for_x_wf nx ny size bs _ last ltac:(lia) Fx W l E) as Wl.
  destruct (fits size l) eqn:Fl.
  - exists l. split; [reflexivity|]. split; [exact Wl|]. apply Nat.leb_le, Fl.
  - destruct (Nat.eq_dec bs (nx * ny)) as [Q|Q].
    + exfalso. destruct (for_x_fits nx ny size bs (seq 1 bs) last nx) as [l' [E' F']].
      * apply in_seq. nia.
      * subst bs. rewrite Nat.mul_comm. apply Nat.mod_mul. lia.
      * subst bs. rewrite Nat.mul_comm, Nat.div_mul by lia. unfold fits. cbn [nxb nyb]. rewrite !cdivn_self by auto. apply Nat.leb_le. lia.
      * congruence.
    + apply IH; [lia|lia|]. intros l' E'. inversion E'; subst. exact Wl.
Qed.

(** ** Masks *)
Lemma mask_all_length l m : length (mask_all l m) = length m.
Proof. revert m. induction l as [|x l IH]; intros m; cbn; [reflexivity|]. unfold mask_all in IH. rewrite IH. apply set_nth_length. Qed.
Lemma mask_all_out l m i : ~ In i l -> nth_error (mask_all l m) i = nth_error m i.
Proof.
  revert m. induction l as [|x l IH]; intros m H; cbn; [reflexivity|]. unfold mask_all in IH. rewrite IH by (intros C; apply H; right; exact C).
  apply set_nth_other. intros ->. apply H. left. reflexivity.
Qed.
Lemma mask_all_in l m i : In i l -> i < length m -> nth_error (mask_all l m) i = Some true.
Proof.
  revert m. induction l as [|x l IH]; intros m H L; [destruct H|]. cbn. destruct (in_dec Nat.eq_dec i l) as [I|I].
  - apply IH; auto. rewrite set_nth_length. exact L.
  - destruct H as [->|H]; [|contradiction]. pose proof (mask_all_out l (set_nth m i true) i I) as E. unfold mask_all in E. rewrite E. apply set_nth_same, L.
Qed.
Lemma mask_all_true l m i : nth_error m i = Some true -> nth_error (mask_all l m) i = Some true.
Proof.
  intros E. destruct (in_dec Nat.eq_dec i l) as [I|I]; [apply mask_all_in; auto; apply nth_error_Some; congruence|]. rewrite mask_all_out; auto.
Qed.
Lemma good_in mask i : In i (good_positions mask) <-> nth_error mask i = Some false.
Proof.
  unfold good_positions. rewrite filter_In, in_seq, negb_true_iff. split.
  - intros [L E]. destruct (nth_error mask i) as [b|] eqn:N; [|apply nth_error_None in N; lia]. rewrite (nth_error_nth _ _ true N) in E. congruence.
  - intros E. split; [|exact (nth_error_nth _ _ true E)]. assert (i < length mask) by (apply nth_error_Some; congruence). lia.
Qed.
Lemma good_nodup mask : NoDup (good_positions mask).
Proof. apply NoDup_filter, seq_NoDup. Qed.

Lemma in_firstn_iff {A} (l : list A) k d x : NoDup l -> nth_error l d = Some x -> (In x (firstn k l) <-> d < k).
Proof.
  intros N E. split.
  - intros I. apply In_nth_error in I. destruct I as [j J]. assert (Lj : j < length (firstn k l)) by (apply nth_error_Some; congruence).
    rewrite firstn_length in Lj. rewrite <- (firstn_skipn k l) in E at 1.
    assert (j = d); [|lia]. rewrite (firstn_skipn k l) in E. apply (proj1 (NoDup_nth_error l) N); [lia|].
    rewrite E, <- J. rewrite <- (firstn_skipn k l) at 1. rewrite nth_error_app1; [reflexivity|rewrite firstn_length; lia].
  - intros L. apply (nth_error_In _ d). rewrite <- E. rewrite <- (firstn_skipn k l) at 2.
    assert (d < length l) by (apply nth_error_Some; congruence). rewrite nth_error_app1; [reflexivity|rewrite firstn_length; lia].
Qed.
Lemma in_skipn_iff {A} (l : list A) k d x : NoDup l -> nth_error l d = Some x -> (In x (skipn k l) <-> k <= d).
Proof.
  intros N E. assert (Ld : d < length l) by (apply nth_error_Some; congruence). split.
  - intros I. destruct (le_lt_dec k d) as [H|H]; [exact H|]. exfalso. pose proof (proj2 (in_firstn_iff l k d x N E) H) as J.
    rewrite <- (firstn_skipn k l) in N. clear E. revert I J N. generalize (skipn k l) as b, (firstn k l) as a. intros b a I J N.
    apply in_split in J. destruct J as [a1 [a2 ->]]. rewrite <- app_assoc in N. cbn in N. apply NoDup_remove_2 in N. apply N. apply in_or_app. right. apply in_or_app. auto.
  - intros H. apply (nth_error_In _ (d - k)). rewrite <- E. rewrite <- (firstn_skipn k l) at 2. rewrite nth_error_app2; rewrite firstn_length; [f_equal; lia|lia].
Qed.
Lemma NoDup_skipn {A} (l : list A) k : NoDup l -> NoDup (skipn k l).
Proof. revert k. induction l as [|x l IH]; intros [|k] N; cbn; auto. inversion N; auto. Qed.
Lemma in_section_iff {A} (l : list A) lo hi e x : NoDup l -> nth_error l e = Some x -> (In x (firstn (hi - lo) (skipn lo l)) <-> lo <= e < hi).
Proof.
  intros N E. assert (Le : e < length l) by (apply nth_error_Some; congruence). destruct (le_lt_dec lo e) as [H|H].
  - assert (E' : nth_error (skipn lo l) (e - lo) = Some x).
    { rewrite <- E. rewrite <- (firstn_skipn lo l) at 2. rewrite nth_error_app2; rewrite firstn_length; [f_equal; lia|lia]. }
    rewrite (in_firstn_iff _ (hi - lo) (e - lo) x (NoDup_skipn l lo N) E'). lia.
  - split; [|lia]. intros I. exfalso. assert (J : In x (skipn lo l)).
    { rewrite <- (firstn_skipn (hi - lo) (skipn lo l)). apply in_or_app. auto. }
    apply (in_skipn_iff l lo e x N E) in J. lia.
Qed.

(** ** Distribution *)
Section D.
Context {O : Type} (mask : list bool) (obs : list O) (size nthreads : nat).
Hypothesis (S : 1 <= size) (T : 1 <= nthreads) (No : NoDup obs) (Ho : obs <> []) (Hd : exists i, nth_error mask i = Some false).

Let good := good_positions mask.
Let nx := length obs.
Let ny := cdivn (length good) nthreads.

Lemma good_some : 1 <= length good.
Proof. destruct Hd as [i E]. apply good_in in E. fold good in E. destruct good; [destruct E|cbn; lia]. Qed.
Lemma obs_some : 1 <= nx.
Proof. unfold nx. destruct obs; [congruence|cbn; lia]. Qed.
Lemma blocks : exists l, find_blocks (Datatypes.S (nx * ny)) nx ny size (cdivn (nx * ny) size) None = Ok l /\ wf nx ny l /\ nxb l * nyb l <= size.
Proof.
  pose proof obs_some. pose proof good_some. assert (1 <= ny) by (apply cdivn_pos; auto).
  apply find_blocks_ok; auto; [|assert (1 <= cdivn (nx * ny) size) by (apply cdivn_pos; nia); lia|discriminate].
  split; [apply cdivn_pos; nia|apply cdivn_le; auto].
Qed.

Lemma distribute_works : size <> 1 -> exists l, wf nx ny l /\ nxb l * nyb l <= size /\
  (forall rank, share mask obs (distribute mask obs size nthreads rank)) /\
  forall rank d i e o, nth_error good d = Some i -> nth_error obs e = Some o ->
    (works (distribute mask obs size nthreads rank) i o <-> rank / nyb l = e / xb l /\ rank mod nyb l = d / (yb l * nthreads)).
Proof.
  intros N1. destruct blocks as [l [E [W Fi]]]. exists l. split; [exact W|]. split; [exact Fi|].
  assert (D : forall rank, distribute mask obs size nthreads rank =
    let '(dlo, dhi, olo, ohi) :=
      if nxb l <=? rank / nyb l then (0, 0, 0, 0)
      else (rank mod nyb l * yb l * nthreads, (rank mod nyb l + 1) * yb l * nthreads, rank / nyb l * xb l, (rank / nyb l + 1) * xb l) in
    Ok (mask_all (skipn dhi good) (mask_all (firstn dlo good) mask), firstn (ohi - olo) (skipn olo obs))).
  { intros rank. unfold distribute. rewrite (proj2 (Nat.eqb_neq _ _) N1). fold good. fold nx. fold ny. rewrite E. reflexivity. }
  destruct W as [Wx [Wy [Wnx Wny]]].
  split.
  - intros rank. rewrite D. destruct (if nxb l <=? rank / nyb l then _ else _) as [[[dlo dhi] olo] ohi].
    unfold share. eexists. eexists. exists (firstn olo obs), (skipn (ohi - olo) (skipn olo obs)). split; [reflexivity|]. split; [rewrite !mask_all_length; reflexivity|].
    split; [intros i H; apply mask_all_true, mask_all_true, H|]. rewrite firstn_skipn, firstn_skipn. reflexivity.
  - intros rank d i e o Ed Ee. rewrite D.
    assert (Ei : nth_error mask i = Some false) by (apply good_in, (nth_error_In _ d), Ed).
    assert (Li : i < length mask) by (apply nth_error_Some; congruence).
    assert (Le : e < nx) by (apply nth_error_Some; congruence).
    assert (Ld : d < length good) by (apply nth_error_Some; congruence).
    assert (M : forall lo hi, nth_error (mask_all (skipn hi good) (mask_all (firstn lo good) mask)) i = Some false <-> lo <= d < hi).
    { intros lo hi. pose proof (in_firstn_iff good lo d i (good_nodup mask) Ed) as F1. pose proof (in_skipn_iff good hi d i (good_nodup mask) Ed) as F2. split.
      - intros H. split.
        + destruct (le_lt_dec lo d) as [C|C]; [exact C|]. apply F1 in C. rewrite (mask_all_true (skipn hi good)) in H; [discriminate|]. apply mask_all_in; auto.
        + destruct (le_lt_dec hi d) as [C|C]; [|exact C]. apply F2 in C. rewrite mask_all_in in H; [discriminate|auto|rewrite mask_all_length; auto].
      - intros [A B]. rewrite mask_all_out by (rewrite F2; lia). rewrite mask_all_out by (rewrite F1; lia). exact Ei. }
    assert (X1 : e / xb l < nxb l) by (rewrite Wnx; apply cdivn_div; auto).
    assert (DM : d / (yb l * nthreads) < nyb l).
    { rewrite Wny, (Nat.mul_comm (yb l)), <- Nat.div_div by lia. apply cdivn_div; auto. apply cdivn_div; auto. }
    unfold works. split.
    + intros [m' [o' [Q [A B]]]]. destruct (Nat.leb_spec (nxb l) (rank / nyb l)) as [C|C]; inversion Q; subst m' o'; clear Q.
      * apply (in_section_iff obs 0 0 e o No Ee) in B. lia.
      * apply M in A. apply (in_section_iff obs _ _ e o No Ee) in B. split.
        -- apply (Nat.div_unique e (xb l) (rank / nyb l) (e - rank / nyb l * xb l)); nia.
        -- apply (Nat.div_unique d (yb l * nthreads) (rank mod nyb l) (d - rank mod nyb l * (yb l * nthreads))); nia.
    + intros [A B]. eexists. eexists. destruct (Nat.leb_spec (nxb l) (rank / nyb l)) as [C|C]; [lia|]. split; [reflexivity|]. split.
      * apply M. rewrite B. pose proof (Nat.div_mod d (yb l * nthreads) ltac:(nia)). pose proof (Nat.mod_upper_bound d (yb l * nthreads) ltac:(nia)). nia.
      * apply (in_section_iff obs _ _ e o No Ee). rewrite A. pose proof (Nat.div_mod e (xb l) ltac:(lia)). pose proof (Nat.mod_upper_bound e (xb l) ltac:(lia)). nia.
Qed.

Lemma distribute_shares rank : share mask obs (distribute mask obs size nthreads rank).
Proof.
  destruct (Nat.eq_dec size 1) as [E|E].
  - subst size. unfold distribute. cbn. exists mask, obs, [], []. rewrite app_nil_r. repeat split; auto.
  - destruct (distribute_works E) as [l [_ [_ [H _]]]]. apply H.
Qed.
Lemma distribute_once i o : nth_error mask i = Some false -> In o obs ->
  exactly_one size (fun rank => works (distribute mask obs size nthreads rank) i o).
Proof.
  intros Ei Io. apply good_in in Ei. fold good in Ei. destruct (In_nth_error _ _ Ei) as [d Ed]. destruct (In_nth_error _ _ Io) as [e Ee].
  destruct (Nat.eq_dec size 1) as [E|E].
  - exists 0. split; [lia|]. split; [|intros; lia]. subst size. exists mask, obs. split; [reflexivity|]. split; [apply good_in; exact Ei|exact Io].
  - destruct (distribute_works E) as [l [[Wx [Wy [Wnx Wny]]] [Fi [_ H]]]].
    assert (Le : e < nx) by (apply nth_error_Some; congruence).
    assert (Ld : d < length good) by (apply nth_error_Some; congruence).
    assert (X1 : e / xb l < nxb l) by (rewrite Wnx; apply cdivn_div; auto).
    assert (DM : d / (yb l * nthreads) < nyb l).
    { rewrite Wny, (Nat.mul_comm (yb l)), <- Nat.div_div by lia. apply cdivn_div; auto. apply cdivn_div; auto. }
    exists (e / xb l * nyb l + d / (yb l * nthreads)). split; [nia|]. split.
    + apply (H _ d i e o Ed Ee). split.
      * symmetry. apply (Nat.div_unique _ (nyb l) (e / xb l) (d / (yb l * nthreads))); nia.
      * symmetry. apply (Nat.mod_unique _ (nyb l) (e / xb l) (d / (yb l * nthreads))); nia.
    + intros q Lq Wq. apply (H _ d i e o Ed Ee) in Wq. destruct Wq as [A B]. pose proof (Nat.div_mod q (nyb l) ltac:(lia)). rewrite A, B in *. lia.
Qed.
End D.

(** ** Process grid *)
Lemma process_grid_ok size ni ns g : (1 <= size)%Z -> process_grid size ni ns = Ok g -> (fst g * snd g = size /\ 1 <= fst g /\ 1 <= snd g)%Z.
Proof.
  intros S E. unfold process_grid in E.
  assert (X : forall a b, (do g <- Ok (a, b); if (fst g * snd g =? size)%Z then Ok g else Err ValueError) = Ok g -> (0 <= a)%Z -> (fst g * snd g = size /\ 1 <= fst g /\ 1 <= snd g)%Z).
  { intros a b. cbn [bind fst snd]. destruct (Z.eqb_spec (a * b) size) as [Q|Q]; [|discriminate]. intros Z. inversion Z; subst g. cbn [fst snd]. intros A. assert (a <> 0)%Z by nia. assert (0 < b)%Z by nia. lia. }
  destruct ni as [i|], ns as [s|].
  - destruct ((i <? 1)%Z || (size <? i)%Z) eqn:C; [discriminate|]. apply (X _ _ E). lia.
  - destruct ((i <? 1)%Z || (size <? i)%Z) eqn:C; [discriminate|]. apply (X _ _ E). lia.
  - destruct ((s <? 1)%Z || (size <? s)%Z) eqn:C; [discriminate|]. apply (X _ _ E). apply Z.div_pos; lia.
  - apply (X _ _ E). lia.
Qed.
Lemma split_unique n m x : (0 <= n)%Z -> (0 < m)%Z -> (0 <= x < n)%Z ->
  exists r, (0 <= r < m /\ split_start n m r <= x < split_start n m (r + 1))%Z /\
    forall q, (0 <= q < m)%Z -> (split_start n m q <= x < split_start n m (q + 1))%Z -> q = r.
Proof.
  intros N M X.
  assert (Mono : forall a k, (0 <= k -> split_start n m a <= split_start n m (a + k))%Z).
  { intros a k Hk. revert a. apply (Zlt_0_ind (fun k => forall a, (split_start n m a <= split_start n m (a + k))%Z)); [|exact Hk].
    intros j IH J a. destruct (Z.eq_dec j 0) as [->|Z]; [rewrite Z.add_0_r; lia|]. specialize (IH (j - 1)%Z ltac:(lia) a).
    pose proof (split_start_mono n m (a + (j - 1)) N M). replace (a + (j - 1) + 1)%Z with (a + j)%Z in * by lia. lia. }
  assert (Ex : exists r, (0 <= r < m /\ split_start n m r <= x < split_start n m (r + 1))%Z).
  { assert (H : forall k, (0 <= k)%Z -> (x < split_start n m k -> exists r, 0 <= r < k /\ split_start n m r <= x < split_start n m (r + 1))%Z).
    { intros k Hk. apply (Zlt_0_ind (fun k => (x < split_start n m k -> exists r, 0 <= r < k /\ split_start n m r <= x < split_start n m (r + 1))%Z)); [|exact Hk].
      intros j IH J L. destruct (Z.eq_dec j 0) as [->|Z]; [rewrite split_start_0 in L; lia|].
      destruct (Z_lt_le_dec x (split_start n m (j - 1))) as [C|C].
      - destruct (IH (j - 1)%Z ltac:(lia) C) as [r [A B]]. exists r. split; [lia|exact B].
      - exists (j - 1)%Z. split; [lia|]. split; [exact C|]. replace (j - 1 + 1)%Z with j by lia. exact L. }
    apply (H m ltac:(lia)). rewrite split_start_m by lia. lia. }
  destruct Ex as [r [R1 R2]]. exists r. split; [split; auto|]. intros q Q1 Q2.
  destruct (Z.lt_trichotomy q r) as [C|[C|C]]; [exfalso|exact C|exfalso].
  - pose proof (Mono (q + 1)%Z (r - (q + 1))%Z ltac:(lia)). replace (q + 1 + (r - (q + 1)))%Z with r in * by lia. lia.
  - pose proof (Mono (r + 1)%Z (q - (r + 1))%Z ltac:(lia)). replace (r + 1 + (q - (r + 1)))%Z with q in * by lia. lia.
Qed.
Lemma grid_once size g nd ns d s : (1 <= size)%Z -> (fst g * snd g = size)%Z -> (1 <= fst g)%Z -> (1 <= snd g)%Z -> (0 <= d < nd)%Z -> (0 <= s < ns)%Z ->
  let holds := fun rank => let c := grid_coords g rank in
    (split_start nd (fst g) (snd c) <= d < split_start nd (fst g) (snd c + 1) /\ split_start ns (snd g) (fst c) <= s < split_start ns (snd g) (fst c + 1))%Z in
  exists rank, (0 <= rank < size)%Z /\ holds rank /\ forall q, (0 <= q < size)%Z -> holds q -> q = rank.
Proof.
  intros Sz G G1 G2 D Sm holds. destruct (split_unique nd (fst g) d) as [a [[A1 A2] A3]]; [lia|lia|lia|].
  destruct (split_unique ns (snd g) s) as [b [[B1 B2] B3]]; [lia|lia|lia|].
  exists (b * fst g + a)%Z.
  assert (C : grid_coords g (b * fst g + a) = (b, a)).
  { unfold grid_coords. f_equal; [symmetry; apply (Z.div_unique _ (fst g) b a); lia|symmetry; apply (Z.mod_unique _ (fst g) b a); lia]. }
  split; [nia|]. split; [unfold holds; rewrite C; cbn [fst snd]; split; assumption|].
  intros q Q [H1 H2]. unfold grid_coords in H1, H2. cbn [fst snd] in H1, H2.
  pose proof (Z.mod_pos_bound q (fst g) ltac:(lia)). pose proof (Z.div_mod q (fst g) ltac:(lia)).
  assert (E1 : (q mod fst g = a)%Z) by (apply A3; [lia|exact H1]).
  assert (E2 : (q / fst g = b)%Z).
  { apply B3; [|exact H2]. split; [apply Z.div_pos; lia|]. apply Z.div_lt_upper_bound; lia. }
  rewrite E1, E2 in *. lia.
Qed.
