(** Lemmas for the median. *)
From Coq Require Import Lia Permutation.
From Coq Require Import FinFun.
From Verif Require Import Base BaseFacts MedianModel MedianSpec.
Open Scope Z_scope.

(** ** Values of an array *)
Definition A (a : list num) (i : Z) : Z := match get a i with Ok (Fin z) => z | _ => 0 end.
Definition fin (a : list num) (n : Z) : Prop := n <= zlen a /\ forall i, 0 <= i < n -> get a i = Ok (Fin (A a i)).

Lemma get_range {T} (l : list T) i x : get l i = Ok x -> 0 <= i < zlen l.
Proof.
  intros H. apply get_ok in H. destruct H as [H E]. split; [exact H|].
  assert (Z.to_nat i < length l)%nat by (apply nth_error_Some; congruence). unfold zlen. lia.
Qed.

(** ** Transpositions *)
Definition transp (i j k : nat) : nat := if Nat.eqb k i then j else if Nat.eqb k j then i else k.
Lemma transp_inj i j : Injective (transp i j).
Proof.
  intros x y. unfold transp.
  destruct (Nat.eqb_spec x i), (Nat.eqb_spec x j), (Nat.eqb_spec y i), (Nat.eqb_spec y j); lia.
Qed.
Lemma swap_perm {T} (l : list T) i j x y : nth_error l i = Some x -> nth_error l j = Some y ->
  Permutation l (set_nth (set_nth l i y) j x).
Proof.
  intros Hi Hj.
  assert (Li : (i < length l)%nat) by (apply nth_error_Some; congruence).
  assert (Lj : (j < length l)%nat) by (apply nth_error_Some; congruence).
  apply Permutation_nth_error_bis. exists (transp i j). split; [apply transp_inj|]. split.
  - intros k Hk. unfold transp. destruct (Nat.eqb_spec k i), (Nat.eqb_spec k j); lia.
  - intros k. unfold transp.
    destruct (Nat.eqb_spec k i) as [->|Ni].
    + destruct (Nat.eq_dec i j) as [->|N].
      * rewrite set_nth_same by (rewrite set_nth_length; lia). congruence.
      * rewrite set_nth_other by lia. rewrite set_nth_same by lia. now symmetry.
    + destruct (Nat.eqb_spec k j) as [->|Nj].
      * rewrite set_nth_same by (rewrite set_nth_length; lia). now symmetry.
      * rewrite !set_nth_other by lia. reflexivity.
Qed.

(** ** Changes within a range *)
Record within (n : Z) (a a' : list num) (lo hi : Z) : Prop := {
  w_out : forall k, k < lo \/ hi < k -> get a' k = get a k;
  w_in : forall k, lo <= k <= hi -> exists k', lo <= k' <= hi /\ A a' k = A a k';
  w_perm : Permutation a a';
  w_fin : fin a' n }.

Lemma within_len n a a' lo hi : within n a a' lo hi -> zlen a' = zlen a.
Proof. intros W. unfold zlen. now rewrite (Permutation_length (w_perm _ _ _ _ _ W)). Qed.
Lemma within_refl n a lo hi : fin a n -> within n a a lo hi.
Proof. intros F. constructor; [reflexivity | eauto | reflexivity | exact F]. Qed.
Lemma within_trans n a b c lo hi : within n a b lo hi -> within n b c lo hi -> within n a c lo hi.
Proof.
  intros W V. constructor.
  - intros k H. rewrite (w_out _ _ _ _ _ V) by exact H. now apply (w_out _ _ _ _ _ W).
  - intros k H. destruct (w_in _ _ _ _ _ V k H) as [k1 [H1 E1]]. destruct (w_in _ _ _ _ _ W k1 H1) as [k2 [H2 E2]].
    exists k2. split; [exact H2 | congruence].
  - exact (Permutation_trans (w_perm _ _ _ _ _ W) (w_perm _ _ _ _ _ V)).
  - exact (w_fin _ _ _ _ _ V).
Qed.
Lemma within_A n a a' lo hi k : within n a a' lo hi -> k < lo \/ hi < k -> A a' k = A a k.
Proof. intros W H. unfold A. now rewrite (w_out _ _ _ _ _ W). Qed.
Lemma within_weaken n a a' lo hi lo' hi' : within n a a' lo hi -> lo' <= lo -> hi <= hi' -> within n a a' lo' hi'.
Proof.
  intros W L H. constructor; [| |exact (w_perm _ _ _ _ _ W)|exact (w_fin _ _ _ _ _ W)].
  - intros k K. apply (w_out _ _ _ _ _ W). lia.
  - intros k K. destruct (Z.le_gt_cases lo k) as [K1|K1]; [destruct (Z.le_gt_cases k hi) as [K2|K2]|].
    + destruct (w_in _ _ _ _ _ W k) as [k' [K' E]]; [lia|]. exists k'. split; [lia | exact E].
    + exists k. split; [lia|]. apply (within_A _ _ _ _ _ _ W). lia.
    + exists k. split; [lia|]. apply (within_A _ _ _ _ _ _ W). lia.
Qed.

Lemma swap_ok n a i j lo hi : fin a n -> 0 <= lo -> hi < n -> lo <= i <= hi -> lo <= j <= hi ->
  exists a', swap a i j = Ok a' /\ within n a a' lo hi /\ A a' i = A a j /\ A a' j = A a i /\
             (forall k, k <> i -> k <> j -> A a' k = A a k).
Proof.
  intros [L F] Hlo Hhi Hi Hj.
  pose proof (F i ltac:(lia)) as Gi. pose proof (F j ltac:(lia)) as Gj.
  set (a' := set_at (set_at a i (Fin (A a j))) j (Fin (A a i))).
  assert (E : swap a i j = Ok a').
  { unfold swap, put. rewrite Gi, Gj. cbn [bind].
    destruct (get_total (set_at a i (Fin (A a j))) j) as [x Ex]; [rewrite zlen_set_at; lia|]. rewrite Ex. reflexivity. }
  assert (La : zlen a' = zlen a) by (unfold a'; rewrite !zlen_set_at; reflexivity).
  assert (Ej : get a' j = Ok (Fin (A a i))).
  { unfold a'. apply get_set_at_same. rewrite zlen_set_at. lia. }
  assert (Ei : get a' i = Ok (Fin (A a j))).
  { destruct (Z.eq_dec i j) as [->|N]; [exact Ej|]. unfold a'. rewrite get_set_at_other by lia. apply get_set_at_same. lia. }
  assert (Eo : forall k, k <> i -> k <> j -> get a' k = get a k).
  { intros k K1 K2. unfold a'. rewrite !get_set_at_other by lia. reflexivity. }
  assert (Aj : A a' j = A a i) by (unfold A at 1; rewrite Ej; reflexivity).
  assert (Ai : A a' i = A a j) by (unfold A at 1; rewrite Ei; reflexivity).
  assert (Ao : forall k, k <> i -> k <> j -> A a' k = A a k) by (intros k K1 K2; unfold A; rewrite Eo; auto).
  exists a'. split; [exact E|]. split; [|auto].
  constructor.
  - intros k K. apply Eo; lia.
  - intros k K. destruct (Z.eq_dec k i) as [->|Ni]; [exists j; auto|]. destruct (Z.eq_dec k j) as [->|Nj]; [exists i; auto|].
    exists k. auto.
  - unfold a', set_at. destruct (Z.ltb_spec i 0); [lia|]. destruct (Z.ltb_spec j 0); [lia|].
    apply get_ok in Gi, Gj. apply swap_perm; [apply Gi | apply Gj].
  - split; [lia|]. intros k K. destruct (Z.eq_dec k i) as [->|Ni]; [now rewrite Ei, Ai|].
    destruct (Z.eq_dec k j) as [->|Nj]; [now rewrite Ej, Aj|]. rewrite Eo, Ao by assumption. apply F. lia.
Qed.

Lemma order_ok n a i j lo hi : fin a n -> 0 <= lo -> hi < n -> lo <= i <= hi -> lo <= j <= hi ->
  exists a', order a i j = Ok a' /\ within n a a' lo hi /\ A a' i <= A a' j /\
             (forall k, k <> i -> k <> j -> A a' k = A a k) /\
             ((A a' i = A a i /\ A a' j = A a j) \/ (A a' i = A a j /\ A a' j = A a i)).
Proof.
  intros F Hlo Hhi Hi Hj. unfold order.
  rewrite (proj2 F i) by lia. rewrite (proj2 F j) by lia. cbn [bind gt].
  destruct (Z.ltb_spec (A a j) (A a i)) as [L|L].
  - destruct (swap_ok n a i j lo hi F Hlo Hhi Hi Hj) as [a' [E [W [E1 [E2 E3]]]]].
    exists a'. split; [exact E|]. split; [exact W|]. split; [lia|]. auto.
  - exists a. split; [reflexivity|]. split; [now apply within_refl|]. auto.
Qed.

(** ** Inner loops *)
Lemma up_ok n a low fuel : fin a n -> 0 <= low < n -> forall ll c, 0 <= ll < c -> c < n -> A a low <= A a c -> (Z.to_nat (c - ll) < fuel)%nat ->
  exists l', up fuel a low ll = Ok l' /\ ll < l' <= c /\ A a low <= A a l' /\ (forall i, ll < i < l' -> A a i <= A a low).
Proof.
  intros F Hl. induction fuel as [|f IH]; intros ll c H1 H2 H3 H4; [lia|].
  cbn [up]. rewrite (proj2 F low) by lia. rewrite (proj2 F (ll + 1)) by lia. cbn [bind le].
  destruct (Z.leb_spec (A a low) (A a (ll + 1))) as [L|L].
  - exists (ll + 1). split; [reflexivity|]. split; [lia|]. split; [exact L|]. intros i Hi. lia.
  - assert (c <> ll + 1) by (intros ->; lia).
    destruct (IH (ll + 1) c) as [l' [E [R [G B]]]]; try lia.
    exists l'. split; [exact E|]. split; [lia|]. split; [exact G|].
    intros i Hi. destruct (Z.eq_dec i (ll + 1)) as [->|]; [lia | apply B; lia].
Qed.
Lemma down_ok n a low fuel : fin a n -> 0 <= low < n -> forall hh c, 0 <= c < hh -> hh <= n -> A a c <= A a low -> (Z.to_nat (hh - c) < fuel)%nat ->
  exists h', down fuel a low hh = Ok h' /\ c <= h' < hh /\ A a h' <= A a low /\ (forall i, h' < i < hh -> A a low <= A a i).
Proof.
  intros F Hl. induction fuel as [|f IH]; intros hh c H1 H2 H3 H4; [lia|].
  cbn [down]. rewrite (proj2 F (hh - 1)) by lia. rewrite (proj2 F low) by lia. cbn [bind le].
  destruct (Z.leb_spec (A a (hh - 1)) (A a low)) as [L|L].
  - exists (hh - 1). split; [reflexivity|]. split; [lia|]. split; [exact L|]. intros i Hi. lia.
  - assert (c <> hh - 1) by (intros ->; lia).
    destruct (IH (hh - 1) c) as [h' [E [R [G B]]]]; try lia.
    exists h'. split; [exact E|]. split; [lia|]. split; [exact G|].
    intros i Hi. destruct (Z.eq_dec i (hh - 1)) as [->|]; [lia | apply B; lia].
Qed.

Lemma nibble_ok n low high fuel : 0 <= low -> high < n -> forall a ll hh,
  fin a n -> low + 1 <= ll <= hh -> hh <= high -> ll < high -> (ll = hh -> low + 2 <= ll) ->
  (forall i, low < i <= ll -> A a i <= A a low) -> (forall i, hh <= i <= high -> A a low <= A a i) ->
  (Z.to_nat (hh - low) < fuel)%nat ->
  exists a' l' h', nibble fuel a low ll hh = Ok (a', l', h') /\ within n a a' (low + 1) high /\
    h' < l' /\ low + 1 <= h' < high /\ low + 1 < l' <= high /\
    (forall i, low < i < l' -> A a' i <= A a' low) /\ (forall i, h' < i <= high -> A a' low <= A a' i).
Proof.
  intros Hlow Hhigh. induction fuel as [|f IH]; intros a ll hh F H1 H2 H3 H4 HL HH Hf; [lia|].
  cbn [nibble]. destruct F as [Fl F']. assert (F : fin a n) by (split; assumption).
  unfold zlen in Fl.
  destruct (up_ok n a low (S (length a)) F ltac:(lia) ll (Z.max hh (ll + 1))) as [l' [Eu [Ru [Gu Bu]]]].
  { lia. } { lia. } { apply HH. lia. } { lia. }
  rewrite Eu. cbn [bind].
  destruct (down_ok n a low (S (length a)) F ltac:(lia) hh (Z.min ll (hh - 1))) as [h' [Ed [Rd [Gd Bd]]]].
  { lia. } { lia. } { apply HL. lia. } { lia. }
  rewrite Ed. cbn [bind].
  destruct (Z.ltb_spec h' l') as [L|L].
  - exists a, l', h'. split; [reflexivity|]. split; [now apply within_refl|]. split; [exact L|].
    split; [lia|]. split; [lia|]. split.
    + intros i Hi. destruct (Z.le_gt_cases i ll); [apply HL; lia | apply Bu; lia].
    + intros i Hi. destruct (Z.le_gt_cases hh i); [apply HH; lia | apply Bd; lia].
  - destruct (swap_ok n a l' h' (low + 1) high F ltac:(lia) Hhigh ltac:(lia) ltac:(lia)) as [b [Es [Wb [B1 [B2 B3]]]]].
    rewrite Es. cbn [bind].
    assert (Blow : A b low = A a low) by (apply (within_A _ _ _ _ _ _ Wb); lia).
    destruct (IH b l' h') as [a' [l2 [h2 [E [W R]]]]].
    + exact (w_fin _ _ _ _ _ Wb).
    + lia.
    + lia.
    + lia.
    + lia.
    + intros i Hi. rewrite Blow.
      destruct (Z.eq_dec i l') as [->|N1]; [rewrite B1; exact Gd|].
      rewrite B3 by lia. destruct (Z.le_gt_cases i ll); [apply HL; lia | apply Bu; lia].
    + intros i Hi. rewrite Blow.
      destruct (Z.eq_dec i h') as [->|N1]; [rewrite B2; exact Gu|].
      destruct (Z.eq_dec i l') as [->|N2]; [lia|].
      rewrite B3 by lia. destruct (Z.le_gt_cases hh i); [apply HH; lia | apply Bd; lia].
    + lia.
    + exists a', l2, h2. split; [exact E|]. split; [exact (within_trans _ _ _ _ _ _ Wb W) | exact R].
Qed.

(** ** Selection *)
Definition placed (a : list num) (n k : Z) : Prop :=
  (forall i, 0 <= i < k -> A a i <= A a k) /\ (forall j, k < j < n -> A a k <= A a j).

Record inv (n : Z) (a : list num) (low high k : Z) : Prop := {
  i_fin : fin a n; i_low : 0 <= low; i_high : high < n; i_k : 0 <= k < n;
  i_L : forall i j, 0 <= i < low -> low <= j < n -> A a i <= A a j;
  i_H : forall i j, 0 <= i <= high -> high < j < n -> A a i <= A a j;
  i_pos : low <= k <= high \/ (placed a n k /\ (k < low \/ high < k)) }.

Lemma inv_within n a b low high k : low <= high -> inv n a low high k -> within n a b low high -> inv n b low high k.
Proof.
  intros Hlh I W. destruct I as [F Hl Hh Hk L H P].
  assert (O : forall k, k < low \/ high < k -> A b k = A a k) by (intros; eapply within_A; eauto).
  pose proof (w_in _ _ _ _ _ W) as N.
  constructor; try assumption.
  - exact (w_fin _ _ _ _ _ W).
  - intros i j Hi Hj. rewrite (O i) by lia.
    destruct (Z.le_gt_cases j high) as [J|J]; [|rewrite (O j) by lia; apply L; lia].
    destruct (N j) as [j' [J' ->]]; [lia|]. apply L; lia.
  - intros i j Hi Hj. rewrite (O j) by lia.
    destruct (Z.le_gt_cases low i) as [J|J]; [|rewrite (O i) by lia; apply H; lia].
    destruct (N i) as [i' [I' ->]]; [lia|]. apply H; lia.
  - destruct P as [P|[[P1 P2] P3]]; [now left|right]. split; [|exact P3]. split.
    + intros i Hi. rewrite (O k) by lia.
      destruct (Z.le_gt_cases low i) as [J|J]; [destruct (Z.le_gt_cases i high) as [J2|J2]|].
      * destruct (N i) as [i' [I' ->]]; [lia|]. apply P1. lia.
      * rewrite O by lia. apply P1; lia.
      * rewrite O by lia. apply P1; lia.
    + intros j Hj. rewrite (O k) by lia.
      destruct (Z.le_gt_cases low j) as [J|J]; [destruct (Z.le_gt_cases j high) as [J2|J2]|].
      * destruct (N j) as [j' [J' ->]]; [lia|]. apply P2. lia.
      * rewrite O by lia. apply P2; lia.
      * rewrite O by lia. apply P2; lia.
Qed.

Lemma select_ok n k fuel : forall a low high, inv n a low high k -> (Z.to_nat (high - low + 1) < fuel)%nat ->
  exists a', select fuel a low high k = Ok (Fin (A a' k), a') /\ within n a a' 0 (n - 1) /\ placed a' n k.
Proof.
  induction fuel as [|f IH]; intros a low high I Hf; [lia|].
  pose proof I as [F Hlow Hhigh Hk IL IH' IP].
  cbn [select].
  destruct (Z.leb_spec high low) as [E1|E1].
  { rewrite (proj2 F k) by lia. cbn [bind]. exists a. split; [reflexivity|]. split; [now apply within_refl|].
    destruct IP as [P|[P _]]; [|exact P].
    split; intros i Hi; [apply IL; lia | apply IH'; lia]. }
  destruct (Z.eqb_spec high (low + 1)) as [E2|E2].
  { destruct (order_ok n a low high low high F ltac:(lia) ltac:(lia) ltac:(lia) ltac:(lia)) as [b [Eo [Wb [Lb _]]]].
    rewrite Eo. cbn [bind].
    pose proof (inv_within n a b low high k ltac:(lia) I Wb) as [Fb _ _ _ IL2 IH2 IP2].
    rewrite (proj2 Fb k) by lia. cbn [bind]. exists b. split; [reflexivity|].
    split; [apply (within_weaken _ _ _ _ _ _ _ Wb); lia|].
    destruct IP2 as [P|[P _]]; [|exact P].
    split; intros i Hi.
    - destruct (Z.le_gt_cases low i); [replace i with low by lia; replace k with high by lia; exact Lb | apply IL2; lia].
    - destruct (Z.le_gt_cases i high); [replace k with low by lia; replace i with high by lia; exact Lb | apply IH2; lia]. }
  set (m := (low + high) / 2).
  assert (Hm : low < m < high).
  { subst m. split; [|apply Z.div_lt_upper_bound; lia]. assert (low + 1 <= (low + high) / 2) by (apply Z.div_le_lower_bound; lia). lia. }
  clearbody m.
  destruct (order_ok n a m high low high F ltac:(lia) ltac:(lia) ltac:(lia) ltac:(lia)) as [a1 [Eo1 [W1 [L1 [K1 C1]]]]].
  rewrite Eo1. cbn [bind].
  destruct (order_ok n a1 low high low high (w_fin _ _ _ _ _ W1) ltac:(lia) ltac:(lia) ltac:(lia) ltac:(lia)) as [a2 [Eo2 [W2 [L2 [K2 C2]]]]].
  rewrite Eo2. cbn [bind].
  destruct (order_ok n a2 m low low high (w_fin _ _ _ _ _ W2) ltac:(lia) ltac:(lia) ltac:(lia) ltac:(lia)) as [a3 [Eo3 [W3 [L3 [K3 C3]]]]].
  rewrite Eo3. cbn [bind].
  assert (H3 : A a3 low <= A a3 high).
  { pose proof (K3 high ltac:(lia) ltac:(lia)). pose proof (K2 m ltac:(lia) ltac:(lia)). lia. }
  clear C1 C2 C3 K1 K2 K3 L1 L2.
  destruct (swap_ok n a3 m (low + 1) low high (w_fin _ _ _ _ _ W3) ltac:(lia) ltac:(lia) ltac:(lia) ltac:(lia)) as [a4 [Es [W4 [S1 [S2 S3]]]]].
  rewrite Es. cbn [bind].
  assert (B4 : A a4 (low + 1) <= A a4 low).
  { rewrite (S3 low) by lia. destruct (Z.eq_dec m (low + 1)); [rewrite S2; exact L3 | rewrite S2; exact L3]. }
  assert (C4 : A a4 low <= A a4 high).
  { rewrite (S3 low) by lia. destruct (Z.eq_dec high (low + 1)); [lia|]. rewrite (S3 high) by lia. exact H3. }
  clear S1 S2 S3 L3 H3.
  pose proof (within_trans _ _ _ _ _ _ (within_trans _ _ _ _ _ _ (within_trans _ _ _ _ _ _ W1 W2) W3) W4) as W14.
  assert (Len : length a4 = length a) by (symmetry; apply Permutation_length; exact (w_perm _ _ _ _ _ W14)).
  destruct (nibble_ok n low high (S (length a4)) Hlow Hhigh a4 (low + 1) high) as [a5 [l' [h' [En [W5 [R1 [R2 [R3 [R4 R5]]]]]]]]].
  { exact (w_fin _ _ _ _ _ W4). } { lia. } { lia. } { lia. } { lia. }
  { intros i Hi. replace i with (low + 1) by lia. exact B4. }
  { intros i Hi. replace i with high by lia. exact C4. }
  { pose proof (proj1 F) as Fl. unfold zlen in Fl. lia. }
  rewrite En. cbn [bind]. clear B4 C4.
  destruct (swap_ok n a5 low h' low high (w_fin _ _ _ _ _ W5) ltac:(lia) ltac:(lia) ltac:(lia) ltac:(lia)) as [a6 [Es6 [W6 [T1 [T2 T3]]]]].
  rewrite Es6. cbn [bind].
  assert (W16 : within n a a6 low high).
  { eapply within_trans; [exact W14|]. eapply within_trans; [|exact W6]. apply (within_weaken _ _ _ _ _ _ _ W5); lia. }
  pose proof (inv_within n a a6 low high k ltac:(lia) I W16) as [F6 _ _ _ IL6 IH6 IP6].
  clear IL IH' IP.
  assert (P1 : forall i, low <= i < l' -> A a6 i <= A a6 h').
  { intros i Hi. rewrite T2. destruct (Z.eq_dec i low) as [->|]; [rewrite T1; apply R4; lia|].
    destruct (Z.eq_dec i h') as [->|]; [rewrite T2; lia|]. rewrite T3 by lia. apply R4; lia. }
  assert (P2 : forall i, h' <= i <= high -> A a6 h' <= A a6 i).
  { intros i Hi. destruct (Z.eq_dec i h') as [->|]; [lia|]. rewrite T2, T3 by lia. apply R5; lia. }
  assert (NI : inv n a6 (if h' <=? k then l' else low) (if k <=? h' then h' - 1 else high) k).
  { constructor.
    - exact F6.
    - destruct (h' <=? k); lia.
    - destruct (k <=? h'); lia.
    - exact Hk.
    - intros i j. destruct (Z.leb_spec h' k); [|apply IL6]. intros Hi Hj.
      destruct (Z.le_gt_cases low i); [|apply IL6; lia].
      destruct (Z.le_gt_cases j high); [|apply IH6; lia].
      transitivity (A a6 h'); [apply P1; lia | apply P2; lia].
    - intros i j. destruct (Z.leb_spec k h'); [|apply IH6]. intros Hi Hj.
      destruct (Z.le_gt_cases low i); [|apply IL6; lia].
      destruct (Z.le_gt_cases j high); [|apply IH6; lia].
      transitivity (A a6 h'); [apply P1; lia | apply P2; lia].
    - destruct IP6 as [P|[P P']].
      + destruct (Z.leb_spec h' k) as [Q1|Q1]; destruct (Z.leb_spec k h') as [Q2|Q2].
        * right. assert (k = h') by lia. subst k. split; [|lia]. split.
          -- intros i Hi. destruct (Z.le_gt_cases low i); [apply P1; lia | apply IL6; lia].
          -- intros j Hj. destruct (Z.le_gt_cases j high); [apply P2; lia | apply IH6; lia].
        * destruct (Z.le_gt_cases l' k); [left; lia|]. right. split; [|lia].
          assert (Ek : A a6 k = A a6 h') by (apply Z.le_antisymm; [apply P1; lia | apply P2; lia]).
          split.
          -- intros i Hi. rewrite Ek. destruct (Z.le_gt_cases low i); [apply P1; lia | rewrite <- Ek; apply IL6; lia].
          -- intros j Hj. rewrite Ek. destruct (Z.le_gt_cases j high); [apply P2; lia | rewrite <- Ek; apply IH6; lia].
        * left. lia.
        * lia.
      + right. split; [exact P|]. destruct (Z.leb_spec h' k); destruct (Z.leb_spec k h'); lia. }
  destruct (IH a6 _ _ NI) as [a' [Esel [W7 P7]]].
  { destruct (Z.leb_spec h' k); destruct (Z.leb_spec k h'); lia. }
  exists a'. split; [exact Esel|]. split; [|exact P7].
  eapply within_trans; [|exact W7]. apply (within_weaken _ _ _ _ _ _ _ W16); lia.
Qed.

(** ** From places to ranks *)
Lemma filter_none {T} (p : T -> bool) l : (forall x, In x l -> p x = false) -> filter p l = [].
Proof. induction l as [|x l IH]; cbn; intros H; [reflexivity|]. rewrite H by now left. apply IH; auto. Qed.
Lemma filter_all {T} (p : T -> bool) l : (forall x, In x l -> p x = true) -> filter p l = l.
Proof. induction l as [|x l IH]; cbn; intros H; [reflexivity|]. rewrite H by now left. f_equal. apply IH; auto. Qed.
Lemma filter_le {T} (p : T -> bool) l : (length (filter p l) <= length l)%nat.
Proof. induction l as [|x l IH]; cbn; [lia|]. destruct (p x); cbn; lia. Qed.
Lemma in_firstn_nth {T} (l : list T) k x : In x (firstn k l) -> exists i, (i < k)%nat /\ nth_error l i = Some x.
Proof.
  revert k; induction l as [|y l IH]; intros [|k] H; cbn in H; try tauto.
  destruct H as [->|H]; [exists 0%nat; split; [lia | reflexivity]|].
  destruct (IH k H) as [i [Hi E]]. exists (S i). split; [lia | exact E].
Qed.
Lemma in_skipn_nth {T} (l : list T) k x : In x (skipn k l) -> exists i, (k <= i)%nat /\ nth_error l i = Some x.
Proof.
  revert k; induction l as [|y l IH]; intros [|k] H; cbn in H; try tauto.
  - destruct H as [->|H]; [exists 0%nat; split; [lia | reflexivity]|].
    apply In_nth_error in H. destruct H as [i E]. exists (S i). split; [lia | exact E].
  - destruct (IH k H) as [i [Hi E]]. exists (S i). split; [lia | exact E].
Qed.
Lemma rank_of_place (l : list Z) k x : nth_error l k = Some x ->
  (forall i y, (i < k)%nat -> nth_error l i = Some y -> y <= x) ->
  (forall i y, (k < i)%nat -> nth_error l i = Some y -> x <= y) -> has_rank l k x.
Proof.
  intros E L H. split; [now apply nth_error_In in E|]. split.
  - rewrite <- (firstn_skipn k l), filter_app, app_length.
    rewrite (filter_none _ (skipn k l)).
    + cbn. pose proof (filter_le (fun y => y <? x) (firstn k l)). rewrite firstn_length in H0. lia.
    + intros y Hy. apply Z.ltb_ge. apply in_skipn_nth in Hy. destruct Hy as [i [Hi Ei]].
      destruct (Nat.eq_dec i k) as [->|]; [assert (x = y) by congruence; lia | apply (H i y); [lia | exact Ei]].
  - assert (Hk : (k < length l)%nat) by (apply nth_error_Some; congruence).
    rewrite <- (firstn_skipn (S k) l), filter_app, app_length.
    rewrite (filter_all _ (firstn (S k) l)).
    + rewrite firstn_length. lia.
    + intros y Hy. apply Z.leb_le. apply in_firstn_nth in Hy. destruct Hy as [i [Hi Ei]].
      destruct (Nat.eq_dec i k) as [->|]; [assert (x = y) by congruence; lia | apply (L i y); [lia | exact Ei]].
Qed.
Lemma filter_perm {T} (p : T -> bool) l l' : Permutation l l' -> Permutation (filter p l) (filter p l').
Proof.
  induction 1; cbn; auto.
  - destruct (p x); auto.
  - destruct (p x), (p y); auto. apply perm_swap.
  - eapply Permutation_trans; eauto.
Qed.
Lemma has_rank_perm l l' k x : Permutation l l' -> has_rank l k x -> has_rank l' k x.
Proof.
  intros P [Hi Hr]. split; [now apply (Permutation_in _ P)|].
  now rewrite <- !(Permutation_length (filter_perm _ _ _ P)).
Qed.

(** ** Finite parts *)
Lemma finite_app a b : finite (a ++ b) = finite a ++ finite b.
Proof. induction a as [|[|z] a IH]; cbn; congruence. Qed.
Lemma finite_perm a b : Permutation a b -> Permutation (finite a) (finite b).
Proof.
  induction 1; cbn; auto.
  - destruct x; auto.
  - destruct x, y; auto. apply perm_swap.
  - eapply Permutation_trans; eauto.
Qed.
Lemma finite_all l : Forall (fun x => is_nan x = false) l -> map Fin (finite l) = l.
Proof. induction 1 as [|[|z] l H _ IH]; cbn; [reflexivity | discriminate | now f_equal]. Qed.
Lemma finite_map l : finite (map Fin l) = l.
Proof. induction l; cbn; congruence. Qed.

Lemma fin_of a n : 0 <= n <= zlen a -> Forall (fun x => is_nan x = false) (firstn (Z.to_nat n) a) -> fin a n.
Proof.
  intros Hn H. split; [lia|]. intros i Hi.
  destruct (get_total a i) as [x Ex]; [lia|].
  unfold A. rewrite Ex. destruct x as [|z]; [|reflexivity]. exfalso.
  apply get_ok in Ex. destruct Ex as [_ Ex].
  rewrite Forall_forall in H. assert (In NaN (firstn (Z.to_nat n) a)).
  { apply nth_error_In with (n := Z.to_nat i). 
    rewrite <- Ex. rewrite <- (firstn_skipn (Z.to_nat n) a) at 2.
    rewrite nth_error_app1; [reflexivity|]. rewrite firstn_length. unfold zlen in Hn. lia. }
  apply H in H0. discriminate.
Qed.

Lemma select_median a n : 1 <= n <= zlen a -> Forall (fun x => is_nan x = false) (firstn (Z.to_nat n) a) ->
  exists x a', select (S (length a)) a 0 (n - 1) ((0 + (n - 1)) / 2) = Ok (Fin x, a') /\
    is_median (finite (firstn (Z.to_nat n) a)) x /\ Permutation a a' /\
    skipn (Z.to_nat n) a' = skipn (Z.to_nat n) a.
Proof.
  intros Hn H. pose proof (fin_of a n ltac:(lia) H) as F.
  set (k := (0 + (n - 1)) / 2).
  assert (Hk : 0 <= k < n) by (subst k; split; [apply Z.div_pos; lia | apply Z.div_lt_upper_bound; lia]).
  assert (I : inv n a 0 (n - 1) k).
  { constructor; try (intros; lia). exact F. }
  unfold zlen in Hn.
  destruct (select_ok n k (S (length a)) a 0 (n - 1) I ltac:(lia)) as [a' [E [W P]]].
  exists (A a' k), a'. split; [exact E|].
  pose proof (w_perm _ _ _ _ _ W) as Pm. pose proof (w_fin _ _ _ _ _ W) as F'.
  assert (Sk : skipn (Z.to_nat n) a' = skipn (Z.to_nat n) a).
  { apply list_ext_get.
    - unfold zlen. rewrite !skipn_length, (Permutation_length Pm). reflexivity.
    - intros i Hi. unfold get. destruct (Z.ltb_spec i 0); [reflexivity|].
      assert (Q : forall (l : list num) p q, nth_error (skipn p l) q = nth_error l (p + q)).
      { clear. intros l p; revert l; induction p; intros [|x l] q; cbn; auto. now destruct q. }
      rewrite !Q. pose proof (w_out _ _ _ _ _ W (n + i) ltac:(lia)) as G.
      unfold get in G. destruct (Z.ltb_spec (n + i) 0); [lia|].
      replace (Z.to_nat n + Z.to_nat i)%nat with (Z.to_nat (n + i)) by lia.
      destruct (nth_error a' (Z.to_nat (n + i))), (nth_error a (Z.to_nat (n + i))); congruence. }
  split; [|split; [exact Pm | exact Sk]].
  assert (Pf : Permutation (firstn (Z.to_nat n) a') (firstn (Z.to_nat n) a)).
  { apply (Permutation_app_inv_r (skipn (Z.to_nat n) a)).
    rewrite (firstn_skipn _ a). rewrite <- Sk, firstn_skipn. now symmetry. }
  assert (Lf : length (finite (firstn (Z.to_nat n) a)) = Z.to_nat n).
  { rewrite <- (map_length Fin), finite_all by exact H. rewrite firstn_length. lia. }
  unfold is_median. rewrite Lf.
  apply (has_rank_perm (finite (firstn (Z.to_nat n) a'))); [now apply finite_perm|].
  assert (Nf : forall i, (i < Z.to_nat n)%nat -> nth_error (finite (firstn (Z.to_nat n) a')) i = Some (A a' (Z.of_nat i))).
  { intros i Hi.
    assert (M : map Fin (finite (firstn (Z.to_nat n) a')) = firstn (Z.to_nat n) a').
    { apply finite_all. rewrite Forall_forall in *. intros x Hx. apply H. now apply (Permutation_in _ Pf). }
    assert (G : nth_error (firstn (Z.to_nat n) a') i = Some (Fin (A a' (Z.of_nat i)))).
    { pose proof (proj2 F' (Z.of_nat i) ltac:(lia)) as G. apply get_ok in G. destruct G as [_ G]. rewrite Nat2Z.id in G.
      rewrite <- G. rewrite <- (firstn_skipn (Z.to_nat n) a') at 2. rewrite nth_error_app1; [reflexivity|].
      rewrite firstn_length, <- (Permutation_length Pm). lia. }
    rewrite <- M, nth_error_map in G. destruct (nth_error (finite (firstn (Z.to_nat n) a')) i); cbn in G; congruence. }
  assert (Bd : forall i y, nth_error (finite (firstn (Z.to_nat n) a')) i = Some y -> (i < Z.to_nat n)%nat).
  { intros i y Hy. assert (i < length (finite (firstn (Z.to_nat n) a')))%nat by (apply nth_error_Some; congruence).
    rewrite (Permutation_length (finite_perm _ _ Pf)), Lf in H0. exact H0. }
  assert (Kn : ((Z.to_nat n - 1) / 2)%nat = Z.to_nat k).
  { subst k. rewrite Z.add_0_l. replace (n - 1) with (Z.of_nat (Z.to_nat n - 1)) by lia.
    change 2 with (Z.of_nat 2). rewrite <- Nat2Z.inj_div, Nat2Z.id. reflexivity. }
  rewrite Kn. apply rank_of_place.
  - rewrite Nf by lia. f_equal. f_equal. lia.
  - intros i y Hi Hy. rewrite Nf in Hy by lia. injection Hy as <-. apply (proj1 P). lia.
  - intros i y Hi Hy. pose proof (Bd _ _ Hy). rewrite Nf in Hy by lia. injection Hy as <-. apply (proj2 P). lia.
Qed.

(** ** Removal *)
Definition good (rn : bool) (p : num * bool) : bool := negb (bad rn (fst p) (Some (snd p))).
Lemma combine_set_nth {T U} (l : list T) (m : list U) i x y :
  combine (set_nth l i x) (set_nth m i y) = set_nth (combine l m) i (x, y).
Proof. revert m i; induction l as [|a l IH]; intros [|b m] [|i]; cbn; try reflexivity. now rewrite IH. Qed.
Lemma nth_error_combine {T U} (l : list T) (m : list U) i x y :
  nth_error l i = Some x -> nth_error m i = Some y -> nth_error (combine l m) i = Some (x, y).
Proof.
  revert m i; induction l as [|a l IH]; intros [|b m] [|i] H1 H2; cbn in *; try discriminate.
  - congruence.
  - now apply IH.
Qed.
Lemma firstn_combine {T U} n (l : list T) (m : list U) : firstn n (combine l m) = combine (firstn n l) (firstn n m).
Proof. apply combine_firstn. Qed.

(** Replacing a rejected element by the last one. *)
Lemma replace_last {T} (p : T -> bool) (z : list T) i h x y :
  nth_error z i = Some x -> nth_error z h = Some y -> (i <= h)%nat -> p x = false ->
  Permutation (filter p (firstn h (set_nth z i y))) (filter p (firstn (S h) z)).
Proof.
  intros Hi Hh Hle Hp.
  assert (Lh : (h < length z)%nat) by (apply nth_error_Some; congruence).
  assert (Sx : firstn (S h) z = firstn h z ++ [y]).
  { clear - Hh. revert z Hh; induction h; intros [|a z] H; cbn in *; try discriminate; [congruence|]. f_equal. now apply IHh. }
  rewrite Sx, filter_app. cbn [filter].
  destruct (Nat.eq_dec i h) as [->|N].
  - assert (x = y) by congruence. subst y. rewrite Hp, app_nil_r.
    replace (firstn h (set_nth z h x)) with (firstn h z); [reflexivity|].
    clear. revert z; induction h; intros [|a z]; cbn; try reflexivity. now rewrite <- IHh.
  - assert (Lt : (i < h)%nat) by lia. clear Sx Hh Hle N.
    assert (D : exists u v, firstn h z = u ++ x :: v /\ firstn h (set_nth z i y) = u ++ y :: v).
    { clear - Hi Lt Lh. revert z h Hi Lt Lh; induction i; intros [|a z] [|h] Hi Lt Lh; cbn in *; try lia; try discriminate.
      - injection Hi as ->. exists [], (firstn h z). split; reflexivity.
      - destruct (IHi z h Hi ltac:(lia) ltac:(lia)) as [u [v [E1 E2]]]. exists (a :: u), v. cbn. now rewrite E1, E2. }
    destruct D as [u [v [E1 E2]]]. rewrite E1, E2, !filter_app. cbn [filter]. rewrite Hp.
    rewrite <- app_assoc. apply Permutation_app_head.
    destruct (p y); [apply Permutation_cons_append | now rewrite app_nil_r].
Qed.

Lemma compact_ok rn fuel : forall arr mask ll h, length arr = length mask ->
  0 <= ll <= h + 1 -> h + 1 <= zlen arr -> (Z.to_nat (h + 1 - ll) < fuel)%nat ->
  (forall i p, Z.of_nat i < ll -> nth_error (combine arr mask) i = Some p -> good rn p = true) ->
  exists arr' h', compact fuel rn arr (Some mask) ll h = Ok (arr', h') /\ -1 <= h' <= h /\ length arr' = length arr /\
    Permutation (firstn (Z.to_nat (h' + 1)) arr') (map fst (filter (good rn) (firstn (Z.to_nat (h + 1)) (combine arr mask)))).
Proof.
  induction fuel as [|f IH]; intros arr mask ll h Len H1 H2 Hf G; [lia|].
  cbn [compact]. destruct (Z.ltb_spec h ll) as [L|L].
  - exists arr, h. split; [reflexivity|]. split; [lia|]. split; [reflexivity|].
    rewrite filter_all.
    + rewrite combine_firstn. 
      assert (M : forall (l : list num) (m : list bool), length l = length m -> map fst (combine l m) = l).
      { clear. induction l as [|a l IH]; intros [|b m] H; cbn in *; try lia; [reflexivity|]. f_equal. apply IH. lia. }
      rewrite M; [reflexivity|]. rewrite !firstn_length. lia.
    + intros p Hp. apply in_firstn_nth in Hp. destruct Hp as [i [Hi Ei]]. apply (G i p); [lia | exact Ei].
  - unfold zlen in *.
    destruct (get_total arr ll) as [x Ex]; [unfold zlen; lia|].
    destruct (get_total mask ll) as [b Eb]; [unfold zlen; lia|].
    rewrite Ex, Eb. cbn [bind].
    pose proof Ex as Ex'. pose proof Eb as Eb'. apply get_ok in Ex', Eb'.
    pose proof (nth_error_combine arr mask _ _ _ (proj2 Ex') (proj2 Eb')) as Ez.
    destruct (bad rn x (Some b)) eqn:Bd.
    + destruct (get_total arr h) as [y Ey]; [unfold zlen; lia|].
      destruct (get_total mask h) as [c Ec]; [unfold zlen; lia|].
      rewrite Ey, Ec. cbn [bind]. unfold set_at. destruct (Z.ltb_spec ll 0); [lia|].
      pose proof Ey as Ey'. pose proof Ec as Ec'. apply get_ok in Ey', Ec'.
      pose proof (nth_error_combine arr mask _ _ _ (proj2 Ey') (proj2 Ec')) as Ezh.
      destruct (IH (set_nth arr (Z.to_nat ll) y) (set_nth mask (Z.to_nat ll) c) ll (h - 1)) as [arr' [h' [E [R [Ln P]]]]].
      * rewrite !set_nth_length. exact Len.
      * lia.
      * unfold zlen. rewrite set_nth_length. lia.
      * lia.
      * intros i p Hi Hn. rewrite combine_set_nth, set_nth_other in Hn by lia. apply (G i p); assumption.
      * exists arr', h'. split; [exact E|]. split; [lia|]. split; [rewrite Ln; apply set_nth_length|].
        rewrite P. apply Permutation_map. rewrite combine_set_nth.
        replace (Z.to_nat (h - 1 + 1)) with (Z.to_nat h) by lia.
        replace (Z.to_nat (h + 1)) with (S (Z.to_nat h)) by lia.
        eapply replace_last; [exact Ez | exact Ezh | lia |]. unfold good. cbn [fst snd]. now rewrite Bd.
    + destruct (IH arr mask (ll + 1) h) as [arr' [h' [E R]]]; try assumption.
      * lia.
      * lia.
      * intros i p Hi Hn. destruct (Z.eq_dec (Z.of_nat i) ll) as [Ei|Ni].
        -- assert (i = Z.to_nat ll) by lia. subst i. rewrite Ez in Hn. injection Hn as <-. unfold good. cbn [fst snd]. now rewrite Bd.
        -- apply (G i p); [lia | exact Hn].
      * exists arr', h'. split; [exact E | exact R].
Qed.

(** No mask is a mask without rejected elements. *)
Lemma compact_nomask rn fuel : forall arr ll h, 
  compact fuel rn arr None ll h = compact fuel rn arr (Some (repeat false (length arr))) ll h.
Proof.
  induction fuel as [|f IH]; intros arr ll h; [reflexivity|].
  cbn [compact]. destruct (h <? ll); [reflexivity|].
  assert (Gf : forall i x, get arr i = Ok x -> get (repeat false (length arr)) i = Ok false).
  { intros i x E. apply get_range in E. unfold zlen in E. apply get_ok. split; [lia|].
    rewrite (nth_error_nth' _ false) by (rewrite repeat_length; lia). now rewrite nth_repeat. }
  destruct (get arr ll) as [x|e] eqn:Ex; cbn [bind]; [|reflexivity].
  rewrite (Gf _ _ Ex). cbn [bind].
  replace (bad rn x (Some false)) with (bad rn x None) by (unfold bad; reflexivity).
  destruct (bad rn x None); [|apply IH].
  destruct (get arr h) as [y|e] eqn:Ey; cbn [bind]; [|reflexivity].
  rewrite (Gf _ _ Ey). cbn [bind]. rewrite IH.
  assert (Ls : length (set_at arr ll y) = length arr) by (pose proof (zlen_set_at arr ll y) as Q; unfold zlen in Q; lia).
  rewrite Ls. f_equal. f_equal. unfold set_at. destruct (ll <? 0); [reflexivity|].
  clear. generalize (Z.to_nat ll). induction (length arr) as [|n IH]; intros [|k]; cbn; try reflexivity. now rewrite <- IH.
Qed.

Lemma kept_finite rn arr mask :
  (rn = true \/ Forall (fun x => is_nan x = false) (unmasked arr mask)) ->
  Forall (fun x => is_nan x = false) (map fst (filter (good rn) (combine arr mask))) /\
  finite (map fst (filter (good rn) (combine arr mask))) = finite (unmasked arr mask).
Proof.
  revert mask; induction arr as [|x arr IH]; intros [|b mask] H; cbn [combine filter map unmasked finite]; try (split; [constructor | reflexivity]).
  assert (H' : rn = true \/ Forall (fun x => is_nan x = false) (unmasked arr mask)).
  { destruct H as [H|H]; [now left|right]. cbn in H. destruct b; [exact H | now inversion H]. }
  destruct (IH mask H') as [F E].
  destruct (good rn (x, b)) eqn:G; unfold good, bad in G; cbn [fst snd] in G;
    destruct b; rewrite ?orb_true_r, ?orb_false_r in G; cbn [negb] in G; try discriminate G; cbn [map fst finite].
  - destruct x as [|z]; cbn [is_nan] in *.
    + destruct rn; [discriminate G|]. destruct H as [H|H]; [discriminate|]. inversion H; discriminate.
    + split; [constructor; [reflexivity | exact F] | now rewrite E].
  - split; assumption.
  - destruct x as [|z]; [split; assumption|]. rewrite andb_false_r in G. discriminate G.
Qed.
Lemma unmasked_none {T} (l : list T) : unmasked l (repeat false (length l)) = l.
Proof. induction l; cbn; congruence. Qed.

Lemma median_mask_ok arr rn mask : length arr = length mask ->
  (rn = true \/ Forall (fun x => is_nan x = false) (unmasked arr mask)) ->
  exists x arr', median arr rn (Some mask) = Ok (x, arr') /\
    match finite (unmasked arr mask) with
    | [] => x = NaN
    | l => exists z, x = Fin z /\ is_median l z
    end.
Proof.
  intros Len H. unfold median. rewrite orb_true_r.
  destruct (compact_ok rn (S (length arr)) arr mask 0 (zlen arr - 1)) as [a [h [E [R [Ln P]]]]].
  - exact Len.
  - unfold zlen; lia.
  - lia.
  - unfold zlen; lia.
  - intros i p Hi. lia.
  - rewrite E. cbn [bind].
    assert (Fa : firstn (Z.to_nat (zlen arr - 1 + 1)) (combine arr mask) = combine arr mask).
    { apply firstn_all2. rewrite combine_length. unfold zlen. lia. }
    rewrite Fa in P.
    destruct (kept_finite rn arr mask H) as [K1 K2].
    pose proof (finite_perm _ _ P) as Pf. rewrite K2 in Pf.
    destruct (Z.ltb_spec h 0) as [L|L].
    + exists NaN, a. split; [reflexivity|]. replace (Z.to_nat (h + 1)) with 0%nat in Pf by lia. cbn in Pf.
      apply Permutation_nil in Pf. now rewrite Pf.
    + destruct (select_median a (h + 1)) as [z [a' [Es [M _]]]].
      * unfold zlen in *. lia.
      * rewrite Forall_forall in *. intros x Hx. apply K1. now apply (Permutation_in _ P).
      * replace (h + 1 - 1) with h in Es by lia. rewrite Es. exists (Fin z), a'. split; [reflexivity|].
        assert (Mz : is_median (finite (unmasked arr mask)) z).
        { unfold is_median in *. rewrite <- (Permutation_length Pf). now apply (has_rank_perm _ _ _ _ Pf). }
        destruct (finite (unmasked arr mask)) as [|y l] eqn:El; [destruct Mz as [[] _]|].
        exists z. split; [reflexivity | exact Mz].
Qed.

Lemma median_nomask_ok arr rn : (rn = true \/ Forall (fun x => is_nan x = false) arr) ->
  exists x arr', median arr rn None = Ok (x, arr') /\
    match finite arr with
    | [] => x = NaN
    | l => exists z, x = Fin z /\ is_median l z
    end.
Proof.
  intros H. destruct rn.
  - assert (E : median arr true None = median arr true (Some (repeat false (length arr)))).
    { unfold median. cbn [orb]. now rewrite compact_nomask. }
    rewrite E. pose proof (median_mask_ok arr true (repeat false (length arr))) as M.
    rewrite unmasked_none in M. apply M; [now rewrite repeat_length | now left].
  - destruct H as [H|H]; [discriminate|]. unfold median. cbn [orb bind].
    destruct (Z.ltb_spec (zlen arr - 1) 0) as [L|L].
    + exists NaN, arr. split; [reflexivity|]. unfold zlen in L. destruct arr; [reflexivity | cbn [length] in L; lia].
    + destruct (select_median arr (zlen arr)) as [z [a' [Es [M _]]]].
      * lia.
      * now rewrite to_nat_zlen, firstn_all.
      * rewrite Es. exists (Fin z), a'. split; [reflexivity|].
        rewrite to_nat_zlen, firstn_all in M. destruct (finite arr) as [|y l]; [destruct M as [[] _]|]. exists z. auto.
Qed.

Lemma finite_length l : Forall (fun x => is_nan x = false) l -> length (finite l) = length l.
Proof. intros H. rewrite <- (map_length Fin), finite_all by exact H. reflexivity. Qed.

(** Deviation, without NaN. *)
Lemma mad_ok l : l <> [] -> exists m d, mad (map Fin l) = Ok (Fin d, Fin m) /\ is_median l m /\
  is_median (map (fun x => Z.abs (x - m)) l) d.
Proof.
  intros N. unfold mad.
  assert (Nn : Forall (fun x => is_nan x = false) (map Fin l)) by (apply Forall_forall; intros x Hx; apply in_map_iff in Hx; destruct Hx as [z [<- _]]; reflexivity).
  (* the first median permutes the array *)
  assert (Pm : exists m a', median (map Fin l) true None = Ok (Fin m, a') /\ is_median l m /\ Permutation (map Fin l) a').
  { unfold median. cbn [orb].
    rewrite compact_nomask.
    assert (C : forall fuel ll h, 0 <= ll -> h < zlen (map Fin l) -> (Z.to_nat (h + 1 - ll) < fuel)%nat ->
      compact fuel true (map Fin l) (Some (repeat false (length (map Fin l)))) ll h = Ok (map Fin l, h)).
    { induction fuel as [|f IH]; intros ll h H1 H2 Hf; [lia|]. cbn [compact].
      destruct (Z.ltb_spec h ll); [reflexivity|].
      destruct (get_total (map Fin l) ll) as [x Ex]; [lia|].
      destruct (get_total (repeat false (length (map Fin l))) ll) as [b Eb]; [unfold zlen in *; rewrite repeat_length; lia|].
      rewrite Ex, Eb. cbn [bind].
      assert (b = false).
      { apply get_ok in Eb. destruct Eb as [_ Eb]. apply nth_error_In in Eb. now apply repeat_spec in Eb. }
      assert (is_nan x = false).
      { apply get_ok in Ex. destruct Ex as [_ Ex]. apply nth_error_In in Ex. rewrite Forall_forall in Nn. now apply Nn. }
      subst b. unfold bad. rewrite H3. cbn [andb orb]. apply IH; lia. }
    rewrite C by (unfold zlen; lia). cbn [bind].
    destruct (Z.ltb_spec (zlen (map Fin l) - 1) 0) as [L|L].
    { unfold zlen in L. rewrite map_length in L. destruct l; [contradiction | cbn [length] in L; lia]. }
    destruct (select_median (map Fin l) (zlen (map Fin l))) as [z [a' [Es [M [P _]]]]].
    - lia.
    - now rewrite to_nat_zlen, firstn_all.
    - rewrite Es. exists z, a'. split; [reflexivity|]. rewrite to_nat_zlen, firstn_all, finite_map in M. split; assumption. }
  destruct Pm as [m [a' [E [M P]]]]. rewrite E. cbn [bind].
  destruct (median_nomask_ok (map (abs_diff (Fin m)) a') true ltac:(now left)) as [x [b [E2 M2]]].
  rewrite E2. cbn [bind fst].
  assert (Pf : Permutation (map (fun x => Z.abs (x - m)) l) (finite (map (abs_diff (Fin m)) a'))).
  { rewrite <- (finite_map (map (fun x => Z.abs (x - m)) l)). apply finite_perm.
    rewrite map_map. rewrite <- (Permutation_map (abs_diff (Fin m)) P), map_map. reflexivity. }
  destruct (finite (map (abs_diff (Fin m)) a')) as [|y q] eqn:Eq.
  { symmetry in Pf. apply Permutation_nil in Pf. apply map_eq_nil in Pf. contradiction. }
  destruct M2 as [d [-> M2]]. exists m, d. split; [reflexivity|]. split; [exact M|].
  unfold is_median in *. rewrite (Permutation_length Pf). apply (has_rank_perm _ _ _ _ (Permutation_sym Pf)). exact M2.
Qed.
