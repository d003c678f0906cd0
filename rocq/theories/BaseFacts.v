(** Lemmas on the vocabulary of Base.v. *)
From Coq Require Export Lia.
From Coq Require Import Permutation.
From Coq Require Export ZifyBool ZifyNat.
From Verif Require Export Base.
Ltac Zify.zify_post_hook ::= Z.div_mod_to_equations.

Lemma zlen_nonneg {A} (l : list A) : 0 <= zlen l.
Proof. unfold zlen; lia. Qed.

Lemma zlen_app {A} (l r : list A) : zlen (l ++ r) = zlen l + zlen r.
Proof. unfold zlen; rewrite app_length; lia. Qed.

Lemma zlen_cons {A} (x : A) l : zlen (x :: l) = 1 + zlen l.
Proof. unfold zlen; cbn [length]; lia. Qed.

Lemma zlen_map {A B} (f : A -> B) l : zlen (map f l) = zlen l.
Proof. unfold zlen; rewrite map_length; reflexivity. Qed.

Lemma zlen_repeat {A} (x : A) n : zlen (repeat x n) = Z.of_nat n.
Proof. unfold zlen; rewrite repeat_length; reflexivity. Qed.

Lemma to_nat_zlen {A} (l : list A) : Z.to_nat (zlen l) = length l.
Proof. unfold zlen; lia. Qed.

(** ** progression *)
Lemma progression_length a c n : length (progression a c n) = n.
Proof. unfold progression; rewrite map_length, seq_length; reflexivity. Qed.

Lemma zlen_progression a c n : zlen (progression a c n) = Z.of_nat n.
Proof. unfold zlen; rewrite progression_length; reflexivity. Qed.

Lemma progression_S a c n : progression a c (S n) = a :: progression (a + c) c n.
Proof.
  unfold progression; cbn [seq map]; f_equal; [lia|].
  rewrite <- seq_shift, map_map; apply map_ext; intros k; lia.
Qed.

Lemma progression_app a c n m :
  progression a c (n + m) = progression a c n ++ progression (a + Z.of_nat n * c) c m.
Proof.
  unfold progression. rewrite seq_app, map_app; f_equal; cbn [plus].
  replace (seq n m) with (map (fun k => (n + k)%nat) (seq 0 m)).
  - rewrite map_map; apply map_ext; intros k; lia.
  - clear. revert n. induction m as [|m IH]; intros n; [reflexivity|].
    cbn [seq map]; f_equal; [lia|]. rewrite <- seq_shift, map_map.
    rewrite <- (IH (S n)); apply map_ext; intros; lia.
Qed.

Lemma progression_nth_error a c n k :
  (k < n)%nat -> nth_error (progression a c n) k = Some (a + Z.of_nat k * c).
Proof.
  intros H; unfold progression.
  rewrite nth_error_map, nth_error_nth' with (d := 0%nat) by (rewrite seq_length; lia).
  rewrite seq_nth by lia; reflexivity.
Qed.

Lemma progression_In a c n x :
  In x (progression a c n) <-> exists k, (k < n)%nat /\ x = a + Z.of_nat k * c.
Proof.
  unfold progression; rewrite in_map_iff; split.
  - intros (k & E & H); apply in_seq in H; exists k; split; [lia|congruence].
  - intros (k & H & E); exists k; split; [congruence|apply in_seq; lia].
Qed.

Lemma progression_0 a c : progression a c 0 = [].
Proof. reflexivity. Qed.

Lemma progression_ext a c a' c' n :
  (n <> 0%nat -> a = a') -> (1 < n -> c = c')%nat -> progression a c n = progression a' c' n.
Proof.
  intros Ha Hc. unfold progression. apply map_ext_in. intros k Hk. apply in_seq in Hk.
  rewrite Ha by lia. destruct k as [|k]; [lia|]. rewrite Hc by lia. reflexivity.
Qed.

Lemma NoDup_progression a c n : c <> 0 -> NoDup (progression a c n).
Proof.
  intros Hc; revert a; induction n as [|n IH]; intros a; [constructor|].
  rewrite progression_S; constructor; [|apply IH].
  rewrite progression_In; intros (k & Hk & E); nia.
Qed.

(** ** iota *)
Lemma zlen_iota n : 0 <= n -> zlen (iota n) = n.
Proof. intros; unfold iota; rewrite zlen_progression; lia. Qed.

Lemma In_iota n x : In x (iota n) <-> 0 <= x < n.
Proof.
  unfold iota; rewrite progression_In; split.
  - intros (k & Hk & ->); lia.
  - intros H; exists (Z.to_nat x); lia.
Qed.

Lemma NoDup_iota n : NoDup (iota n).
Proof. apply NoDup_progression; lia. Qed.

Lemma iota_nth_error n k : (k < Z.to_nat n)%nat -> nth_error (iota n) k = Some (Z.of_nat k).
Proof. intros; unfold iota; rewrite progression_nth_error by lia; f_equal; lia. Qed.

Lemma iota_nonpos n : n <= 0 -> iota n = [].
Proof. intros; unfold iota; replace (Z.to_nat n) with 0%nat by lia; reflexivity. Qed.

(** ** res *)
Lemma bind_ok {A B} (x : res A) (f : A -> res B) b :
  bind x f = Ok b <-> exists a, x = Ok a /\ f a = Ok b.
Proof.
  destruct x as [a|e]; cbn; split.
  - intros H; exists a; auto.
  - intros (a' & E & H); congruence.
  - discriminate.
  - intros (a' & E & H); discriminate.
Qed.

Lemma map_res_ok {A B} (f : A -> res B) l r :
  map_res f l = Ok r <-> Forall2 (fun x y => f x = Ok y) l r.
Proof.
  revert r; induction l as [|x l IH]; intros r; cbn [map_res].
  - split; [intros E; injection E as <-; constructor | intros H; inversion H; reflexivity].
  - split.
    + intros H; apply bind_ok in H as (y & Hy & H); apply bind_ok in H as (ys & Hys & H).
      injection H as <-; constructor; [exact Hy|apply IH; exact Hys].
    + intros H; inversion H as [|x' y l' ys Hy Hys]; subst.
      rewrite Hy; cbn [bind]; apply IH in Hys; rewrite Hys; reflexivity.
Qed.

Lemma map_res_length {A B} (f : A -> res B) l r : map_res f l = Ok r -> length r = length l.
Proof. intros H; apply map_res_ok in H; induction H; cbn [length]; congruence. Qed.

Lemma map_res_pure {A B} (f : A -> res B) (g : A -> B) l :
  (forall x, In x l -> f x = Ok (g x)) -> map_res f l = Ok (map g l).
Proof.
  induction l as [|x l IH]; intros H; [reflexivity|].
  cbn [map_res map]; rewrite H by (left; reflexivity); cbn [bind].
  rewrite IH by (intros; apply H; right; assumption); reflexivity.
Qed.

Lemma map_res_ext {A B} (f g : A -> res B) l :
  (forall x, In x l -> f x = g x) -> map_res f l = map_res g l.
Proof.
  induction l as [|x l IH]; intros H; [reflexivity|].
  cbn [map_res]; rewrite H by (left; reflexivity).
  rewrite IH by (intros; apply H; right; assumption); reflexivity.
Qed.

Lemma map_res_app {A B} (f : A -> res B) l1 l2 :
  map_res f (l1 ++ l2) = do a <- map_res f l1; do b <- map_res f l2; Ok (a ++ b).
Proof.
  induction l1 as [|x l1 IH]; cbn [map_res app bind].
  - destruct (map_res f l2); reflexivity.
  - rewrite IH; destruct (f x); cbn [bind]; [|reflexivity].
    destruct (map_res f l1); cbn [bind]; [|reflexivity].
    destruct (map_res f l2); reflexivity.
Qed.

Lemma map_res_total {A B} (f : A -> res B) l :
  (forall x, In x l -> exists y, f x = Ok y) -> exists r, map_res f l = Ok r.
Proof.
  induction l as [|x l IH]; intros H; [exists []; reflexivity|].
  destruct (H x (or_introl eq_refl)) as [y Hy].
  destruct IH as [r Hr]; [intros; apply H; right; assumption|].
  exists (y :: r); cbn [map_res]; rewrite Hy, Hr; reflexivity.
Qed.

(** ** get *)
Lemma get_ok {A} (l : list A) i x :
  get l i = Ok x <-> 0 <= i /\ nth_error l (Z.to_nat i) = Some x.
Proof.
  unfold get; destruct (Z.ltb_spec i 0) as [H|H].
  - split; [discriminate|lia].
  - destruct (nth_error l (Z.to_nat i)) as [y|]; split; try discriminate.
    + intros E; injection E as ->; auto.
    + intros [_ E]; injection E as ->; reflexivity.
    + intros [_ E]; discriminate.
Qed.

Lemma get_total {A} (l : list A) i : 0 <= i < zlen l -> exists x, get l i = Ok x.
Proof.
  intros H; unfold zlen in H.
  destruct (nth_error l (Z.to_nat i)) as [x|] eqn:E.
  - exists x; apply get_ok; split; [lia|exact E].
  - apply nth_error_None in E; lia.
Qed.

Lemma get_iota n i : 0 <= i < n -> get (iota n) i = Ok i.
Proof. intros H; apply get_ok; split; [lia|]. rewrite iota_nth_error by lia; f_equal; lia. Qed.

Lemma np_wrap_in n i : 0 <= i < n -> np_wrap n i = Ok i.
Proof. intros H; unfold np_wrap; destruct (Z.leb_spec 0 i), (Z.ltb_spec i n); cbn; lia || reflexivity. Qed.

Lemma np_get_in {A} (l : list A) i : 0 <= i < zlen l -> np_get l i = get l i.
Proof. intros H; unfold np_get; rewrite np_wrap_in by lia; reflexivity. Qed.

Lemma np_take_in {A} (l : list A) idx :
  Forall (fun i => 0 <= i < zlen l) idx -> np_take l idx = map_res (get l) idx.
Proof.
  intros H; apply map_res_ext; intros i Hi.
  rewrite Forall_forall in H; apply np_get_in; auto.
Qed.

Lemma map_res_get_total {A} (l : list A) idx :
  Forall (fun i => 0 <= i < zlen l) idx -> exists r, map_res (get l) idx = Ok r.
Proof.
  intros H; apply map_res_total; intros i Hi.
  rewrite Forall_forall in H; apply get_total; auto.
Qed.

Lemma map_res_get_iota n idx :
  Forall (fun i => 0 <= i < n) idx -> map_res (get (iota n)) idx = Ok idx.
Proof.
  intros H; rewrite (map_res_pure _ (fun i => i)); [rewrite map_id; reflexivity|].
  intros i Hi; rewrite Forall_forall in H; apply get_iota; auto.
Qed.

Lemma map_res_get_all {A} (l : list A) : map_res (get l) (iota (zlen l)) = Ok l.
Proof.
  unfold iota; rewrite to_nat_zlen.
  enough (H : forall pre, map_res (get (pre ++ l)) (progression (zlen pre) 1 (length l)) = Ok l)
    by exact (H []).
  induction l as [|x l IH]; intros pre; [reflexivity|].
  cbn [length]; rewrite progression_S; cbn [map_res].
  assert (E : get (pre ++ x :: l) (zlen pre) = Ok x).
  { apply get_ok; split; [apply zlen_nonneg|]. rewrite to_nat_zlen, nth_error_app2, Nat.sub_diag by lia.
    reflexivity. }
  rewrite E; cbn [bind].
  replace (pre ++ x :: l) with ((pre ++ [x]) ++ l) by (rewrite <- app_assoc; reflexivity).
  replace (zlen pre + 1) with (zlen (pre ++ [x])) by (rewrite zlen_app; unfold zlen; cbn; lia).
  rewrite IH; reflexivity.
Qed.

(** Taking from a taken list is taking the composed positions. *)
Lemma map_res_get_compose {A} (l : list A) idx l' sel idx' :
  map_res (get l) idx = Ok l' -> map_res (get idx) sel = Ok idx' ->
  map_res (get l') sel = map_res (get l) idx'.
Proof.
  intros Hl; revert idx'; induction sel as [|s sel IH]; intros idx' Hs; cbn [map_res] in *.
  - injection Hs as <-; reflexivity.
  - apply bind_ok in Hs as (i & Hi & Hs); apply bind_ok in Hs as (is & His & Hs).
    injection Hs as <-; cbn [map_res].
    assert (E : get l' s = get l i).
    { apply get_ok in Hi as [Hs0 Hi]. apply map_res_ok in Hl.
      assert (G : forall (idx : list Z) l' k i, Forall2 (fun x y => get l x = Ok y) idx l' ->
                  nth_error idx k = Some i -> exists y, nth_error l' k = Some y /\ get l i = Ok y).
      { clear. intros idx l' k i H; revert k; induction H as [|x y idx l' Hxy H IH]; intros k E.
        - destruct k; discriminate.
        - destruct k as [|k]; cbn in *; [injection E as <-; eauto|eauto]. }
      destruct (G _ _ _ _ Hl Hi) as (y & Hy & Hg); rewrite Hg; apply get_ok; auto. }
    rewrite E; destruct (get l i); cbn [bind]; [|reflexivity]. rewrite (IH _ His); reflexivity.
Qed.

(** ** slices *)
Lemma py_slice_positions_range s n l :
  0 <= n -> py_slice_positions s n = Ok l -> Forall (fun i => 0 <= i < n) l.
Proof.
  intros Hn; unfold py_slice_positions.
  destruct (Z.eqb_spec (py_step s) 0) as [E|Hk]; [discriminate|].
  intros H; injection H as <-; apply Forall_forall; intros x Hx.
  apply progression_In in Hx as (k & Hkn & ->).
  unfold py_slice_length in Hkn.
  assert (B : (py_step s < 0 -> -1 <= py_start s n <= n - 1 /\ -1 <= py_stop s n <= n - 1)
              /\ (0 < py_step s -> 0 <= py_start s n <= n /\ 0 <= py_stop s n <= n)).
  { unfold py_start, py_stop.
    destruct (sl_start s) as [a|], (sl_stop s) as [b|];
    destruct (Z.ltb_spec (py_step s) 0);
    repeat (match goal with |- context [if ?c then _ else _] => destruct c eqn:? end); lia. }
  revert B Hkn; generalize (py_start s n) (py_stop s n) (py_step s) Hk; clear.
  intros a b c Hc B Hkn.
  destruct (Z.ltb_spec c 0) as [Hc0|Hc0].
  - destruct (Z.ltb_spec b a) as [H|H]; [|lia].
    assert (Hk : Z.of_nat k <= (a - b - 1) / - c) by lia.
    assert (Hk2 : Z.of_nat k * - c <= a - b - 1).
    { pose proof (Z.mul_div_le (a - b - 1) (- c) ltac:(lia)); nia. }
    lia.
  - destruct (Z.ltb_spec a b) as [H|H]; [|lia].
    assert (Hk : Z.of_nat k <= (b - a - 1) / c) by lia.
    assert (Hk2 : Z.of_nat k * c <= b - a - 1).
    { pose proof (Z.mul_div_le (b - a - 1) c ltac:(lia)); nia. }
    nia.
Qed.

Lemma np_slice_total {A} (l : list A) s :
  py_step s <> 0 -> exists r, np_slice l s = Ok r.
Proof.
  intros H; unfold np_slice.
  destruct (py_slice_positions s (zlen l)) as [p|e] eqn:E.
  - cbn [bind]; apply map_res_get_total; eapply py_slice_positions_range; eauto; apply zlen_nonneg.
  - unfold py_slice_positions in E; destruct (Z.eqb_spec (py_step s) 0); [lia|discriminate].
Qed.

(** ** masks *)
Lemma np_mask_map_get {A} (l : list A) m :
  length m = length l -> map_res (get l) (np_where m) = Ok (np_mask l m).
Proof.
  unfold np_where, iota; rewrite to_nat_zlen.
  enough (H : forall pre, length m = length l ->
     map_res (get (pre ++ l)) (map fst (filter snd (combine (progression (zlen pre) 1 (length m)) m)))
     = Ok (np_mask l m)) by exact (H []).
  revert l; induction m as [|b m IH]; intros [|x l] pre H; cbn [length] in *; try discriminate; [reflexivity|].
  rewrite progression_S; cbn [combine filter snd np_mask].
  assert (E : get (pre ++ x :: l) (zlen pre) = Ok x).
  { apply get_ok; split; [apply zlen_nonneg|]. rewrite to_nat_zlen, nth_error_app2, Nat.sub_diag by lia.
    reflexivity. }
  specialize (IH l (pre ++ [x]) ltac:(lia)).
  rewrite <- app_assoc in IH; cbn [app] in IH.
  replace (zlen (pre ++ [x])) with (zlen pre + 1) in IH by (rewrite zlen_app; unfold zlen; cbn; lia).
  destruct b; [|exact IH].
  cbn [map fst map_res]; rewrite E; cbn [bind]; rewrite IH; reflexivity.
Qed.

Lemma In_np_where m x :
  In x (np_where m) <-> 0 <= x /\ nth_error m (Z.to_nat x) = Some true.
Proof.
  unfold np_where; rewrite in_map_iff; split.
  - intros ((i & b) & E & H); cbn in E; subst i.
    apply filter_In in H as [H Hb]; cbn in Hb; subst b.
    apply In_nth_error in H as [k Hk].
    assert (Hc : forall (l1 : list Z) (l2 : list bool) k x b, nth_error (combine l1 l2) k = Some (x, b) ->
              nth_error l1 k = Some x /\ nth_error l2 k = Some b).
    { clear. induction l1 as [|y l1 IH]; intros [|c l2] k x b H; destruct k; cbn in *; try discriminate.
      - injection H as <- <-; auto.
      - eauto. }
    destruct (Hc _ _ _ _ _ Hk) as [H1 H2].
    assert (Hlt : (k < Z.to_nat (zlen m))%nat).
    { rewrite to_nat_zlen; apply nth_error_Some; congruence. }
    rewrite iota_nth_error in H1 by exact Hlt; injection H1 as <-.
    split; [lia|]. rewrite Nat2Z.id; exact H2.
  - intros [H0 H]. exists (x, true); split; [reflexivity|].
    apply filter_In; split; [|reflexivity].
    apply nth_error_In with (n := Z.to_nat x).
    assert (Hlt : (Z.to_nat x < length m)%nat) by (apply nth_error_Some; congruence).
    assert (Hc : forall (l1 : list Z) (l2 : list bool) k x b,
              nth_error l1 k = Some x -> nth_error l2 k = Some b -> nth_error (combine l1 l2) k = Some (x, b)).
    { clear. induction l1 as [|y l1 IH]; intros [|c l2] k x b H1 H2; destruct k; cbn in *; try discriminate.
      - injection H1 as <-; injection H2 as <-; auto.
      - eauto. }
    apply Hc; [|exact H].
    rewrite iota_nth_error by (rewrite to_nat_zlen; exact Hlt); f_equal; lia.
Qed.

Lemma np_where_range m : Forall (fun i => 0 <= i < zlen m) (np_where m).
Proof.
  apply Forall_forall; intros x H; apply In_np_where in H as [H0 H].
  split; [lia|]. assert (Z.to_nat x < length m)%nat by (apply nth_error_Some; congruence).
  unfold zlen; lia.
Qed.

(** ** writes *)
Lemma set_nth_length {A} (l : list A) i v : length (set_nth l i v) = length l.
Proof. revert i; induction l; intros [|i]; cbn; auto. Qed.

Lemma set_nth_same {A} (l : list A) i v : (i < length l)%nat -> nth_error (set_nth l i v) i = Some v.
Proof. revert i; induction l; intros [|i] H; cbn in *; try lia; [reflexivity|apply IHl; lia]. Qed.

Lemma set_nth_other {A} (l : list A) i j v : i <> j -> nth_error (set_nth l i v) j = nth_error l j.
Proof. revert i j; induction l; intros [|i] [|j] H; cbn; auto; try lia. Qed.

Lemma zlen_set_at {A} (l : list A) i v : zlen (set_at l i v) = zlen l.
Proof. unfold set_at, zlen; destruct (i <? 0); [|rewrite set_nth_length]; reflexivity. Qed.

Lemma get_set_at_same {A} (l : list A) i v : 0 <= i < zlen l -> get (set_at l i v) i = Ok v.
Proof.
  intros H; unfold set_at; destruct (Z.ltb_spec i 0); [lia|].
  apply get_ok; split; [lia|]. apply set_nth_same; unfold zlen in H; lia.
Qed.

Lemma get_set_at_other {A} (l : list A) i j v : i <> j -> get (set_at l i v) j = get l j.
Proof.
  intros H; unfold set_at; destruct (Z.ltb_spec i 0); [reflexivity|].
  unfold get; destruct (Z.ltb_spec j 0); [reflexivity|].
  rewrite set_nth_other by lia; reflexivity.
Qed.

Lemma zlen_set_all {A} (l : list A) w : zlen (set_all l w) = zlen l.
Proof.
  revert l; induction w as [|x w IH]; intros l; [reflexivity|].
  cbn [set_all fold_left]; change (zlen (set_all (set_at l (fst x) (snd x)) w) = zlen l).
  rewrite IH; apply zlen_set_at.
Qed.

Lemma set_all_cons {A} (l : list A) x w :
  set_all l (x :: w) = set_all (set_at l (fst x) (snd x)) w.
Proof. reflexivity. Qed.

Lemma get_set_all_notin {A} (l : list A) w i :
  ~ In i (map fst w) -> get (set_all l w) i = get l i.
Proof.
  revert l; induction w as [|x w IH]; intros l H; [reflexivity|].
  rewrite set_all_cons, IH by (intros Hi; apply H; right; exact Hi).
  apply get_set_at_other; intros E; apply H; left; exact E.
Qed.

Lemma get_set_all_in {A} (l : list A) w i v :
  NoDup (map fst w) -> In (i, v) w -> 0 <= i < zlen l -> get (set_all l w) i = Ok v.
Proof.
  revert l; induction w as [|x w IH]; intros l ND HI Hi; [destruct HI|].
  rewrite set_all_cons; cbn [map] in ND; inversion ND as [|? ? Hn ND']; subst.
  destruct HI as [->|HI].
  - rewrite get_set_all_notin by exact Hn; apply get_set_at_same; exact Hi.
  - apply IH; auto. rewrite zlen_set_at; exact Hi.
Qed.

(** Two lists with the same length and the same elements are equal. *)
Lemma list_ext_get {A} (l r : list A) :
  zlen l = zlen r -> (forall i, 0 <= i < zlen l -> get l i = get r i) -> l = r.
Proof.
  intros HL H.
  assert (E : map_res (get l) (iota (zlen l)) = map_res (get r) (iota (zlen r))).
  { rewrite <- HL; apply map_res_ext; intros i Hi; apply H; apply In_iota; exact Hi. }
  rewrite !map_res_get_all in E; congruence.
Qed.

(** Writing disjoint positions: the order does not matter. *)
Lemma set_all_perm {A} (l : list A) w w' :
  NoDup (map fst w) -> Permutation w w' -> set_all l w = set_all l w'.
Proof.
  intros ND P.
  assert (ND' : NoDup (map fst w')) by (eapply Permutation_NoDup; [apply Permutation_map; exact P|exact ND]).
  apply list_ext_get; [rewrite !zlen_set_all; reflexivity|].
  intros i Hi; rewrite zlen_set_all in Hi.
  destruct (in_dec Z.eq_dec i (map fst w)) as [HI|HI].
  - apply in_map_iff in HI as ((i' & v) & E & HI); cbn in E; subst i'.
    rewrite (get_set_all_in _ _ _ v) by assumption.
    rewrite (get_set_all_in _ _ _ v); [reflexivity|exact ND'| |exact Hi].
    eapply Permutation_in; eauto.
  - rewrite !get_set_all_notin; [reflexivity| |exact HI].
    intros H; apply HI; eapply Permutation_in; [symmetry; apply Permutation_map; exact P|exact H].
Qed.

(** ** split *)
Lemma split_start_0 n m : 0 < m -> split_start n m 0 = 0.
Proof. intros; unfold split_start; pose proof (Z.mod_pos_bound n m ltac:(lia)); lia. Qed.

Lemma split_start_m n m : 0 < m -> split_start n m m = n.
Proof.
  intros; unfold split_start; pose proof (Z.mod_pos_bound n m ltac:(lia)).
  rewrite Z.min_r by lia. pose proof (Z.div_mod n m ltac:(lia)); lia.
Qed.

Lemma split_start_step n m r :
  split_start n m (r + 1) - split_start n m r = n / m + (if r <? n mod m then 1 else 0).
Proof. unfold split_start; destruct (Z.ltb_spec r (n mod m)); nia. Qed.

Lemma split_start_mono n m r : 0 <= n -> 0 < m -> split_start n m r <= split_start n m (r + 1).
Proof.
  intros; pose proof (split_start_step n m r); pose proof (Z.div_pos n m ltac:(lia) ltac:(lia)).
  destruct (r <? n mod m); lia.
Qed.
