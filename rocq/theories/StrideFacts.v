(** Lemmas on strided arrays. *)
From Coq Require Import List ZArith Bool Lia Arith.
From Verif Require Import Base BaseFacts StrideModel StrideSpec.
Import ListNotations.
Local Open Scope nat_scope.

(** ** Indices *)
Lemma within_in : forall l idx, In idx (indices l) <-> within l idx.
Proof.
  induction l as [|n r IH]; intros idx; cbn.
  - split; [intros [<-|[]]; constructor | intros H; inversion H; auto].
  - rewrite in_flat_map. split.
    + intros (i & Hi & H). apply in_map_iff in H as (j & <- & Hj). apply in_seq in Hi.
      constructor; [lia | apply IH; exact Hj].
    + intros H. inversion H as [|? i ? j Hi Hj]; subst. exists i. split; [apply in_seq; lia|].
      apply in_map, IH, Hj.
Qed.
Lemma indices_length : forall l, length (indices l) = nprod l.
Proof.
  induction l as [|n r IH]; [reflexivity|]. cbn [indices nprod fold_right]. fold (nprod r).
  generalize 0. induction n as [|n IHn]; intros a; [reflexivity|]. cbn [seq flat_map].
  rewrite app_length, map_length, IH, IHn. lia.
Qed.
Lemma place_lt : forall l idx, within l idx -> place l idx < nprod l.
Proof.
  intros l idx H. induction H as [|n i l idx Hi _ IH]; cbn; [lia|]. fold (nprod l) in *.
  change (fold_right Nat.mul 1 l) with (nprod l). nia.
Qed.
Lemma nth_flat_map {B} : forall (f : nat -> list B) k n a i j, (forall x, length (f x) = k) -> i < n -> j < k ->
  nth_error (flat_map f (seq a n)) (i * k + j) = nth_error (f (a + i)) j.
Proof.
  intros f k n. induction n as [|n IH]; intros a i j Hf Hi Hj; [lia|]. cbn [seq flat_map].
  destruct i as [|i].
  - rewrite nth_error_app1 by (rewrite Hf; lia). rewrite Nat.add_0_r. reflexivity.
  - rewrite nth_error_app2 by (rewrite Hf; lia). rewrite Hf.
    replace (S i * k + j - k) with (i * k + j) by lia. rewrite IH by (auto; lia).
    f_equal. f_equal. lia.
Qed.
Lemma nth_place : forall l idx, within l idx -> nth_error (indices l) (place l idx) = Some idx.
Proof.
  intros l idx H. induction H as [|n i l idx Hi Hw IH]; [reflexivity|]. cbn [indices place].
  change (fold_right Nat.mul 1 l) with (nprod l).
  rewrite nth_flat_map; [|intros; rewrite map_length; apply indices_length|exact Hi|apply place_lt, Hw].
  cbn [Nat.add]. apply map_nth_error. exact IH.
Qed.
Lemma nth_place_default : forall l idx, within l idx -> nth (place l idx) (indices l) [] = idx.
Proof. intros l idx H. apply nth_error_nth, nth_place, H. Qed.
Lemma nodup_indices : forall l, NoDup (indices l).
Proof.
  induction l as [|n r IH]; cbn; [repeat constructor; intros []|].
  generalize 0. induction n as [|n IHn]; intros a; [constructor|]. cbn [seq flat_map].
  assert (D : forall x, In x (map (cons a) (indices r)) -> ~ In x (flat_map (fun i => map (cons i) (indices r)) (seq (S a) n))).
  { intros x Hx Hy. apply in_map_iff in Hx as (u & <- & _). apply in_flat_map in Hy as (i & Hi & Hy).
    apply in_map_iff in Hy as (w & E & _). inversion E; subst. apply in_seq in Hi. lia. }
  specialize (IHn (S a)). revert D.
  assert (M : NoDup (map (cons a) (indices r))).
  { clear - IH. induction IH as [|x l Hx _ IHl]; [constructor|]. cbn. constructor; [|exact IHl].
    intros H. apply in_map_iff in H as (y & E & Hy). inversion E; subst. contradiction. }
  induction M as [|x l Hx Hl IHl]; intros D; [exact IHn|]. cbn. constructor.
  - rewrite in_app_iff. intros [H|H]; [contradiction|]. apply (D x); [left; reflexivity | exact H].
  - apply IHl. intros y Hy. apply D. right. exact Hy.
Qed.
Lemma place_surj : forall l j, j < nprod l -> exists idx, within l idx /\ place l idx = j.
Proof.
  induction l as [|n r IH]; intros j H; cbn in *.
  - exists []. split; [constructor | lia].
  - change (fold_right Nat.mul 1 r) with (nprod r) in *. assert (nprod r <> 0) by nia.
    destruct (IH (j mod nprod r)) as (idx & Hw & Hp); [apply Nat.mod_upper_bound; auto|].
    exists (j / nprod r :: idx). split.
    + constructor; [apply Nat.div_lt_upper_bound; lia | exact Hw].
    + rewrite Hp. rewrite (Nat.div_mod j (nprod r)) at 3 by auto. lia.
Qed.
Lemma within_app : forall l1 l2 idx, within (l1 ++ l2) idx <-> exists i1 i2, idx = i1 ++ i2 /\ within l1 i1 /\ within l2 i2.
Proof.
  intros l1 l2 idx. split.
  - intros H. apply Forall2_app_inv_l in H as (i1 & i2 & H1 & H2 & ->). exists i1, i2. auto.
  - intros (i1 & i2 & -> & H1 & H2). apply Forall2_app; assumption.
Qed.
Lemma place_app : forall l1 l2 i1 i2, within l1 i1 -> place (l1 ++ l2) (i1 ++ i2) = place l1 i1 * nprod l2 + place l2 i2.
Proof.
  intros l1 l2 i1 i2 H. induction H as [|n i l idx Hi _ IH]; [reflexivity|]. cbn [app place]. rewrite IH.
  assert (E : fold_right Nat.mul 1 (l ++ l2) = nprod l * nprod l2).
  { clear. unfold nprod. induction l as [|a l IH]; cbn; [lia|]. rewrite IH. lia. }
  rewrite E. change (fold_right Nat.mul 1 l) with (nprod l). lia.
Qed.
Lemma offset_app : forall l1 l2 i1 i2, length l1 = length i1 -> offset (l1 ++ l2) (i1 ++ i2) = (offset l1 i1 + offset l2 i2)%Z.
Proof.
  induction l1 as [|[n s] l1 IH]; intros l2 [|i i1] i2 H; cbn in *; try discriminate; [reflexivity|].
  rewrite IH by lia. lia.
Qed.
Lemma within_length : forall l idx, within l idx -> length l = length idx.
Proof. intros l idx H. induction H; cbn; congruence. Qed.

(** ** Assignments *)
Lemma assign_all_other {A} : forall (op : A -> A -> A) l m a, ~ In a (map fst l) -> assign_all op m l a = m a.
Proof.
  intros op l. induction l as [|[b x] l IH]; intros m a H; [reflexivity|]. cbn in *. rewrite IH by tauto.
  unfold store. destruct (Z.eqb_spec a b); [subst; tauto | reflexivity].
Qed.
Lemma assign_all_in {A} : forall (op : A -> A -> A) l m a x, NoDup (map fst l) -> In (a, x) l -> assign_all op m l a = op (m a) x.
Proof.
  intros op l. induction l as [|[b y] l IH]; intros m a x N H; [destruct H|]. cbn in *. inversion N as [|? ? N1 N2]; subst.
  destruct H as [E|H].
  - inversion E; subst. rewrite assign_all_other by exact N1. unfold store. rewrite Z.eqb_refl. reflexivity.
  - rewrite (IH _ a x N2 H). f_equal. unfold store. destruct (Z.eqb_spec a b) as [->|]; [|reflexivity].
    exfalso. apply N1. apply in_map_iff. exists (b, x). auto.
Qed.
Lemma map_fst_combine {B C} : forall (l : list B) (k : list C), length l = length k -> map fst (combine l k) = l.
Proof. induction l as [|a l IH]; intros [|b k] H; cbn in *; try discriminate; [reflexivity|]. f_equal. apply IH. lia. Qed.
Lemma nodup_map_on {B C} : forall (f : B -> C) l, (forall x y, In x l -> In y l -> f x = f y -> x = y) -> NoDup l -> NoDup (map f l).
Proof.
  intros f l H N. induction N as [|x l Hx _ IH]; [constructor|]. cbn. constructor.
  - intros I. apply in_map_iff in I as (y & E & Hy). apply Hx. rewrite (H x y); auto; [left; auto | right; auto].
  - apply IH. intros; apply H; auto; right; auto.
Qed.
Lemma nth_error_combine {B C} : forall (l : list B) (k : list C) n x y,
  nth_error l n = Some x -> nth_error k n = Some y -> nth_error (combine l k) n = Some (x, y).
Proof. induction l as [|a l IH]; intros [|b k] [|n] x y H1 H2; cbn in *; try discriminate; [congruence | eauto]. Qed.
Lemma nth_seq : forall n a j, j < n -> nth_error (seq a n) j = Some (a + j).
Proof. induction n as [|n IH]; intros a [|j] H; try lia; cbn; [f_equal; lia|]. rewrite IH by lia. f_equal. lia. Qed.
Lemma assign_filled {A} : forall op (m : Z -> A) v values, distinct v ->
  filled m (assign op m v values) v (fun idx => op (m (address v idx)) (values (place (map fst (v_axes v)) idx))).
Proof.
  intros op m v values D. unfold assign, sizes. set (L := map fst (v_axes v)) in *.
  assert (Hl : length (map (address v) (indices L)) = length (map values (seq 0 (nprod L))))
    by (rewrite !map_length, indices_length, seq_length; reflexivity).
  assert (N : NoDup (map fst (combine (map (address v) (indices L)) (map values (seq 0 (nprod L)))))).
  { rewrite map_fst_combine by exact Hl. apply nodup_map_on; [|apply nodup_indices].
    intros x y Hx Hy. apply D; apply within_in; assumption. }
  split.
  - intros idx H. apply assign_all_in; [exact N|]. apply nth_error_In with (n := place L idx).
    apply nth_error_combine; [apply map_nth_error, nth_place, H|].
    apply (map_nth_error values). rewrite nth_seq by (apply place_lt, H). reflexivity.
  - intros a Ha. apply assign_all_other. rewrite map_fst_combine by exact Hl. intros I.
    apply in_map_iff in I as (idx & E & Hi). apply (Ha idx); [apply within_in; exact Hi | auto].
Qed.

(** ** Merged axes *)
Lemma within_pos : forall l idx, within l idx -> Forall (fun n => 0 < n) l.
Proof. intros l idx H. induction H; constructor; [lia | assumption]. Qed.
Lemma within_zero : forall l, Forall (fun n => 0 < n) l -> within l (repeat 0 (length l)).
Proof. intros l H. induction H; cbn; constructor; assumption. Qed.
Lemma place_zero : forall l k, place l (repeat 0 k) = 0.
Proof. induction l as [|a l IH]; intros [|k]; cbn; auto. Qed.
Lemma offset_zero : forall l k, offset l (repeat 0 k) = 0%Z.
Proof. induction l as [|[n s] l IH]; intros [|k]; cbn; auto. Qed.
Lemma nprod_several : forall l, nprod (map fst (several l)) = nprod (map fst l).
Proof.
  induction l as [|[n s] l IH]; [reflexivity|]. unfold several in *. cbn [filter fst].
  change (nprod (map fst ((n, s) :: l))) with (n * nprod (map fst l)).
  destruct (Nat.eqb_spec n 1) as [->|]; cbn [negb]; [lia|].
  unfold nprod in *. cbn [map fst fold_right]. rewrite IH. reflexivity.
Qed.
Lemma steps_several : forall l c, even_steps (several l) c <-> even_steps l c.
Proof.
  induction l as [|[n s] l IH]; intros c; [reflexivity|]. cbn [several filter fst].
  destruct (Nat.eqb_spec n 1) as [->|Hn]; cbn [negb]; fold (several l).
  - rewrite IH. unfold even_steps. split; intros H idx W.
    + cbn [map fst] in W. inversion W as [|? i ? r Hi Hr]; subst. assert (i = 0) by lia. subst. cbn. rewrite H by exact Hr. lia.
    + specialize (H (0 :: idx)). cbn in H. rewrite H; [reflexivity|]. constructor; [lia | exact W].
  - unfold even_steps. split; intros H idx W; cbn [map fst] in *; inversion W as [|? i ? r Hi Hr]; subst.
    + (* from several to l *)
      cbn [offset place].
      assert (P0 : Forall (fun n => 0 < n) (map fst (several l))).
      { apply within_pos in Hr. clear - Hr. induction l as [|[k t] l IHl]; cbn in *; [constructor|].
        inversion Hr; subst. destruct (k =? 1); cbn; [auto | constructor; auto]. }
      assert (T : even_steps (several l) c).
      { intros j Wj. specialize (H (0 :: j)). cbn in H. rewrite H; [reflexivity|]. constructor; [lia | exact Wj]. }
      rewrite (proj1 (IH c) T r Hr). specialize (H (i :: repeat 0 (length (map fst (several l))))).
      cbn [offset place] in H. rewrite offset_zero, place_zero in H.
      assert (W' : within (n :: map fst (several l)) (i :: repeat 0 (length (map fst (several l)))))
        by (constructor; [exact Hi | apply within_zero, P0]).
      specialize (H W'). fold (nprod (map fst (several l))) in H. rewrite nprod_several in H. unfold nprod in H. lia.
    + cbn [offset place].
      assert (P0 : Forall (fun n => 0 < n) (map fst l)).
      { apply within_pos in Hr. clear - Hr. induction l as [|[k t] l IHl]; cbn in *; [constructor|].
        destruct (Nat.eqb_spec k 1); cbn in Hr; [constructor; [lia | auto]|]. inversion Hr; subst. constructor; auto. }
      assert (T : even_steps l c).
      { intros j Wj. specialize (H (0 :: j)). cbn in H. rewrite H; [reflexivity|]. constructor; [lia | exact Wj]. }
      rewrite (proj2 (IH c) T r Hr). specialize (H (i :: repeat 0 (length (map fst l)))).
      cbn [offset place] in H. rewrite offset_zero, place_zero in H.
      assert (W' : within (n :: map fst l) (i :: repeat 0 (length (map fst l))))
        by (constructor; [exact Hi | apply within_zero, P0]).
      specialize (H W'). fold (nprod (map fst (several l))). rewrite nprod_several. unfold nprod. lia.
Qed.
Definition last_stride (l : list axis) : Z := snd (last l (1, 0%Z)).
Lemma last_cons2 : forall (a b : axis) l, last_stride (a :: b :: l) = last_stride (b :: l).
Proof. reflexivity. Qed.
Lemma chained_steps : forall l, chained l = true -> even_steps l (last_stride l) /\
  match l with [] => True | (n, s) :: r => s = (last_stride l * Z.of_nat (nprod (map fst r)))%Z end.
Proof.
  induction l as [|[n s] r IH]; intros H.
  - split; [|exact I]. intros idx W. inversion W; subst. reflexivity.
  - destruct r as [|[n' s'] r'].
    + split; [|cbn; lia]. intros idx W. cbn in W. inversion W as [|? i ? j Hi Hj]; subst. inversion Hj; subst. cbn. lia.
    + cbn [chained] in H. apply andb_true_iff in H as [E H]. apply Z.eqb_eq in E. destruct (IH H) as [S1 S2].
      clear IH.
      match goal with |- even_steps _ ?d /\ _ => match type of S1 with even_steps _ ?c => change d with c; set (k := c) in * end end.
      clearbody k. rename k into c.
      assert (S3 : s = (c * Z.of_nat (nprod (map fst ((n', s') :: r'))))%Z).
      { change (nprod (map fst ((n', s') :: r'))) with (n' * nprod (map fst r')). rewrite Nat2Z.inj_mul, E, S2. ring. }
      split; [|exact S3]. intros idx W. cbn [map fst] in W. inversion W as [|? i ? j Hi Hj]; subst idx.
      change (Z.of_nat i * s + offset ((n', s') :: r') j = c * Z.of_nat (i * nprod (map fst ((n', s') :: r')) + place (map fst ((n', s') :: r')) j))%Z.
      rewrite (S1 j Hj), S3. rewrite Nat2Z.inj_add, Nat2Z.inj_mul. ring.
Qed.
Lemma steps_chained : forall l c, Forall (fun a => 1 < fst a) l -> even_steps l c -> chained l = true.
Proof.
  assert (Z0 : forall l : list axis, Forall (fun a => 1 < fst a) l -> Forall (fun n => 0 < n) (map fst l)).
  { intros l H. induction H; cbn; constructor; [lia | assumption]. }
  assert (Hd : forall n s r c, 1 < n -> Forall (fun a : axis => 1 < fst a) r -> even_steps ((n, s) :: r) c ->
     s = (c * Z.of_nat (nprod (map fst r)))%Z).
  { intros n s r c Hn Hr H. specialize (H (1 :: repeat 0 (length (map fst r)))). cbn [offset place map fst] in H.
    rewrite offset_zero, place_zero in H. unfold nprod. rewrite <- (Z.mul_1_l s), <- (Z.add_0_r (1 * s)). change 1%Z with (Z.of_nat 1).
    rewrite H; [lia|]. constructor; [lia | apply within_zero, Z0, Hr]. }
  induction l as [|[n s] r IH]; intros c P H; [reflexivity|]. inversion P as [|? ? Hn Hr]; subst. cbn in Hn.
  assert (T : even_steps r c).
  { intros j Wj. specialize (H (0 :: j)). cbn in H. rewrite H; [reflexivity|]. constructor; [lia | exact Wj]. }
  destruct r as [|[n' s'] r']; [reflexivity|]. change ((s =? Z.of_nat n' * s')%Z && chained ((n', s') :: r') = true). rewrite (IH c Hr T), andb_true_r. apply Z.eqb_eq.
  inversion Hr as [|? ? Hn' Hr']; subst. cbn in Hn'. pose proof (Hd _ _ _ _ Hn Hr H) as E1. pose proof (Hd _ _ _ _ Hn' Hr' T) as E2.
  change (nprod (map fst ((n', s') :: r'))) with (n' * nprod (map fst r')) in E1. rewrite E1, E2, Nat2Z.inj_mul. ring.
Qed.
Lemma several_many : forall l, Forall (fun a => 0 < fst a) l -> Forall (fun a => 1 < fst a) (several l).
Proof.
  intros l H. induction H as [|[n s] l Hn _ IH]; [constructor|]. cbn in *.
  destruct (Nat.eqb_spec n 1); cbn; [exact IH | constructor; [cbn; lia | exact IH]].
Qed.
Lemma merge_steps : forall l n c, merge l = Some (n, c) -> n = nprod (map fst l) /\ even_steps l c.
Proof.
  unfold merge. intros l n c H. destruct (chained (several l)) eqn:E; [|discriminate]. inversion H; subst.
  split; [reflexivity|]. apply steps_several. apply (proj1 (chained_steps _ E)).
Qed.
Lemma steps_merge : forall l c, Forall (fun a => 0 < fst a) l -> even_steps l c -> merge l <> None.
Proof.
  intros l c P H. unfold merge. apply steps_several in H. rewrite (steps_chained _ c (several_many _ P) H). discriminate.
Qed.

(** ** Contiguous arrays *)
Lemma contiguous_axes_prod : forall l, snd (contiguous_axes l) = Z.of_nat (nprod (map fst l)).
Proof.
  induction l as [|[n s] l IH]; [reflexivity|]. cbn [contiguous_axes]. destruct (contiguous_axes l) as [b e]. cbn [snd] in IH.
  change (nprod (map fst ((n, s) :: l))) with (n * nprod (map fst l)).
  destruct (Nat.eqb_spec n 1) as [->|]; cbn [snd]; lia.
Qed.
Lemma contiguous_axes_steps : forall l, fst (contiguous_axes l) = true -> even_steps l 1.
Proof.
  induction l as [|[n s] l IH]; intros H idx W.
  - inversion W; subst. reflexivity.
  - pose proof (contiguous_axes_prod l) as P. cbn [contiguous_axes] in H. destruct (contiguous_axes l) as [b e]. cbn [fst snd] in *.
    cbn [map fst] in W. inversion W as [|? i ? j Hi Hj]; subst idx. cbn [offset place map fst].
    change (fold_right Nat.mul 1 (map fst l)) with (nprod (map fst l)).
    destruct (Nat.eqb_spec n 1) as [->|].
    + cbn in H. rewrite (IH H j Hj). assert (i = 0) by lia. subst i. cbn [Nat.mul Nat.add]. ring.
    + cbn in H. apply andb_true_iff in H as [Hb He]. apply Z.eqb_eq in He. rewrite (IH Hb j Hj), He, P, Nat2Z.inj_add, Nat2Z.inj_mul. ring.
Qed.
Lemma steps_contiguous_axes : forall l, Forall (fun a => 0 < fst a) l -> even_steps l 1 -> fst (contiguous_axes l) = true.
Proof.
  induction l as [|[n s] l IH]; intros P H; [reflexivity|]. inversion P as [|? ? Hn Pl]; subst. cbn in Hn.
  assert (T : even_steps l 1).
  { intros j Wj. specialize (H (0 :: j)). cbn in H. rewrite H; [reflexivity|]. constructor; [lia | exact Wj]. }
  specialize (IH Pl T). pose proof (contiguous_axes_prod l) as E. cbn [contiguous_axes]. destruct (contiguous_axes l) as [b e].
  cbn [fst snd] in *. destruct (Nat.eqb_spec n 1); cbn; [exact IH|]. rewrite IH. apply Z.eqb_eq. rewrite E.
  assert (P0 : Forall (fun n => 0 < n) (map fst l)) by (clear - Pl; induction Pl; cbn; constructor; auto).
  specialize (H (1 :: repeat 0 (length (map fst l)))). cbn [offset place map fst] in H. rewrite offset_zero, place_zero in H.
  change (fold_right Nat.mul 1 (map fst l)) with (nprod (map fst l)) in H.
  assert (W : within (n :: map fst l) (1 :: repeat 0 (length (map fst l)))) by (constructor; [lia | apply within_zero, P0]).
  specialize (H W). lia.
Qed.
Lemma contiguous_steps : forall v, contiguous v = true -> even_steps (v_axes v) 1.
Proof.
  unfold contiguous, sizes. intros v H. apply orb_true_iff in H as [H|H]; [|apply contiguous_axes_steps, H].
  apply Nat.eqb_eq in H. intros idx W. apply place_lt in W. lia.
Qed.
Lemma c_axes_sizes : forall l, map fst (c_axes l) = l.
Proof. induction l as [|n l IH]; cbn; congruence. Qed.
Lemma c_axes_contiguous : forall o l, contiguous (View o (c_axes l)) = true.
Proof.
  intros o l. unfold contiguous. apply orb_true_iff. right. cbn [v_axes]. induction l as [|n l IH]; [reflexivity|]. cbn [c_axes contiguous_axes].
  pose proof (contiguous_axes_prod (c_axes l)) as E. rewrite c_axes_sizes in E. destruct (contiguous_axes (c_axes l)) as [b e].
  cbn [fst snd] in *. subst. destruct (n =? 1); cbn; [reflexivity | apply Z.eqb_refl].
Qed.

(** ** Reshaped arrays have the elements of the array *)
Lemma reshape_filled {A} : forall k v w op (m : Z -> A) values, reshape k v = Some w -> distinct v ->
  filled m (assign op m w values) v (fun idx => op (m (address v idx)) (values (place (map fst (v_axes v)) idx))).
Proof.
  intros k v w op m values H D. unfold reshape in H. destruct (merge _) as [[n c]|] eqn:M; [|discriminate]. inversion H; subst; clear H.
  apply merge_steps in M as [Hn S]. set (lead := firstn k (v_axes v)) in *. set (rest := skipn k (v_axes v)) in *.
  assert (E : v_axes v = lead ++ rest) by (symmetry; apply firstn_skipn).
  set (w := View (v_origin v) ((n, c) :: rest)).
  assert (Ad : forall i1 i2, within (map fst lead) i1 -> address w (place (map fst lead) i1 :: i2) = address v (i1 ++ i2)).
  { intros i1 i2 W. unfold address, w. cbn [v_origin v_axes offset]. rewrite E, offset_app by (rewrite <- (map_length fst); apply within_length, W).
    rewrite (S i1 W). lia. }
  assert (Pl : forall i1 i2, within (map fst lead) i1 -> place (map fst (v_axes w)) (place (map fst lead) i1 :: i2) = place (map fst (v_axes v)) (i1 ++ i2)).
  { intros i1 i2 W. rewrite E, map_app, place_app by exact W. reflexivity. }
  assert (Wi : forall idx, within (map fst (v_axes w)) idx -> exists i1 i2, idx = place (map fst lead) i1 :: i2 /\ within (map fst lead) i1 /\ within (map fst rest) i2).
  { intros idx W. cbn in W. inversion W as [|? i ? i2 Hi H2]; subst. destruct (place_surj _ _ Hi) as (i1 & W1 & <-). exists i1, i2. auto. }
  assert (Dw : distinct w).
  { intros i j Hi Hj Ha. destruct (Wi _ Hi) as (i1 & i2 & -> & A1 & A2). destruct (Wi _ Hj) as (j1 & j2 & -> & B1 & B2).
    rewrite !Ad in Ha by assumption.
    assert (X : i1 ++ i2 = j1 ++ j2).
    { apply D; [| |exact Ha]; rewrite E, map_app; apply within_app; eauto. }
    assert (L : length i1 = length j1) by (rewrite <- (within_length _ _ A1); apply within_length, B1).
    clear - X L. revert j1 X L. induction i1 as [|a i1 IH]; intros [|b j1] X L; cbn in *; try discriminate; [congruence|].
    inversion X; subst. assert (Y : i1 = j1 /\ i2 = j2).
    { clear - H1 L. revert j1 H1 L. induction i1 as [|a i1 IH]; intros [|b j1] X L; cbn in *; try discriminate; auto.
      inversion X; subst. destruct (IH j1) as [-> ->]; auto. }
    destruct Y as [-> ->]. reflexivity. }
  destruct (assign_filled op m w values Dw) as [F1 F2]. split.
  - intros idx W. rewrite E, map_app in W. apply within_app in W as (i1 & i2 & -> & W1 & W2).
    assert (Ww : within (map fst (v_axes w)) (place (map fst lead) i1 :: i2)).
    { cbn. constructor; [rewrite Hn; apply place_lt, W1 | exact W2]. }
    specialize (F1 _ Ww). rewrite Ad, Pl in F1 by exact W1. exact F1.
  - intros a Ha. apply F2. intros idx W. destruct (Wi _ W) as (i1 & i2 & -> & W1 & W2). rewrite Ad by exact W1. apply Ha.
    rewrite E, map_app. apply within_app. eauto.
Qed.
Lemma ravel_reshape : forall v w, ravel v = Some w -> contiguous v = true /\ w = View (v_origin v) [(nprod (map fst (v_axes v)), 1%Z)].
Proof. unfold ravel, sizes. intros v w H. destruct (contiguous v); [|discriminate]. inversion H; auto. Qed.
Lemma ravel_filled {A} : forall v w op (m : Z -> A) values, ravel v = Some w -> distinct v ->
  filled m (assign op m w values) v (fun idx => op (m (address v idx)) (values (place (map fst (v_axes v)) idx))).
Proof.
  intros v w op m values H D. apply ravel_reshape in H as [C ->]. apply contiguous_steps in C.
  set (w := View _ _).
  assert (Ad : forall i, within (map fst (v_axes v)) i -> address w [place (map fst (v_axes v)) i] = address v i).
  { intros i W. unfold address, w. cbn [v_origin v_axes offset]. rewrite (C i W). lia. }
  assert (Wi : forall idx, within (map fst (v_axes w)) idx -> exists i, idx = [place (map fst (v_axes v)) i] /\ within (map fst (v_axes v)) i).
  { intros idx W. cbn in W. inversion W as [|? i ? r Hi Hr]; subst. inversion Hr; subst. destruct (place_surj _ _ Hi) as (i1 & W1 & <-). eauto. }
  assert (Dw : distinct w).
  { intros i j Hi Hj Ha. destruct (Wi _ Hi) as (i1 & -> & A1), (Wi _ Hj) as (j1 & -> & B1). rewrite !Ad in Ha by assumption.
    rewrite (D _ _ A1 B1 Ha). reflexivity. }
  destruct (assign_filled op m w values Dw) as [F1 F2]. split.
  - intros idx W. assert (Ww : within (map fst (v_axes w)) [place (map fst (v_axes v)) idx]) by (cbn; constructor; [apply place_lt, W | constructor]).
    specialize (F1 _ Ww). rewrite Ad in F1 by exact W. cbn [place map fst v_axes w fold_right] in F1.
    replace (place (map fst (v_axes v)) idx * 1 + 0) with (place (map fst (v_axes v)) idx) in F1 by lia. exact F1.
  - intros a Ha. apply F2. intros idx W. destruct (Wi _ W) as (i & -> & W1). rewrite Ad by exact W1. apply Ha, W1.
Qed.

(** ** Layout of copies *)
Lemma contiguous_axes_at : forall l, fst (contiguous_axes l) = true <->
  forall i n s, nth_error l i = Some (n, s) -> n <> 1 -> s = Z.of_nat (nprod (map fst (skipn (S i) l))).
Proof.
  induction l as [|[n s] l IH].
  - split; [intros _ [|i] n s H; discriminate | reflexivity].
  - pose proof (contiguous_axes_prod l) as P. cbn [contiguous_axes]. destruct (contiguous_axes l) as [b e]. cbn [fst snd] in *. split.
    + intros H [|i] n0 s0 E Hn.
      * cbn in E. inversion E; subst. destruct (Nat.eqb_spec n0 1); [contradiction|]. cbn in H. apply andb_true_iff in H as [_ H].
        apply Z.eqb_eq in H. exact H.
      * cbn in E. cbn [skipn]. apply (proj1 IH) with (i := i) (n := n0); [|exact E|exact Hn].
        destruct (n =? 1); cbn in H; [exact H|]. apply andb_true_iff in H as [H _]. exact H.
    + intros H. assert (B : b = true) by (apply IH; intros i n0 s0 E Hn; apply (H (S i) n0 s0 E Hn)).
      destruct (Nat.eqb_spec n 1); cbn; [exact B|]. rewrite B. apply Z.eqb_eq. rewrite P. apply (H 0 n s eq_refl). assumption.
Qed.
Lemma nprod_app : forall a b, nprod (a ++ b) = nprod a * nprod b.
Proof. unfold nprod. induction a as [|x a IH]; intros b; cbn; [lia|]. rewrite IH. lia. Qed.
Lemma nprod_ext : forall (f g : nat -> nat) l, (forall x, In x l -> f x = g x) -> nprod (map f l) = nprod (map g l).
Proof. intros f g l H. f_equal. apply map_ext_in. exact H. Qed.
Lemma size_seq : forall l a, (forall j, j < length l -> True) -> map (fun j => fst (nth (j - a) l (1, 0%Z))) (seq a (length l)) = map fst l.
Proof.
  induction l as [|x l IH]; intros a _; [reflexivity|]. cbn [length seq map]. rewrite Nat.sub_diag. cbn [nth]. f_equal.
  rewrite <- (IH (S a)) by auto. apply map_ext_in. intros j Hj. apply in_seq in Hj. replace (j - a) with (S (j - S a)) by lia. reflexivity.
Qed.
Lemma nprod_ones : forall l, nprod (map (fun _ : nat => 1) l) = 1.
Proof. unfold nprod. induction l as [|x l IH]; cbn; [reflexivity|]. rewrite IH. reflexivity. Qed.
Lemma nprod_after : forall l i, i < length l -> nprod (map (fun j => if i <? j then size_at l j else 1) (seq 0 (length l))) = nprod (map fst (skipn (S i) l)).
Proof.
  intros l i H. replace (length l) with (S i + length (skipn (S i) l)) by (rewrite skipn_length; lia). rewrite seq_app, map_app, nprod_app.
  rewrite (nprod_ext _ (fun _ => 1)), nprod_ones, Nat.mul_1_l.
  - rewrite <- (size_seq (skipn (S i) l) (0 + S i)) by auto. apply nprod_ext. intros j Hj. apply in_seq in Hj.
    destruct (Nat.ltb_spec i j); [|lia]. unfold size_at. f_equal. rewrite <- (firstn_skipn (S i) l) at 1.
    rewrite app_nth2; rewrite firstn_length; [|lia]. f_equal. lia.
  - intros j Hj. apply in_seq in Hj. destruct (Nat.ltb_spec i j); [lia | reflexivity].
Qed.
Lemma nth_k_axes : forall l i, i < length l -> nth_error (k_axes l) i = Some (size_at l i, Z.of_nat (k_stride l i)).
Proof. intros l i H. unfold k_axes. apply (map_nth_error (fun i => _)). rewrite nth_seq by exact H. reflexivity. Qed.
Lemma k_axes_length : forall l, length (k_axes l) = length l.
Proof. intros l. unfold k_axes. rewrite map_length, seq_length. reflexivity. Qed.
Lemma k_axes_sizes : forall l, map fst (k_axes l) = map fst l.
Proof.
  intros l. unfold k_axes. rewrite map_map. cbn. rewrite <- (size_seq l 0) by auto. apply map_ext. intros j. rewrite Nat.sub_0_r. reflexivity.
Qed.
Lemma nth_at : forall l i n s, nth_error l i = Some (n, s) -> size_at l i = n /\ stride_at l i = s /\ i < length l.
Proof.
  intros l i n s H. unfold size_at, stride_at. pose proof (nth_error_nth l i (1, 0%Z) H) as E. rewrite E. repeat split.
  apply nth_error_Some. congruence.
Qed.
Lemma at_nth : forall l i, i < length l -> nth_error l i = Some (size_at l i, stride_at l i).
Proof.
  intros l i H. unfold size_at, stride_at. rewrite (nth_error_nth' l (1, 0%Z) H). f_equal. destruct (nth i l (1, 0%Z)); reflexivity.
Qed.
Lemma nprod_pos : forall l, Forall (fun n => 0 < n) l -> 0 < nprod l.
Proof. intros l H. unfold nprod. induction H; cbn; [lia|]. apply Nat.mul_pos_pos; assumption. Qed.
Lemma nprod_le : forall (f g : nat -> nat) l, (forall x, In x l -> f x <= g x) -> nprod (map f l) <= nprod (map g l).
Proof.
  unfold nprod. induction l as [|x l IH]; intros H; cbn; [lia|]. apply Nat.mul_le_mono; [apply H; left; auto | apply IH; intros; apply H; right; auto].
Qed.
Lemma nprod_one_more : forall (f g : nat -> nat) k l, (forall x, In x l -> 0 < f x <= g x) -> In k l -> f k = 1 -> nprod (map f l) * g k <= nprod (map g l).
Proof.
  unfold nprod. induction l as [|x l IH]; intros H Hk E; [destruct Hk|]. cbn. destruct Hk as [->|Hk].
  - rewrite E. assert (fold_right Nat.mul 1 (map f l) <= fold_right Nat.mul 1 (map g l)).
    { apply (nprod_le f g l). intros y Hy. apply H. right. exact Hy. }
    nia.
  - assert (A1 := IH (fun y Hy => H y (or_intror Hy)) Hk E). assert (A2 := H x (or_introl eq_refl)). nia.
Qed.
(** The axes inside of [j] are inside of [i] if [j] is. *)
Lemma inside_trans : forall l i j k, inside l i j = true -> inside l j k = true -> inside l i k = true.
Proof. unfold inside. intros l i j k H1 H2. lia. Qed.
Lemma k_stride_lt : forall l i j, Forall (fun a => 0 < fst a) l -> i < length l -> j < length l -> inside l i j = true -> 1 < size_at l j ->
  k_stride l j < k_stride l i.
Proof.
  intros l i j P Hi Hj I S. unfold k_stride.
  assert (Q : forall x, 0 < size_at l x).
  { intros x. destruct (Nat.lt_ge_cases x (length l)) as [Hx|Hx].
    - rewrite Forall_forall in P. apply (P (size_at l x, stride_at l x)). apply nth_error_In with x. apply at_nth, Hx.
    - unfold size_at. rewrite nth_overflow by exact Hx. cbn. lia. }
  assert (A := nprod_one_more (fun x => if inside l j x then size_at l x else 1) (fun x => if inside l i x then size_at l x else 1) j (seq 0 (length l))).
  cbn beta in A. rewrite I in A. assert (B : inside l j j = false) by (unfold inside; lia). rewrite B in A.
  specialize (A ltac:(intros x _; pose proof (Q x); destruct (inside l j x) eqn:Ex; [rewrite (inside_trans l i j x I Ex); lia | destruct (inside l i x); lia])).
  specialize (A ltac:(apply in_seq; lia) eq_refl).
  assert (0 < nprod (map (fun x => if inside l j x then size_at l x else 1) (seq 0 (length l)))).
  { apply nprod_pos, Forall_forall. intros y Hy. apply in_map_iff in Hy as (x & <- & _). pose proof (Q x). destruct (inside l j x); lia. }
  nia.
Qed.
Lemma k_contiguous : forall o l, Forall (fun a => 0 < fst a) l -> contiguous (View o (k_axes l)) = true <-> c_ordered l.
Proof.
  intros o l P. unfold contiguous, sizes. cbn [v_axes]. rewrite k_axes_sizes.
  assert (N : 0 < nprod (map fst l)) by (apply nprod_pos; clear - P; induction P; cbn; constructor; auto).
  destruct (Nat.eqb_spec (nprod (map fst l)) 0) as [E|_]; [lia|]. cbn [orb]. rewrite contiguous_axes_at.
  assert (C : forall i, skipn (S i) (k_axes l) = skipn (S i) (k_axes l)) by reflexivity.
  assert (T : forall i, nprod (map fst (skipn (S i) (k_axes l))) = nprod (map fst (skipn (S i) l))).
  { intros i. f_equal. rewrite <- !skipn_map. rewrite k_axes_sizes. reflexivity. }
  clear C. split.
  - intros H i j [n s] [n' s'] Hij Ei Ej Hn Hn'. cbn [fst snd] in *.
    destruct (nth_at _ _ _ _ Ei) as (Sn & Ss & Li), (nth_at _ _ _ _ Ej) as (Sn' & Ss' & Lj).
    pose proof (H i _ _ (nth_k_axes l i Li)) as Hi. pose proof (H j _ _ (nth_k_axes l j Lj)) as Hj.
    rewrite Sn in Hi. rewrite Sn' in Hj. specialize (Hi ltac:(lia)). specialize (Hj ltac:(lia)). rewrite T in Hi, Hj.
    apply Nat2Z.inj in Hi, Hj. destruct (Z.le_gt_cases (Z.abs s') (Z.abs s)) as [L|L]; [exact L | exfalso].
    assert (I : inside l j i = true) by (unfold inside; rewrite Ss, Ss'; lia).
    pose proof (k_stride_lt l j i P Lj Li I ltac:(lia)) as K. rewrite Hi, Hj in K.
    rewrite <- (nprod_after l i Li), <- (nprod_after l j Lj) in K.
    assert (Q : forall x, 0 < size_at l x).
    { intros x. destruct (Nat.lt_ge_cases x (length l)) as [Hx|Hx].
      - rewrite Forall_forall in P. apply (P (size_at l x, stride_at l x)). apply nth_error_In with x. apply at_nth, Hx.
      - unfold size_at. rewrite nth_overflow by exact Hx. cbn. lia. }
    assert (M := nprod_le (fun x => if j <? x then size_at l x else 1) (fun x => if i <? x then size_at l x else 1) (seq 0 (length l))).
    specialize (M ltac:(intros x _; cbn beta; pose proof (Q x); destruct (Nat.ltb_spec j x), (Nat.ltb_spec i x); lia)). lia.
  - intros H i n s E Hn. assert (Li : i < length l) by (rewrite <- k_axes_length; apply nth_error_Some; congruence).
    rewrite (nth_k_axes l i Li) in E. inversion E; subst n s. rewrite T. f_equal. rewrite <- (nprod_after l i Li). unfold k_stride.
    apply nprod_ext. intros j Hj. apply in_seq in Hj.
    assert (Pi : 0 < size_at l i) by (rewrite Forall_forall in P; apply (P (size_at l i, stride_at l i)), nth_error_In with i, at_nth, Li).
    assert (Pj : 0 < size_at l j) by (rewrite Forall_forall in P; apply (P (size_at l j, stride_at l j)), nth_error_In with j, at_nth; lia).
    destruct (Nat.eq_dec (size_at l j) 1) as [E1|E1]; [rewrite E1; destruct (inside l i j), (i <? j); reflexivity|].
    assert (A : inside l i j = (i <? j)); [|rewrite A; reflexivity].
    destruct (Nat.ltb_spec i j) as [Hij|Hij].
    + specialize (H i j _ _ Hij (at_nth l i Li) (at_nth l j ltac:(lia))). cbn [fst snd] in H. specialize (H ltac:(lia) ltac:(lia)). unfold inside. lia.
    + destruct (Nat.eq_dec i j) as [<-|Ne]; [unfold inside; lia|].
      specialize (H j i _ _ ltac:(lia) (at_nth l j ltac:(lia)) (at_nth l i Li)). cbn [fst snd] in H. specialize (H ltac:(lia) ltac:(lia)). unfold inside.
      destruct (Nat.ltb_spec i j); [lia|]. rewrite andb_false_r, orb_false_r. apply Z.ltb_ge. exact H.
Qed.
