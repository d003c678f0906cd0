(** C82: partition of operators in blocks. *)
From Coq Require Import String Bool.
From Verif Require Import Base BaseFacts BlockModel BlockSpec.
Open Scope nat_scope.

Section B.
Context {V : Type}.
Implicit Types (a : arg V) (c : call V).

Lemma is_in_spec s l : is_in s l = true <-> In s l.
Proof. unfold is_in. rewrite existsb_exists. split; [intros (x & H & E); apply String.eqb_eq in E; now subst|intros H; exists s; split; [assumption|apply String.eqb_refl]]. Qed.
Lemma is_in_no s l : is_in s l = false -> ~ In s l.
Proof. intros H H'. apply is_in_spec in H'. congruence. Qed.

Lemma count_splits n a : n <> 0 -> splits n a -> count a = Ok 0 \/ count a = Ok n.
Proof. destruct a; cbn; intros Hn H; [left; reflexivity|right; now rewrite H|contradiction]. Qed.
Lemma counts_args_ok class_args parts n : n <> 0 -> forall l i, (i + length l <= length class_args) ->
  (forall j a s, nth_error l j = Some a -> nth_error class_args (i + j) = Some s -> In s parts -> splits n a) ->
  exists ns, counts_args class_args parts i l = Ok ns /\ Forall (fun k => k = 0 \/ k = n) ns /\
    ((exists j v s, nth_error l j = Some (Sequence v) /\ nth_error class_args (i + j) = Some s /\ In s parts) -> In n ns).
Proof.
  intros Hn. induction l as [|a l IH]; intros i Hl H; [exists []; split; [reflexivity|split; [constructor|intros (j & v & s & Hj & _); destruct j; discriminate]]|].
  cbn [counts_args]. cbn [length] in Hl. unfold name_of. destruct (nth_error class_args i) as [s|] eqn:Es; [|apply nth_error_None in Es; lia]. cbn [bind].
  destruct (IH (S i)) as (ns & E & F & G).
  { lia. } { intros j b t Hj Ht. apply (H (S j)); [exact Hj|]. now rewrite Nat.add_succ_r. }
  rewrite E. destruct (is_in s parts) eqn:I.
  - apply is_in_spec in I. assert (Hs : splits n a) by (apply (H 0 a s); [reflexivity|now rewrite Nat.add_0_r|assumption]).
    assert (Hc : exists k, count a = Ok k /\ (k = 0 \/ k = n)) by (destruct (count_splits n a Hn Hs); eauto). destruct Hc as (k & Ek & Hk). rewrite Ek. cbn [bind app].
    exists (k :: ns). split; [reflexivity|]. split; [constructor; assumption|]. intros (j & v & t & Hj & Ht & Hi). destruct j as [|j].
    + injection Hj as ->. cbn in Ek, Hs. left. congruence.
    + right. apply G. exists j, v, t. rewrite Nat.add_succ_r in Ht. auto.
  - cbn [bind app]. exists ns. split; [reflexivity|]. split; [assumption|]. intros (j & v & t & Hj & Ht & Hi). destruct j as [|j].
    + rewrite Nat.add_0_r in Ht. apply is_in_no in I. congruence.
    + apply G. exists j, v, t. rewrite Nat.add_succ_r in Ht. auto.
Qed.
Lemma counts_keys_ok parts n : n <> 0 -> forall l, (forall s a, In (s, a) l -> In s parts -> splits n a) ->
  exists ns, counts_keys parts l = Ok ns /\ Forall (fun k => k = 0 \/ k = n) ns /\ ((exists s v, In (s, Sequence v) l /\ In s parts) -> In n ns).
Proof.
  intros Hn. induction l as [|(s, a) l IH]; intros H; [exists []; split; [reflexivity|split; [constructor|intros (s & v & [] & _)]]|].
  cbn [counts_keys]. destruct IH as (ns & E & F & G); [intros; eapply H; [right; eassumption|assumption]|]. rewrite E. destruct (is_in s parts) eqn:I.
  - apply is_in_spec in I. assert (Hs : splits n a) by (apply (H s a); [now left|assumption]).
    assert (Hc : exists k, count a = Ok k /\ (k = 0 \/ k = n)) by (destruct (count_splits n a Hn Hs); eauto). destruct Hc as (k & Ek & Hk). rewrite Ek. cbn [bind app].
    exists (k :: ns). split; [reflexivity|]. split; [constructor; assumption|]. intros (t & v & [Hj|Hj] & Hi).
    + injection Hj as -> ->. cbn in Ek, Hs. left. congruence.
    + right. apply G. eauto.
  - cbn [bind app]. exists ns. split; [reflexivity|]. split; [assumption|]. intros (t & v & [Hj|Hj] & Hi); [injection Hj as -> ->; apply is_in_no in I; contradiction|apply G; eauto].
Qed.
Lemma max_of ns n : Forall (fun k => k = 0 \/ k = n) ns -> (In n ns -> fold_right Nat.max 0 ns = n) /\ (fold_right Nat.max 0 ns = n \/ fold_right Nat.max 0 ns = 0).
Proof.
  induction 1 as [|k ns Hk F (IH1 & IH2)]; cbn; [split; [intros []|now right]|]. split.
  - intros [->|H]; [destruct IH2; lia|specialize (IH1 H); lia].
  - destruct Hk, IH2; lia.
Qed.
Lemma no_bad ns n m : Forall (fun k => k = 0 \/ k = n) ns -> m = n \/ Forall (fun k => k = 0) ns -> existsb (fun k => negb ((k =? 0) || (k =? m))) ns = false.
Proof.
  intros F H. apply not_true_is_false. intros E. apply existsb_exists in E. destruct E as (k & Hk & E).
  rewrite Forall_forall in F. specialize (F k Hk). destruct H as [->|H]; [|rewrite Forall_forall in H; specialize (H k Hk); subst; discriminate].
  destruct F as [->| ->]; [discriminate|]. rewrite Nat.eqb_refl, orb_true_r in E. discriminate.
Qed.
Lemma max_zero ns : fold_right Nat.max 0 ns = 0 -> Forall (fun k => k = 0) ns.
Proof. induction ns; cbn; intros H; constructor; [lia|apply IHns; lia]. Qed.

Lemma part_ok n i a b : i < n -> (b = true -> splits n a) -> exists a', part b i a = Ok a' /\ given (b = true) i a a'.
Proof.
  intros Hi H. destruct a; cbn; [eauto| |].
  - destruct b; [|exists (Sequence l); split; [reflexivity|right; split; [discriminate|reflexivity]]]. specialize (H eq_refl). cbn in H.
    destruct (nth_error l i) eqn:E; [|apply nth_error_None in E; lia]. eexists. split; [reflexivity|]. left. split; [reflexivity|]. eauto.
  - destruct b; [destruct (H eq_refl)|eauto].
Qed.
Lemma given_iff (P Q : Prop) i a b : (P <-> Q) -> given P i a b -> given Q i a b.
Proof. intros E. destruct a; cbn; tauto. Qed.
Lemma parts_args_ok class_args parts n i : i < n -> forall l j, j + length l <= length class_args ->
  (forall d a s, nth_error l d = Some a -> nth_error class_args (j + d) = Some s -> In s parts -> splits n a) ->
  exists r, parts_args class_args parts i j l = Ok r /\ length r = length l /\
    forall d a s, nth_error l d = Some a -> nth_error class_args (j + d) = Some s -> exists b, nth_error r d = Some b /\ given (In s parts) i a b.
Proof.
  intros Hi. induction l as [|a l IH]; intros j Hl H; [exists []; split; [reflexivity|split; [reflexivity|intros [|d]; discriminate]]|].
  cbn [parts_args]. cbn [length] in Hl. unfold name_of. destruct (nth_error class_args j) as [s|] eqn:Es; [|apply nth_error_None in Es; lia]. cbn [bind].
  destruct (part_ok n i a (is_in s parts)) as (a' & Ea & Ga); [assumption|intros I; apply is_in_spec in I; apply (H 0 a s); [reflexivity|now rewrite Nat.add_0_r|assumption]|].
  destruct (IH (S j)) as (r & Er & Hr & Gr); [lia|intros d b t Hd Ht; apply (H (S d)); [exact Hd|now rewrite Nat.add_succ_r]|].
  rewrite Ea. cbn [bind]. rewrite Er. cbn [bind]. exists (a' :: r). split; [reflexivity|]. split; [cbn; lia|].
  intros [|d] b t Hb Ht.
  - injection Hb as <-. rewrite Nat.add_0_r in Ht. assert (t = s) by congruence. subst t. exists a'. split; [reflexivity|]. eapply given_iff; [|exact Ga]. apply is_in_spec.
  - apply Gr; [exact Hb|]. now rewrite Nat.add_succ_r in Ht.
Qed.
Lemma parts_keys_ok parts n i : i < n -> forall l, (forall s a, In (s, a) l -> In s parts -> splits n a) ->
  exists r, parts_keys parts i l = Ok r /\ Forall2 (fun sa sb => fst sb = fst sa /\ given (In (fst sa) parts) i (snd sa) (snd sb)) l r.
Proof.
  intros Hi. unfold parts_keys. induction l as [|(s, a) l IH]; intros H; [exists []; split; [reflexivity|constructor]|]. cbn [map_res fst snd].
  destruct (part_ok n i a (is_in s parts)) as (a' & Ea & Ga); [assumption|intros I; apply is_in_spec in I; apply (H s a); [now left|assumption]|].
  destruct IH as (r & Er & Gr); [intros; eapply H; [right; eassumption|assumption]|]. rewrite Ea. cbn [bind]. rewrite Er. cbn [bind].
  eexists. split; [reflexivity|]. constructor; [|assumption]. cbn. split; [reflexivity|]. eapply given_iff; [|exact Ga]. apply is_in_spec.
Qed.
Lemma set_nth_cut (s : list (option Z)) k p : k < length s -> cut k p s (set_nth s k p).
Proof.
  unfold cut. revert k. induction s as [|x s IH]; intros k Hk; [cbn in Hk; lia|]. destruct k as [|k].
  - cbn. split; [reflexivity|]. split; [reflexivity|]. intros [|d] Hd; [lia|reflexivity].
  - destruct (IH k) as (H1 & H2 & H3); [cbn in Hk; lia|]. cbn. split; [lia|]. split; [exact H2|]. intros [|d] Hd; [reflexivity|]. apply H3. lia.
Qed.

(** Axis of a chunk, negative ones counted from the end. *)
Definition axis_of (ax : axis) (s : list (option Z)) (k : nat) : Prop :=
  match ax with Chunk a => (0 <= a /\ a = Z.of_nat k \/ a < 0 /\ a + zlen s = Z.of_nat k)%Z /\ k < length s | Stack _ => False end.
Lemma reshape_chunk ax s k p : axis_of ax s k -> exists r, reshape ax p s = Ok r /\ cut k p s r.
Proof.
  destruct ax as [a|]; cbn; [|contradiction]. intros (H & Hk). unfold zlen in *. exists (set_nth s k p). split; [|now apply set_nth_cut].
  destruct H as [(H1 & H2)|(H1 & H2)]; [rewrite (proj2 (Z.ltb_ge a 0)) by lia|rewrite (proj2 (Z.ltb_lt a 0)) by lia];
    rewrite H2, (proj2 (Z.leb_le _ _)), (proj2 (Z.ltb_lt _ _)) by lia; cbn; now rewrite Nat2Z.id.
Qed.
End B.

(** ** C82 *)
(** Every block receives its element of each partition variable and the other arguments as
    they are, and the shapes of the whole with its own size along the axis. *)
Theorem C82_dispatch : forall V class_args parts ax partitionin (c : call V) n, 0 < n -> length (positional c) <= length class_args ->
  (forall a, variable class_args parts c a -> splits n a) ->
  match partitionin with Some p => length p = n | None => exists v, variable class_args parts c (Sequence v) end ->
  (forall s, shapein c = Some s -> exists k, axis_of ax s k) -> (forall s, shapeout c = Some s -> exists k, axis_of ax s k) ->
  exists bs partition, partition_init class_args parts ax partitionin c = Ok (Blocks bs partition) /\ length bs = n /\ length partition = n /\
    (forall p i x, partitionin = Some p -> nth_error p i = Some x -> nth_error partition i = Some (Some x)) /\
    (partitionin = None -> forall x, In x partition -> x = match ax with Chunk _ => None | Stack _ => Some 1%Z end) /\
    forall i b p, nth_error bs i = Some b -> nth_error partition i = Some p ->
      length (positional b) = length (positional c) /\
      (forall j a s, nth_error (positional c) j = Some a -> nth_error class_args j = Some s -> exists a', nth_error (positional b) j = Some a' /\ given (In s parts) i a a') /\
      Forall2 (fun sa sb => fst sb = fst sa /\ given (In (fst sa) parts) i (snd sa) (snd sb)) (keyword c) (keyword b) /\
      (forall s k, shapein c = Some s -> axis_of ax s k -> exists r, shapein b = Some r /\ cut k p s r) /\ (shapein c = None -> shapein b = None) /\
      (forall s k, shapeout c = Some s -> axis_of ax s k -> exists r, shapeout b = Some r /\ cut k p s r) /\ (shapeout c = None -> shapeout b = None).
Proof.
  intros V class_args parts ax partitionin c n Hn Hlen Hsp Hpart Hsi Hso.
  assert (Ha : forall j a s, nth_error (positional c) j = Some a -> nth_error class_args (0 + j) = Some s -> In s parts -> splits n a).
  { intros j a s H1 H2 H3. apply Hsp. left. eauto. }
  assert (Hk : forall s a, In (s, a) (keyword c) -> In s parts -> splits n a) by (intros; apply Hsp; right; eauto).
  destruct (counts_args_ok class_args parts n ltac:(lia) (positional c) 0 Hlen Ha) as (na & Ena & Fna & Gna).
  destruct (counts_keys_ok parts n ltac:(lia) (keyword c) Hk) as (nk & Enk & Fnk & Gnk).
  assert (F : Forall (fun k => k = 0 \/ k = n) (na ++ nk)) by (apply Forall_app; auto).
  destruct (max_of _ _ F) as (M1 & M2).
  set (P := match partitionin with Some p => map Some p | None => repeat (match ax with Chunk _ => None | Stack _ => Some 1%Z end) n end).
  assert (HP : length P = n) by (unfold P; destruct partitionin; [now rewrite map_length|apply repeat_length]).
  set (f := fun ip : nat * option Z => block class_args parts ax c (fst ip) (snd ip)).
  assert (Hb : forall i p, i < n -> exists b, f (i, p) = Ok b /\ length (positional b) = length (positional c) /\
      (forall j a s, nth_error (positional c) j = Some a -> nth_error class_args j = Some s -> exists a', nth_error (positional b) j = Some a' /\ given (In s parts) i a a') /\
      Forall2 (fun sa sb => fst sb = fst sa /\ given (In (fst sa) parts) i (snd sa) (snd sb)) (keyword c) (keyword b) /\
      (forall s k, shapein c = Some s -> axis_of ax s k -> exists r, shapein b = Some r /\ cut k p s r) /\ (shapein c = None -> shapein b = None) /\
      (forall s k, shapeout c = Some s -> axis_of ax s k -> exists r, shapeout b = Some r /\ cut k p s r) /\ (shapeout c = None -> shapeout b = None)).
  { intros i p Hi. unfold f, block. cbn [fst snd].
    destruct (parts_args_ok class_args parts n i Hi (positional c) 0 Hlen Ha) as (ra & Era & Hra & Gra).
    destruct (parts_keys_ok parts n i Hi (keyword c) Hk) as (rk & Erk & Grk).
    assert (O : forall o : option (list (option Z)), (forall s, o = Some s -> exists k, axis_of ax s k) ->
       exists o', opt_reshape ax p o = Ok o' /\ (forall s k, o = Some s -> axis_of ax s k -> exists r, o' = Some r /\ cut k p s r) /\ (o = None -> o' = None)).
    { intros [s|] H; [|exists None; repeat split; intros; discriminate || reflexivity]. destruct (H s eq_refl) as [k Hk']. destruct (reshape_chunk ax s k p Hk') as (r & Er & Cr).
      exists (Some r). cbn. rewrite Er. split; [reflexivity|]. split; [|discriminate]. intros s' k' [= <-] Hk2. exists r. split; [reflexivity|].
      replace k' with k; [assumption|]. destruct ax; cbn in *; [|contradiction]. lia. }
    destruct (O (shapein c) Hsi) as (si & Esi & Gsi & Nsi). destruct (O (shapeout c) Hso) as (so & Eso & Gso & Nso).
    rewrite Era. cbn [bind]. rewrite Erk. cbn [bind]. rewrite Esi. cbn [bind]. rewrite Eso. cbn [bind]. eexists. split; [reflexivity|]. cbn [positional keyword shapein shapeout]. auto 10. }
  assert (Hm : forall P' i0, i0 + length P' <= n -> exists bs, map_res f (combine (seq i0 (length P')) P') = Ok bs /\ length bs = length P' /\
      forall i b p, nth_error bs i = Some b -> nth_error P' i = Some p -> f (i0 + i, p) = Ok b).
  { induction P' as [|p P' IH]; intros i0 Hi0; [exists []; split; [reflexivity|split; [reflexivity|intros [|i]; discriminate]]|]. cbn [length seq combine map_res].
    cbn [length] in Hi0. destruct (Hb i0 p ltac:(lia)) as (b & Eb & _). destruct (IH (S i0) ltac:(lia)) as (bs & Ebs & Hbs & Gbs). rewrite Eb. cbn [bind]. rewrite Ebs. cbn [bind].
    exists (b :: bs). split; [reflexivity|]. split; [cbn; lia|]. intros [|i] b' p' H1 H2.
    - injection H1 as <-. injection H2 as <-. now rewrite Nat.add_0_r.
    - rewrite Nat.add_succ_r. now apply Gbs. }
  destruct (Hm P 0 ltac:(lia)) as (bs & Ebs & Hbs & Gbs).
  exists bs, P. split.
  - unfold partition_init. rewrite Ena. cbn [bind]. rewrite Enk. cbn [bind].
    assert (Hin : partitionin = None -> fold_right Nat.max 0 (na ++ nk) = n).
    { intros ->. apply M1. destruct Hpart as (v & [(j & s & H1 & H2 & H3)|(s & H1 & H2)]); apply in_or_app; [left; apply Gna; eauto 6|right; apply Gnk; eauto]. }
    rewrite (no_bad _ n).
    2:{ exact F. }
    2:{ destruct M2 as [->|M2]; [now left|right; now apply max_zero]. }
    destruct partitionin as [p|].
    + rewrite Hpart. destruct (Nat.eqb_spec (Nat.max n (fold_right Nat.max 0 (na ++ nk))) 0); [lia|].
      assert (negb (n =? 0) && negb (fold_right Nat.max 0 (na ++ nk) =? 0) && negb (n =? fold_right Nat.max 0 (na ++ nk)) = false) as ->.
      { destruct M2 as [-> | ->]; [rewrite Nat.eqb_refl; apply andb_false_r|rewrite andb_false_r; reflexivity]. }
      fold P. fold f. rewrite Ebs. reflexivity.
    + rewrite (Hin eq_refl). cbn [Nat.max]. destruct (Nat.eqb_spec n 0); [lia|]. cbn [Nat.eqb negb andb]. fold P. fold f. rewrite Ebs. reflexivity.
  - split; [lia|]. split; [exact HP|]. split.
    { intros p i x -> Hx. unfold P. now rewrite nth_error_map, Hx. }
    split. { intros -> x Hx. unfold P in Hx. apply repeat_spec in Hx. exact Hx. }
    intros i b p H1 H2. pose proof (Gbs i b p H1 H2) as E. cbn [Nat.add] in E. assert (Hi : i < n) by (rewrite <- HP; apply nth_error_Some; congruence).
    destruct (Hb i p Hi) as (b' & Eb' & G). rewrite E in Eb'. injection Eb' as <-. exact G.
Qed.
Print Assumptions C82_dispatch.
Definition tests_call : call nat := Call [Sequence [1; 2; 3]; Sequence [7; 8]; Scalar 5] [("key"%string, Scalar 0)] (Some [Some 6%Z; Some 4%Z]) None.
Definition tests_args : list string := ["arg1"; "value"; "arg3"; "key"]%string.
Definition tests_parts : list string := ["value"; "key"]%string.
Example C82_dispatch_case : 0 < 2 /\ length (positional tests_call) <= length tests_args /\ (forall a, variable tests_args tests_parts tests_call a -> splits 2 a) /\
  (forall s, shapein tests_call = Some s -> exists k, axis_of (Chunk 0) s k) /\ (forall s, shapeout tests_call = Some s -> exists k, axis_of (Chunk 0) s k) /\
  partition_init tests_args tests_parts (Chunk 0) (Some [4; 2]%Z) tests_call =
    Ok (Blocks [Call [Sequence [1; 2; 3]; Scalar 7; Scalar 5] [("key"%string, Scalar 0)] (Some [Some 4%Z; Some 4%Z]) None;
                Call [Sequence [1; 2; 3]; Scalar 8; Scalar 5] [("key"%string, Scalar 0)] (Some [Some 2%Z; Some 4%Z]) None] [Some 4%Z; Some 2%Z]).
Proof.
  split; [lia|]. split; [cbn; lia|]. split.
  - intros a [(j & s & H1 & H2 & H3)|(s & H1 & H2)].
    + destruct j as [|[|[|j]]]; cbn in H1, H2; [| | |destruct j; discriminate]; injection H1 as <-; injection H2 as <-; cbn in *; try exact I; try reflexivity; intuition discriminate.
    + cbn in H1. destruct H1 as [[= <- <-]|[]]. exact I.
  - split; [|split; [discriminate|reflexivity]]. intros s [= <-]. exists 0. cbn. lia.
Qed.
(** Without sequence nor partition, the operator is built as without the decorator. *)
Theorem C82_whole : forall V class_args parts ax (c : call V), length (positional c) <= length class_args ->
  (forall a, variable class_args parts c a -> exists v, a = Scalar v) -> partition_init class_args parts ax None c = Ok (Whole c).
Proof.
  intros V class_args parts ax c Hlen H. unfold partition_init.
  assert (Ha : forall j a s, nth_error (positional c) j = Some a -> nth_error class_args (0 + j) = Some s -> In s parts -> splits 1 a /\ exists v, a = Scalar v).
  { intros j a s H1 H2 H3. destruct (H a) as [v ->]; [left; eauto|]. split; [exact I|eauto]. }
  assert (Z1 : forall (l : list (arg V)) i ns, counts_args class_args parts i l = Ok ns -> (forall j a s, nth_error l j = Some a -> nth_error class_args (i + j) = Some s -> In s parts -> exists v, a = Scalar v) -> Forall (fun k => k = 0) ns).
  { induction l as [|a l IH]; intros i ns E HS; cbn in E; [injection E as <-; constructor|]. unfold name_of in E. destruct (nth_error class_args i) as [s|] eqn:Es; [|discriminate]. cbn [bind] in E.
    assert (HS' : forall j b t, nth_error l j = Some b -> nth_error class_args (S i + j) = Some t -> In t parts -> exists v, b = Scalar v).
    { intros j b t Hj Ht. apply (HS (S j)); [exact Hj|]. now rewrite Nat.add_succ_r. }
    destruct (is_in s parts) eqn:I.
    - apply is_in_spec in I. destruct (HS 0 a s) as [v ->]; [reflexivity|now rewrite Nat.add_0_r|assumption|]. cbn [count bind] in E.
      destruct (counts_args class_args parts (S i) l) eqn:Et; cbn [bind] in E; [|discriminate]. injection E as <-. cbn. constructor; [reflexivity|]. apply (IH (S i)); auto.
    - cbn [bind] in E. destruct (counts_args class_args parts (S i) l) eqn:Et; cbn [bind] in E; [|discriminate]. injection E as <-. cbn. apply (IH (S i)); auto. }
  destruct (counts_args_ok class_args parts 1 ltac:(lia) (positional c) 0 Hlen) as (na & Ena & _); [intros; eapply Ha; eassumption|].
  assert (Hk : forall s a, In (s, a) (keyword c) -> In s parts -> exists v, a = Scalar v) by (intros; apply H; right; eauto).
  destruct (counts_keys_ok parts 1 ltac:(lia) (keyword c)) as (nk & Enk & _); [intros s a H1 H2; destruct (Hk s a H1 H2) as [v ->]; exact I|].
  assert (Z2 : forall (l : list (string * arg V)) ns, counts_keys parts l = Ok ns -> (forall s (a : arg V), In (s, a) l -> In s parts -> exists v, a = Scalar v) -> Forall (fun k => k = 0) ns).
  { induction l as [|(s, a) l IH]; intros ns E HS; cbn in E; [injection E as <-; constructor|]. destruct (is_in s parts) eqn:I.
    - apply is_in_spec in I. destruct (HS s a) as [v ->]; [now left|assumption|]. cbn [count bind] in E. destruct (counts_keys parts l) eqn:Et; cbn [bind] in E; [|discriminate]. injection E as <-. cbn.
      constructor; [reflexivity|]. apply IH; [reflexivity|]. intros; eapply HS; [right; eassumption|assumption].
    - cbn [bind] in E. destruct (counts_keys parts l) eqn:Et; cbn [bind] in E; [|discriminate]. injection E as <-. cbn. apply IH; [reflexivity|]. intros; eapply HS; [right; eassumption|assumption]. }
  rewrite Ena. cbn [bind]. rewrite Enk. cbn [bind].
  assert (F : Forall (fun k => k = 0) (na ++ nk)).
  { apply Forall_app. split; [apply (Z1 (positional c) 0); [assumption|]|apply (Z2 (keyword c)); assumption]. intros j a s H1 H2 H3. apply (Ha j a s H1 H2 H3). }
  assert (M : fold_right Nat.max 0 (na ++ nk) = 0) by (clear - F; induction F as [|k l -> F IH]; cbn; lia).
  rewrite M. rewrite (no_bad (na ++ nk) 0 0); [reflexivity| |now left]. eapply Forall_impl; [|exact F]. auto.
Qed.
Print Assumptions C82_whole.
Example C82_whole_case : length (positional (Call [Sequence [1; 2]; Scalar 4] [] None None)) <= length tests_args /\
  partition_init tests_args tests_parts (Chunk 0) None (Call [Sequence [1; 2]; Scalar 4] [] None None) = Ok (Whole (Call [Sequence [1; 2]; Scalar 4] [] None None)).
Proof. split; [cbn; lia|reflexivity]. Qed.
(** Sequences of different lengths, and a partition of another length, are refused. *)
Theorem C82_lengths : forall V class_args parts ax partitionin (c : call V) bs partition v,
  partition_init class_args parts ax partitionin c = Ok (Blocks bs partition) -> partition <> [] ->
  (exists j s, nth_error (positional c) j = Some (Sequence v) /\ nth_error class_args j = Some s /\ In s parts) \/ (exists s, In (s, Sequence v) (keyword c) /\ In s parts) ->
  length v = length partition.
Proof.
  intros V class_args parts ax partitionin c bs partition v E Hne Hv.
  assert (M : forall (f : nat * option Z -> res (call V)) l r, map_res f l = Ok r -> forall x, In x l -> exists y, f x = Ok y).
  { induction l as [|x l IH]; intros r Hr y Hy; [destruct Hy|]. cbn in Hr. destruct (f x) eqn:Ef; [|discriminate]. cbn in Hr. destruct (map_res f l) eqn:El; [|discriminate]. destruct Hy as [<-|Hy]; eauto. }
  unfold partition_init in E. destruct (counts_args class_args parts 0 (positional c)) as [na|] eqn:Ena; [|discriminate]. cbn [bind] in E.
  destruct (counts_keys parts (keyword c)) as [nk|] eqn:Enk; [|discriminate]. cbn [bind] in E.
  assert (Hin : In (length v) (na ++ nk)).
  { destruct Hv as [(j & s & H1 & H2 & H3)|(s & H1 & H2)]; apply in_or_app; [left|right].
    - assert (G : forall (l : list (arg V)) i ns, counts_args class_args parts i l = Ok ns -> forall j, nth_error l j = Some (Sequence v) -> nth_error class_args (i + j) = Some s -> In (length v) ns).
      { induction l as [|a l IH]; intros i ns El k Hk Hs; [destruct k; discriminate|]. cbn in El. unfold name_of in El. destruct (nth_error class_args i) as [t|] eqn:Et; [|discriminate]. cbn [bind] in El.
        destruct k as [|k].
        - injection Hk as ->. rewrite Nat.add_0_r in Hs. assert (t = s) by congruence. subst t. rewrite (proj2 (is_in_spec s parts) H3) in El. cbn [count bind] in El.
          destruct (counts_args class_args parts (S i) l); [|discriminate]. cbn in El. injection El as <-. now left.
        - destruct (if is_in t parts then _ else _) as [h|]; [|discriminate]. cbn [bind] in El. destruct (counts_args class_args parts (S i) l) as [r|] eqn:Er; [|discriminate]. cbn [bind] in El. injection El as <-.
          apply in_or_app. right. apply (IH (S i) r Er k Hk). now rewrite Nat.add_succ_r in Hs. }
      apply (G (positional c) 0 na Ena j H1 H2).
    - assert (G : forall (l : list (string * arg V)) ns, counts_keys parts l = Ok ns -> In (s, Sequence v) l -> In (length v) ns).
      { induction l as [|(t, a) l IH]; intros ns El Hl; [destruct Hl|]. cbn in El. destruct Hl as [[= -> ->]|Hl].
        - rewrite (proj2 (is_in_spec s parts) H2) in El. cbn [count bind] in El. destruct (counts_keys parts l); [|discriminate]. cbn in El. injection El as <-. now left.
        - destruct (if is_in t parts then _ else _) as [h|]; [|discriminate]. cbn [bind] in El. destruct (counts_keys parts l) as [r|] eqn:Er; [|discriminate]. cbn [bind] in El. injection El as <-.
          apply in_or_app. right. apply (IH r eq_refl Hl). }
      apply (G (keyword c) nk Enk H1). }
  destruct (existsb _ (na ++ nk)) eqn:X; [discriminate|].
  assert (Hmax : length v = 0 \/ length v = fold_right Nat.max 0 (na ++ nk)).
  { destruct (Nat.eqb_spec (length v) 0) as [|N0]; [now left|]. destruct (Nat.eqb_spec (length v) (fold_right Nat.max 0 (na ++ nk))) as [|N1]; [now right|]. exfalso.
    assert (T : existsb (fun n => negb ((n =? 0) || (n =? fold_right Nat.max 0 (na ++ nk)))) (na ++ nk) = true).
    { apply existsb_exists. exists (length v). split; [assumption|]. destruct (Nat.eqb_spec (length v) 0); [lia|]. destruct (Nat.eqb_spec (length v) (fold_right Nat.max 0 (na ++ nk))); [lia|]. reflexivity. }
    congruence. }
  set (n2 := fold_right Nat.max 0 (na ++ nk)) in *.
  destruct (Nat.max _ n2 =? 0) eqn:Y; [discriminate|]. destruct (_ && _ && _) eqn:W; [discriminate|].
  destruct (map_res _ _) as [bs'|] eqn:Em; [|discriminate]. cbn [bind] in E. injection E as -> <-.
  set (P := match partitionin with Some p => map Some p | None => _ end) in *.
  assert (HP : length P <> 0) by (destruct P; [contradiction|cbn; lia]).
  assert (Hpos : length v <> 0).
  { intros Z0. destruct P as [|p0 P']; [contradiction|]. destruct (M _ _ _ Em (0, p0)) as [y Hy]; [now left|]. unfold block in Hy. cbn [fst snd] in Hy.
    destruct v; [|discriminate]. destruct Hv as [(j & s & H1 & H2 & H3)|(s & H1 & H2)].
    - assert (G : forall (l : list (arg V)) i j r, parts_args class_args parts 0 i l = Ok r -> nth_error l j = Some (Sequence []) -> nth_error class_args (i + j) = Some s -> False).
      { induction l as [|a l IH]; intros i k r El Hk Hs; [destruct k; discriminate|]. cbn in El. unfold name_of in El. destruct (nth_error class_args i) as [t|] eqn:Et; [|discriminate]. cbn [bind] in El. destruct k as [|k].
        - injection Hk as ->. rewrite Nat.add_0_r in Hs. assert (t = s) by congruence. subst t. rewrite (proj2 (is_in_spec s parts) H3) in El. discriminate.
        - destruct (part _ 0 a); [|discriminate]. cbn [bind] in El. destruct (parts_args class_args parts 0 (S i) l) eqn:Er; [|discriminate]. apply (IH (S i) k _ Er Hk). now rewrite Nat.add_succ_r in Hs. }
      destruct (parts_args class_args parts 0 0 (positional c)) eqn:Ep; [|discriminate]. apply (G (positional c) 0 j _ Ep H1 H2).
    - destruct (parts_args class_args parts 0 0 (positional c)); [|discriminate]. cbn [bind] in Hy. unfold parts_keys in Hy. destruct (map_res _ (keyword c)) eqn:Ek; [|discriminate].
      assert (M' : forall (f : string * arg V -> res (string * arg V)) l r, map_res f l = Ok r -> forall x, In x l -> exists y, f x = Ok y).
      { clear. induction l as [|x l IH]; intros r Hr y Hy; [destruct Hy|]. cbn in Hr. destruct (f x) eqn:Ef; [|discriminate]. cbn in Hr. destruct (map_res f l) eqn:El; [|discriminate]. destruct Hy as [<-|Hy]; eauto. }
      destruct (M' _ _ _ Ek (s, Sequence [])) as [z Hz]; [assumption|]. cbn [fst snd] in Hz. rewrite (proj2 (is_in_spec s parts) H2) in Hz. discriminate. }
  destruct Hmax as [?|Hmax]; [contradiction|]. rewrite Hmax. unfold P in *. destruct partitionin as [p|].
  - rewrite map_length in *. destruct (Nat.eqb_spec (length p) 0); [lia|]. destruct (Nat.eqb_spec n2 0); [lia|]. cbn [negb andb] in W. destruct (Nat.eqb_spec (length p) n2); [lia|discriminate].
  - rewrite repeat_length. cbn [Nat.max]. reflexivity.
Qed.
Print Assumptions C82_lengths.
Example C82_lengths_case : partition_init tests_args tests_parts (Chunk 0) None (Call [Scalar 0; Sequence [7; 8]; Scalar 5] [("key"%string, Sequence [1; 2; 3])] None None) = Err ValueError /\
  partition_init tests_args tests_parts (Chunk 0) (Some [1; 2; 3]%Z) (Call [Scalar 0; Sequence [7; 8]; Scalar 5] [] None None) = Err ValueError /\
  exists bs p, partition_init tests_args tests_parts (Chunk 0) (Some [1; 2]%Z) (Call [Scalar 0; Sequence [7; 8]; Scalar 5] [] None None) = Ok (Blocks bs p) /\ p <> [].
Proof. split; [reflexivity|]. split; [reflexivity|]. eexists. eexists. split; [reflexivity|discriminate]. Qed.
(** Stacks: each block has the shape of the whole, with the stacked axis. *)
Theorem C82_stack_refuted : forall V class_args parts a partitionin (c : call V) bs partition s i b,
  partition_init class_args parts (Stack a) partitionin c = Ok (Blocks bs partition) -> shapein c = Some s -> nth_error bs i = Some b -> shapein b = Some s.
Proof.
  intros V class_args parts a partitionin c bs partition s i b E Hs Hb. unfold partition_init in E.
  destruct (counts_args class_args parts 0 (positional c)) as [na|]; [|discriminate]. cbn [bind] in E. destruct (counts_keys parts (keyword c)) as [nk|]; [|discriminate]. cbn [bind] in E.
  destruct (existsb _ (na ++ nk)); [discriminate|]. destruct (_ =? 0); [discriminate|]. destruct (_ && _ && _); [discriminate|].
  destruct (map_res _ _) as [bs'|] eqn:Em; [|discriminate]. cbn [bind] in E. injection E as -> _. revert Em. generalize (combine (seq 0 (length partition)) partition).
  assert (G : forall (f : nat * option Z -> res (call V)) l r i b, map_res f l = Ok r -> nth_error r i = Some b -> exists x, f x = Ok b).
  { induction l as [|x l IH]; intros r k y Hr Hy; cbn in Hr; [injection Hr as <-; destruct k; discriminate|]. destruct (f x) eqn:Ef; [|discriminate]. cbn in Hr. destruct (map_res f l) eqn:El; [|discriminate].
    cbn in Hr. injection Hr as <-. destruct k; [injection Hy as <-; eauto|eapply IH; eauto]. }
  intros l Em. destruct (G _ _ _ _ _ Em Hb) as (x & Hx). unfold block in Hx. destruct (parts_args _ _ _ _ _); [|discriminate]. cbn [bind] in Hx. destruct (parts_keys _ _ _); [|discriminate]. cbn [bind] in Hx.
  rewrite Hs in Hx. cbn [opt_reshape reshape] in Hx. destruct (_ && _)%bool; [|discriminate]. cbn [bind] in Hx. destruct (opt_reshape _ _ _); [|discriminate]. cbn [bind] in Hx. injection Hx as <-. reflexivity.
Qed.
Print Assumptions C82_stack_refuted.
Example C82_stack_case : exists bs p, partition_init tests_args tests_parts (Stack 0) None (Call [Scalar 0; Sequence [7; 8]] [] (Some [Some 2%Z; Some 5%Z]) None) = Ok (Blocks bs p) /\ length bs = 2 /\
  map (@shapein nat) bs = [Some [Some 2%Z; Some 5%Z]; Some [Some 2%Z; Some 5%Z]].
Proof. eexists. eexists. split; [reflexivity|]. split; reflexivity. Qed.
(** The sizes of the blocks need not add up to the size of the whole; a shape by position is
    not cut; an empty partition with sequences gives no block. *)
Theorem C82_sizes_refuted :
  (exists bs, partition_init tests_args tests_parts (Chunk 0) (Some [1; 1]%Z) (Call [Scalar 0; Sequence [7; 8]] [] (Some [Some 3%Z]) None) = Ok (Blocks bs [Some 1%Z; Some 1%Z]) /\
     map (@shapein nat) bs = [Some [Some 1%Z]; Some [Some 1%Z]]) /\
  (exists bs, partition_init ["value"; "shapein"]%string ["value"%string] (Chunk 0) (Some [1; 2]%Z) (Call [Sequence [7; 8]; Sequence [3]] [] None None) = Ok (Blocks bs [Some 1%Z; Some 2%Z]) /\
     map (fun b => nth_error (positional b) 1) bs = [Some (Sequence [3]); Some (Sequence [3])]) /\
  partition_init tests_args tests_parts (Chunk 0) (Some []) (Call [Scalar 0; Sequence [7; 8]] [] None None) = Ok (Blocks [] []).
Proof. split; [eexists; split; reflexivity|]. split; [eexists; split; reflexivity|]. reflexivity. Qed.
Print Assumptions C82_sizes_refuted.
(** A partition variable given as None, the default of a keyword, is refused. *)
Theorem C82_none_refuted : forall V class_args parts ax partitionin (c : call V) s v l, length (positional c) <= length class_args ->
  (forall j a t, nth_error (positional c) j = Some a -> nth_error class_args j = Some t -> In t parts -> exists x, a = Scalar x) ->
  In s parts -> keyword c = (s, Other v) :: l -> partition_init class_args parts ax partitionin c = Err TypeError.
Proof.
  intros V class_args parts ax partitionin c s v l Hlen H Hs Hk. unfold partition_init.
  destruct (counts_args_ok class_args parts 1 ltac:(lia) (positional c) 0 Hlen) as (na & Ena & _); [intros j a t H1 H2 H3; destruct (H j a t H1 H2 H3) as [x ->]; exact I|].
  rewrite Ena, Hk. cbn [bind counts_keys]. rewrite (proj2 (is_in_spec s parts) Hs). reflexivity.
Qed.
Print Assumptions C82_none_refuted.
Example C82_none_case : partition_init tests_args tests_parts (Chunk 0) None (Call [Scalar 0; Scalar 7] [("key"%string, Other 0)] None None) = Err TypeError.
Proof. reflexivity. Qed.
