From Coq Require Import Lia Permutation.
From Verif Require Import Base BaseFacts SparseModel SparseSpec RingFacts RollModel RollSpec MpiFileFacts.
Local Open Scope Z_scope.

Fixpoint update (k : nat) (v : Z) (l : list Z) : list Z := match l, k with [], _ => [] | _ :: r, O => v :: r | x :: r, S k => x :: update k v r end.
Lemma update_length k v l : length (update k v l) = length l.
Proof. revert k. induction l; intros [|k]; cbn; auto. Qed.
Lemma nth_update k v l i : (k < length l)%nat -> nth i (update k v l) 0 = if (i =? k)%nat then v else nth i l 0.
Proof.
  revert k i. induction l as [|x l IH]; intros k i H; cbn in H; [lia|]. destruct k, i; cbn; auto. rewrite IH by lia. reflexivity.
Qed.
Lemma in_shape_length s i : in_shape s i -> length i = length s.
Proof. induction 1; cbn; auto. Qed.
Lemma in_shape_nth s i k : in_shape s i -> (k < length s)%nat -> 0 <= nth k i 0 < nth k s 0.
Proof. intros H. revert k. induction H; intros k Hk; cbn in Hk; [lia|]. destruct k; cbn; auto. apply IHForall2. lia. Qed.
Lemma in_shape_of_nth s i : length i = length s -> (forall k, (k < length s)%nat -> 0 <= nth k i 0 < nth k s 0) -> in_shape s i.
Proof.
  revert i. induction s as [|n s IH]; intros [|x i] L H; cbn in L; try discriminate; [constructor|]. constructor.
  - apply (H O). cbn. lia.
  - apply IH; [lia|]. intros k Hk. apply (H (S k)). cbn. lia.
Qed.
Lemma in_shape_update s i k v : in_shape s i -> (k < length s)%nat -> 0 <= v < nth k s 0 -> in_shape s (update k v i).
Proof.
  intros H Hk Hv. pose proof (in_shape_length _ _ H). apply in_shape_of_nth; [rewrite update_length; lia|]. intros j Hj. rewrite nth_update by lia.
  destruct (Nat.eqb_spec j k) as [->|]; [exact Hv | now apply in_shape_nth].
Qed.
Lemma prod_nonneg s i : in_shape s i -> 0 < prodZ s.
Proof. induction 1; cbn; [lia|]. fold (prodZ l). nia. Qed.
Lemma place_range s i : in_shape s i -> 0 <= place s i < prodZ s.
Proof.
  induction 1 as [|n x s i Hx H IH]; [cbn; lia|]. cbn [place]. change (fold_right Z.mul 1 s) with (prodZ s). change (prodZ (n :: s)) with (n * prodZ s). nia.
Qed.
(** The place of an element after a roll. *)
Lemma rolled_place s : forall i k n, in_shape s i -> (k < length s)%nat ->
  rolled s k n (place s i) = place s (update k ((nth k i 0 - n) mod nth k s 0) i).
Proof.
  induction s as [|N s IH]; intros i k n H Hk; [cbn in Hk; lia|]. inversion H as [|? x ? r Hx Hr]; subst. pose proof (place_range _ _ Hr) as B.
  cbn [place rolled]. change (fold_right Z.mul 1 s) with (prodZ s).
  assert (D : (x * prodZ s + place s r) / prodZ s = x) by (rewrite Z.div_add_l by lia; rewrite Z.div_small; lia).
  assert (M : (x * prodZ s + place s r) mod prodZ s = place s r) by (rewrite Z.add_comm, Z_mod_plus_full; apply Z.mod_small; lia).
  destruct k; cbn [update nth place]; change (fold_right Z.mul 1 s) with (prodZ s); rewrite ?D, ?M; [reflexivity|].
  rewrite IH by (cbn in Hk; auto; lia). reflexivity.
Qed.
Fixpoint unplace (s : list Z) (p : Z) : list Z := match s with [] => [] | _ :: s => p / prodZ s :: unplace s (p mod prodZ s) end.
Lemma unplace_ok s : forall p, Forall (fun n => 0 <= n) s -> 0 <= p < prodZ s -> in_shape s (unplace s p) /\ place s (unplace s p) = p.
Proof.
  induction s as [|N s IH]; intros p F H.
  - split; [constructor | cbn in *; lia].
  - inversion F as [|? ? F0 F1]; subst. change (prodZ (N :: s)) with (N * prodZ s) in H. assert (0 <= prodZ s) by (clear - F1; induction F1; cbn; [lia|]; fold (prodZ l); nia).
    assert (0 < prodZ s) by nia. destruct (IH (p mod prodZ s) F1) as [Hi E]; [apply Z.mod_pos_bound; lia|].
    split; [constructor; [|exact Hi]; split; [apply Z.div_pos; lia | apply Z.div_lt_upper_bound; nia]|].
    cbn [place unplace]. change (fold_right Z.mul 1 s) with (prodZ s). rewrite E. pose proof (Z.div_mod p (prodZ s)). lia.
Qed.
Lemma unplace_place s i : in_shape s i -> unplace s (place s i) = i.
Proof.
  induction 1 as [|n x s i Hx H IH]; [reflexivity|]. pose proof (place_range _ _ H) as B. cbn [place unplace]. change (fold_right Z.mul 1 s) with (prodZ s).
  rewrite Z.div_add_l, Z.div_small by lia. rewrite (Z.add_comm (x * prodZ s)), Z_mod_plus_full, Z.mod_small by lia. rewrite IH. f_equal. lia.
Qed.
Lemma place_onto s p : Forall (fun n => 0 <= n) s -> 0 <= p < prodZ s -> exists i, in_shape s i /\ place s i = p.
Proof. intros F H. exists (unplace s p). now apply unplace_ok. Qed.
(** Arrays are their elements. *)
Lemma array_ext {A} s (a b : list A) : array_of s a -> array_of s b -> (forall i, in_shape s i -> element s a i = element s b i) -> a = b.
Proof.
  intros [F La] [_ Lb] H. apply nth_error_ext. intros p. destruct (Nat.lt_ge_cases p (length a)) as [L|L].
  - destruct (place_onto s (Z.of_nat p) F) as [i [Hi E]]; [change (prodZ s) with (fold_right Z.mul 1 s); lia|]. specialize (H i Hi). unfold element in H. rewrite E, Nat2Z.id in H. exact H.
  - transitivity (@None A); [|symmetry]; apply nth_error_None; lia.
Qed.

Definition axis_of (s : list Z) (a : Z) : nat := Z.to_nat (a mod zlen s).
Lemma axis_lt s a : valid_axis s a -> (axis_of s a < length s)%nat.
Proof. unfold valid_axis, axis_of, zlen. intros H. pose proof (Z.mod_pos_bound a (Z.of_nat (length s))). lia. Qed.
Lemma axis_norm s a : valid_axis s a -> Z.to_nat (if a <? 0 then a + zlen s else a) = axis_of s a.
Proof.
  unfold valid_axis, axis_of, zlen. intros H. f_equal. destruct (a <? 0) eqn:E.
  - rewrite <- (Z_mod_plus_full a 1), Z.mul_1_l, Z.mod_small; lia.
  - rewrite Z.mod_small; lia.
Qed.
Lemma map_res_total {A B} (f : A -> res B) l : (forall x, In x l -> exists y, f x = Ok y) -> exists r, map_res f l = Ok r.
Proof.
  induction l as [|x l IH]; intros H; [now exists []|]. destruct (H x (or_introl eq_refl)) as [y E]. destruct IH as [r R]; [intros; apply H; now right|].
  exists (y :: r). cbn. now rewrite E, R.
Qed.
Lemma map_res_nth {A B} (f : A -> res B) : forall l r i x, map_res f l = Ok r -> nth_error l i = Some x -> exists y, nth_error r i = Some y /\ f x = Ok y.
Proof.
  induction l as [|a l IH]; intros r i x H E; [destruct i; discriminate|]. cbn in H. destruct (f a) as [y|] eqn:F; [|discriminate]. destruct (map_res f l) as [ys|] eqn:M; [|discriminate].
  injection H as <-. destruct i; cbn in *; [injection E as <-; eauto | eauto].
Qed.
Lemma map_res_len {A B} (f : A -> res B) : forall l r, map_res f l = Ok r -> length r = length l.
Proof. induction l as [|a l IH]; intros r H; cbn in H; [now injection H as <-|]. destruct (f a); [|discriminate]. destruct (map_res f l); [|discriminate]. injection H as <-. cbn. now rewrite (IH _ eq_refl). Qed.
Lemma get_nth {A} (l : list A) i x : 0 <= i -> get l i = Ok x <-> nth_error l (Z.to_nat i) = Some x.
Proof. intros H. unfold get. replace (i <? 0) with false by lia. destruct (nth_error l (Z.to_nat i)); split; intros E; try discriminate; injection E as ->; reflexivity. Qed.

(** One roll. *)
Lemma np_roll_ok {A} s (a : list A) n axis : array_of s a -> valid_axis s axis ->
  exists o, np_roll s a n axis = Ok o /\ array_of s o /\
    forall i, in_shape s i -> element s o i = element s a (update (axis_of s axis) ((nth (axis_of s axis) i 0 - n) mod nth (axis_of s axis) s 0) i).
Proof.
  intros [F L] V. pose proof (axis_lt _ _ V) as K. unfold np_roll. replace ((axis <? - zlen s) || (zlen s <=? axis)) with false by (unfold valid_axis, zlen in *; lia).
  rewrite axis_norm by exact V. set (k := axis_of s axis) in *. assert (P0 : forall i, in_shape s i -> in_shape s (update k ((nth k i 0 - n) mod nth k s 0) i)).
  { intros i Hi. apply in_shape_update; auto. pose proof (in_shape_nth _ _ _ Hi K). apply Z.mod_pos_bound. lia. }
  assert (LP : Z.of_nat (length a) = prodZ s) by exact L.
  destruct (map_res_total (fun p => get a (rolled s k n p)) (iota (prodZ s))) as [o O].
  { intros p Hp. unfold iota, progression in Hp. apply in_map_iff in Hp as [q [<- Hq]]. apply in_seq in Hq.
    destruct (place_onto s (0 + Z.of_nat q * 1) F) as [i [Hi E]]; [lia|]. rewrite <- E, rolled_place by auto. specialize (P0 i Hi). apply place_range in P0.
    destruct (nth_error a (Z.to_nat (place s (update k ((nth k i 0 - n) mod nth k s 0) i)))) as [x|] eqn:X.
    - exists x. apply get_nth; [lia | exact X].
    - apply nth_error_None in X. lia. }
  assert (LI : length (iota (prodZ s)) = Z.to_nat (prodZ s)) by (unfold iota, progression; now rewrite map_length, seq_length).
  exists o. split; [exact O|]. split; [split; [exact F|]; apply map_res_len in O; fold (prodZ s); lia|].
  intros i Hi. pose proof (place_range _ _ Hi) as B. unfold element.
  assert (N : nth_error (iota (prodZ s)) (Z.to_nat (place s i)) = Some (place s i)).
  { unfold iota, progression. rewrite nth_error_map. assert (nth_error (seq 0 (Z.to_nat (prodZ s))) (Z.to_nat (place s i)) = Some (Z.to_nat (place s i))) as ->.
    - rewrite (nth_error_nth' _ 0%nat) by (rewrite seq_length; lia). rewrite seq_nth by lia. reflexivity.
    - cbn. f_equal. lia. }
  destruct (map_res_nth _ _ _ _ _ O N) as [y [Y G]]. rewrite Y. symmetry. rewrite rolled_place in G by auto. specialize (P0 i Hi). apply place_range in P0. apply get_nth in G; [exact G | lia].
Qed.

(** The index where an element comes from. *)
Lemma source_nth s n axis i k : (k < length s)%nat -> nth k (source s n axis i) 0 = (nth k i 0 - offset (length s) n axis k) mod nth k s 0.
Proof.
  intros H. unfold source. set (f := fun k => _). rewrite (nth_indep _ 0 (f 0%nat)) by (rewrite map_length, seq_length; lia). rewrite map_nth, seq_nth by lia. reflexivity.
Qed.
Lemma source_length s n axis i : length (source s n axis i) = length s.
Proof. unfold source. now rewrite map_length, seq_length. Qed.
Lemma source_shape s n axis i : in_shape s i -> in_shape s (source s n axis i).
Proof.
  intros H. apply in_shape_of_nth; [apply source_length|]. intros k Hk. rewrite source_nth by exact Hk. apply Z.mod_pos_bound. pose proof (in_shape_nth _ _ _ H Hk). lia.
Qed.
Lemma index_ext (l l' : list Z) : length l = length l' -> (forall k, (k < length l)%nat -> nth k l 0 = nth k l' 0) -> l = l'.
Proof. intros L H. apply (nth_ext l l' 0 0); auto. Qed.
Lemma source_nil s i : in_shape s i -> source s [] [] i = i.
Proof.
  intros H. pose proof (in_shape_length _ _ H). apply index_ext; [rewrite source_length; lia|]. intros k Hk. rewrite source_length in Hk. rewrite source_nth by exact Hk. cbn.
  rewrite Z.sub_0_r. apply Z.mod_small. now apply in_shape_nth.
Qed.
Lemma source_step s x a n axis i : in_shape s i -> valid_axis s a ->
  update (axis_of s a) ((nth (axis_of s a) (source s n axis i) 0 - x) mod nth (axis_of s a) s 0) (source s n axis i) = source s (x :: n) (a :: axis) i.
Proof.
  intros H V. pose proof (axis_lt _ _ V) as K. apply index_ext; [now rewrite update_length, !source_length|]. rewrite update_length, source_length. intros k Hk.
  rewrite nth_update by (rewrite source_length; exact K). rewrite !source_nth by auto. cbn [offset].
  assert (E : (a mod Z.of_nat (length s) =? Z.of_nat k) = (k =? axis_of s a)%nat).
  { unfold axis_of, zlen in *. pose proof (Z.mod_pos_bound a (Z.of_nat (length s))). lia. }
  rewrite E. destruct (Nat.eqb_spec k (axis_of s a)) as [->|]; [rewrite Zminus_mod_idemp_l; f_equal; lia | f_equal; lia].
Qed.
Lemma roll_loop_ok {A} s : forall n axis (a : list A), array_of s a -> Forall (valid_axis s) axis -> length n = length axis ->
  exists o, roll_loop s a (combine n axis) = Ok o /\ array_of s o /\ forall i, in_shape s i -> element s o i = element s a (source s n axis i).
Proof.
  induction n as [|x n IH]; intros [|b axis] a H V L; cbn in L; try discriminate.
  - exists a. split; [reflexivity|]. split; [exact H|]. intros i Hi. now rewrite source_nil.
  - inversion V; subst. destruct (np_roll_ok s a x b H) as [o [E [Ho P]]]; [assumption|]. destruct (IH axis o Ho) as [o' [E' [Ho' P']]]; auto.
    exists o'. cbn [combine roll_loop]. rewrite E. cbn [bind]. split; [exact E'|]. split; [exact Ho'|]. intros i Hi. rewrite P' by exact Hi. rewrite P by now apply source_shape.
    now rewrite source_step.
Qed.
Lemma direct_loop {A} s n axis (a : list A) : n <> [] -> length n = length axis -> roll_direct s n axis a = roll_loop s a (combine n axis).
Proof. destruct n, axis; cbn; congruence. Qed.
Lemma transpose_direct {A} s n axis (a : list A) : roll_transpose s n axis a = roll_direct s (map Z.opp n) axis a.
Proof. destruct n, axis; reflexivity. Qed.
Lemma direct_ok {A} s n axis (a : list A) : array_of s a -> Forall (valid_axis s) axis -> length n = length axis -> n <> [] ->
  exists o, roll_direct s n axis a = Ok o /\ array_of s o /\ forall i, in_shape s i -> element s o i = element s a (source s n axis i).
Proof. intros. rewrite direct_loop by auto. now apply roll_loop_ok. Qed.

Lemma offset_add ndim : forall n m axis k, length n = length axis -> length m = length axis -> offset ndim (map (fun p => fst p + snd p) (combine n m)) axis k = offset ndim n axis k + offset ndim m axis k.
Proof. induction n as [|x n IH]; intros [|y m] [|a axis] k L M; cbn in *; try discriminate; [reflexivity|]. rewrite IH by auto. destruct (_ =? _); lia. Qed.
Lemma offset_opp ndim : forall n axis k, offset ndim (map Z.opp n) axis k = - offset ndim n axis k.
Proof. induction n as [|x n IH]; intros [|a axis] k; cbn; try reflexivity. rewrite IH. destruct (_ =? _); lia. Qed.
(** Two rolls one after the other. *)
Lemma source_source s n a m b i : in_shape s i -> forall k, (k < length s)%nat ->
  nth k (source s n a (source s m b i)) 0 = (nth k i 0 - (offset (length s) n a k + offset (length s) m b k)) mod nth k s 0.
Proof. intros H k Hk. rewrite !source_nth by exact Hk. rewrite Zminus_mod_idemp_l. f_equal. lia. Qed.
Lemma source_inverse s n a i : in_shape s i -> source s n a (source s (map Z.opp n) a i) = i.
Proof.
  intros H. pose proof (in_shape_length _ _ H). apply index_ext; [rewrite source_length; lia|]. rewrite source_length. intros k Hk. rewrite source_source by auto. rewrite offset_opp.
  replace (offset (length s) n a k + - offset (length s) n a k) with 0 by lia. rewrite Z.sub_0_r. apply Z.mod_small. now apply in_shape_nth.
Qed.
Lemma source_inverse_r s n a i : in_shape s i -> source s (map Z.opp n) a (source s n a i) = i.
Proof.
  intros H. rewrite <- (source_inverse s (map Z.opp n) a i H) at 2. f_equal. f_equal. rewrite map_map. rewrite <- (map_id n) at 1. apply map_ext. intros x. lia.
Qed.
Lemma rolled_perm {A} s n axis (a o : list A) : array_of s a -> array_of s o -> (forall i, in_shape s i -> element s o i = element s a (source s n axis i)) -> Permutation a o.
Proof.
  intros [F La] [_ Lo] H. apply Permutation_nth_error. split; [lia|].
  exists (fun p => if (p <? length a)%nat then Z.to_nat (place s (source s n axis (unplace s (Z.of_nat p)))) else p).
  assert (U : forall p, (p < length a)%nat -> in_shape s (unplace s (Z.of_nat p)) /\ place s (unplace s (Z.of_nat p)) = Z.of_nat p) by (intros p Hp; apply unplace_ok; [exact F|]; change (prodZ s) with (fold_right Z.mul 1 s); lia).
  assert (B : forall p, (p < length a)%nat -> 0 <= place s (source s n axis (unplace s (Z.of_nat p))) < Z.of_nat (length a)).
  { intros p Hp. rewrite La. apply place_range, source_shape, U, Hp. }
  split.
  - intros p q E. destruct (Nat.ltb_spec p (length a)) as [Hp|Hp], (Nat.ltb_spec q (length a)) as [Hq|Hq]; try (pose proof (B p); pose proof (B q); lia).
    assert (E' : place s (source s n axis (unplace s (Z.of_nat p))) = place s (source s n axis (unplace s (Z.of_nat q)))) by (pose proof (B p Hp); pose proof (B q Hq); lia).
    apply (f_equal (unplace s)) in E'. rewrite !unplace_place in E' by (apply source_shape, U; assumption). apply (f_equal (source s (map Z.opp n) axis)) in E'.
    rewrite !source_inverse_r in E' by (apply U; assumption). apply (f_equal (place s)) in E'. destruct (U p Hp) as [_ Ep], (U q Hq) as [_ Eq]. lia.
  - intros p. destruct (Nat.ltb_spec p (length a)) as [Hp|Hp].
    + destruct (U p Hp) as [Hi E]. specialize (H _ Hi). unfold element in H. rewrite E, Nat2Z.id in H. exact H.
    + transitivity (@None A); [|symmetry]; apply nth_error_None; lia.
Qed.
Lemma element_combine {A B} s (a : list A) (b : list B) i : element s (combine a b) i = match element s a i, element s b i with Some x, Some y => Some (x, y) | _, _ => None end.
Proof. unfold element. generalize (Z.to_nat (place s i)). intros p. clear i. revert b p. induction a as [|x a IH]; intros [|y b] [|p]; cbn; try reflexivity; auto. now destruct (nth_error a p). Qed.
