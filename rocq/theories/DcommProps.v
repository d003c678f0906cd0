(** C107: communicators of acquisitions. *)
From Coq Require Import Lia String.
From Verif Require Import Base BaseFacts DcommModel.
From Verif Require PTFacts.
Open Scope nat_scope.

(** What is expected: an acquisition has some detectors and samplings, and it is known whether detectors and samplings have been
    selected since it was distributed. *)
Record obj := Obj { o_det : list nat; o_samp : list nat; d_sel : bool; s_sel : bool }.
Inductive chosen : sel -> list nat -> list nat -> Prop :=
| chosen_all l : chosen Colon l l
| chosen_range a b l m : (forall j, nth_error m j = if j <? b - a then nth_error l (a + j) else None) -> chosen (Range a b) l m
| chosen_pick p l m : Forall2 (fun j x => nth_error l j = Some x) p m -> chosen (Pick p) l m.
Definition colon (s : sel) : Prop := match s with Colon => True | _ => False end.
Inductive selected (x : obj) (s0 s1 : sel) : obj -> Prop :=
| Selected y : chosen s0 (o_det x) (o_det y) -> chosen s1 (o_samp x) (o_samp y) ->
    (d_sel y = false <-> d_sel x = false /\ colon s0) -> (s_sel y = false <-> s_sel x = false /\ colon s1) -> selected x s0 s1 y.
(** The objects of the program after its selections: none is changed by the selections made in others. *)
Inductive history : list obj -> list event -> list obj -> Prop :=
| h_end l : history l [] l
| h_step l i s0 s1 es x y l' : nth_error l i = Some x -> selected x s0 s1 y -> history (l ++ [y]) es l' -> history l ((i, s0, s1) :: es) l'.
(** The processes of the grid that satisfy a condition. *)
Definition processes (ni ns : nat) (p : nat -> bool) : list nat := filter p (seq 0 (ni * ns)).
(** Communicators: those that share the samplings of the process have its other detectors, and conversely; selected elements are
    those of one process. *)
Definition same_samplings (ni rank q : nat) : bool := q / ni =? rank / ni.
Definition same_detectors (ni rank q : nat) : bool := q mod ni =? rank mod ni.
Definition shown (ni ns rank : nat) (h : list tab) (a : acq) (x : obj) : Prop :=
  nth_error h (a_det a) = Some (Tab (o_det x) (if d_sel x then [rank] else processes ni ns (same_samplings ni rank))) /\
  nth_error h (a_samp a) = Some (Tab (o_samp x) (if s_sel x then [rank] else processes ni ns (same_detectors ni rank))) /\
  a_comm a = processes ni ns (fun q => (negb (d_sel x) || same_detectors ni rank q) && (negb (s_sel x) || same_samplings ni rank q)).
(** No slice selects all the elements of a table that is distributed. *)
Definition leaves_out (rank : nat) (h : list tab) (i : nat) (s : sel) : Prop :=
  match s with
  | Range a b => exists t, nth_error h i = Some t /\ (tcomm t = [rank] \/ length (firstn (b - a) (skipn a (elems t))) <> length (elems t))
  | _ => True
  end.
Fixpoint careful (rank : nat) (st : state) (es : list event) : Prop :=
  match es with
  | [] => True
  | (i, s0, s1) :: r =>
      (exists a, nth_error (acqs st) i = Some a /\ leaves_out rank (tabs st) (a_det a) s0 /\ leaves_out rank (tabs st) (a_samp a) s1) /\
      forall st', select rank st i s0 s1 = Ok st' -> careful rank st' r
  end.

(** ** Groups of processes *)
Lemma filter_one (p : nat -> bool) r n : r < n -> (forall q, q < n -> p q = (q =? r)) -> filter p (seq 0 n) = [r].
Proof.
  intros R H. replace n with (r + S (n - S r)) by lia. rewrite seq_app, filter_app. cbn [seq filter]. rewrite Nat.add_0_l.
  rewrite H, Nat.eqb_refl by lia.
  assert (A : filter p (seq 0 r) = []).
  { assert (F : forall l, (forall q, In q l -> q < r) -> filter p l = []).
    { induction l as [|x l IH]; intros F; [reflexivity|]. cbn. rewrite H by (specialize (F x (or_introl eq_refl)); lia).
      rewrite (proj2 (Nat.eqb_neq x r)) by (specialize (F x (or_introl eq_refl)); lia). apply IH. intros q Q. apply F. now right. }
    apply F. intros q Q. apply in_seq in Q. lia. }
  assert (B : filter p (seq (S r) (n - S r)) = []).
  { assert (F : forall l, (forall q, In q l -> r < q < n) -> filter p l = []).
    { induction l as [|x l IH]; intros F; [reflexivity|]. cbn. rewrite H by (specialize (F x (or_introl eq_refl)); lia).
      rewrite (proj2 (Nat.eqb_neq x r)) by (specialize (F x (or_introl eq_refl)); lia). apply IH. intros q Q. apply F. now right. }
    apply F. intros q Q. apply in_seq in Q. lia. }
  rewrite A, B. reflexivity.
Qed.
Lemma same_both ni rank q : 0 < ni -> (q mod ni =? rank mod ni) && (q / ni =? rank / ni) = (q =? rank).
Proof.
  intros N. destruct (Nat.eqb_spec q rank) as [->|D]; [now rewrite !Nat.eqb_refl|].
  destruct (Nat.eqb_spec (q mod ni) (rank mod ni)) as [A|]; [|reflexivity]. destruct (Nat.eqb_spec (q / ni) (rank / ni)) as [B|]; [|reflexivity].
  exfalso. apply D. rewrite (Nat.div_mod q ni), (Nat.div_mod rank ni) by lia. congruence.
Qed.
Lemma processes_ext ni ns p p' : (forall q, q < ni * ns -> p q = p' q) -> processes ni ns p = processes ni ns p'.
Proof.
  intros H. unfold processes. assert (F : forall l, (forall q, In q l -> q < ni * ns) -> filter p l = filter p' l).
  { induction l as [|x l IH]; intros F; [reflexivity|]. cbn. rewrite (H x) by (apply F; now left). rewrite IH by (intros q Q; apply F; now right). reflexivity. }
  apply F. intros q Q. apply in_seq in Q. lia.
Qed.
Lemma processes_all ni ns : processes ni ns (fun _ => true) = seq 0 (ni * ns).
Proof. unfold processes. induction (seq 0 (ni * ns)) as [|x l IH]; [reflexivity|]. cbn. now rewrite IH. Qed.
Section Run.
Context (ni ns rank : nat) (Ni : 0 < ni) (R : rank < ni * ns).
Lemma one_process : processes ni ns (fun q => same_detectors ni rank q && same_samplings ni rank q) = [rank].
Proof. apply filter_one; [exact R|]. intros q _. apply same_both, Ni. Qed.

(** ** Selections in tables *)
Lemma pick_chosen (l p m : list nat) : map_res (fun j => match nth_error l j with Some x => Ok x | None => Err IndexError end) p = Ok m ->
  Forall2 (fun j x => nth_error l j = Some x) p m.
Proof.
  revert m. induction p as [|j p IH]; cbn [map_res]; intros m E; [injection E as <-; constructor|].
  destruct (nth_error l j) eqn:J; [|discriminate]. cbn [bind] in E. destruct (map_res _ p) eqn:F; [|discriminate]. cbn [bind] in E. injection E as <-.
  constructor; auto.
Qed.
Lemma nth_error_skip {A} (l : list A) a j : nth_error (skipn a l) j = nth_error l (a + j).
Proof. revert l. induction a as [|a IH]; intros l; [reflexivity|]. destruct l; [now rewrite skipn_nil; destruct j|]. apply IH. Qed.
Lemma nth_error_first {A} (l : list A) k j : nth_error (firstn k l) j = if j <? k then nth_error l j else None.
Proof.
  revert k j. induction l as [|x l IH]; intros [|k] [|j]; try reflexivity.
  - cbn [firstn]. destruct (S j <? S k); reflexivity.
  - cbn [firstn nth_error]. rewrite IH. reflexivity.
Qed.
Lemma range_nth (l : list nat) a b j : nth_error (firstn (b - a) (skipn a l)) j = if j <? b - a then nth_error l (a + j) else None.
Proof. now rewrite nth_error_first, nth_error_skip. Qed.
Lemma all_of_it (l : list nat) a b : length (firstn (b - a) (skipn a l)) = length l -> firstn (b - a) (skipn a l) = l.
Proof.
  intros E. rewrite firstn_length, skipn_length in E. destruct l as [|x l]; [now rewrite skipn_nil, firstn_nil|].
  cbn [length] in E. assert (a = 0) by lia. subst a. cbn [skipn]. apply firstn_all2. cbn [length]. lia.
Qed.
Definition old_kept (h h' : list tab) : Prop := exists t, h' = h ++ t.
Lemma kept_nth h h' i t : old_kept h h' -> nth_error h i = Some t -> nth_error h' i = Some t.
Proof. intros [x ->] E. rewrite nth_error_app1; [exact E|]. apply nth_error_Some. congruence. Qed.
Lemma set_nth_id {A} (l : list A) i t : nth_error l i = Some t -> set_nth l i t = l.
Proof. revert i. induction l as [|x l IH]; intros [|i] E; try discriminate; cbn in *; [congruence|]. now rewrite IH. Qed.
Lemma set_nth_app {A} (l : list A) x y : set_nth (l ++ [x]) (length l) y = l ++ [y].
Proof. induction l as [|z l IH]; [reflexivity|]. cbn. now rewrite IH. Qed.
Lemma take_ok h i s h' i' t : nth_error h i = Some t -> leaves_out rank h i s -> take rank h i s = Ok (h', i') ->
  old_kept h h' /\ exists m, chosen s (elems t) m /\ nth_error h' i' = Some (Tab m (if is_colon s then tcomm t else [rank])).
Proof.
  intros E L T. unfold take, table_get, tab_at in T. rewrite E in T. cbn [bind] in T. destruct s as [|a b|p].
  - cbn in T. injection T as <- <-. split; [exists []; now rewrite app_nil_r|]. exists (elems t). split; [constructor|]. destruct t; exact E.
  - cbn zeta in T. destruct (length (firstn (b - a) (skipn a (elems t))) =? length (elems t)) eqn:C.
    + apply Nat.eqb_eq in C. destruct L as (t' & E' & [L|L]); [|replace t' with t in L by congruence; congruence].
      replace t' with t in L by congruence. cbn [bind is_colon fst snd] in T. injection T as <- <-. unfold set_comm. rewrite E.
      rewrite set_nth_id by (rewrite <- L; destruct t; exact E). split; [exists []; now rewrite app_nil_r|]. exists (elems t).
      split; [constructor; intros j; rewrite <- range_nth, (all_of_it _ _ _ C); reflexivity|]. cbn [is_colon]. rewrite <- L. destruct t; exact E.
    + cbn [bind is_colon fst snd] in T. injection T as <- <-. unfold set_comm. rewrite nth_error_app2, Nat.sub_diag by lia. cbn [nth_error elems].
      rewrite set_nth_app. split; [eexists; reflexivity|]. exists (firstn (b - a) (skipn a (elems t))). split; [constructor; intros j; apply range_nth|].
      rewrite nth_error_app2, Nat.sub_diag by lia. reflexivity.
  - destruct (map_res _ p) as [m|] eqn:M; [|discriminate]. cbn [bind is_colon fst snd] in T. injection T as <- <-. unfold set_comm.
    rewrite nth_error_app2, Nat.sub_diag by lia. cbn [nth_error elems]. rewrite set_nth_app. split; [eexists; reflexivity|]. exists m.
    split; [constructor; apply pick_chosen, M|]. rewrite nth_error_app2, Nat.sub_diag by lia. reflexivity.
Qed.
Lemma leaves_kept h h' i s t : old_kept h h' -> nth_error h i = Some t -> leaves_out rank h i s -> leaves_out rank h' i s.
Proof. intros O E L. destruct s; cbn in *; auto. destruct L as (u & U & L). exists u. split; [apply (kept_nth _ _ _ _ O U)|exact L]. Qed.
Lemma shown_kept h h' a x : old_kept h h' -> shown ni ns rank h a x -> shown ni ns rank h' a x.
Proof. intros O (A & B & C). repeat split; [apply (kept_nth _ _ _ _ O A)|apply (kept_nth _ _ _ _ O B)|exact C]. Qed.
Lemma Forall2_nth {A B} (P : A -> B -> Prop) l m i a : Forall2 P l m -> nth_error l i = Some a -> exists b, nth_error m i = Some b /\ P a b.
Proof. intros F. revert i. induction F as [|x y l m H F IH]; intros [|i] E; try discriminate; cbn in *; [injection E as <-; eauto|auto]. Qed.

Lemma is_colon_spec s : is_colon s = true <-> colon s.
Proof. destruct s; cbn; split; easy. Qed.
Lemma select_ok st i s0 s1 st' xs : Forall2 (shown ni ns rank (tabs st)) (acqs st) xs ->
  (exists a, nth_error (acqs st) i = Some a /\ leaves_out rank (tabs st) (a_det a) s0 /\ leaves_out rank (tabs st) (a_samp a) s1) ->
  select rank st i s0 s1 = Ok st' ->
  exists x y, nth_error xs i = Some x /\ selected x s0 s1 y /\ Forall2 (shown ni ns rank (tabs st')) (acqs st') (xs ++ [y]).
Proof.
  intros F (a & Ea & L0 & L1) E. destruct (Forall2_nth _ _ _ _ _ F Ea) as (x & Ex & Sx). destruct Sx as (Sd & Ss & Sc).
  unfold select, acq_at in E. rewrite Ea in E. cbn [bind] in E.
  destruct (take rank (tabs st) (a_det a) s0) as [[h1 i1]|] eqn:T0; [|discriminate]. cbn [bind fst snd] in E.
  destruct (take_ok _ _ _ _ _ _ Sd L0 T0) as (K1 & m0 & C0 & N0). cbn [elems tcomm] in C0, N0.
  pose proof (kept_nth _ _ _ _ K1 Ss) as Ss1.
  destruct (take rank h1 (a_samp a) s1) as [[h2 i2]|] eqn:T1; [|discriminate]. cbn [bind fst snd] in E.
  destruct (take_ok _ _ _ _ _ _ Ss1 (leaves_kept _ _ _ _ _ K1 Ss L1) T1) as (K2 & m1 & C1 & N1). cbn [elems tcomm] in C1, N1.
  pose proof (kept_nth _ _ _ _ K2 (kept_nth _ _ _ _ K1 Sd)) as Sd2. pose proof (kept_nth _ _ _ _ K2 Ss1) as Ss2.
  unfold tab_at in E. rewrite Ss2, Sd2 in E. cbn [bind tcomm] in E. injection E as <-.
  assert (K : old_kept (tabs st) h2) by (destruct K1 as [u ->], K2 as [v ->]; exists (u ++ v); now rewrite app_assoc).
  exists x, (Obj m0 m1 (d_sel x || negb (is_colon s0)) (s_sel x || negb (is_colon s1))). split; [exact Ex|]. split.
  - constructor; cbn [o_det o_samp d_sel s_sel]; auto.
    + rewrite orb_false_iff, negb_false_iff, is_colon_spec. reflexivity.
    + rewrite orb_false_iff, negb_false_iff, is_colon_spec. reflexivity.
  - cbn [tabs acqs]. apply Forall2_app.
    + clear -F K. induction F; constructor; auto. eapply shown_kept; eauto.
    + constructor; [|constructor]. unfold shown. cbn [a_det a_samp a_comm o_det o_samp d_sel s_sel]. split; [|split].
      * rewrite (kept_nth _ _ _ _ K2 N0). destruct (is_colon s0), (d_sel x); reflexivity.
      * rewrite N1. destruct (is_colon s1), (s_sel x); reflexivity.
      * destruct (is_colon s0) eqn:I0, (is_colon s1) eqn:I1; cbn [negb andb orb].
        -- rewrite Sc, !orb_false_r. reflexivity.
        -- rewrite !orb_true_r, orb_false_r. cbn [negb orb andb]. destruct (d_sel x); cbn [negb orb]; [symmetry; apply one_process|].
           apply processes_ext. reflexivity.
        -- rewrite !orb_true_r, orb_false_r. cbn [negb orb andb]. destruct (s_sel x); cbn [negb orb]; [symmetry; apply one_process|].
           apply processes_ext. intros q _. now rewrite andb_true_r.
        -- rewrite !orb_true_r. cbn [negb orb]. symmetry. apply one_process.
Qed.
Lemma run_ok es : forall st st' xs, Forall2 (shown ni ns rank (tabs st)) (acqs st) xs -> careful rank st es -> run rank st es = Ok st' ->
  exists ys, history xs es ys /\ Forall2 (shown ni ns rank (tabs st')) (acqs st') ys.
Proof.
  induction es as [|[[i s0] s1] es IH]; intros st st' xs F C E; cbn [run] in E.
  - injection E as <-. exists xs. split; [constructor|exact F].
  - cbn [careful] in C. destruct C as [C0 C]. destruct (select rank st i s0 s1) as [st1|] eqn:S; [|discriminate]. cbn [bind] in E.
    destruct (select_ok _ _ _ _ _ _ F C0 S) as (x & y & Ex & Sy & F1).
    destruct (IH _ _ _ F1 (C _ eq_refl) E) as (ys & H & G). exists ys. split; [econstructor; eauto|exact G].
Qed.
End Run.

(** ** The constructor *)
Lemma map_seq_add m : forall b a, map (fun k => a + k) (seq b m) = seq (a + b) m.
Proof. induction m as [|m IH]; intros b a; [reflexivity|]. cbn. rewrite IH. f_equal. f_equal. lia. Qed.
Lemma filter_shift (p p' : nat -> bool) a n : (forall k, k < n -> p (a + k) = p' k) -> filter p (seq a n) = map (fun k => a + k) (filter p' (seq 0 n)).
Proof.
  intros H. rewrite <- (Nat.add_0_r a) at 1. rewrite <- (map_seq_add n 0 a).
  assert (F : forall l, (forall k, In k l -> k < n) -> filter p (map (fun k => a + k) l) = map (fun k => a + k) (filter p' l)).
  { induction l as [|x l IH]; intros F; [reflexivity|]. cbn [map filter]. rewrite H by (apply F; now left). rewrite IH by (intros k K; apply F; now right).
    destruct (p' x); reflexivity. }
  apply F. intros k K. apply in_seq in K. lia.
Qed.
Lemma count_mod ni c : c < ni -> forall ns, length (filter (fun q => q mod ni =? c) (seq 0 (ni * ns))) = ns.
Proof.
  intros C. induction ns as [|ns IH]; [now rewrite Nat.mul_0_r|].
  rewrite Nat.mul_succ_r, seq_app, filter_app, app_length, IH, Nat.add_0_l.
  rewrite (filter_shift _ (fun k => k =? c)).
  2:{ intros k K. rewrite (Nat.add_comm (ni * ns)), (Nat.mul_comm ni), Nat.mod_add, Nat.mod_small by lia. reflexivity. }
  rewrite (filter_one _ c) by (auto; reflexivity). cbn. lia.
Qed.
Lemma filter_none (p : nat -> bool) l : (forall q, In q l -> p q = false) -> filter p l = [].
Proof. induction l as [|x l IH]; intros H; [reflexivity|]. cbn. rewrite H by now left. apply IH. intros q Q. apply H. now right. Qed.
Lemma filter_all (p : nat -> bool) l : (forall q, In q l -> p q = true) -> filter p l = l.
Proof. induction l as [|x l IH]; intros H; [reflexivity|]. cbn. rewrite H by now left. f_equal. apply IH. intros q Q. apply H. now right. Qed.
Lemma count_div ni k : 0 < ni -> forall ns, length (filter (fun q => q / ni =? k) (seq 0 (ni * ns))) = if k <? ns then ni else 0.
Proof.
  intros N. induction ns as [|ns IH]; [now rewrite Nat.mul_0_r|].
  rewrite Nat.mul_succ_r, seq_app, filter_app, app_length, IH, Nat.add_0_l.
  assert (D : forall q, In q (seq (ni * ns) ni) -> q / ni = ns).
  { intros q Q. apply in_seq in Q. symmetry. apply (Nat.div_unique q ni ns (q - ni * ns)); lia. }
  destruct (Nat.eq_dec k ns) as [->|K].
  - rewrite (filter_all _ (seq (ni * ns) ni)) by (intros q Q; rewrite (D q Q); apply Nat.eqb_refl).
    rewrite seq_length. rewrite Nat.ltb_irrefl, (proj2 (Nat.ltb_lt ns (S ns))) by lia. lia.
  - rewrite (filter_none _ (seq (ni * ns) ni)) by (intros q Q; rewrite (D q Q); apply Nat.eqb_neq; lia). cbn [length].
    destruct (Nat.ltb_spec k ns), (Nat.ltb_spec k (S ns)); lia.
Qed.
(** The elements of a table of [n] elements shared over [m] processes that go to the process [r] of them. *)
Definition share (n m r : nat) : list nat :=
  filter (fun e => (split_start (Z.of_nat n) (Z.of_nat m) (Z.of_nat r) <=? Z.of_nat e)%Z && (Z.of_nat e <? split_start (Z.of_nat n) (Z.of_nat m) (Z.of_nat r + 1))%Z) (seq 0 n).
Lemma piece_share n m r : r < m -> piece n m r = share n m r.
Proof.
  intros R. unfold piece, share. cbn zeta.
  pose proof (PTFacts.split_start_bounds (Z.of_nat n) (Z.of_nat m) (Z.of_nat r) ltac:(lia) ltac:(lia) ltac:(lia)) as A.
  pose proof (PTFacts.split_start_bounds (Z.of_nat n) (Z.of_nat m) (Z.of_nat r + 1) ltac:(lia) ltac:(lia) ltac:(lia)) as B.
  pose proof (split_start_mono (Z.of_nat n) (Z.of_nat m) (Z.of_nat r) ltac:(lia) ltac:(lia)) as C.
  revert A B C. generalize (split_start (Z.of_nat n) (Z.of_nat m) (Z.of_nat r)) as a. generalize (split_start (Z.of_nat n) (Z.of_nat m) (Z.of_nat r + 1)) as b.
  intros b a A B C. replace (seq 0 n) with (seq 0 (Z.to_nat a) ++ seq (Z.to_nat a) (Z.to_nat b - Z.to_nat a) ++ seq (Z.to_nat b) (n - Z.to_nat b)).
  2:{ replace (seq (Z.to_nat b)) with (seq (Z.to_nat a + (Z.to_nat b - Z.to_nat a))) by (f_equal; lia). rewrite <- seq_app.
      change (seq (Z.to_nat a)) with (seq (0 + Z.to_nat a)). rewrite <- seq_app. f_equal. lia. }
  rewrite !filter_app.
  rewrite (filter_none _ (seq 0 _)) by (intros q Q; apply in_seq in Q; lia).
  rewrite (filter_all _ (seq (Z.to_nat a) _)) by (intros q Q; apply in_seq in Q; lia).
  rewrite (filter_none _ (seq (Z.to_nat b) _)) by (intros q Q; apply in_seq in Q; lia).
  cbn. now rewrite app_nil_r.
Qed.
Lemma share_one n : share n 1 0 = seq 0 n.
Proof. apply filter_all. intros q Q. apply in_seq in Q. cbn [Z.of_nat Pos.of_succ_nat]. rewrite split_start_0, (split_start_m _ 1) by lia. lia. Qed.
Lemma map_nth_piece n l : (forall j, In j l -> j < n) -> map (fun j => nth j (seq 0 n) 0) l = l.
Proof. induction l as [|x l IH]; intros H; [reflexivity|]. cbn. rewrite seq_nth by (apply H; now left). rewrite IH by (intros j J; apply H; now right). reflexivity. Qed.
Lemma share_lt n m r j : In j (share n m r) -> j < n.
Proof. intros H. apply filter_In in H. destruct H as [H _]. apply in_seq in H. lia. Qed.
Section Make.
Context (ni ns nd n rank : nat) (Ni : 0 < ni) (R : rank < ni * ns).
Lemma ns_pos : 0 < ns.
Proof. lia. Qed.
Lemma div_lt : rank / ni < ns.
Proof. apply Nat.div_lt_upper_bound; lia. Qed.
Lemma mod_lt : rank mod ni < ni.
Proof. apply Nat.mod_upper_bound. lia. Qed.
Lemma len_instrument : length (comm_instrument ni ns rank) = ni.
Proof. unfold comm_instrument. rewrite count_div by exact Ni. rewrite (proj2 (Nat.ltb_lt _ _) div_lt). reflexivity. Qed.
Lemma len_sampling : length (comm_sampling ni ns rank) = ns.
Proof. apply (count_mod ni (rank mod ni) mod_lt). Qed.
Lemma in_instrument : In rank (comm_instrument ni ns rank).
Proof. apply filter_In. split; [apply in_seq; lia|apply Nat.eqb_refl]. Qed.
Lemma in_sampling : In rank (comm_sampling ni ns rank).
Proof. apply filter_In. split; [apply in_seq; lia|apply Nat.eqb_refl]. Qed.
Lemma alone (l : list nat) x : length l = 1 -> In x l -> l = [x].
Proof. destruct l as [|y [|z l]]; try discriminate. intros _ [->|[]]. reflexivity. Qed.
Lemma scatter_ok h i k c r : nth_error h i = Some (Tab (seq 0 k) [rank]) -> In rank c -> r < length c ->
  exists h' i', scatter h i c r = Ok (h', i') /\ (exists t, h' = h ++ t) /\ nth_error h' i' = Some (Tab (share k (length c) r) c).
Proof.
  intros E I L. unfold scatter, tab_at. rewrite E. cbn [bind tcomm elems length]. cbn [Nat.ltb Nat.leb].
  destruct (length c =? 1) eqn:C.
  - apply Nat.eqb_eq in C. exists h, i. split; [reflexivity|]. split; [exists []; now rewrite app_nil_r|]. rewrite E. rewrite C in *.
    replace r with 0 by lia. rewrite share_one. rewrite (alone c rank C I). reflexivity.
  - do 2 eexists. split; [reflexivity|]. split; [eexists; reflexivity|]. rewrite nth_error_app2, Nat.sub_diag by lia. cbn [nth_error]. rewrite seq_length.
    rewrite piece_share by exact L. rewrite map_nth_piece by apply share_lt. reflexivity.
Qed.
Definition first : obj := Obj (share nd ni (rank mod ni)) (share n ns (rank / ni)) false false.
Lemma make_ok : exists st, make ni ns rank (given nd n rank) 0 1 = Ok st /\ Forall2 (shown ni ns rank (tabs st)) (acqs st) [first].
Proof.
  unfold make.
  destruct (scatter_ok (given nd n rank) 0 nd (comm_instrument ni ns rank) (rank mod ni) eq_refl in_instrument) as (h1 & i1 & E1 & [t1 K1] & N1).
  { rewrite len_instrument. apply mod_lt. }
  rewrite E1. cbn [bind fst snd].
  assert (S1 : nth_error h1 1 = Some (Tab (seq 0 n) [rank])) by (rewrite K1; reflexivity).
  destruct (scatter_ok h1 1 n (comm_sampling ni ns rank) (rank / ni) S1 in_sampling) as (h2 & i2 & E2 & [t2 K2] & N2).
  { rewrite len_sampling. apply div_lt. }
  rewrite E2. cbn [bind fst snd]. eexists. split; [reflexivity|]. cbn [tabs acqs]. constructor; [|constructor].
  unfold shown, first. cbn [a_det a_samp a_comm o_det o_samp d_sel s_sel]. rewrite len_instrument in N1. rewrite len_sampling in N2. split; [|split].
  - rewrite K2. rewrite nth_error_app1; [exact N1|]. apply nth_error_Some. congruence.
  - exact N2.
  - cbn [negb orb andb]. symmetry. apply processes_all.
Qed.
End Make.

(** A table that is already distributed is refused. *)
Theorem C107_distributed_refused : forall h i t c r, nth_error h i = Some t -> 2 <= length (tcomm t) -> scatter h i c r = Err ValueError.
Proof. intros h i t c r E L. unfold scatter, tab_at. rewrite E. cbn [bind]. destruct (tcomm t) as [|x [|y l]]; cbn in L; try lia. reflexivity. Qed.
Print Assumptions C107_distributed_refused.
Example C107_distributed_case : scatter [Tab [0; 1] [0; 1]] 0 [0; 1] 1 = Err ValueError /\ scatter [Tab [0; 1] [1]] 0 [0; 1] 1 = Ok ([Tab [0; 1] [1]; Tab [1] [0; 1]], 1).
Proof. split; reflexivity. Qed.

(** ** C107 *)
(** The acquisitions of any program have the detectors, the samplings and the communicators of their selections, provided that no
    slice selects all the elements of a distributed table. *)
Theorem C107_groups_partial : forall ni ns nd n rank es st, 0 < ni -> rank < ni * ns ->
  (forall st0, make ni ns rank (given nd n rank) 0 1 = Ok st0 -> careful rank st0 es) -> program ni ns nd n rank es = Ok st ->
  exists xs, history [Obj (share nd ni (rank mod ni)) (share n ns (rank / ni)) false false] es xs /\ Forall2 (shown ni ns rank (tabs st)) (acqs st) xs.
Proof.
  intros ni ns nd n rank es st Ni R C E. unfold program in E. destruct (make_ok ni ns nd n rank Ni R) as (st0 & M & F). rewrite M in E. cbn [bind] in E.
  exact (run_ok ni ns rank Ni R es st0 st _ F (C _ M) E).
Qed.
Print Assumptions C107_groups_partial.
Lemma selected_flags x y s0 s1 x' y' : d_sel x = d_sel y -> s_sel x = s_sel y -> selected x s0 s1 x' -> selected y s0 s1 y' -> d_sel x' = d_sel y' /\ s_sel x' = s_sel y'.
Proof.
  intros D S [x1 _ _ A B] [y1 _ _ A' B']. assert (G : forall a b : bool, (a = false <-> b = false) -> a = b) by (intros [|] [|] [I J]; auto; symmetry; auto).
  split; apply G; [rewrite A, A', D|rewrite B, B', S]; reflexivity.
Qed.
Lemma flags_agree es : forall xs ys xs' ys', Forall2 (fun x y => d_sel x = d_sel y /\ s_sel x = s_sel y) xs ys ->
  history xs es xs' -> history ys es ys' -> Forall2 (fun x y => d_sel x = d_sel y /\ s_sel x = s_sel y) xs' ys'.
Proof.
  induction es as [|[[i s0] s1] es IH]; intros xs ys xs' ys' F H G; inversion H; subst; inversion G; subst; [exact F|].
  match goal with A : nth_error xs i = Some ?x, B : nth_error ys i = Some ?y |- _ => rename A into X; rename B into Y end.
  destruct (Forall2_nth _ _ _ _ _ F X) as (y' & Y' & D & S). assert (y' = x0) by congruence. subst y'.
  eapply IH; [|eassumption|eassumption]. apply Forall2_app; [exact F|]. constructor; [|constructor].
  match goal with A : selected x s0 s1 _, B : selected x0 s0 s1 _ |- _ => exact (selected_flags _ _ _ _ _ _ D S A B) end.
Qed.
(** The processes of a communicator all have it: the collective calls made with it are made by all of them. *)
Theorem C107_agree_partial : forall ni ns nd n r q es st st' i a b, 0 < ni -> r < ni * ns -> q < ni * ns ->
  (forall st0, make ni ns r (given nd n r) 0 1 = Ok st0 -> careful r st0 es) -> (forall st0, make ni ns q (given nd n q) 0 1 = Ok st0 -> careful q st0 es) ->
  program ni ns nd n r es = Ok st -> program ni ns nd n q es = Ok st' -> nth_error (acqs st) i = Some a -> nth_error (acqs st') i = Some b ->
  In r (a_comm a) /\ (In q (a_comm a) -> a_comm b = a_comm a).
Proof.
  intros ni ns nd n r q es st st' i a b Ni R Q C C' E E' A B.
  destruct (C107_groups_partial _ _ _ _ _ _ _ Ni R C E) as (xs & H & F). destruct (C107_groups_partial _ _ _ _ _ _ _ Ni Q C' E') as (ys & H' & F').
  destruct (Forall2_nth _ _ _ _ _ F A) as (x & X & Sx). destruct (Forall2_nth _ _ _ _ _ F' B) as (y & Y & Sy).
  assert (G : Forall2 (fun x y => d_sel x = d_sel y /\ s_sel x = s_sel y) xs ys) by (refine (flags_agree _ _ _ _ _ _ H H'); constructor; [split; reflexivity|constructor]).
  destruct (Forall2_nth _ _ _ _ _ G X) as (y' & Y' & D & S). assert (y' = y) by congruence. subst y'.
  destruct Sx as (_ & _ & Cx). destruct Sy as (_ & _ & Cy). rewrite Cx, Cy. unfold processes. split.
  - apply filter_In. split; [apply in_seq; lia|]. unfold same_detectors, same_samplings. rewrite !Nat.eqb_refl, !orb_true_r. reflexivity.
  - intros I. apply filter_In in I. destruct I as [_ I]. apply processes_ext. intros k K. rewrite <- D, <- S.
    apply andb_true_iff in I. destruct I as [I1 I2]. unfold same_detectors, same_samplings in *.
    destruct (d_sel x), (s_sel x); cbn [negb orb] in *; try (apply Nat.eqb_eq in I1; rewrite I1); try (apply Nat.eqb_eq in I2; rewrite I2); reflexivity.
Qed.
Print Assumptions C107_agree_partial.
(** Three processes for the samplings and two for the detectors; a detector of each, then a sampling of each. *)
Example C107_example : exists st a, program 2 3 5 7 3 [(0, Range 0 1, Colon); (1, Colon, Pick [1])] = Ok st /\
  (forall st0, make 2 3 3 (given 5 7 3) 0 1 = Ok st0 -> careful 3 st0 [(0, Range 0 1, Colon); (1, Colon, Pick [1])]) /\
  nth_error (acqs st) 1 = Some a /\ a_comm a = [1; 3; 5] /\ map a_comm (acqs st) = [[0; 1; 2; 3; 4; 5]; [1; 3; 5]; [3]] /\ map elems (tabs st) = [[0; 1; 2; 3; 4]; [0; 1; 2; 3; 4; 5; 6]; [3; 4]; [3; 4]; [3]; [4]].
Proof.
  do 2 eexists. split; [vm_compute; reflexivity|]. split; [|repeat split; vm_compute; reflexivity].
  intros st0 E. vm_compute in E. injection E as <-. split; [|intros st1 E; vm_compute in E; injection E as <-; split; [|intros; exact Logic.I]].
  - eexists. split; [reflexivity|]. split; [|exact Logic.I]. eexists. split; [reflexivity|]. right. vm_compute. discriminate.
  - eexists. split; [reflexivity|]. split; exact Logic.I.
Qed.
(** A slice that selects all the detectors of a process gives the table of the acquisition itself, whose communicator is replaced:
    the acquisition that is selected in is changed... *)
Theorem C107_alias_refuted : forall rank st i a b x t u, nth_error (acqs st) i = Some x -> nth_error (tabs st) (a_det x) = Some t -> nth_error (tabs st) (a_samp x) = Some u ->
  a = 0 -> length (elems t) <= b -> exists st', select rank st i (Range a b) Colon = Ok st' /\
    nth_error (acqs st') i = Some x /\ nth_error (tabs st') (a_det x) = Some (Tab (elems t) [rank]).
Proof.
  intros rank st i a b x t u X T U -> B. unfold select, acq_at. rewrite X. cbn [bind]. unfold take, table_get, tab_at. rewrite T. cbn [bind skipn].
  rewrite Nat.sub_0_r, firstn_all2, Nat.eqb_refl by lia. cbn [bind is_colon fst snd]. unfold set_comm. rewrite T. set (h := set_nth _ _ _).
  assert (L : a_det x < length (tabs st)) by (apply nth_error_Some; congruence).
  assert (HT : nth_error h (a_det x) = Some (Tab (elems t) [rank])) by (apply set_nth_same, L).
  assert (HU : exists v, nth_error h (a_samp x) = Some v).
  { destruct (nth_error h (a_samp x)) eqn:N; [eauto|]. apply nth_error_None in N. unfold h in N. rewrite set_nth_length in N. apply nth_error_None in N. congruence. }
  destruct HU as [v HU]. rewrite HU. cbn [bind fst snd]. rewrite HU. cbn [bind]. rewrite HT. cbn [bind negb andb]. eexists. split; [reflexivity|]. cbn [acqs tabs].
  split; [|exact HT]. rewrite nth_error_app1; [exact X|]. apply nth_error_Some. congruence.
Qed.
Print Assumptions C107_alias_refuted.
(** ... and the processes may then have different communicators: with three detectors on two processes, [acq[:1]] then [acq[:, 0]]
    give a communicator of both processes to the first one and of the second process only to the second one. *)
Theorem C107_agree_refuted : exists es st st' a b, program 2 1 3 4 0 es = Ok st /\ program 2 1 3 4 1 es = Ok st' /\
  nth_error (acqs st) 2 = Some a /\ nth_error (acqs st') 2 = Some b /\ In 1 (a_comm a) /\ a_comm b = [1] /\ es = [(0, Range 0 1, Colon); (0, Colon, Pick [0])].
Proof. do 5 eexists. repeat split; try (vm_compute; reflexivity). vm_compute. auto. Qed.
Print Assumptions C107_agree_refuted.
(** A table cannot be copied: its communicator is a reserved attribute. *)
Theorem C107_copy_refuted : forall t, table_copy t = Err AttributeError.
Proof. reflexivity. Qed.
Print Assumptions C107_copy_refuted.
