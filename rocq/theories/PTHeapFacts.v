(** Lemmas about memory sharing. *)
From Coq Require Import String.
From Verif Require Import Base BaseFacts PTModel PTHeapModel.

Section F.
Variable A : Type.
Notation state := (state A).

Definition addr_is (v : hval) (b : nat) : Prop := match v with HView c _ | H0 c => c = b | HNone => False end.

(** Entry p of object i. *)
Definition entry (st : state) (i p : nat) (v : hval) : Prop :=
  exists o k, nth_error (objs st) i = Some o /\ nth_error (h_attrs o) p = Some (k, v).

Definition wf (st : state) : Prop := forall i p v b, entry st i p v -> addr_is v b -> (b < length (heap st))%nat.
Definition private (st : state) : Prop :=
  forall i p v j q w b, entry st i p v -> entry st j q w -> addr_is v b -> addr_is w b -> i = j /\ p = q.

Fixpoint kpos (k : string) (l : list (string * hval)) : nat :=
  match l with [] => 0 | (k', _) :: r => if String.eqb k k' then 0 else S (kpos k r) end.

Lemma hassoc_nth k l v : hassoc k l = Some v -> exists k', nth_error l (kpos k l) = Some (k', v) /\ k' = k.
Proof.
  induction l as [|(k0 & v0) l IH]; [discriminate|]. cbn. destruct (String.eqb_spec k k0) as [E|E].
  - intros H; injection H as <-. exists k0; auto.
  - intros H. destruct (IH H) as (k' & H1 & H2). exists k'; auto.
Qed.

Lemma hupdate_nth k v l p k' v' :
  nth_error (hupdate k v l) p = Some (k', v') ->
  (p = kpos k l /\ v' = v /\ k' = k) \/ (p <> kpos k l /\ nth_error l p = Some (k', v')).
Proof.
  revert p; induction l as [|(k0 & v0) l IH]; intros p; cbn [hupdate kpos].
  - destruct p as [|p]; cbn; [intros E; injection E as <- <-; auto|destruct p; discriminate].
  - destruct (String.eqb k k0).
    + destruct p as [|p]; cbn; [intros E; injection E as <- <-; auto|intros H; right; split; [discriminate|exact H]].
    + destruct p as [|p]; cbn; [intros E; right; split; [discriminate|exact E]|].
      intros H. destruct (IH p H) as [(-> & -> & ->)|[H1 H2]]; [left; auto|right; split; [congruence|exact H2]].
Qed.

Lemma hassoc_hupdate k k' v l : hassoc k (hupdate k' v l) = if String.eqb k k' then Some v else hassoc k l.
Proof.
  induction l as [|(k0 & v0) l IH]; cbn [hupdate hassoc]; [reflexivity|].
  destruct (String.eqb_spec k' k0) as [E|E]; cbn [hassoc].
  - subst. destruct (String.eqb k k0); reflexivity.
  - rewrite IH. destruct (String.eqb_spec k k0) as [E'|E']; [|reflexivity]. subst.
    destruct (String.eqb_spec k0 k') as [F|F]; [congruence|reflexivity].
Qed.

(** ** Reading *)
Lemma buffer_app (h x : list (list A)) b : (b < length h)%nat -> buffer (h ++ x) b = buffer h b.
Proof. intros H. unfold buffer. apply app_nth1; exact H. Qed.

Lemma read_val_app h x v : (forall b, addr_is v b -> (b < length h)%nat) -> read_val (A := A) (h ++ x) v = read_val h v.
Proof.
  intros H; destruct v as [b pos|b|]; cbn; [| |reflexivity]; rewrite buffer_app by (apply H; reflexivity); reflexivity.
Qed.

Lemma nth_set_nth_other (h : list (list A)) b c x d : b <> c -> nth c (set_nth h b x) d = nth c h d.
Proof.
  intros Hbc. pose proof (set_nth_other h b c x Hbc) as E.
  destruct (nth_error h c) as [y|] eqn:Ey.
  - rewrite (nth_error_nth _ _ d E), (nth_error_nth _ _ d Ey). reflexivity.
  - rewrite !nth_overflow; [reflexivity|apply nth_error_None; exact Ey|apply nth_error_None; exact E].
Qed.

Lemma read_val_write h v w a :
  (forall b, addr_is v b -> addr_is w b -> False) -> read_val (A := A) (write_val h v a) w = read_val h w.
Proof.
  intros H. destruct v as [b pos|b|]; [| |reflexivity]; destruct w as [c q|c|]; cbn; try reflexivity;
    unfold buffer; rewrite nth_set_nth_other; try reflexivity; intros ->; apply (H c); reflexivity.
Qed.

Lemma entry_of_assoc st i o k v :
  nth_error (objs st) i = Some o -> hassoc k (h_attrs o) = Some v -> entry st i (kpos k (h_attrs o)) v.
Proof. intros H1 H2. destruct (hassoc_nth _ _ _ H2) as (k' & H3 & _). exists o, k'; auto. Qed.

Lemma kpos_inj k k' l v v' : hassoc k l = Some v -> hassoc k' l = Some v' -> kpos k l = kpos k' l -> k = k'.
Proof.
  intros H1 H2 E. destruct (hassoc_nth _ _ _ H1) as (k1 & N1 & ->). destruct (hassoc_nth _ _ _ H2) as (k2 & N2 & ->).
  rewrite E in N1. congruence.
Qed.

(** ** Assignments *)
Lemma nth_error_set_nth {B} (l : list B) i j x :
  nth_error (set_nth l i x) j = if (i =? j)%nat then match nth_error l i with Some _ => Some x | None => None end
                                else nth_error l j.
Proof.
  destruct (Nat.eqb_spec i j) as [->|H]; [|apply set_nth_other; exact H].
  destruct (nth_error l j) eqn:E.
  - apply set_nth_same. apply nth_error_Some; congruence.
  - apply nth_error_None. rewrite set_nth_length. apply nth_error_None; exact E.
Qed.

Lemma set_obj_read h os i o k v j k' :
  nth_error os i = Some o ->
  read (set_obj (St h os) i k v) j k'
  = if (i =? j)%nat && String.eqb k' k then Some (read_val h v) else read (A := A) (St h os) j k'.
Proof.
  intros Ho. unfold set_obj, read. cbn [objs heap]. rewrite Ho. cbn [objs heap].
  rewrite nth_error_set_nth, Ho. destruct (Nat.eqb_spec i j) as [->|H]; [|reflexivity].
  cbn [h_attrs]. rewrite hassoc_hupdate, Ho. destruct (String.eqb k' k); reflexivity.
Qed.

Lemma read_grow st x j k : wf st -> read (A := A) (St (heap st ++ x) (objs st)) j k = read st j k.
Proof.
  intros HW. unfold read. cbn [heap objs]. destruct (nth_error (objs st) j) as [o|] eqn:Ho; [|reflexivity].
  destruct (hassoc k (h_attrs o)) as [v|] eqn:Hv; [|reflexivity]. cbn [option_map]. f_equal.
  apply read_val_app. intros b Hb. eapply HW; [eapply entry_of_assoc; eauto|exact Hb].
Qed.

Lemma map_res_get_fresh h (rows : list A) : map_res (get (buffer (h ++ [rows]) (length h))) (iota (zlen rows)) = Ok rows.
Proof.
  unfold buffer. rewrite app_nth2 by lia. rewrite Nat.sub_diag. cbn [nth]. apply map_res_get_all.
Qed.

Lemma h_set_read st i k rows st' :
  wf st -> h_set st i k rows = Ok st' ->
  read st' i k = Some (Ok rows) /\ forall j k', (j, k') <> (i, k) -> read st' j k' = read st j k'.
Proof.
  intros HW. unfold h_set. destruct (nth_error (objs st) i) as [o|] eqn:Ho; [|discriminate].
  destruct (negb _); [discriminate|]. intros E; injection E as <-.
  assert (Ho' : nth_error (objs (St (heap st ++ [rows]) (objs st))) i = Some o) by exact Ho.
  split.
  - rewrite (set_obj_read _ _ _ o) by exact Ho. rewrite Nat.eqb_refl, String.eqb_refl. cbn [andb].
    f_equal. apply map_res_get_fresh.
  - intros j k' Hne. rewrite (set_obj_read _ _ _ o) by exact Ho.
    destruct ((i =? j)%nat && String.eqb k' k) eqn:E.
    + apply andb_true_iff in E as [E1 E2]. apply Nat.eqb_eq in E1. apply String.eqb_eq in E2. congruence.
    + apply read_grow; exact HW.
Qed.

Lemma h_set0_read st i k a st' :
  wf st -> private st -> h_set0 st i k a = Ok st' ->
  forall j k', (j, k') <> (i, k) -> read st' j k' = read st j k'.
Proof.
  intros HW HP. unfold h_set0. destruct (nth_error (objs st) i) as [o|] eqn:Ho; [|discriminate].
  assert (W : forall v, hassoc k (h_attrs o) = Some v -> forall j k', (j, k') <> (i, k) ->
     read (St (write_val (heap st) v a) (objs st)) j k' = read st j k').
  { intros v Hv j k' Hne. unfold read. cbn [heap objs].
    destruct (nth_error (objs st) j) as [o'|] eqn:Ho'; [|reflexivity].
    destruct (hassoc k' (h_attrs o')) as [w|] eqn:Hw; [|reflexivity]. cbn [option_map]. f_equal.
    apply read_val_write. intros b Hb1 Hb2.
    destruct (HP _ _ _ _ _ _ b (entry_of_assoc _ _ _ _ _ Ho Hv) (entry_of_assoc _ _ _ _ _ Ho' Hw) Hb1 Hb2) as [Eij Ep].
    subst j. rewrite Ho in Ho'; injection Ho' as <-. apply Hne. f_equal. symmetry. eapply kpos_inj; eauto. }
  assert (N : forall j k', (j, k') <> (i, k) ->
     read (set_obj (St (heap st ++ [[a]]) (objs st)) i k (H0 (length (heap st)))) j k' = read st j k').
  { intros j k' Hne. rewrite (set_obj_read _ _ _ o) by exact Ho.
    destruct ((i =? j)%nat && String.eqb k' k) eqn:E;
    [apply andb_true_iff in E as [E1 E2]; apply Nat.eqb_eq in E1; apply String.eqb_eq in E2; congruence|apply read_grow; exact HW]. }
  destruct (hassoc k (h_attrs o)) as [[b p|b|]|] eqn:Hv; intros E; injection E as <-.
  - exact (W _ eq_refl).
  - exact (W _ eq_refl).
  - exact N.
  - exact N.
Qed.

(** ** Invariants along histories *)
Lemma entry_snoc h os o i p v :
  entry (St h (os ++ [o])) i p v ->
  entry (St h os) i p v \/ (i = length os /\ exists k, nth_error (h_attrs o) p = Some (k, v)).
Proof.
  intros (o' & k & H1 & H2). cbn [objs] in H1. destruct (Nat.lt_ge_cases i (length os)) as [Hlt|Hge].
  - rewrite nth_error_app1 in H1 by exact Hlt. left; exists o', k; auto.
  - rewrite nth_error_app2 in H1 by exact Hge. destruct (i - length os)%nat as [|d] eqn:Ed.
    + cbn in H1. injection H1 as <-. right; split; [lia|eauto].
    + destruct d; discriminate.
Qed.

Lemma entry_heap h' h os i p v : entry (St h os) i p v -> entry (St (A := A) h' os) i p v.
Proof. intros (o & k & H); exists o, k; exact H. Qed.

Lemma entry_bound h os i p v : entry (St (A := A) h os) i p v -> (i < length os)%nat.
Proof. intros (o & k & H & _). apply nth_error_Some. cbn in H. congruence. Qed.

(** Entries of a new object whose addresses are fresh. *)
Definition fresh_attrs (n n' : nat) (l : list (string * hval)) : Prop :=
  (forall p k v b, nth_error l p = Some (k, v) -> addr_is v b -> (n <= b < n')%nat) /\
  (forall p q k k' v w b, nth_error l p = Some (k, v) -> nth_error l q = Some (k', w) -> addr_is v b -> addr_is w b -> p = q).

Lemma fresh_cons n m n' k v l :
  (n <= m <= n')%nat -> (forall b, addr_is v b -> (n <= b < m)%nat) -> fresh_attrs m n' l -> fresh_attrs n n' ((k, v) :: l).
Proof.
  intros Hm Hv (H1 & H2). split.
  - intros [|p] k0 v0 b E Hb; cbn in E.
    + injection E as <- <-. specialize (Hv _ Hb). lia.
    + specialize (H1 _ _ _ _ E Hb). lia.
  - intros [|p] [|q] k0 k1 v0 w b E1 E2 Hb1 Hb2; cbn in E1, E2.
    + reflexivity.
    + injection E1 as <- <-. specialize (Hv _ Hb1). specialize (H1 _ _ _ _ E2 Hb2). lia.
    + injection E2 as <- <-. specialize (Hv _ Hb2). specialize (H1 _ _ _ _ E1 Hb1). lia.
    + f_equal. eapply H2; eauto.
Qed.

Lemma alloc_attrs_fresh kw h h' l :
  alloc_attrs (A := A) h kw = (h', l) -> (exists x, h' = h ++ x) /\ fresh_attrs (length h) (length h') l.
Proof.
  revert h h' l; induction kw as [|(k & v) kw IH]; intros h h' l; cbn [alloc_attrs].
  - intros E; injection E as <- <-. split; [exists []; rewrite app_nil_r; reflexivity|].
    split; intros [|p]; discriminate.
  - destruct v as [rows|a|].
    + destruct (alloc_attrs (h ++ [rows]) kw) as (h2 & r') eqn:E2. intros E; injection E as <- <-.
      destruct (IH _ _ _ E2) as ((x & Ex) & HF). split; [exists ([rows] ++ x); rewrite app_assoc; exact Ex|].
      assert (L : (length h2 = length h + 1 + length x)%nat) by (rewrite Ex, !app_length; cbn; lia).
      rewrite app_length in HF. cbn [length] in HF.
      apply fresh_cons with (m := (length h + 1)%nat); [lia| |exact HF]. intros b Hb; cbn in Hb; lia.
    + destruct (alloc_attrs (h ++ [[a]]) kw) as (h2 & r') eqn:E2. intros E; injection E as <- <-.
      destruct (IH _ _ _ E2) as ((x & Ex) & HF). split; [exists ([[a]] ++ x); rewrite app_assoc; exact Ex|].
      assert (L : (length h2 = length h + 1 + length x)%nat) by (rewrite Ex, !app_length; cbn; lia).
      rewrite app_length in HF. cbn [length] in HF.
      apply fresh_cons with (m := (length h + 1)%nat); [lia| |exact HF]. intros b Hb; cbn in Hb; lia.
    + destruct (alloc_attrs h kw) as (h2 & r') eqn:E2. intros E; injection E as <- <-.
      destruct (IH _ _ _ E2) as ((x & Ex) & HF). split; [eauto|].
      assert (L : (length h <= length h2)%nat) by (rewrite Ex, app_length; lia).
      apply fresh_cons with (m := length h); [lia| |exact HF]. intros b [].
Qed.

Lemma copy_attrs_fresh sel l h h' l' :
  (forall k b, ~ In (k, H0 b) l) -> copy_attrs (A := A) h sel l = Ok (h', l') ->
  (exists x, h' = h ++ x) /\ fresh_attrs (length h) (length h') l'.
Proof.
  revert h h' l'; induction l as [|(k & v) l IH]; intros h h' l' HN; cbn [copy_attrs].
  - intros E; injection E as <- <-. split; [exists []; rewrite app_nil_r; reflexivity|].
    split; intros [|p]; discriminate.
  - intros H. apply bind_ok in H as ((h1 & v') & Hv & H). apply bind_ok in H as ((h2 & r') & Hr & H).
    cbn [fst snd] in *. injection H as <- <-.
    destruct (IH h1 h2 r' (fun k0 b Hin => HN k0 b (or_intror Hin)) Hr) as ((x & ->) & HF).
    destruct v as [b pos|b|].
    + apply bind_ok in Hv as (p & Hp & Hv). apply bind_ok in Hv as (rows & Hrows & Hv). injection Hv as <- <-.
      split; [exists ([rows] ++ x); rewrite app_assoc; reflexivity|].
      rewrite !app_length in *. cbn [length] in *.
      apply fresh_cons with (m := (length h + 1)%nat); [lia| |exact HF]. intros c Hc; cbn in Hc; lia.
    + exfalso. eapply HN; left; reflexivity.
    + injection Hv as <- <-. split; [exists x; reflexivity|].
      apply fresh_cons with (m := length h); [rewrite app_length; lia| |exact HF]. intros c [].
Qed.

Lemma private_snoc st x n attrs :
  wf st -> private st -> fresh_attrs (length (heap st)) (length (heap st ++ x)) attrs ->
  wf (St (heap st ++ x) (objs st ++ [HObj n attrs])) /\ private (St (heap st ++ x) (objs st ++ [HObj n attrs])).
Proof.
  intros HW HP (F1 & F2). destruct st as [h os]; cbn [heap objs] in *. split.
  - intros i p v b E Hb. cbn [heap]. apply entry_snoc in E as [E|(-> & k & E)].
    + apply (entry_heap h) in E. specialize (HW _ _ _ _ E Hb). cbn in HW. rewrite app_length; lia.
    + specialize (F1 _ _ _ _ E Hb). lia.
  - intros i p v j q w b E1 E2 Hb1 Hb2.
    apply entry_snoc in E1 as [E1|(-> & k1 & E1)]; apply entry_snoc in E2 as [E2|(-> & k2 & E2)].
    + eapply HP; [apply (entry_heap h) in E1; exact E1|apply (entry_heap h) in E2; exact E2|exact Hb1|exact Hb2].
    + apply (entry_heap h) in E1. pose proof (HW _ _ _ _ E1 Hb1) as L. pose proof (F1 _ _ _ _ E2 Hb2). cbn in L. lia.
    + apply (entry_heap h) in E2. pose proof (HW _ _ _ _ E2 Hb2) as L. pose proof (F1 _ _ _ _ E1 Hb1). cbn in L. lia.
    + split; [reflexivity|]. eapply F2; eauto.
Qed.

Lemma wf_snoc st x n attrs :
  wf st -> (forall p k v b, nth_error attrs p = Some (k, v) -> addr_is v b -> (b < length (heap st ++ x))%nat) ->
  wf (St (heap st ++ x) (objs st ++ [HObj n attrs])).
Proof.
  intros HW F1. destruct st as [h os]; cbn [heap objs] in *. intros i p v b E Hb. cbn [heap].
  apply entry_snoc in E as [E|(-> & k & E)].
  - apply (entry_heap h) in E. specialize (HW _ _ _ _ E Hb). cbn in HW. rewrite app_length; lia.
  - eapply F1; eauto.
Qed.

Lemma set_obj_entry h os i o k v j p w :
  nth_error os i = Some o -> entry (set_obj (St (A := A) h os) i k v) j p w ->
  (j = i /\ p = kpos k (h_attrs o) /\ w = v) \/ (~ (j = i /\ p = kpos k (h_attrs o)) /\ entry (St h os) j p w).
Proof.
  intros Ho. unfold set_obj. cbn [objs heap]. rewrite Ho. intros (o' & k' & H1 & H2). cbn [objs] in H1.
  rewrite nth_error_set_nth in H1. destruct (Nat.eqb_spec i j) as [<-|Hij].
  - rewrite Ho in H1. injection H1 as <-. cbn [h_attrs] in H2.
    destruct (hupdate_nth _ _ _ _ _ _ H2) as [(-> & -> & _)|[Hp H3]].
    + left; auto.
    + right. split; [intros [_ E]; contradiction|]. exists o, k'; auto.
  - right. split; [intros [E _]; congruence|]. exists o', k'; auto.
Qed.

Lemma set_obj_wf h os i o k v x :
  nth_error os i = Some o -> wf (St (A := A) h os) -> (forall b, addr_is v b -> (b < length (h ++ x))%nat) ->
  wf (set_obj (St (h ++ x) os) i k v).
Proof.
  intros Ho HW Hv j p w b E Hb. assert (Eh : heap (set_obj (St (h ++ x) os) i k v) = h ++ x).
  { unfold set_obj; cbn [objs]. rewrite Ho. reflexivity. }
  rewrite Eh. destruct (set_obj_entry _ _ _ o _ _ _ _ _ Ho E) as [(_ & _ & ->)|(_ & E')]; [auto|].
  apply (entry_heap h) in E'. specialize (HW _ _ _ _ E' Hb). cbn in HW. rewrite app_length; lia.
Qed.

Lemma set_obj_private h os i o k v x :
  nth_error os i = Some o -> wf (St (A := A) h os) -> private (St h os) ->
  (forall b, addr_is v b -> (length h <= b)%nat) -> private (set_obj (St (h ++ x) os) i k v).
Proof.
  intros Ho HW HP Hv j p w j' p' w' b E E' Hb Hb'.
  destruct (set_obj_entry _ _ _ o _ _ _ _ _ Ho E) as [(-> & -> & ->)|(N & E1)];
  destruct (set_obj_entry _ _ _ o _ _ _ _ _ Ho E') as [(-> & -> & ->)|(N' & E1')].
  - auto.
  - apply (entry_heap h) in E1'. pose proof (HW _ _ _ _ E1' Hb') as L. cbn in L. specialize (Hv _ Hb). lia.
  - apply (entry_heap h) in E1. pose proof (HW _ _ _ _ E1 Hb) as L. cbn in L. specialize (Hv _ Hb'). lia.
  - apply (entry_heap h) in E1. apply (entry_heap h) in E1'. eapply HP; eauto.
Qed.

Lemma view_attrs_addr sel l l' p k v b :
  view_attrs sel l = Ok l' -> nth_error l' p = Some (k, v) -> addr_is v b ->
  exists k' w, nth_error l p = Some (k', w) /\ addr_is w b.
Proof.
  revert l' p; induction l as [|(k0 & v0) l IH]; intros l' p; cbn [view_attrs].
  - intros E; injection E as <-. destruct p; discriminate.
  - intros H. apply bind_ok in H as (v' & Hv & H). apply bind_ok in H as (r' & Hr & H). injection H as <-.
    destruct p as [|p]; cbn [nth_error].
    + intros E Hb; injection E as <- <-. exists k0, v0; split; [reflexivity|].
      destruct v0 as [c q|c|]; [apply bind_ok in Hv as (q' & _ & Hv)| |]; injection Hv as <-; exact Hb.
    + intros E Hb. eapply IH; eauto.
Qed.

Lemma copy_attrs_addr sel l h h' l' :
  copy_attrs (A := A) h sel l = Ok (h', l') ->
  (forall p k v b, nth_error l p = Some (k, v) -> addr_is v b -> (b < length h)%nat) ->
  (exists x, h' = h ++ x) /\ (forall p k v b, nth_error l' p = Some (k, v) -> addr_is v b -> (b < length h')%nat).
Proof.
  revert h h' l'; induction l as [|(k & v) l IH]; intros h h' l'; cbn [copy_attrs].
  - intros E _; injection E as <- <-. split; [exists []; rewrite app_nil_r; reflexivity|]. intros [|p]; discriminate.
  - intros H HB. apply bind_ok in H as ((h1 & v') & Hv & H). apply bind_ok in H as ((h2 & r') & Hr & H).
    cbn [fst snd] in *. injection H as <- <-.
    assert (Hx : exists x, h1 = h ++ x /\ forall b, addr_is v' b -> (b < length h1)%nat).
    { destruct v as [b pos|b|].
      - apply bind_ok in Hv as (p & _ & Hv). apply bind_ok in Hv as (rows & _ & Hv). injection Hv as <- <-.
        exists [rows]. split; [reflexivity|]. intros c Hc; cbn in Hc. rewrite app_length; cbn; lia.
      - injection Hv as <- <-. exists []. rewrite app_nil_r. split; [reflexivity|]. intros c Hc.
        apply (HB 0%nat k (H0 b) c); [reflexivity|exact Hc].
      - injection Hv as <- <-. exists []. rewrite app_nil_r. split; [reflexivity|]. intros c []. }
    destruct Hx as (x & -> & Hv').
    destruct (IH _ _ _ Hr) as ((y & ->) & HF).
    { intros p k0 v0 b E Hb. specialize (HB (S p) k0 v0 b E Hb). rewrite app_length; lia. }
    split; [exists (x ++ y); rewrite app_assoc; reflexivity|].
    intros [|p] k0 v0 b E Hb; cbn in E.
    + injection E as <- <-. specialize (Hv' _ Hb). rewrite app_length; lia.
    + eapply HF; eauto.
Qed.

(** What a sub-selection produces. *)
Lemma h_get_cases (st : state) i s st' j :
  h_get st i s = Ok (st', j) ->
  st' = st \/ exists o x n attrs, nth_error (objs st) i = Some o /\ st' = St (heap st ++ x) (objs st ++ [HObj n attrs]) /\
    ((exists p, view_attrs p (h_attrs o) = Ok attrs /\ x = []) \/
     (exists p, copy_attrs (heap st) p (h_attrs o) = Ok (heap st ++ x, attrs))).
Proof.
  unfold h_get. destruct (nth_error (objs st) i) as [o|] eqn:Ho; [|discriminate].
  intros H. apply bind_ok in H as (ns & _ & H). cbv zeta in H.
  assert (V : forall a b c, (do p <- py_slice_positions (PySlice (Some a) (Some b) (Some c)) (h_len o);
        do attrs <- view_attrs p (h_attrs o); Ok (St (heap st) (objs st ++ [HObj (zlen p) attrs]), length (objs st))) = Ok (st', j) ->
     exists x n attrs, st' = St (heap st ++ x) (objs st ++ [HObj n attrs]) /\
    ((exists p, view_attrs p (h_attrs o) = Ok attrs /\ x = []) \/
     (exists p, copy_attrs (heap st) p (h_attrs o) = Ok (heap st ++ x, attrs)))).
  { intros a b c E. apply bind_ok in E as (p & _ & E). apply bind_ok in E as (attrs & Ha & E). injection E as <- <-.
    exists [], (zlen p), attrs. rewrite app_nil_r. split; [reflexivity|]. left; eauto. }
  assert (C : forall p, (do ha <- copy_attrs (heap st) p (h_attrs o);
        Ok (St (fst ha) (objs st ++ [HObj (zlen p) (snd ha)]), length (objs st))) = Ok (st', j) ->
     exists x n attrs, st' = St (heap st ++ x) (objs st ++ [HObj n attrs]) /\
    ((exists p, view_attrs p (h_attrs o) = Ok attrs /\ x = []) \/
     (exists p, copy_attrs (heap st) p (h_attrs o) = Ok (heap st ++ x, attrs)))).
  { intros p E. apply bind_ok in E as ((h' & attrs) & Ha & E). cbn [fst snd] in E. injection E as <- <-.
    assert (X : exists x, h' = heap st ++ x).
    { clear -Ha. revert Ha; generalize (heap st). intros h0 Ha; revert h0 h' attrs Ha.
      induction (h_attrs o) as [|(k & v) l IH]; intros h0 h' attrs; cbn [copy_attrs].
      - intros E; injection E as <- <-; exists []; rewrite app_nil_r; reflexivity.
      - intros H. apply bind_ok in H as ((h1 & v') & Hv & H). apply bind_ok in H as ((h2 & r') & Hr & H).
        cbn [fst snd] in *. injection H as <- <-. destruct (IH _ _ _ Hr) as (y & ->).
        destruct v as [b pos|b|].
        + apply bind_ok in Hv as (q & _ & Hv). apply bind_ok in Hv as (rows & _ & Hv). injection Hv as <- <-.
          exists ([rows] ++ y). rewrite app_assoc; reflexivity.
        + injection Hv as <- <-. eauto.
        + injection Hv as <- <-. eauto. }
    destruct X as (x & ->). exists x, (zlen p), attrs. split; [reflexivity|]. right; eauto. }
  destruct ns as [|a b c|l|m|l].
  - injection H as <- _. left; reflexivity.
  - right. destruct (V _ _ _ H) as (x & n & at' & E & D). exists o, x, n, at'; auto.
  - apply bind_ok in H as (p & _ & H). right. destruct (C _ H) as (x & n & at' & E & D). exists o, x, n, at'; auto.
  - right. destruct (C _ H) as (x & n & at' & E & D). exists o, x, n, at'; auto.
  - destruct l as [|[a b c|z|] [|? ?]]; try discriminate. right. destruct (V _ _ _ H) as (x & n & at' & E & D).
    exists o, x, n, at'; auto.
Qed.

Lemma wf_obj (st : state) i o p k v b :
  wf st -> nth_error (objs st) i = Some o -> nth_error (h_attrs o) p = Some (k, v) -> addr_is v b -> (b < length (heap st))%nat.
Proof. intros HW H1 H2 Hb. eapply (HW i p v); [exists o, k; auto|exact Hb]. Qed.

Lemma hstep_wf st op st' : wf st -> hstep st op = Ok st' -> wf st'.
Proof.
  intros HW. destruct op as [n kw|i s|i k rows|i k a]; cbn [hstep].
  - unfold h_new. destruct (alloc_attrs (heap st) kw) as (h & attrs) eqn:E. intros H; injection H as <-.
    destruct (alloc_attrs_fresh _ _ _ _ E) as ((x & ->) & F1 & _). cbn [fst]. apply wf_snoc; [exact HW|].
    intros p k v b E1 Hb. specialize (F1 _ _ _ _ E1 Hb). lia.
  - intros H. apply bind_ok in H as ((s1 & j) & H & E). injection E as <-. cbn [fst].
    destruct (h_get_cases _ _ _ _ _ H) as [->|(o & x & n & attrs & Ho & -> & [(p & Ha & ->)|(p & Ha)])]; [exact HW| |].
    + apply wf_snoc; [exact HW|]. intros q k v b E1 Hb. destruct (view_attrs_addr _ _ _ _ _ _ _ Ha E1 Hb) as (k' & w & E2 & Hw).
      rewrite app_nil_r. eapply wf_obj; eauto.
    + apply wf_snoc; [exact HW|]. eapply copy_attrs_addr; [exact Ha|]. intros. eapply wf_obj; eauto.
  - unfold h_set. destruct (nth_error (objs st) i) as [o|] eqn:Ho; [|discriminate].
    destruct (negb _); [discriminate|]. intros E; injection E as <-. destruct st as [h os]; cbn [heap objs] in *.
    eapply set_obj_wf; [exact Ho|exact HW|]. intros b Hb; cbn in Hb. rewrite app_length; cbn; lia.
  - unfold h_set0. destruct (nth_error (objs st) i) as [o|] eqn:Ho; [|discriminate].
    assert (W : forall v, wf (St (write_val (heap st) v a) (objs st))).
    { intros v j p w b E Hb. cbn [heap]. apply (entry_heap (heap st)) in E. destruct st as [h os].
      specialize (HW _ _ _ _ E Hb). cbn [heap] in *. destruct v; cbn; rewrite ?set_nth_length; exact HW. }
    destruct st as [h os]; cbn [heap objs] in *.
    destruct (hassoc k (h_attrs o)) as [[b p|b|]|] eqn:Hv; intros E; injection E as <-; [exact (W (HView b p))|exact (W (H0 b))| |];
      (eapply set_obj_wf; [exact Ho|exact HW|]; intros c Hc; cbn in Hc; rewrite app_length; cbn; lia).
Qed.

Lemma hstep_private st op st' :
  wf st -> private st -> (match op with OGet i s => copying s /\ no_0d st i | _ => True end) ->
  hstep st op = Ok st' -> private st'.
Proof.
  intros HW HP HC. destruct op as [n kw|i s|i k rows|i k a]; cbn [hstep].
  - unfold h_new. destruct (alloc_attrs (heap st) kw) as (h & attrs) eqn:E. intros H; injection H as <-.
    destruct (alloc_attrs_fresh _ _ _ _ E) as ((x & ->) & F). cbn [fst]. apply private_snoc; assumption.
  - destruct HC as [HC HN]. intros H. apply bind_ok in H as ((s1 & j) & H & E). injection E as <-. cbn [fst].
    unfold no_0d in HN. pose proof H as H'. unfold h_get in H'.
    destruct (nth_error (objs st) i) as [o|] eqn:Ho; [|discriminate].
    apply bind_ok in H' as (ns & Hns & H'). cbv zeta in H'.
    assert (C : forall p, (do ha <- copy_attrs (heap st) p (h_attrs o);
        Ok (St (fst ha) (objs st ++ [HObj (zlen p) (snd ha)]), length (objs st))) = Ok (s1, j) -> private s1).
    { intros p E. apply bind_ok in E as ((h' & attrs) & Ha & E). cbn [fst snd] in E. injection E as <- <-.
      destruct (copy_attrs_fresh _ _ _ _ _ HN Ha) as ((x & ->) & F). apply private_snoc; assumption. }
    destruct s as [|z|sl|l|sh m|l]; try contradiction; cbn [normalize_selection] in Hns.
    + injection Hns as <-. apply bind_ok in H' as (p & _ & H'). eauto.
    + injection Hns as <-. apply bind_ok in H' as (p & _ & H'). eauto.
    + destruct (list_eqb sh [h_len o]); [|discriminate]. injection Hns as <-. eauto.
  - unfold h_set. destruct (nth_error (objs st) i) as [o|] eqn:Ho; [|discriminate].
    destruct (negb _); [discriminate|]. intros E; injection E as <-. destruct st as [h os]; cbn [heap objs] in *.
    eapply set_obj_private; [exact Ho|exact HW|exact HP|]. intros b Hb; cbn in Hb; lia.
  - unfold h_set0. destruct (nth_error (objs st) i) as [o|] eqn:Ho; [|discriminate].
    assert (W : forall v, private (St (write_val (heap st) v a) (objs st))).
    { intros v j p w j' p' w' b E E'. apply (entry_heap (heap st)) in E. apply (entry_heap (heap st)) in E'.
      destruct st as [h os]. exact (HP _ _ _ _ _ _ b E E'). }
    destruct st as [h os]; cbn [heap objs] in *.
    destruct (hassoc k (h_attrs o)) as [[b p|b|]|] eqn:Hv; intros E; injection E as <-; [exact (W (HView b p))|exact (W (H0 b))| |];
      (eapply set_obj_private; [exact Ho|exact HW|exact HP|]; intros c Hc; cbn in Hc; lia).
Qed.

Lemma empty_wf : wf (St (A := A) [] []).
Proof. intros i p v b (o & k & H & _). destruct i; discriminate. Qed.
Lemma empty_private : private (St (A := A) [] []).
Proof. intros i p v j q w b (o & k & H & _). destruct i; discriminate. Qed.

Lemma hrun_wf os st st' : wf st -> hrun st os = Ok st' -> wf st'.
Proof.
  revert st; induction os as [|o os IH]; intros st HW; cbn [hrun].
  - intros E; injection E as <-; exact HW.
  - intros H. apply bind_ok in H as (s1 & H1 & H). eapply IH; [eapply hstep_wf; eauto|exact H].
Qed.

Lemma hrun_private os st st' : wf st -> private st -> hist_copying st os -> hrun st os = Ok st' -> private st'.
Proof.
  revert st; induction os as [|o os IH]; intros st HW HP HC; cbn [hrun].
  - intros E; injection E as <-; exact HP.
  - cbn [hist_copying] in HC. destruct HC as [HC1 HC2]. intros H. apply bind_ok in H as (s1 & H1 & H). rewrite H1 in HC2.
    eapply IH; [eapply hstep_wf; eauto| |exact HC2|exact H]. eapply hstep_private; eauto.
Qed.

Lemma array_assignment_local os (st : state) i k rows st' :
  hrun (St [] []) os = Ok st -> h_set st i k rows = Ok st' ->
  read st' i k = Some (Ok rows) /\ forall j k', (j, k') <> (i, k) -> read st' j k' = read st j k'.
Proof. intros HR. apply h_set_read. eapply hrun_wf; [apply empty_wf|exact HR]. Qed.

Lemma scalar_assignment_local os (st : state) i k a st' :
  hist_copying (St [] []) os -> hrun (St [] []) os = Ok st -> h_set0 st i k a = Ok st' ->
  forall j k', (j, k') <> (i, k) -> read st' j k' = read st j k'.
Proof.
  intros HC HR. apply h_set0_read.
  - eapply hrun_wf; [apply empty_wf|exact HR].
  - eapply hrun_private; [apply empty_wf|apply empty_private|exact HC|exact HR].
Qed.

(** A sub-selection itself changes nothing. *)
Lemma selection_reads os (st : state) i s st' r :
  hrun (St [] []) os = Ok st -> h_get st i s = Ok (st', r) ->
  forall j k, (j < length (objs st))%nat -> read st' j k = read st j k.
Proof.
  intros HR HG j k Hj. assert (HW : wf st) by (eapply hrun_wf; [apply empty_wf|exact HR]).
  destruct (h_get_cases _ _ _ _ _ HG) as [->|(o & x & n & attrs & _ & -> & _)]; [reflexivity|].
  rewrite <- (read_grow st x j k HW). unfold read. cbn [objs heap]. rewrite nth_error_app1 by exact Hj. reflexivity.
Qed.
End F.
