(** Lemmas about scatter, gather and the distributed unpack. *)
From Coq Require Import String Permutation.
From Verif Require Import Base BaseFacts PTModel PTSpec PTSliceFacts PTIndexFacts PTGetFacts PTCtorFacts PTFacts PTPropLemmas PTMpiModel.

Lemma sumZ_app l r : sumZ (l ++ r) = sumZ l + sumZ r.
Proof. induction l as [|x l IH]; cbn; [reflexivity|]. unfold sumZ in *. rewrite IH. lia. Qed.

Lemma zlen_concat {B} (ls : list (list B)) : zlen (concat ls) = sumZ (map zlen ls).
Proof. induction ls as [|x ls IH]; [reflexivity|]. cbn [concat map]. rewrite zlen_app, IH. reflexivity. Qed.

Lemma zlen_pieces {B} (l : list B) m : 0 < m -> map zlen (pieces l m) = split_counts (zlen l) m.
Proof.
  intros Hm. unfold pieces, split_counts. rewrite iota_map_seq, !map_map. apply map_ext_in.
  intros j Hj. apply in_seq in Hj. pose proof (zlen_nonneg l) as Hn.
  replace (Z.of_nat (S j)) with (Z.of_nat j + 1) by lia.
  pose proof (split_start_bounds (zlen l) m (Z.of_nat j) Hn Hm ltac:(lia)).
  pose proof (split_start_bounds (zlen l) m (Z.of_nat j + 1) Hn Hm ltac:(lia)).
  pose proof (split_start_mono (zlen l) m (Z.of_nat j) Hn Hm).
  apply zlen_sublist; lia.
Qed.

Lemma length_pieces {B} (l : list B) m : length (pieces l m) = Z.to_nat m.
Proof. unfold pieces. rewrite map_length, seq_length. reflexivity. Qed.

(** The local table of rank j. *)
Definition local_spec {A} (t : table A) (l : list Z) (m : Z) (j : nat) (t' : table A) : Prop :=
  t_shape t' = t_shape t /\
  ix_rep (t_size t) (t_index t') (sublist l (split_start (zlen l) m (Z.of_nat j)) (split_start (zlen l) m (Z.of_nat (S j)))) /\
  (forall k, match assoc k (t_attrs t) with
             | Some (AtArr rows) => assoc k (t_attrs t')
                 = Some (AtArr (sublist rows (split_start (zlen l) m (Z.of_nat j)) (split_start (zlen l) m (Z.of_nat (S j)))))
             | other => assoc k (t_attrs t') = other
             end) /\
  rows_len (split_start (zlen l) m (Z.of_nat (S j)) - split_start (zlen l) m (Z.of_nat j)) (t_attrs t') /\
  (0 < zlen l -> ix_indexable (t_size t) (t_index t')).

Lemma getitem_local {A} (t : table A) l m j :
  table_inv t l -> 0 < m -> (j < Z.to_nat m)%nat ->
  exists t', getitem t (SelSlice (split_slice (zlen l) m (Z.of_nat j))) = Ok t' /\ local_spec t l m j t'.
Proof.
  intros HT Hm Hj. destruct (getitem_split t l m (Z.of_nat j) HT Hm ltac:(lia)) as (ix' & at' & E & HR & HA & HX).
  eexists; split; [exact E|]. pose proof (zlen_nonneg l) as Hn.
  replace (Z.of_nat (S j)) with (Z.of_nat j + 1) by lia.
  pose proof (split_start_bounds (zlen l) m (Z.of_nat j) Hn Hm ltac:(lia)) as B1.
  pose proof (split_start_bounds (zlen l) m (Z.of_nat j + 1) Hn Hm ltac:(lia)) as B2.
  pose proof (split_start_mono (zlen l) m (Z.of_nat j) Hn Hm) as B3.
  unfold local_spec. replace (Z.of_nat (S j)) with (Z.of_nat j + 1) by lia.
  cbn [t_shape t_index t_attrs]. split; [reflexivity|]. split; [exact HR|]. split; [|split].
  - intros k. pose proof (attrs_taken_assoc _ _ _ k HA) as Ha.
    destruct (assoc k (t_attrs t)) as [[rows|a| |]|] eqn:Ek; destruct (assoc k at') as [[r'|?| |]|]; try contradiction; try congruence.
    assert (Hrows : zlen rows = zlen l) by (destruct HT as (_ & _ & Hr); eapply Hr; apply assoc_In; exact Ek).
    rewrite map_res_get_sublist in Ha by lia. injection Ha as <-. f_equal. f_equal. f_equal. lia.
  - pose proof (attrs_taken_rows_len _ _ _ HA) as Hrl. rewrite zlen_progression in Hrl.
    intros k rows Hin. rewrite (Hrl k rows Hin). lia.
  - exact HX.
Qed.

Lemma Forall2_seq {B} (P : nat -> B -> Prop) (f : nat -> res B) m :
  (forall j, (j < m)%nat -> exists b, f j = Ok b /\ P j b) ->
  exists bs, map_res f (seq 0 m) = Ok bs /\ Forall2 P (seq 0 m) bs.
Proof.
  induction m as [|m IH]; intros H; [exists []; split; [reflexivity|constructor]|].
  destruct IH as (bs & E & HF); [intros; apply H; lia|]. destruct (H m ltac:(lia)) as (b & Eb & Pb).
  exists (bs ++ [b]). rewrite seq_S, map_res_app, E. cbn [bind map_res Nat.add]. rewrite Eb. split; [reflexivity|].
  apply Forall2_app; [exact HF|]. constructor; [exact Pb|constructor].
Qed.

Lemma map_res_map {B C D} (f : C -> res D) (g : B -> C) l : map_res f (map g l) = map_res (fun x => f (g x)) l.
Proof. induction l as [|x l IH]; [reflexivity|]. cbn [map map_res]. rewrite IH. reflexivity. Qed.

Lemma sublist_whole_m1 {B} (l : list B) n : n = zlen l ->
  sublist l (split_start n 1 (Z.of_nat 0)) (split_start n 1 (Z.of_nat 1)) = l.
Proof.
  intros ->. change (Z.of_nat 0) with 0. change (Z.of_nat 1) with 1.
  rewrite split_start_0, split_start_m by lia. apply sublist_all.
Qed.

Lemma scatter_spec {A} (t : table A) l m :
  table_inv t l -> 0 < m ->
  exists ts, scatter t m = Ok ts /\ Forall2 (local_spec t l m) (seq 0 (Z.to_nat m)) ts.
Proof.
  intros HT Hm. unfold scatter. rewrite (table_inv_len t l HT); cbn [bind].
  destruct (Z.eqb_spec m 1) as [->|H1].
  - exists [t]. split; [reflexivity|]. cbn [seq Z.to_nat Pos.to_nat Pos.iter_op Nat.add]. change (Pos.to_nat 1) with 1%nat. cbn [seq].
    constructor; [|constructor]. pose proof HT as (Hs & (HR & HX & HI & ND) & Hr). split; [reflexivity|].
    rewrite sublist_whole_m1 by reflexivity. split; [exact HR|]. split; [|split].
    + intros k. destruct (assoc k (t_attrs t)) as [[rows|a| |]|] eqn:Ek; try reflexivity.
      rewrite sublist_whole_m1; [reflexivity|]. symmetry; apply (Hr k). apply assoc_In; exact Ek.
    + change (Z.of_nat 0) with 0. change (Z.of_nat 1) with 1. rewrite split_start_0, split_start_m by lia.
      intros k rows Hin. rewrite (Hr k rows Hin). lia.
    + auto.
  - rewrite iota_map_seq, map_res_map. apply Forall2_seq. intros j Hj. apply getitem_local; assumption.
Qed.

Lemma Forall2_map_res {B C D} (P : B -> C -> Prop) (f : C -> res D) (g : B -> D) bs cs :
  Forall2 P bs cs -> (forall b c, P b c -> f c = Ok (g b)) -> map_res f cs = Ok (map g bs).
Proof.
  intros HF H. induction HF as [|b c bs cs Hp HF IH]; [reflexivity|]. cbn [map_res map].
  rewrite (H _ _ Hp), IH. reflexivity.
Qed.

Lemma local_indices {A} (t : table A) l m ts :
  Forall2 (local_spec t l m) (seq 0 (Z.to_nat m)) ts -> map_res t_indices ts = Ok (pieces l m).
Proof.
  intros HF. unfold pieces. eapply Forall2_map_res; [exact HF|].
  intros j t' (Hsh & HR & _). unfold t_indices, t_size in *. rewrite Hsh. apply ix_rep_list; exact HR.
Qed.

Lemma local_lens {A} (t : table A) l m ts :
  0 <= t_size t ->
  Forall2 (local_spec t l m) (seq 0 (Z.to_nat m)) ts -> map_res t_len ts = Ok (map zlen (pieces l m)).
Proof.
  intros Hs HF. unfold pieces. rewrite map_map. eapply Forall2_map_res; [exact HF|].
  intros j t' (Hsh & HR & _). unfold t_len, t_size in *. rewrite Hsh. apply ix_rep_len; assumption.
Qed.

Lemma local_rows_spec {A} (t : table A) l m ts k rows :
  0 < m -> assoc k (t_attrs t) = Some (AtArr rows) -> zlen rows = zlen l ->
  Forall2 (local_spec t l m) (seq 0 (Z.to_nat m)) ts -> map_res (local_rows k) ts = Ok (pieces rows m).
Proof.
  intros Hm Hk Hr HF. unfold pieces. rewrite Hr. eapply Forall2_map_res; [exact HF|].
  intros j t' (_ & _ & HA & _). specialize (HA k). rewrite Hk in HA. unfold local_rows. rewrite HA. reflexivity.
Qed.

Lemma Forall2_zlen {B C} (P : B -> C -> Prop) l r : Forall2 P l r -> zlen l = zlen r.
Proof. induction 1; [reflexivity|]. rewrite !zlen_cons. lia. Qed.

Lemma allgatherv_pieces {B} (l : list B) m : 0 < m -> allgatherv (split_counts (zlen l) m) (pieces l m) = Ok l.
Proof.
  intros Hm. unfold allgatherv. rewrite zlen_pieces by exact Hm. rewrite list_eqb_refl.
  rewrite concat_pieces by exact Hm. reflexivity.
Qed.

Lemma gather_ntot_spec {A} (t : table A) l m ts :
  0 <= t_size t -> 0 < m -> Forall2 (local_spec t l m) (seq 0 (Z.to_nat m)) ts -> gather_ntot ts = Ok (zlen l).
Proof.
  intros Hs Hm HF. unfold gather_ntot. rewrite (local_lens t l m ts Hs HF). cbn [bind].
  rewrite <- zlen_concat, concat_pieces by exact Hm. reflexivity.
Qed.

Lemma zlen_seq m : 0 <= m -> zlen (seq 0 (Z.to_nat m)) = m.
Proof. intros; unfold zlen; rewrite seq_length; lia. Qed.

Lemma gather_attrs_spec {A} (t : table A) l m ts attrs :
  table_inv t l -> 0 < m -> Forall2 (local_spec t l m) (seq 0 (Z.to_nat m)) ts ->
  (forall k rows, In (k, AtArr rows) attrs -> exists rows', assoc k (t_attrs t) = Some (AtArr rows')) ->
  exists attrs', gather_attrs ts (zlen l) attrs = Ok attrs' /\
    forall k, assoc k attrs' = match assoc k attrs with
                               | Some (AtArr _) => assoc k (t_attrs t)
                               | other => other
                               end.
Proof.
  intros HT Hm HF. induction attrs as [|(k & v) attrs IH]; intros HA.
  - exists []. split; [reflexivity|]. intros k; reflexivity.
  - destruct IH as (attrs' & E & H'); [intros k0 r Hin; eapply HA; right; exact Hin|].
    cbn [gather_attrs].
    assert (Hts : zlen ts = m) by (rewrite <- (Forall2_zlen _ _ _ HF); apply zlen_seq; lia).
    destruct v as [rows|a| |].
    2-4: cbn [bind]; rewrite E; cbn [bind]; eexists; split; [reflexivity|]; intros k0; cbn [assoc];
         destruct (String.eqb k0 k); [reflexivity|apply H'].
    destruct (HA k rows (or_introl eq_refl)) as (rows' & Hk).
    assert (Hr : zlen rows' = zlen l) by (destruct HT as (_ & _ & Hr); eapply Hr; apply assoc_In; exact Hk).
    rewrite (local_rows_spec t l m ts k rows' Hm Hk Hr HF). cbn [bind].
    rewrite Hts, <- Hr, (allgatherv_pieces rows' m Hm). cbn [bind]. rewrite Z.eqb_refl. cbn [bind].
    rewrite Hr, E. cbn [bind]. eexists; split; [reflexivity|]. intros k0; cbn [assoc].
    destruct (String.eqb_spec k0 k) as [Ek|_]; [subst; rewrite Hk; reflexivity|apply H'].
Qed.

Lemma In_assoc {A} (l : list (string * attr A)) k v : In (k, v) l -> exists v', assoc k l = Some v'.
Proof.
  induction l as [|(k0 & v0) l IH]; [intros []|]. cbn [assoc]. intros [E|H].
  - injection E as -> ->. rewrite String.eqb_refl. eauto.
  - destruct (String.eqb k k0); eauto.
Qed.

(** Values of each attribute name occur once (true of every table built by the API). *)
Definition keys_unique {A} (t : table A) : Prop := NoDup (map fst (t_attrs t)).

Lemma assoc_unique {A} (l : list (string * attr A)) k v :
  NoDup (map fst l) -> In (k, v) l -> assoc k l = Some v.
Proof.
  induction l as [|(k0 & v0) l IH]; [intros _ []|]. cbn [map fst assoc]. intros ND Hin. inversion ND as [|? ? Hn ND']; subst.
  destruct Hin as [E|Hin].
  - injection E as -> ->. rewrite String.eqb_refl. reflexivity.
  - destruct (String.eqb_spec k k0) as [E|_]; [subst|apply IH; assumption].
    exfalso. apply Hn. apply in_map_iff. exists (k0, v); auto.
Qed.

Lemma update_keys {A} k v (l : list (string * attr A)) :
  map fst (update k v l) = if existsb (String.eqb k) (map fst l) then map fst l else map fst l ++ [k].
Proof.
  induction l as [|(k0 & v0) l IH]; [reflexivity|]. cbn [update map fst existsb].
  destruct (String.eqb_spec k k0) as [E|E]; [subst; reflexivity|]. cbn [map fst orb].
  rewrite IH. destruct (existsb (String.eqb k) (map fst l)); reflexivity.
Qed.

Lemma update_unique {A} k v (l : list (string * attr A)) : NoDup (map fst l) -> NoDup (map fst (update k v l)).
Proof.
  intros ND. rewrite update_keys. destruct (existsb (String.eqb k) (map fst l)) eqn:E; [exact ND|].
  eapply Permutation_NoDup; [apply Permutation_cons_append|].
  constructor; [|exact ND]. intros Hin. assert (X : existsb (String.eqb k) (map fst l) = true)
    by (apply existsb_exists; exists k; split; [exact Hin|apply String.eqb_refl]). congruence.
Qed.

Lemma getitem_attrs_keys {A} (out : table A) s l l' : getitem_attrs out s l = Ok l' -> map fst l' = map fst l.
Proof.
  revert l'; induction l as [|(k & v) l IH]; intros l'; cbn [getitem_attrs].
  - intros E; injection E as <-; reflexivity.
  - intros H. apply bind_ok in H as (v' & _ & H). apply bind_ok in H as (r' & Hr & H). injection H as <-.
    cbn [map fst]. f_equal. apply IH; exact Hr.
Qed.

Lemma getitem_unique {A} (t t' : table A) s : keys_unique t -> getitem t s = Ok t' -> keys_unique t'.
Proof.
  unfold keys_unique, getitem. intros ND H. apply bind_ok in H as (n & _ & H). apply bind_ok in H as (ns & _ & H).
  assert (G : (do ix <- getitem_index (t_size t) (t_index t) ns;
               do attrs <- getitem_attrs (Table (t_shape t) ix (t_attrs t)) ns (t_attrs t);
               Ok (Table (t_shape t) ix attrs)) = Ok t' -> NoDup (map fst (t_attrs t'))).
  { intros G. apply bind_ok in G as (ix & _ & G). apply bind_ok in G as (at' & Ha & G). injection G as <-.
    cbn [t_attrs]. rewrite (getitem_attrs_keys _ _ _ _ Ha). exact ND. }
  destruct ns; [injection H as <-; exact ND|exact (G H)..].
Qed.

Lemma setattr_unique {A} (t t' : table A) k v : keys_unique t -> setattr t k v = Ok t' -> keys_unique t'.
Proof.
  unfold keys_unique, setattr. intros ND. destruct (existsb _ _); [discriminate|]. intros H.
  apply bind_ok in H as (w & _ & H). injection H as <-. apply update_unique; exact ND.
Qed.

Lemma init_attrs_unique {A} kw (t t' : table A) : keys_unique t -> init_attrs t kw = Ok t' -> keys_unique t'.
Proof.
  revert t; induction kw as [|(k & v) kw IH]; intros t ND; cbn [init_attrs].
  - intros H; injection H as <-; exact ND.
  - intros H. apply bind_ok in H as (pv & _ & H). apply bind_ok in H as (t1 & H1 & H).
    eapply IH; [eapply setattr_unique; eauto|exact H].
Qed.

Lemma setattr_all_unique {A} (t t' : table A) k v : keys_unique t -> setattr_all t k v = Ok t' -> keys_unique t'.
Proof.
  unfold keys_unique, setattr_all. intros ND. destruct (assoc k (t_attrs t)); [|discriminate].
  destruct (existsb _ _); [discriminate|]. intros H.
  apply bind_ok in H as (w & _ & H). injection H as <-. apply update_unique; exact ND.
Qed.

Lemma reachable_unique {A} (t : table A) : reachable t -> keys_unique t.
Proof.
  induction 1 as [shape s ord kw t HS Hs HM|t s n t' _ IH _ _ _ HG|t k v t' _ IH H|t k v t' _ IH H].
  - unfold mk_table in HM. apply bind_ok in HM as (ix & _ & HM). eapply init_attrs_unique; [|exact HM].
    constructor.
  - eapply getitem_unique; eauto.
  - eapply setattr_unique; eauto.
  - eapply setattr_all_unique; eauto.
Qed.

Lemma scatter_unique {A} (t : table A) m ts : keys_unique t -> scatter t m = Ok ts -> Forall keys_unique ts.
Proof.
  intros ND. unfold scatter. destruct (m =? 1).
  - intros E; injection E as <-. constructor; [exact ND|constructor].
  - intros H. apply bind_ok in H as (n & _ & H). apply map_res_ok in H.
    clear -ND H. induction H as [|r t' rs ts E HF IH]; constructor; [|exact IH]. eapply getitem_unique; eauto.
Qed.

Lemma gather_scatter {A} (t : table A) l m ts :
  table_inv t l -> 0 < m -> Forall2 (local_spec t l m) (seq 0 (Z.to_nat m)) ts -> Forall keys_unique ts ->
  exists gs, gather ts = Ok gs /\ zlen gs = m /\
    Forall (fun g => t_shape g = t_shape t /\ t_indices g = Ok l /\ t_len g = Ok (zlen l) /\
                     forall k, assoc k (t_attrs g) = assoc k (t_attrs t)) gs.
Proof.
  intros HT Hm HF HU. pose proof HT as (Hs & (HR & HX & HI & ND) & Hrows).
  unfold gather. rewrite (gather_ntot_spec t l m ts Hs Hm HF). cbn [bind].
  rewrite (local_indices t l m ts HF). cbn [bind].
  assert (Hts : zlen ts = m) by (rewrite <- (Forall2_zlen _ _ _ HF); apply zlen_seq; lia).
  rewrite Hts, (allgatherv_pieces l m Hm). cbn [bind].
  destruct (normalize_int_rep l (t_size t) HI (repeated_only_NoDup _ ND)) as [HNR _].
  pose proof HF as HF0.
  assert (G : forall js us, Forall2 (local_spec t l m) js us -> Forall keys_unique us ->
    exists gs, map_res (fun t0 : table A => do attrs <- gather_attrs ts (zlen l) (t_attrs t0);
                 Ok (Table (t_shape t0) (normalize_int_selection l (t_size t0)) attrs)) us = Ok gs /\
     zlen gs = zlen us /\
     Forall (fun g => t_shape g = t_shape t /\ t_indices g = Ok l /\ t_len g = Ok (zlen l) /\
                     forall k, assoc k (t_attrs g) = assoc k (t_attrs t)) gs).
  { intros js us H. induction H as [|j u js us HL H IH]; intros HUu; [exists []; repeat split; constructor|].
    inversion HUu as [|? ? Hu HUs]; subst. destruct (IH HUs) as (gs & E & HZ & HG).
    destruct HL as (Hsh & HRu & HA & HRL & _).
    destruct (gather_attrs_spec t l (zlen ts) ts (t_attrs u) HT Hm HF0) as (at' & Ea & H').
    { intros k rows Hin. pose proof (assoc_unique _ _ _ Hu Hin) as Hk. specialize (HA k). rewrite Hk in HA.
      destruct (assoc k (t_attrs t)) as [[rows'|a| |]|]; try discriminate. eauto. }
    cbn [map_res]. rewrite Ea. cbn [bind]. rewrite E. cbn [bind]. eexists; split; [reflexivity|].
    split; [rewrite !zlen_cons, HZ; reflexivity|]. constructor; [|exact HG].
    assert (Hsz : t_size u = t_size t) by (unfold t_size; rewrite Hsh; reflexivity).
    cbn [t_shape t_attrs]. unfold t_indices, t_len, t_size in *. cbn [t_shape t_index]. rewrite Hsh.
    split; [reflexivity|]. split; [apply ix_rep_list; exact HNR|]. split; [apply ix_rep_len; assumption|].
    intros k. rewrite H'. specialize (HA k).
    destruct (assoc k (t_attrs t)) as [[rows'|a| |]|]; rewrite HA; reflexivity. }
  rewrite <- Hts. apply (G _ _ HF HU).
Qed.

(** ** Distributed unpack *)
Lemma local_inv {A} (t : table A) l m j t' :
  table_inv t l -> 0 < m -> (j < Z.to_nat m)%nat -> 0 < zlen l -> local_spec t l m j t' ->
  table_inv t' (sublist l (split_start (zlen l) m (Z.of_nat j)) (split_start (zlen l) m (Z.of_nat (S j)))).
Proof.
  intros (Hs & (HR & HX & HI & ND) & Hr) Hm Hj Hl (Hsh & HR' & _ & HRL & HX').
  pose proof (zlen_nonneg l) as Hn.
  pose proof (split_start_bounds (zlen l) m (Z.of_nat j) Hn Hm ltac:(lia)) as B1.
  pose proof (split_start_bounds (zlen l) m (Z.of_nat (S j)) Hn Hm ltac:(lia)) as B2.
  pose proof (split_start_mono (zlen l) m (Z.of_nat j) Hn Hm) as B3.
  replace (Z.of_nat j + 1) with (Z.of_nat (S j)) in B3 by lia.
  assert (EG : map_res (get l) (progression (split_start (zlen l) m (Z.of_nat j)) 1
     (Z.to_nat (split_start (zlen l) m (Z.of_nat (S j)) - split_start (zlen l) m (Z.of_nat j)))) =
     Ok (sublist l (split_start (zlen l) m (Z.of_nat j)) (split_start (zlen l) m (Z.of_nat (S j))))).
  { rewrite map_res_get_sublist by lia. f_equal. f_equal. lia. }
  unfold table_inv. replace (t_size t') with (t_size t) by (unfold t_size; rewrite Hsh; reflexivity).
  split; [exact Hs|]. split; [split; [exact HR'|]; split; [apply HX'; exact Hl|]; split|].
  - unfold in_range in *. rewrite Forall_forall in *. intros i Hi. apply HI.
    apply map_res_ok in EG. clear -Hi EG. induction EG as [|x y xs ys E _ IH]; [destruct Hi|].
    destruct Hi as [<-|Hi]; [|auto]. apply get_ok in E as [_ E]. eapply nth_error_In; exact E.
  - eapply map_res_get_NoDup; [exact ND|apply NoDup_progression with (c := 1); lia|exact EG].
  - rewrite zlen_sublist by lia. exact HRL.
Qed.

Lemma set_all_app {A} (out : list A) w w' : set_all out (w ++ w') = set_all (set_all out w) w'.
Proof. unfold set_all. apply fold_left_app. Qed.

(** The writes of one piece. *)
Lemma write_pieces_spec {A} (pieces : list (table A * list A)) ws out :
  Forall2 (fun p w => exists l, unpack_positions (fst p) = Ok l /\ zlen (snd p) = zlen l /\ w = combine l (snd p)) pieces ws ->
  write_pieces out pieces = Ok (set_all out (concat ws)).
Proof.
  intros H; revert out; induction H as [|(t & x) w ps ws (l & El & Hx & ->) H IH]; intros out; [reflexivity|].
  cbn [write_pieces fst snd] in *. rewrite El; cbn [bind]. unfold np_assign, broadcast.
  rewrite Hx, Z.eqb_refl. cbn [bind]. rewrite IH. cbn [concat]. rewrite set_all_app. reflexivity.
Qed.

Lemma Forall2_perm {B C} (P : B -> C -> Prop) bs cs bs' :
  Forall2 P bs cs -> Permutation bs bs' -> exists cs', Forall2 P bs' cs' /\ Permutation cs cs'.
Proof.
  intros HF HP; revert cs HF; induction HP as [|x l l' HP IH|x y l|l l1 l2 HP1 IH1 HP2 IH2]; intros cs HF.
  - inversion HF; subst. exists []; split; [constructor|reflexivity].
  - inversion HF as [|? c ? cs0 Hc HF0]; subst. destruct (IH _ HF0) as (cs' & H1 & H2).
    exists (c :: cs'); split; [constructor; assumption|constructor; exact H2].
  - inversion HF as [|? c ? cs0 Hc HF0]; subst. inversion HF0 as [|? d ? cs1 Hd HF1]; subst.
    exists (d :: c :: cs1). split; [constructor; [assumption|constructor; assumption]|constructor].
  - destruct (IH1 _ HF) as (c1 & H1 & P1). destruct (IH2 _ H1) as (c2 & H2 & P2).
    exists c2; split; [exact H2|etransitivity; eauto].
Qed.

Lemma Permutation_concat {B} (ws ws' : list (list B)) : Permutation ws ws' -> Permutation (concat ws) (concat ws').
Proof.
  induction 1 as [|x l l' _ IH|x y l|l l1 l2 _ IH1 _ IH2]; cbn [concat].
  - reflexivity.
  - apply Permutation_app_head; exact IH.
  - rewrite !app_assoc. apply Permutation_app_tail, Permutation_app_comm.
  - etransitivity; eauto.
Qed.

Lemma combine_app {B C} (l1 l2 : list B) (r1 r2 : list C) :
  length l1 = length r1 -> combine (l1 ++ l2) (r1 ++ r2) = combine l1 r1 ++ combine l2 r2.
Proof.
  revert r1; induction l1 as [|x l1 IH]; intros [|y r1] H; cbn in *; try lia; [reflexivity|]. f_equal. apply IH; lia.
Qed.

Lemma concat_combine {B C} (ls : list (list B)) (rs : list (list C)) :
  map zlen ls = map zlen rs ->
  concat (map (fun p => combine (fst p) (snd p)) (combine ls rs)) = combine (concat ls) (concat rs).
Proof.
  revert rs; induction ls as [|l ls IH]; intros [|r rs] H; cbn [map] in H; try discriminate; [reflexivity|].
  cbn [combine map concat fst snd]. injection H as H0 H. rewrite combine_app by (unfold zlen in H0; lia).
  rewrite IH by exact H. reflexivity.
Qed.

Lemma unpack_dist_spec {A} (t : table A) l m ts x missing garbage order y :
  table_inv t l -> 0 < m -> 0 < zlen l -> Forall2 (local_spec t l m) (seq 0 (Z.to_nat m)) ts ->
  zlen x = zlen l -> zlen garbage = t_size t ->
  Permutation (combine ts (pieces x m)) order ->
  unpack t x missing garbage = Ok y ->
  unpack_dist ts order missing garbage = Ok (map (fun _ => y) ts).
Proof.
  intros HT Hm Hl HF Hx Hg HP Hy.
  pose proof (unpack_spec t l x missing garbage HT Hg Hx) as (y0 & Ey0 & HU).
  rewrite Hy in Ey0; injection Ey0 as <-.
  pose proof (ix_length_le t l HT) as HLe.
  pose proof HT as (Hs & (HR & HX & HI & ND) & Hrows).
  set (Pw := fun (p : table A * list A) (w : list (Z * A)) => exists l0, unpack_positions (fst p) = Ok l0 /\
       t_len (fst p) = Ok (zlen l0) /\ zlen (snd p) = zlen l0 /\ w = combine l0 (snd p)).
  assert (H1 : Forall2 Pw (combine ts (pieces x m)) (map (fun p => combine (fst p) (snd p)) (combine (pieces l m) (pieces x m)))).
  { unfold pieces. rewrite Hx. clear HP.
    assert (HB : forall j, In j (seq 0 (Z.to_nat m)) -> (j < Z.to_nat m)%nat) by (intros j Hj; apply in_seq in Hj; lia).
    revert HB. clear -HF HT Hm Hl Hx. induction HF as [|j t' js ts HL HF IH]; intros HB; [constructor|].
    cbn [map combine fst snd]. constructor; [|apply IH; intros; apply HB; right; assumption].
    assert (Hj : (j < Z.to_nat m)%nat) by (apply HB; left; reflexivity).
    pose proof (local_inv t l m j t' HT Hm Hj Hl HL) as HT'.
    eexists. cbn [fst snd]. split; [apply unpack_positions_spec; exact HT'|]. split; [apply table_inv_len; exact HT'|].
    split; [|reflexivity]. pose proof (zlen_nonneg l) as Hn.
    pose proof (split_start_bounds (zlen l) m (Z.of_nat j) Hn Hm ltac:(lia)) as B1.
    pose proof (split_start_bounds (zlen l) m (Z.of_nat (S j)) Hn Hm ltac:(lia)) as B2.
    pose proof (split_start_mono (zlen l) m (Z.of_nat j) Hn Hm) as B3.
    replace (Z.of_nat j + 1) with (Z.of_nat (S j)) in B3 by lia.
    rewrite !zlen_sublist by lia. reflexivity. }
  destruct (Forall2_perm _ _ _ _ H1 HP) as (ws & H2 & HPw).
  apply Permutation_concat in HPw.
  rewrite concat_combine in HPw by (rewrite !zlen_pieces by exact Hm; rewrite Hx; reflexivity).
  rewrite !concat_pieces in HPw by exact Hm.
  assert (HLen : length l = length x) by (unfold zlen in Hx; lia).
  unfold unpack_dist.
  assert (Hchk : exists us, map_res (fun p => check_packed (fst p) (snd p)) order = Ok us).
  { apply map_res_total. intros p Hp. clear -H2 Hp. exists tt. induction H2 as [|q w qs ws (l0 & _ & E2 & E3 & _) _ IH]; [destruct Hp|].
    destruct Hp as [->|Hp]; [|auto]. unfold check_packed. rewrite E2; cbn [bind]. rewrite E3, Z.eqb_refl, orb_true_r. reflexivity. }
  destruct Hchk as (us & ->). cbn [bind].
  apply map_res_pure. intros t' Ht'.
  assert (HL' : exists n, t_len t' = Ok n /\ 0 <= n <= zlen l /\ t_size t' = t_size t).
  { clear -HF Ht' HT Hm Hl.
    assert (HB : forall j, In j (seq 0 (Z.to_nat m)) -> (j < Z.to_nat m)%nat) by (intros j Hj; apply in_seq in Hj; lia).
    induction HF as [|j u js us HL HF IH]; [destruct Ht'|].
    destruct Ht' as [->|Ht']; [|apply IH; [assumption|intros; apply HB; right; assumption]].
    assert (Hj : (j < Z.to_nat m)%nat) by (apply HB; left; reflexivity).
    pose proof (local_inv t l m j t' HT Hm Hj Hl HL) as HT'. pose proof (table_inv_len _ _ HT') as E.
    eexists; split; [exact E|]. pose proof (zlen_nonneg l) as Hn.
    pose proof (split_start_bounds (zlen l) m (Z.of_nat j) Hn Hm ltac:(lia)) as B1.
    pose proof (split_start_bounds (zlen l) m (Z.of_nat (S j)) Hn Hm ltac:(lia)) as B2.
    pose proof (split_start_mono (zlen l) m (Z.of_nat j) Hn Hm) as B3.
    replace (Z.of_nat j + 1) with (Z.of_nat (S j)) in B3 by lia.
    rewrite zlen_sublist by lia. split; [lia|]. destruct HL as (Hsh & _). unfold t_size; rewrite Hsh; reflexivity. }
  destruct HL' as (n & En & Hn & Hsz). unfold unpack_rank. rewrite En; cbn [bind]. rewrite Hsz.
  erewrite write_pieces_spec with (ws := ws).
  2:{ clear -H2. induction H2 as [|q w qs ws (l0 & E1 & _ & E3 & E4) _ IH]; constructor; [|exact IH]. eauto. }
  f_equal. rewrite <- (set_all_perm _ (combine l x) (concat ws)).
  2:{ rewrite map_fst_combine by exact HLen. exact ND. }
  2:{ exact HPw. }
  eapply unpacked_unique; [exact HI| |exact HU].
  apply set_all_unpacked; auto.
  - destruct (n <? t_size t); [rewrite zlen_repeat; lia|exact Hg].
  - intros i Hi Hni. destruct (Z.ltb_spec n (t_size t)); [apply get_repeat; lia|].
    exfalso. apply Hni. apply (NoDup_length_incl ND (l' := iota (t_size t))).
    + pose proof (zlen_iota (t_size t) Hs) as HZ. unfold zlen in *; lia.
    + intros j Hj. apply In_iota. unfold in_range in HI; rewrite Forall_forall in HI; auto.
    + apply In_iota; exact Hi.
Qed.

(** ** Statements about reachable tables *)
Lemma scatter_gather {A} (t : table A) m :
  reachable t -> 0 < m ->
  exists l ts ls, t_indices t = Ok l /\ scatter t m = Ok ts /\ zlen ts = m /\
    map_res t_indices ts = Ok ls /\ concat ls = l /\
    exists gs, gather ts = Ok gs /\ zlen gs = m /\
      Forall (fun g => t_shape g = t_shape t /\ t_indices g = Ok l /\ t_len g = Ok (zlen l) /\
                       forall k, assoc k (t_attrs g) = assoc k (t_attrs t)) gs.
Proof.
  intros HR Hm. destruct (reachable_inv t HR) as (l & HT).
  destruct (scatter_spec t l m HT Hm) as (ts & E & HF).
  exists l, ts, (pieces l m). split; [apply table_inv_indices; exact HT|]. split; [exact E|].
  split; [rewrite <- (Forall2_zlen _ _ _ HF); apply zlen_seq; lia|].
  split; [eapply local_indices; exact HF|]. split; [apply concat_pieces; exact Hm|].
  eapply gather_scatter; eauto. eapply scatter_unique; [|exact E]. apply reachable_unique; exact HR.
Qed.

Lemma app_inj_length {B} (a b c d : list B) : a ++ b = c ++ d -> length a = length c -> a = c /\ b = d.
Proof.
  revert c; induction a as [|x a IH]; intros [|y c] E HL; cbn in *; try lia; [auto|].
  injection E as -> E. destruct (IH c E ltac:(lia)) as [-> ->]. auto.
Qed.

Lemma concat_same_lengths {B} (xs ys : list (list B)) : map zlen xs = map zlen ys -> concat xs = concat ys -> xs = ys.
Proof.
  revert ys; induction xs as [|x xs IH]; intros [|y ys] HL E; cbn [map concat] in *; try discriminate; [reflexivity|].
  injection HL as H0 HL. apply app_inj_length in E as [-> E]; [|unfold zlen in H0; lia]. f_equal. auto.
Qed.

Lemma local_pieces {A B} (t : table A) l m ts (x : list B) xs :
  table_inv t l -> 0 < m -> Forall2 (local_spec t l m) (seq 0 (Z.to_nat m)) ts -> zlen x = zlen l ->
  Forall2 (fun t' x' => t_len t' = Ok (zlen x')) ts xs -> concat xs = x -> xs = pieces x m.
Proof.
  intros HT Hm HF Hx HL HC. apply concat_same_lengths.
  - rewrite zlen_pieces, Hx, <- zlen_pieces by exact Hm.
    destruct HT as (Hs & _). pose proof (local_lens t l m ts Hs HF) as E.
    assert (E' : map_res t_len ts = Ok (map zlen xs)).
    { clear -HL. induction HL as [|t' x' ts xs E _ IH]; [reflexivity|]. cbn [map_res map]. rewrite E, IH. reflexivity. }
    congruence.
  - rewrite concat_pieces by exact Hm. exact HC.
Qed.

Lemma gather_array_spec {A B} (t : table A) m ts n (x : list B) xs :
  reachable t -> 0 < m -> t_len t = Ok n -> scatter t m = Ok ts -> zlen x = n ->
  Forall2 (fun t' x' => t_len t' = Ok (zlen x')) ts xs -> concat xs = x ->
  gather_array ts xs = Ok x.
Proof.
  intros HR Hm Hn E Hx HL HC. destruct (reachable_inv t HR) as (l & HT).
  rewrite (table_inv_len t l HT) in Hn. injection Hn as <-.
  destruct (scatter_spec t l m HT Hm) as (ts' & E' & HF). rewrite E in E'; injection E' as <-.
  rewrite (local_pieces t l m ts x xs HT Hm HF Hx HL HC).
  unfold gather_array. destruct HT as (Hs & _). rewrite (gather_ntot_spec t l m ts Hs Hm HF). cbn [bind].
  replace (zlen ts) with m by (rewrite <- (Forall2_zlen _ _ _ HF); symmetry; apply zlen_seq; lia).
  rewrite <- Hx. apply allgatherv_pieces; exact Hm.
Qed.

Lemma unpack_distributed {A} (t : table A) m ts n x xs missing garbage y order :
  reachable t -> 0 < m -> t_len t = Ok n -> 0 < n -> zlen x = n -> zlen garbage = prodZ (t_shape t) ->
  scatter t m = Ok ts -> Forall2 (fun t' x' => t_len t' = Ok (zlen x')) ts xs -> concat xs = x ->
  unpack t x missing garbage = Ok y ->
  Permutation (combine ts xs) order ->
  unpack_dist ts order missing garbage = Ok (map (fun _ => y) ts).
Proof.
  intros HR Hm Hn Hpos Hx Hg E HL HC Hy HP. destruct (reachable_inv t HR) as (l & HT).
  rewrite (table_inv_len t l HT) in Hn. injection Hn as <-.
  destruct (scatter_spec t l m HT Hm) as (ts' & E' & HF). rewrite E in E'; injection E' as <-.
  rewrite (local_pieces t l m ts x xs HT Hm HF Hx HL HC) in HP.
  exact (unpack_dist_spec t l m ts x missing garbage order y HT Hm Hpos HF Hx Hg HP Hy).
Qed.
