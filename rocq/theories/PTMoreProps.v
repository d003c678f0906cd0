(** Properties C12 to C15: distributed tables, memory sharing, grids. *)
From Coq Require Import String Permutation.
From Verif Require Import Base BaseFacts PTModel PTSpec PTFacts PTMpiModel PTMpiFacts PTHeapModel PTHeapFacts PTGridModel PTGridFacts.

(** ** C12: scatter then gather *)

(** The local indices put end to end give the global index (so each element is held by
    exactly one rank, the index having no duplicates by C09_reachable_consistent) and
    gathering restores the table on every rank. *)
Theorem C12_scatter_gather : forall (A : Type) (t : table A) m,
  reachable t -> 0 < m ->
  exists l ts ls, t_indices t = Ok l /\ scatter t m = Ok ts /\ zlen ts = m /\
    map_res t_indices ts = Ok ls /\ concat ls = l /\
    exists gs, gather ts = Ok gs /\ zlen gs = m /\
      Forall (fun g => t_shape g = t_shape t /\ t_indices g = Ok l /\ t_len g = Ok (zlen l) /\
                       forall k, assoc k (t_attrs g) = assoc k (t_attrs t)) gs.
Proof. exact @scatter_gather. Qed.
Print Assumptions C12_scatter_gather.

(** Gathering local pieces of the right lengths puts them end to end. *)
Theorem C12_gather_array : forall (A B : Type) (t : table A) m ts n (x : list B) xs,
  reachable t -> 0 < m -> t_len t = Ok n -> scatter t m = Ok ts -> zlen x = n ->
  Forall2 (fun t' x' => t_len t' = Ok (zlen x')) ts xs -> concat xs = x ->
  gather_array ts xs = Ok x.
Proof. exact @gather_array_spec. Qed.
Print Assumptions C12_gather_array.

Definition ex_table : table Z := Table [6] (IArr [5; 1; 4]) [("v"%string, AtArr [50; 10; 40])].

Lemma ex_table_reachable : reachable ex_table.
Proof.
  eapply (reach_set _ (Table [6] (IArr [5; 1; 4]) []) "v"%string (PVArr [50; 10; 40])); [|reflexivity].
  eapply (reach_new _ [6] (SelInts [5; 1; 4]) None []); [repeat constructor; lia| |reflexivity].
  cbn. split; [repeat constructor; cbn; lia|].
  repeat constructor; cbn; intuition discriminate.
Qed.

Example C12_example :
  (do ts <- scatter ex_table 5; do ls <- map_res t_indices ts; Ok ls) = Ok [[5]; [1]; [4]; []; []] /\
  (do ts <- scatter ex_table 2; do gs <- gather ts; Ok gs) = Ok [ex_table; ex_table].
Proof. split; reflexivity. Qed.

(** FINDING 6d.  A gathered table keeps its distributed communicator: gathering it again
    duplicates every element; and gathering after a local sub-selection does not match the
    receive counts. *)
Theorem C12_gather_twice_refuted :
  (do ts <- scatter ex_table 2; do gs <- gather ts; do hs <- gather gs; map_res t_indices hs)
  = Ok [[5; 1; 4; 5; 1; 4]; [5; 1; 4; 5; 1; 4]] /\
  exists t0 t1 u0, scatter ex_table 2 = Ok [t0; t1] /\ getitem t0 (SelSlice (PySlice (Some 2) None None)) = Ok u0 /\
    t_len u0 = Ok 0 /\ gather [u0; t1] = Err RuntimeError.
Proof. split; [reflexivity|]. do 3 eexists. split; [reflexivity|]. split; [reflexivity|]. split; reflexivity. Qed.
Print Assumptions C12_gather_twice_refuted.

(** ** C13: distributed unpack *)
Theorem C13_distributed_unpack_partial : forall (A : Type) (t : table A) m ts n x xs missing garbage y order,
  reachable t -> 0 < m -> t_len t = Ok n -> 0 < n -> zlen x = n -> zlen garbage = prodZ (t_shape t) ->
  scatter t m = Ok ts -> Forall2 (fun t' x' => t_len t' = Ok (zlen x')) ts xs -> concat xs = x ->
  unpack t x missing garbage = Ok y ->
  Permutation (combine ts xs) order ->
  unpack_dist ts order missing garbage = Ok (map (fun _ => y) ts).
Proof. exact @unpack_distributed. Qed.
Print Assumptions C13_distributed_unpack_partial.

Example C13_example :
  exists ts, scatter ex_table 2 = Ok ts /\
    unpack_dist ts (rev (combine ts [[7; 8]; [9]])) 0 [99; 99; 99; 99; 99; 99]
    = Ok [[0; 8; 0; 0; 9; 7]; [0; 8; 0; 0; 9; 7]] /\
    unpack ex_table [7; 8; 9] 0 [99; 99; 99; 99; 99; 99] = Ok [0; 8; 0; 0; 9; 7].
Proof. eexists; split; [reflexivity|]. split; reflexivity. Qed.

(** One value on each process, the same on all of them: the whole table is unpacked with that value. *)
Lemma write_pieces_const {A} (a : A) (order : list (table A * list A)) :
  Forall (fun p => snd p = [a] /\ exists l, unpack_positions (fst p) = Ok l /\ t_len (fst p) = Ok (zlen l)) order ->
  forall out, write_pieces out order = write_pieces out (map (fun p => (fst p, match t_len (fst p) with Ok n => repeat a (Z.to_nat n) | Err _ => [] end)) order).
Proof.
  induction 1 as [|(t & x) ps (Hx & l & El & En) H IH]; intros out; [reflexivity|]. cbn [map fst snd write_pieces] in *. subst x. rewrite El, En. cbn [bind].
  assert (E : np_assign out l [a] = np_assign out l (repeat a (Z.to_nat (zlen l)))).
  { unfold np_assign, broadcast. rewrite zlen_repeat, Z2Nat.id by apply zlen_nonneg. rewrite Z.eqb_refl. destruct (Z.eqb_spec (zlen [a]) (zlen l)) as [E1|E1]; [|reflexivity].
    rewrite <- E1. reflexivity. }
  rewrite E. destruct (np_assign out l (repeat a (Z.to_nat (zlen l)))) as [o|]; cbn [bind]; [exact (IH o)|reflexivity].
Qed.
Theorem C13_one_value : forall (A : Type) (t : table A) m ts n (a : A) missing garbage y order,
  reachable t -> 0 < m -> t_len t = Ok n -> 0 < n -> zlen garbage = prodZ (t_shape t) -> scatter t m = Ok ts ->
  unpack t [a] missing garbage = Ok y -> Permutation (map (fun t' => (t', [a])) ts) order ->
  unpack_dist ts order missing garbage = Ok (map (fun _ => y) ts).
Proof.
  intros A t m ts n a missing garbage y order HR Hm Hn Hpos Hg E Hy HP. destruct (reachable_inv t HR) as (l & HT).
  assert (Hl : zlen l = n) by (rewrite (table_inv_len t l HT) in Hn; congruence).
  destruct (scatter_spec t l m HT Hm) as (ts' & E' & HF). rewrite E in E'; injection E' as <-.
  set (full := fun t' : table A => match t_len t' with Ok n => repeat a (Z.to_nat n) | Err _ => [] end).
  assert (HB : forall t', In t' ts -> exists p, unpack_positions t' = Ok p /\ t_len t' = Ok (zlen p)).
  { assert (HB : forall j, In j (seq 0 (Z.to_nat m)) -> (j < Z.to_nat m)%nat) by (intros j Hj; apply in_seq in Hj; lia).
    clear -HF HT Hm Hpos Hl HB. intros t' Ht'. induction HF as [|j u js us HL HF IH]; [destruct Ht'|].
    destruct Ht' as [->|Ht']; [|apply IH; [intros; apply HB; right|]; assumption].
    assert (Hj : (j < Z.to_nat m)%nat) by (apply HB; left; reflexivity). rewrite <- Hl in Hpos.
    pose proof (local_inv t l m j t' HT Hm Hj Hpos HL) as HT'. eexists. split; [apply unpack_positions_spec; exact HT'|]. apply table_inv_len; exact HT'. }
  assert (EL : forall t', In t' ts -> t_len t' = Ok (zlen (full t'))).
  { intros t' Ht'. destruct (HB t' Ht') as (p & _ & En). unfold full. rewrite En, zlen_repeat, Z2Nat.id; [reflexivity|apply zlen_nonneg]. }
  assert (HC : concat (map full ts) = repeat a (Z.to_nat n)).
  { assert (HS := local_lens t l m ts ltac:(destruct HT; assumption) HF).
    assert (G : forall us ns, map_res t_len us = Ok ns -> concat (map full us) = repeat a (Z.to_nat (sumZ ns)) /\ (forall u, In u us -> t_len u = Ok (zlen (full u))) \/ exists u, In u us /\ t_len u <> Ok (zlen (full u))).
    { clear. induction us as [|u us IH]; intros ns H; cbn [map_res] in H; [injection H as <-; left; split; [reflexivity|intros ? []]|].
      destruct (t_len u) as [k|] eqn:Ek; [|discriminate]. cbn [bind] in H. destruct (map_res t_len us) as [ks|] eqn:Es; [|discriminate]. cbn [bind] in H. injection H as <-.
      destruct (IH ks eq_refl) as [[H1 H2]|(v & Hv & N)]; [|right; exists v; split; [right|]; assumption].
      destruct (Z.eq_dec k (zlen (full u))) as [Eq|N].
      - left. split.
        + cbn [map concat]. rewrite H1. unfold full. rewrite Ek. rewrite <- repeat_app. f_equal. cbn [sumZ fold_right]. unfold sumZ. rewrite <- Z2Nat.inj_add; [reflexivity|rewrite Eq; apply zlen_nonneg|].
          fold (sumZ ks). clear -Es H2. revert ks Es. induction us as [|v us IH]; intros ks Es; cbn [map_res] in Es; [injection Es as <-; cbn; lia|].
          rewrite (H2 v (or_introl eq_refl)) in Es. cbn [bind] in Es. destruct (map_res t_len us) as [ks'|]; [|discriminate]. cbn [bind] in Es. injection Es as <-.
          specialize (IH (fun w Hw => H2 w (or_intror Hw)) ks' eq_refl). pose proof (zlen_nonneg (full v)). cbn [sumZ fold_right] in *. unfold sumZ in *. cbn [fold_right]. lia.
        + intros v [<-|Hv]; [rewrite Ek; f_equal; exact Eq|now apply H2].
      - right. exists u. split; [left; reflexivity|]. rewrite Ek. intros X. injection X as X. contradiction. }
    destruct (G ts _ HS) as [[G1 _]|(u & Hu & N)]; [|exfalso; apply N; apply EL; exact Hu].
    rewrite G1. f_equal. f_equal. rewrite <- Hl. rewrite <- (concat_pieces l m Hm) at 2. clear. induction (pieces l m) as [|p ps IH]; [reflexivity|]. cbn [map concat]. rewrite zlen_app, <- IH. reflexivity. }
  assert (Hy' : unpack t (repeat a (Z.to_nat n)) missing garbage = Ok y).
  { destruct (Z.eq_dec (zlen l) 1) as [E1|E1]; [rewrite <- Hl, E1; exact Hy|].
    destruct (unpack_scalar_spec t l a missing garbage HT Hg E1) as (y1 & E2 & U1). rewrite Hy in E2. injection E2 as <-.
    assert (HX : zlen (repeat a (Z.to_nat n)) = zlen l) by (rewrite zlen_repeat; lia).
    destruct (unpack_spec t l (repeat a (Z.to_nat n)) missing garbage HT Hg HX) as (y2 & -> & U2). f_equal.
    replace (Z.to_nat n) with (length l) in U2 by (unfold zlen in Hl; lia).
    refine (unpacked_unique l _ _ missing y2 y _ U2 U1). destruct HT as (_ & (_ & _ & HI & _) & _). exact HI. }
  assert (HP' : Permutation (combine ts (map full ts)) (map (fun p => (fst p, full (fst p))) order)).
  { apply (Permutation_map (fun p => (fst p, full (fst p)))) in HP. rewrite map_map in HP. cbn [fst] in HP.
    replace (combine ts (map full ts)) with (map (fun t' => (t', full t')) ts); [exact HP|]. clear. induction ts as [|u ts IH]; [reflexivity|]. cbn [map combine]. f_equal. exact IH. }
  assert (HO : Forall (fun p => snd p = [a] /\ exists p', unpack_positions (fst p) = Ok p' /\ t_len (fst p) = Ok (zlen p')) order).
  { apply Forall_forall. intros p Hp. apply (Permutation_in _ (Permutation_sym HP)) in Hp. apply in_map_iff in Hp as (t' & <- & Ht'). split; [reflexivity|]. exact (HB t' Ht'). }
  assert (HD : unpack_dist ts (map (fun p => (fst p, full (fst p))) order) missing garbage = Ok (map (fun _ => y) ts)).
  { apply (unpack_distributed t m ts n (repeat a (Z.to_nat n)) (map full ts)); auto; [rewrite zlen_repeat; lia|].
    clear -EL. induction ts as [|u us IH]; constructor; [apply EL; left; reflexivity|]. apply IH. intros v Hv. apply EL. right. exact Hv. }
  rewrite <- HD. unfold unpack_dist.
  assert (C1 : exists us, map_res (fun p => check_packed (fst p) (snd p)) order = Ok us).
  { apply map_res_total. intros p Hp. rewrite Forall_forall in HO. destruct (HO p Hp) as (-> & p' & _ & En). exists tt. unfold check_packed. rewrite En. reflexivity. }
  destruct C1 as (us & C1).
  assert (C2 : exists us, map_res (fun p => check_packed (fst p) (snd p)) (map (fun p => (fst p, full (fst p))) order) = Ok us).
  { apply map_res_total. intros p Hp. apply in_map_iff in Hp as (q & <- & Hq). rewrite Forall_forall in HO. destruct (HO q Hq) as (_ & p' & _ & En). exists tt. cbn [fst snd]. unfold check_packed, full. rewrite En. cbn [bind].
    rewrite zlen_repeat, Z2Nat.id by apply zlen_nonneg. rewrite Z.eqb_refl, orb_true_r. reflexivity. }
  destruct C2 as (us2 & C2). rewrite C1, C2. cbn [bind].
  assert (R : forall t', unpack_rank t' order missing garbage = unpack_rank t' (map (fun p => (fst p, full (fst p))) order) missing garbage).
  { intros t'. unfold unpack_rank. destruct (t_len t'); [|reflexivity]. cbn [bind]. unfold full. now rewrite (write_pieces_const a order HO). }
  clear -R. induction ts as [|u ts IH]; [reflexivity|]. cbn [map_res]. rewrite R, IH. reflexivity.
Qed.
Print Assumptions C13_one_value.
Example C13_one_value_example : exists ts, scatter ex_table 2 = Ok ts /\
  unpack_dist ts (map (fun t' => (t', [7])) ts) 0 [99; 99; 99; 99; 99; 99] = Ok [[0; 7; 0; 0; 7; 7]; [0; 7; 0; 0; 7; 7]].
Proof. eexists; split; reflexivity. Qed.

(** A piece of another size is refused. *)
Theorem C13_wrong_size : forall (A : Type) (ts : list (table A)) order missing garbage t x n,
  Forall (fun p => exists k, t_len (fst p) = Ok k) order -> In (t, x) order -> t_len t = Ok n -> zlen x <> 1 -> zlen x <> n ->
  unpack_dist ts order missing garbage = Err ValueError.
Proof.
  intros A ts order missing garbage t x n HF HI Hn H1 H2. unfold unpack_dist.
  assert (E : map_res (fun p => check_packed (fst p) (snd p)) order = Err ValueError).
  { induction order as [|[t0 x0] r IH]; [destruct HI|]. inversion HF as [|? ? [k Hk] HF']; subst. cbn [fst] in Hk.
    cbn [map_res fst snd]. unfold check_packed at 1. rewrite Hk. cbn [bind].
    destruct ((zlen x0 =? 1) || (zlen x0 =? k)) eqn:B; [|reflexivity]. cbn [bind].
    destruct HI as [HI|HI].
    - injection HI as -> ->. rewrite Hn in Hk. injection Hk as ->. lia.
    - rewrite (IH HF' HI). reflexivity. }
  rewrite E. reflexivity.
Qed.
Print Assumptions C13_wrong_size.
Example C13_wrong_size_example : exists ts, scatter ex_table 2 = Ok ts /\
  unpack_dist ts (combine ts [[7; 8]; []]) 0 [99; 99; 99; 99; 99; 99] = Err ValueError.
Proof. eexists; split; reflexivity. Qed.

(** FINDING 4 (continued).  An empty whole table cannot be unpacked once scattered. *)
Theorem C13_empty_refuted :
  unpack (Table [0] IAll [] : table Z) [] 7 [] = Ok [] /\
  (do ts <- scatter (Table [3] (ISlice 0 0 1) [] : table Z) 2; unpack_dist ts (combine ts [[]; []]) 7 [0; 0; 0])
  = Err ValueError /\
  unpack (Table [3] (ISlice 0 0 1) [] : table Z) [] 7 [0; 0; 0] = Ok [7; 7; 7].
Proof. repeat split. Qed.
Print Assumptions C13_empty_refuted.

(** ** C14: assignments and memory sharing *)

(** Assigning an array never changes another attribute or another table. *)
Theorem C14_array_assignment : forall (A : Type) os (st : state A) i k rows st',
  hrun (St [] []) os = Ok st -> h_set st i k rows = Ok st' ->
  read st' i k = Some (Ok rows) /\ forall j k', (j, k') <> (i, k) -> read st' j k' = read st j k'.
Proof. exact @array_assignment_local. Qed.
Print Assumptions C14_array_assignment.
(** It is accepted for as many rows as the table has elements, and only then. *)
Theorem C14_array_size : forall (A : Type) (st : state A) i o k rows, nth_error (objs st) i = Some o ->
  (zlen rows = h_len o -> exists st', h_set st i k rows = Ok st' /\ length (objs st') = length (objs st)) /\
  (zlen rows <> h_len o -> h_set st i k rows = Err ValueError).
Proof.
  intros A st i o k rows E. unfold h_set. rewrite E. split; intros H.
  - rewrite H, Z.eqb_refl. eexists. split; [reflexivity|]. unfold set_obj. cbn [objs]. rewrite E. cbn. apply set_nth_length.
  - replace (zlen rows =? h_len o) with false by lia. reflexivity.
Qed.
Print Assumptions C14_array_size.

(** Assigning a scalar does not either, when the sub-tables of the history were taken with
    masks or lists of positions from tables without 0-d attributes. *)
Theorem C14_scalar_assignment_partial : forall (A : Type) os (st : state A) i k a st',
  hist_copying (St [] []) os -> hrun (St [] []) os = Ok st -> h_set0 st i k a = Ok st' ->
  forall j k', (j, k') <> (i, k) -> read st' j k' = read st j k'.
Proof. exact @scalar_assignment_local. Qed.
Print Assumptions C14_scalar_assignment_partial.

(** Taking a sub-table changes no existing table. *)
Theorem C14_selection : forall (A : Type) os (st : state A) i s st' r,
  hrun (St [] []) os = Ok st -> h_get st i s = Ok (st', r) ->
  forall j k, (j < length (objs st))%nat -> read st' j k = read st j k.
Proof. exact @selection_reads. Qed.
Print Assumptions C14_selection.

Example C14_example :
  let os := [ONew 3 [("v"%string, INew [1; 2; 3])]; OGet 0 (SelInts [2; 0]); OGet 1 (SelBool [2] [true; false])] in
  hist_copying (St [] []) os /\
  exists st st', hrun (St [] []) os = Ok st /\ h_set0 st 1 "v"%string 9 = Ok st' /\
    read st' 0 "v"%string = Some (Ok [1; 2; 3]) /\ read st' 1 "v"%string = Some (Ok [9; 9]) /\
    read st' 2 "v"%string = Some (Ok [3]).
Proof.
  split.
  - cbn. split; [exact I|]. split; [split; [exact I|]|split; [split; [exact I|]|exact I]]; unfold no_0d; cbn; intuition discriminate.
  - do 2 eexists. split; [reflexivity|]. split; [reflexivity|]. repeat split.
Qed.

(** FINDING 6c.  A scalar assigned on a slice of a table is written into the table; a 0-d
    attribute is shared by every sub-table; a full slice is the table itself. *)
Theorem C14_slice_refuted : exists st st',
  hrun (St [] []) [ONew 3 [("v"%string, INew [1; 2; 3])]; OGet 0 (SelSlice (PySlice (Some 1) None None))] = Ok st /\
  read st 0 "v"%string = Some (Ok [1; 2; 3]) /\
  h_set0 st 1 "v"%string 9 = Ok st' /\ read st' 0 "v"%string = Some (Ok [1; 9; 9]).
Proof. do 2 eexists. split; [reflexivity|]. split; [reflexivity|]. split; reflexivity. Qed.
Print Assumptions C14_slice_refuted.

Theorem C14_0d_refuted : exists st st',
  hrun (St [] []) [ONew 3 [("v"%string, I0 1)]; OGet 0 (SelInts [2])] = Ok st /\
  read st 0 "v"%string = Some (Ok [1]) /\
  h_set0 st 1 "v"%string 9 = Ok st' /\ read st' 0 "v"%string = Some (Ok [9]).
Proof. do 2 eexists. split; [reflexivity|]. split; [reflexivity|]. split; reflexivity. Qed.
Print Assumptions C14_0d_refuted.

(** ... so that scattering a one-element table over any number of ranks returns, on rank 0,
    the very table it was called on (whose communicator is then replaced). *)
Theorem C14_scatter_self_refuted : forall (A : Type) (st : state A) i o m,
  nth_error (objs st) i = Some o -> h_len o = 1 -> 1 < m ->
  h_get st i (SelSlice (split_slice 1 m 0)) = Ok (st, i).
Proof.
  intros A st i o m Ho Hl Hm. unfold h_get. rewrite Ho, Hl.
  unfold split_slice. rewrite split_start_0 by lia.
  replace (split_start 1 m (0 + 1)) with 1.
  - reflexivity.
  - unfold split_start. rewrite Z.div_small, Z.mod_small by lia. lia.
Qed.
Print Assumptions C14_scatter_self_refuted.

(** ** C15: rows and columns *)
Theorem C15_rows_columns : forall (A : Type) (t : table A) nr nc sw,
  reachable t -> t_shape t = [nr; nc] -> 0 <= nr -> 0 <= nc ->
  exists l rows cols, t_indices t = Ok l /\ grid_rows t nc sw = Ok rows /\ grid_columns t nc sw = Ok cols /\
    zlen rows = zlen l /\ zlen cols = zlen l /\
    (forall k i, nth_error l k = Some i -> exists r c,
       nth_error rows k = Some r /\ nth_error cols k = Some c /\
       sw <= r < sw + nr /\ sw <= c < sw + nc /\ i = (r - sw) * nc + (c - sw)) /\
    NoDup (combine rows cols).
Proof. exact @grid_rows_cols. Qed.
Print Assumptions C15_rows_columns.

Example C15_example :
  (do t <- mk_table (A := Z) [3; 4] (SelInts [11; 2; 5]) None []; do r <- grid_rows t 4 1; do c <- grid_columns t 4 1; Ok (r, c))
  = Ok ([3; 1; 2], [4; 3; 2]).
Proof. reflexivity. Qed.

(** FINDING 34.  A (3, 4) grid of which only the rows are splittable (ndim=1) has index
    0, 1, 2, which row and column divide by the number of columns: all in row 0. *)
Theorem C15_ndim1_refuted :
  (do t <- mk_table (A := Z) [3] SelNone None []; do l <- t_indices t; do r <- grid_rows t 4 0; Ok (l, r))
  = Ok ([0; 1; 2], [0; 0; 0]).
Proof. reflexivity. Qed.
Print Assumptions C15_ndim1_refuted.
