(** Lemmas on items taken with index arrays. *)
From Coq Require Import List ZArith Arith Bool Lia.
From Verif Require Import Base BaseFacts UfModel UfSpec UkModel.
Import ListNotations.
Local Open Scope nat_scope.

Definition advanced (a : aitem) : bool := match a with AInt _ | AArr _ => true | _ => false end.
Definition simple (a : aitem) : Prop := match a with AInt _ | ASlice _ _ | AArr _ | AMask 1 _ => True | _ => False end.
(** One dimension masks are index arrays. *)
Definition as_arr (a : aitem) : aitem := match a with AMask _ l => AArr (map (fun i => nth 0 i 0%Z) l) | _ => a end.
Lemma simple_columns key : Forall simple key -> flat_map columns key = map as_arr key.
Proof. induction 1 as [|a l H F IH]; [reflexivity|]. cbn [flat_map map]. rewrite IH. destruct a as [| | |[|[|m]]|]; cbn in H; try contradiction; reflexivity. Qed.
Lemma simple_no_ellipsis key : Forall simple key -> split_ellipsis (map as_arr key) = (map as_arr key, None).
Proof. induction 1 as [|a l H F IH]; [reflexivity|]. cbn [map split_ellipsis]. rewrite IH. destruct a as [| | |[|[|m]]|]; cbn in H; try contradiction; reflexivity. Qed.
Lemma simple_full rank key : Forall simple key -> length key <= rank -> full_key rank key = Ok (map as_arr key ++ repeat acolon (rank - length key)).
Proof.
  intros F L. unfold full_key. rewrite simple_columns, simple_no_ellipsis by exact F. cbn [existsb length]. rewrite map_length, Nat.add_0_r.
  replace (rank <? length key) with false by (symmetry; apply Nat.ltb_ge; exact L). now rewrite app_nil_r.
Qed.
Lemma simple_tuple ndim key : Forall simple key -> tuple_of ndim (KeyTuple key) = key ++ repeat acolon (ndim - length key).
Proof.
  intros F. unfold tuple_of. cbn [code_tuple]. assert (E : find_ellipsis key = None).
  { induction F as [|a l H F IH]; [reflexivity|]. cbn [find_ellipsis]. rewrite IH. destruct a as [| | |[|[|m]]|]; cbn in H; try contradiction; try reflexivity. destruct (_ =? _); reflexivity. }
  rewrite E. reflexivity.
Qed.
Lemma colons_simple n : Forall simple (repeat acolon n).
Proof. apply Forall_forall. intros a I. apply repeat_spec in I. subst. exact I. Qed.

(** ** Keys made of slices, index arrays and integers, slices *)
Definition slices_at (S : list aitem) (i : list Z) : list Z := map (fun p => match fst p with ASlice a s => (a + s * snd p)%Z | _ => 0%Z end) (combine S i).
Lemma fill_slices S r j i i' : forallb is_slice S = true -> length i = length S -> fill (S ++ r) j (i ++ i') = slices_at S i ++ fill r j i'.
Proof.
  revert i. induction S as [|a S IH]; intros [|x i] F L; try discriminate L; [reflexivity|]. cbn in F. apply andb_true_iff in F as [Fa F]. destruct a; try discriminate. cbn in L.
  cbn [app fill slices_at combine map fst snd hd tl]. f_equal. apply IH; [exact F|lia].
Qed.
Lemma fill_adv A r j i : forallb advanced A = true -> fill (A ++ r) j i = map (picked j) A ++ fill r j i.
Proof. induction A as [|a A IH]; intros F; [reflexivity|]. cbn in F. apply andb_true_iff in F as [Fa F]. destruct a; try discriminate; cbn [app fill map]; now rewrite IH. Qed.
Lemma fill_block S A T j i i' : forallb is_slice S = true -> forallb advanced A = true -> forallb is_slice T = true -> length i = length S -> length i' = length T ->
  fill (S ++ A ++ T) j (i ++ i') = slices_at S i ++ map (picked j) A ++ slices_at T i'.
Proof.
  intros FS FA FT L L'. rewrite fill_slices, fill_adv by assumption. rewrite <- (app_nil_r T), <- (app_nil_r i') at 1. rewrite fill_slices by assumption. cbn [fill]. now rewrite !app_nil_r.
Qed.
Lemma drop_slices S r : forallb is_slice S = true -> drop_while is_slice (S ++ r) = drop_while is_slice r.
Proof. induction S as [|a S IH]; intros F; [reflexivity|]. cbn in F. apply andb_true_iff in F as [Fa F]. cbn. rewrite Fa. auto. Qed.
Lemma take_slices S r : forallb is_slice S = true -> take_while is_slice (S ++ r) = S ++ take_while is_slice r.
Proof. induction S as [|a S IH]; intros F; [reflexivity|]. cbn in F. apply andb_true_iff in F as [Fa F]. cbn. rewrite Fa. now rewrite IH. Qed.
Lemma drop_adv A r : forallb advanced A = true -> drop_while (fun a => negb (is_slice a)) (A ++ r) = drop_while (fun a => negb (is_slice a)) r.
Proof. induction A as [|a A IH]; intros F; [reflexivity|]. cbn in F. apply andb_true_iff in F as [Fa F]. destruct a; try discriminate; cbn; auto. Qed.
Lemma block_place S A T : forallb is_slice S = true -> forallb advanced A = true -> forallb is_slice T = true -> A <> [] -> axis_place (S ++ A ++ T) = length S.
Proof.
  intros FS FA FT N. unfold axis_place, adjacent. rewrite drop_slices, take_slices by exact FS. destruct A as [|a A]; [contradiction|].
  assert (D : drop_while is_slice ((a :: A) ++ T) = (a :: A) ++ T) by (cbn in FA; destruct a; try discriminate; reflexivity).
  assert (K : take_while is_slice ((a :: A) ++ T) = []) by (cbn in FA; destruct a; try discriminate; reflexivity).
  rewrite D, K, app_nil_r, drop_adv by exact FA. assert (X : forallb is_slice (drop_while (fun a => negb (is_slice a)) T) = true).
  { destruct T as [|t T]; [reflexivity|]. cbn in FT |- *. apply andb_true_iff in FT as [Ft FT]. rewrite Ft. cbn. now rewrite Ft, FT. }
  now rewrite X.
Qed.
Lemma slices_no_arr S : forallb is_slice S = true -> existsb is_arr S = false.
Proof. induction S as [|a S IH]; intros F; [reflexivity|]. cbn in F |- *. apply andb_true_iff in F as [Fa F]. destruct a; try discriminate. auto. Qed.
Lemma slices_count S : forallb is_slice S = true -> slice_count S = length S.
Proof. unfold slice_count. induction S as [|a S IH]; intros F; [reflexivity|]. cbn in F |- *. apply andb_true_iff in F as [Fa F]. rewrite Fa. cbn. auto. Qed.
Lemma adv_count A : forallb advanced A = true -> slice_count A = 0.
Proof. unfold slice_count. induction A as [|a A IH]; intros F; [reflexivity|]. cbn in F |- *. apply andb_true_iff in F as [Fa F]. destruct a; try discriminate; cbn; auto. Qed.

(** The index in an array of an index of its item. *)
Definition origin (k : list aitem) (idx : list Z) : list Z :=
  if existsb is_arr k then (let p := axis_place k in fill k (nth p idx 0%Z) (remove_nth p idx)) else fill k 0 idx.
Definition rank_of (k : list aitem) : nat := (if existsb is_arr k then 1 else 0) + slice_count k.
Lemma np_item_full {A} (v : barray A) key k : full_key (b_rank v) key = Ok k -> broadcastable k = true ->
  exists v', np_item v key = Ok v' /\ b_rank v' = rank_of k /\ forall idx, b_at v' idx = b_at v (origin k idx).
Proof. intros E B. unfold np_item. rewrite E. cbn [bind]. rewrite B. cbn [negb]. unfold rank_of, origin. destruct (existsb is_arr k); eexists; repeat split. Qed.

(** An index: those of the slices, that of the index arrays if there is one. *)
Definition join (A : list aitem) (i : list Z) (j : Z) (i' : list Z) : list Z := i ++ (if existsb is_arr A then [j] else []) ++ i'.
Lemma block_arr S A T : forallb is_slice S = true -> forallb is_slice T = true -> existsb is_arr (S ++ A ++ T) = existsb is_arr A.
Proof. intros FS FT. rewrite !existsb_app, (slices_no_arr S FS), (slices_no_arr T FT). cbn [orb]. now rewrite orb_false_r. Qed.
Lemma block_rank S A T : forallb is_slice S = true -> forallb advanced A = true -> forallb is_slice T = true -> rank_of (S ++ A ++ T) = length S + (if existsb is_arr A then 1 else 0) + length T.
Proof.
  intros FS FA FT. unfold rank_of. rewrite block_arr by assumption. unfold slice_count. rewrite !filter_app, !app_length. fold (slice_count S) (slice_count A) (slice_count T).
  rewrite (slices_count S FS), (slices_count T FT), (adv_count A FA). lia.
Qed.
Lemma picked_no_arr A j j' : existsb is_arr A = false -> map (picked j) A = map (picked j') A.
Proof. induction A as [|a A IH]; intros F; [reflexivity|]. cbn in F. apply orb_false_iff in F as [Fa F]. cbn [map]. rewrite (IH F). f_equal. destruct a; try discriminate; reflexivity. Qed.
Lemma block_origin S A T j i i' : forallb is_slice S = true -> forallb advanced A = true -> forallb is_slice T = true -> length i = length S -> length i' = length T ->
  origin (S ++ A ++ T) (join A i j i') = slices_at S i ++ map (picked j) A ++ slices_at T i'.
Proof.
  intros FS FA FT L L'. unfold origin, join. rewrite block_arr by assumption. destruct (existsb is_arr A) eqn:E.
  - rewrite block_place by (try assumption; intros ->; discriminate). cbv zeta. rewrite <- L. rewrite app_nth2, Nat.sub_diag by lia. cbn [app nth].
    unfold remove_nth. rewrite firstn_app, Nat.sub_diag, firstn_all, firstn_O, app_nil_r.
    rewrite skipn_app, skipn_all2 by lia. replace (Datatypes.S (length i) - length i) with 1 by lia. cbn [skipn app]. now apply fill_block.
  - cbn [app]. rewrite fill_block by assumption. now rewrite (picked_no_arr A 0 j).
Qed.
Lemma index_split (S A T : list aitem) (idx : list Z) : length idx = length S + (if existsb is_arr A then 1 else 0) + length T ->
  exists i j i', idx = join A i j i' /\ length i = length S /\ length i' = length T.
Proof.
  intros L. unfold join. destruct (existsb is_arr A).
  - exists (firstn (length S) idx), (nth (length S) idx 0%Z), (skipn (Datatypes.S (length S)) idx). rewrite firstn_length, skipn_length. split; [|lia].
    rewrite <- (firstn_skipn (length S) idx) at 1. f_equal. cbn [app]. assert (H : length S < length idx) by lia. clear L. revert idx H. generalize (length S). induction n as [|n IH]; intros [|x idx] H; cbn in H; try lia; [reflexivity|]. cbn [skipn nth]. apply IH. lia.
  - exists (firstn (length S) idx), 0%Z, (skipn (length S) idx). rewrite firstn_length, skipn_length. cbn [app]. rewrite firstn_skipn. split; [reflexivity|lia].
Qed.
Lemma slices_len S i : length i = length S -> length (slices_at S i) = length S.
Proof. intros L. unfold slices_at. rewrite map_length, combine_length. lia. Qed.
Lemma slices_firstn n S i : slices_at (firstn n S) (firstn n i) = firstn n (slices_at S i).
Proof. unfold slices_at. now rewrite <- combine_firstn, firstn_map. Qed.
Lemma combine_skipn {A B} n (l : list A) (l' : list B) : skipn n (combine l l') = combine (skipn n l) (skipn n l').
Proof. revert l l'. induction n as [|n IH]; intros [|a l] [|b l']; cbn [skipn combine]; auto. now rewrite combine_nil. Qed.
Lemma slices_skipn n S i : slices_at (skipn n S) (skipn n i) = skipn n (slices_at S i).
Proof. unfold slices_at. now rewrite <- combine_skipn, skipn_map. Qed.
Lemma forallb_firstn {A} (f : A -> bool) n l : forallb f l = true -> forallb f (firstn n l) = true.
Proof. rewrite !forallb_forall. intros H x I. apply H. rewrite <- (firstn_skipn n l). apply in_or_app. auto. Qed.
Lemma forallb_skipn {A} (f : A -> bool) n l : forallb f l = true -> forallb f (skipn n l) = true.
Proof. rewrite !forallb_forall. intros H x I. apply H. rewrite <- (firstn_skipn n l). apply in_or_app. auto. Qed.

(** The first, or last, indices. *)
Lemma block_first S A T idx d : forallb is_slice S = true -> forallb advanced A = true -> forallb is_slice T = true -> length idx = rank_of (S ++ A ++ T) ->
  let k := firstn d (S ++ A ++ T) in origin k (firstn (rank_of k) idx) = firstn d (origin (S ++ A ++ T) idx).
Proof.
  intros FS FA FT L k. rewrite block_rank in L by assumption. destruct (index_split S A T idx L) as (i & j & i' & -> & Li & Li'). clear L.
  rewrite block_origin by assumption. unfold k. rewrite !firstn_app, firstn_map, slices_len, map_length by exact Li.
  set (S' := firstn d S). set (A' := firstn (d - length S) A). set (T' := firstn (d - length S - length A) T).
  assert (F1 : forallb is_slice S' = true) by (apply forallb_firstn; exact FS). assert (F2 : forallb advanced A' = true) by (apply forallb_firstn; exact FA). assert (F3 : forallb is_slice T' = true) by (apply forallb_firstn; exact FT).
  rewrite block_rank by assumption.
  assert (J : firstn (length S' + (if existsb is_arr A' then 1 else 0) + length T') (join A i j i') = join A' (firstn d i) j (firstn (d - length S - length A) i')).
  { unfold join, S', T'. rewrite !firstn_length. destruct (Nat.le_gt_cases d (length S)) as [C|C].
    - assert (EA : A' = []) by (unfold A'; replace (d - length S) with 0 by lia; reflexivity). rewrite EA. cbn [existsb]. replace (d - length S - length A) with 0 by lia. cbn [firstn].
      rewrite !app_nil_r. replace (Nat.min d (length S) + 0 + Nat.min 0 (length T)) with d by lia. rewrite firstn_app, Li. replace (d - length S) with 0 by lia. cbn [firstn]. now rewrite !app_nil_r.
    - destruct (Nat.le_gt_cases (d - length S) (length A)) as [C'|C'].
      + replace (d - length S - length A) with 0 by lia. cbn [firstn]. rewrite app_nil_r. rewrite (firstn_all2 (n := d) i) by lia.
        replace (Nat.min d (length S) + (if existsb is_arr A' then 1 else 0) + Nat.min 0 (length T)) with (length i + if existsb is_arr A' then 1 else 0) by (destruct (existsb is_arr A'); lia).
        rewrite firstn_app_2. f_equal. destruct (existsb is_arr A') eqn:E; [|reflexivity].
        assert (EA : existsb is_arr A = true) by (rewrite <- (firstn_skipn (d - length S) A), existsb_app; fold A'; now rewrite E). now rewrite EA.
      + assert (EA : A' = A) by (apply firstn_all2; lia). rewrite EA. rewrite (firstn_all2 (n := d) i) by lia.
        replace (Nat.min d (length S) + (if existsb is_arr A then 1 else 0) + Nat.min (d - length S - length A) (length T)) with (length i + ((if existsb is_arr A then 1 else 0) + Nat.min (d - length S - length A) (length T))) by (destruct (existsb is_arr A); lia).
        rewrite firstn_app_2. f_equal. rewrite <- Li'. destruct (existsb is_arr A); cbn [app plus firstn]; [f_equal|]; rewrite <- firstn_firstn, (firstn_all i'); reflexivity. }
  rewrite J. rewrite block_origin; try assumption.
  - unfold S', A', T'. rewrite !slices_firstn. rewrite ?firstn_map. reflexivity.
  - unfold S'. rewrite !firstn_length. lia.
  - unfold T'. rewrite !firstn_length. lia.
Qed.

Lemma last_app {A} (a b : list A) n : length b = n -> last_ n (a ++ b) = b.
Proof. intros <-. unfold last_. rewrite app_length. replace (length a + length b - length b) with (length a) by lia. rewrite skipn_app, Nat.sub_diag, skipn_all. reflexivity. Qed.
Lemma block_last S A T idx e : forallb is_slice S = true -> forallb advanced A = true -> forallb is_slice T = true -> length idx = rank_of (S ++ A ++ T) ->
  let k := skipn e (S ++ A ++ T) in origin k (last_ (rank_of k) idx) = skipn e (origin (S ++ A ++ T) idx).
Proof.
  intros FS FA FT L k. rewrite block_rank in L by assumption. destruct (index_split S A T idx L) as (i & j & i' & -> & Li & Li'). clear L.
  rewrite block_origin by assumption. unfold k. rewrite !skipn_app, skipn_map, slices_len, map_length by exact Li.
  set (S' := skipn e S). set (A' := skipn (e - length S) A). set (T' := skipn (e - length S - length A) T).
  assert (F1 : forallb is_slice S' = true) by (apply forallb_skipn; exact FS). assert (F2 : forallb advanced A' = true) by (apply forallb_skipn; exact FA). assert (F3 : forallb is_slice T' = true) by (apply forallb_skipn; exact FT).
  rewrite block_rank by assumption.
  assert (J : last_ (length S' + (if existsb is_arr A' then 1 else 0) + length T') (join A i j i') = join A' (skipn e i) j (skipn (e - length S - length A) i')).
  { assert (LS : length (skipn e i) = length S') by (unfold S'; rewrite !skipn_length; lia). assert (LT : length (skipn (e - length S - length A) i') = length T') by (unfold T'; rewrite !skipn_length; lia).
    destruct (Nat.le_gt_cases e (length S)) as [C|C].
    - assert (EA : A' = A) by (unfold A'; replace (e - length S) with 0 by lia; reflexivity). rewrite EA. replace (e - length S - length A) with 0 in * by lia. cbn [skipn] in *.
      unfold join. rewrite <- (firstn_skipn e i) at 1. rewrite <- app_assoc. apply last_app. rewrite !app_length. destruct (existsb is_arr A); cbn [length]; lia.
    - destruct (Nat.le_gt_cases (e - length S) (length A)) as [C'|C'].
      + replace (e - length S - length A) with 0 in * by lia. cbn [skipn] in *. rewrite (skipn_all2 (n := e) i) in * by lia. cbn [length] in LS. unfold join. cbn [app].
        destruct (existsb is_arr A') eqn:E; cbn [app].
        * assert (EA : existsb is_arr A = true) by (rewrite <- (firstn_skipn (e - length S) A), existsb_app; fold A'; rewrite E; apply orb_true_r). rewrite EA. apply last_app. cbn [length]. lia.
        * rewrite app_assoc. apply last_app. lia.
      + assert (EA : A' = []) by (apply skipn_all2; lia). rewrite EA. cbn [existsb]. rewrite (skipn_all2 (n := e) i) in * by lia. cbn [length] in LS. unfold join. cbn [existsb app].
        rewrite <- (firstn_skipn (e - length S - length A) i') at 1. rewrite !app_assoc. apply last_app. lia. }
  rewrite J. rewrite block_origin; try assumption.
  - unfold S', A', T'. rewrite !slices_skipn. rewrite ?skipn_map. reflexivity.
  - unfold S'. rewrite !skipn_length. lia.
  - unfold T'. rewrite !skipn_length. lia.
Qed.
