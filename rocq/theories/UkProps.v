(** C110: derived units of items taken with index arrays, lists and masks. *)
From Coq Require Import String List ZArith Arith Bool Lia.
From Verif Require Import Base BaseFacts UfModel UfSpec UkModel UkFacts.
Import ListNotations.
Local Open Scope nat_scope.

(** ** Index arrays of sublists *)
Lemma broadcastable_spec k : broadcastable k = true <-> exists n, Forall (fun m => m = 1 \/ m = n) (lengths k).
Proof.
  unfold broadcastable. set (l := lengths k). clearbody l. split.
  - destruct (filter _ l) as [|n r] eqn:E; intros H.
    + exists 1. apply Forall_forall. intros m I. left. destruct (Nat.eq_dec m 1) as [|N]; [assumption|]. exfalso.
      assert (X : In m (filter (fun n => negb (n =? 1)) l)) by (apply filter_In; split; [exact I|]; apply negb_true_iff, Nat.eqb_neq; exact N). rewrite E in X. destruct X.
    + exists n. apply Forall_forall. intros m I. destruct (Nat.eq_dec m 1) as [|N]; [auto|]. right.
      assert (X : In m (filter (fun n => negb (n =? 1)) l)) by (apply filter_In; split; [exact I|]; apply negb_true_iff, Nat.eqb_neq; exact N). rewrite E in X.
      destruct X as [->|X]; [reflexivity|]. rewrite forallb_forall in H. specialize (H m X). apply Nat.eqb_eq in H. auto.
  - intros [n F]. rewrite Forall_forall in F. assert (X : forall m, In m (filter (fun n => negb (n =? 1)) l) -> m = n).
    { intros m I. apply filter_In in I as [I N]. apply negb_true_iff, Nat.eqb_neq in N. destruct (F m I); [contradiction|assumption]. }
    destruct (filter _ l) as [|a r]; [reflexivity|]. apply forallb_forall. intros m I. apply Nat.eqb_eq. rewrite (X a (or_introl eq_refl)), (X m (or_intror I)). reflexivity.
Qed.
Lemma broadcastable_app a b : broadcastable (a ++ b) = true -> broadcastable a = true /\ broadcastable b = true.
Proof. rewrite !broadcastable_spec. intros [n F]. unfold lengths in F. rewrite flat_map_app, Forall_app in F. destruct F. split; exists n; assumption. Qed.

(** ** Specification: the items that are index arrays, integers beside them, or slices. *)
Definition a_slice (a : aitem) : Prop := match a with ASlice _ _ => True | _ => False end.
Definition an_index (a : aitem) : Prop := match a with AInt _ | AArr _ | AMask 1 _ => True | _ => False end.
(** Where each element of an array of some rank comes from. *)
Definition whole (ndim : nat) : barray (list Z) := BArray ndim (fun idx => idx).
(** Every element of the item has the derived unit that it had in the array. *)
Definition keeps_units {A} (dir : direction) (v : barray A) (x' : barray (list Z)) (v' : barray A) : Prop :=
  forall idx, length idx = b_rank x' -> element dir v' idx = element dir v (b_at x' idx).

Lemma slices_forallb S : Forall a_slice S -> forallb is_slice (map as_arr S) = true /\ Forall simple S.
Proof. induction 1 as [|a S H F [IH1 IH2]]; [split; [reflexivity|constructor]|]. destruct a; try contradiction. cbn. split; [exact IH1|constructor; [exact I|exact IH2]]. Qed.
Lemma index_forallb S : Forall an_index S -> forallb advanced (map as_arr S) = true /\ Forall simple S.
Proof. induction 1 as [|a S H F [IH1 IH2]]; [split; [reflexivity|constructor]|]. destruct a as [| | |[|[|m]]|]; try contradiction; cbn; split; try exact IH1; constructor; try exact I; exact IH2. Qed.
Lemma colons_slices n : forallb is_slice (repeat acolon n) = true.
Proof. apply forallb_forall. intros a I. apply repeat_spec in I. now subst. Qed.
Lemma map_colons n : map as_arr (repeat acolon n) = repeat acolon n.
Proof. induction n; cbn; congruence. Qed.

(** ** C110 *)
(** The index arrays, the integers and the masks of one dimension follow each other: every element of the
    item has the derived unit that it had. *)
Theorem C110_adjacent_partial : forall A ndim S B T dir (v : barray A) x', Forall a_slice S -> Forall an_index B -> Forall a_slice T ->
  length S + length B + length T <= ndim -> 0 < b_rank v <= ndim -> np_item (whole ndim) (S ++ B ++ T) = Ok x' -> b_rank x' <> 0 ->
  exists v', item (whole ndim) (KeyTuple (S ++ B ++ T)) dir v = Ok (x', Some v') /\ keeps_units dir v x' v'.
Proof.
  intros A ndim S B T dir v x' FS FB FT Le R X Nz. destruct (slices_forallb S FS) as [FS1 FS2]. destruct (index_forallb B FB) as [FB1 FB2]. destruct (slices_forallb T FT) as [FT1 FT2].
  set (key := S ++ B ++ T) in *. assert (Fk : Forall simple key) by (apply Forall_app; split; [exact FS2|apply Forall_app; auto]).
  assert (Lk : length key <= ndim) by (unfold key; rewrite !app_length; lia).
  set (n := ndim - length key). set (E := map as_arr key ++ repeat acolon n).
  assert (FE : full_key ndim key = Ok E) by (apply simple_full; assumption).
  assert (LE : length E = ndim) by (unfold E, n; rewrite app_length, map_length, repeat_length; lia).
  assert (BE : broadcastable E = true).
  { unfold np_item in X. cbn [whole b_rank] in X. rewrite FE in X. cbn [bind] in X. destruct (broadcastable E); [reflexivity|discriminate]. }
  destruct (np_item_full (whole ndim) key E FE BE) as (x0 & X0 & Rx & Ox). rewrite X in X0. injection X0 as <-. cbn [whole b_at] in Ox.
  assert (EB : E = map as_arr S ++ map as_arr B ++ (map as_arr T ++ repeat acolon n)) by (unfold E, key; rewrite !map_app, <- !app_assoc; reflexivity).
  assert (FT' : forallb is_slice (map as_arr T ++ repeat acolon n) = true) by (rewrite forallb_app, FT1; apply colons_slices).
  unfold item. cbn [np_key whole b_rank]. rewrite X. cbn [bind]. destruct (Nat.eqb_spec (b_rank x') 0) as [|_]; [contradiction|].
  unfold code_unit. rewrite simple_tuple by exact Fk. fold n. set (K := key ++ repeat acolon n).
  assert (FK : Forall simple K) by (apply Forall_app; split; [exact Fk|apply colons_simple]). assert (LK : length K = ndim) by (unfold K, n; rewrite app_length, repeat_length; lia).
  assert (EK : map as_arr K = E) by (unfold K, E; now rewrite map_app, map_colons).
  set (d := b_rank v) in *.
  destruct dir.
  - destruct d as [|d0] eqn:Ed; [lia|]. rewrite <- Ed in *. clear d0 Ed.
    set (sub := skipn (length K - d) K). assert (Fs : Forall simple sub) by (rewrite <- (firstn_skipn (length K - d) K), Forall_app in FK; apply FK).
    assert (Ls : length sub = d) by (unfold sub; rewrite skipn_length; lia).
    assert (Fv : full_key d sub = Ok (skipn (ndim - d) E)).
    { rewrite simple_full by (try exact Fs; lia). rewrite Ls, Nat.sub_diag. cbn [repeat]. rewrite app_nil_r. f_equal. unfold sub. rewrite <- skipn_map, EK, LK. reflexivity. }
    assert (Bv : broadcastable (skipn (ndim - d) E) = true) by (rewrite <- (firstn_skipn (ndim - d) E) in BE; apply broadcastable_app in BE; apply BE).
    destruct (np_item_full v sub _ Fv Bv) as (v' & V & Rv & Ov). rewrite V. cbn [bind]. exists v'. split; [reflexivity|]. intros idx Li. unfold element. rewrite Ov, Ox, Rv. f_equal.
    rewrite Rx in Li. rewrite EB in Li |- *. rewrite block_last by assumption. rewrite <- EB in Li |- *.
    unfold last_. f_equal. fold d. f_equal. rewrite EB in Li |- *. rewrite block_rank in Li by assumption.
    destruct (index_split _ _ _ idx Li) as (i & j & i' & -> & Li1 & Li2). rewrite block_origin by assumption. rewrite !app_length, !map_length, !slices_len by assumption.
    rewrite <- LE, EB, !app_length, !map_length. reflexivity.
  - set (sub := firstn d K). assert (Fs : Forall simple sub) by (rewrite <- (firstn_skipn d K), Forall_app in FK; apply FK).
    assert (Ls : length sub = d) by (unfold sub; rewrite firstn_length; lia).
    assert (Fv : full_key d sub = Ok (firstn d E)).
    { rewrite simple_full by (try exact Fs; lia). rewrite Ls, Nat.sub_diag. cbn [repeat]. rewrite app_nil_r. f_equal. unfold sub. rewrite <- firstn_map, EK. reflexivity. }
    assert (Bv : broadcastable (firstn d E) = true) by (rewrite <- (firstn_skipn d E) in BE; apply broadcastable_app in BE; apply BE).
    destruct (np_item_full v sub _ Fv Bv) as (v' & V & Rv & Ov). rewrite V. cbn [bind]. exists v'. split; [reflexivity|]. intros idx Li. unfold element. rewrite Ov, Ox, Rv. fold d. f_equal.
    rewrite Rx in Li. rewrite EB in Li |- *. apply block_first; assumption.
Qed.
Print Assumptions C110_adjacent_partial.

(** x[:, [4, 0], 7] with three axes: the second axis of the item is that of the index array. *)
Definition grid : barray (list Z) := whole 2.
Example C110_adjacent_case :
  match item (whole 3) (KeyTuple [acolon; AArr [4; 0]%Z; AInt 7]) Leftward grid with
  | Ok (x', Some v') => b_rank x' = 2 /\ b_at x' [5; 1]%Z = [5; 0; 7]%Z /\ element Leftward v' [5; 1]%Z = [0; 7]%Z
  | _ => False
  end /\
  match item (whole 3) (KeyTuple [acolon; AMask 1 [[4]; [0]]%Z; AInt 7]) Rightward grid with
  | Ok (x', Some v') => b_at x' [5; 1]%Z = [5; 0; 7]%Z /\ element Rightward v' [5; 1]%Z = [5; 0]%Z
  | _ => False
  end.
Proof. repeat split. Qed.

(** One index array, or a mask of one dimension, alone. *)
Theorem C110_one : forall A ndim a dir (v : barray A), an_index a -> (forall i, a <> AInt i) -> 0 < b_rank v <= ndim ->
  exists x' v', item (whole ndim) (KeyOne a) dir v = Ok (x', Some v') /\ np_item (whole ndim) [a] = Ok x' /\ keeps_units dir v x' v'.
Proof.
  intros A ndim a dir v F N R. assert (X : exists x', np_item (whole ndim) [a] = Ok x' /\ b_rank x' <> 0).
  { assert (Fs : Forall simple [a]) by (constructor; [|constructor]; destruct a as [| | |[|[|m]]|]; cbn in F; try contradiction; exact I).
    assert (FE : full_key (b_rank (whole ndim)) [a] = Ok (map as_arr [a] ++ repeat acolon (ndim - 1))) by (apply simple_full; [exact Fs|cbn; lia]).
    set (E := map as_arr [a] ++ repeat acolon (ndim - 1)) in *.
    assert (BE : broadcastable E = true).
    { apply broadcastable_spec. unfold E, lengths. rewrite flat_map_app. assert (Z : forall m, flat_map (fun a => match a with AArr l => [length l] | _ => [] end) (repeat acolon m) = []) by (induction m; auto). rewrite Z, app_nil_r.
      destruct a as [i| |l|[|[|m]] l|]; cbn in F; try contradiction; cbn; [exists 0; constructor|eexists; repeat constructor; right; reflexivity|eexists; repeat constructor; right; reflexivity]. }
    destruct (np_item_full (whole ndim) [a] E FE BE) as (x' & X & Rx & _). exists x'. split; [exact X|]. rewrite Rx. unfold rank_of, E.
    destruct a as [i| |l|[|[|m]] l|]; cbn in F; try contradiction; cbn; try lia. exfalso. now apply (N i). }
  destruct X as (x' & X & Nz). destruct (C110_adjacent_partial A ndim [] [a] [] dir v x') as (v' & I' & K'); try (constructor; fail); try assumption; [now constructor|cbn; lia|].
  exists x', v'. cbn [app] in I'. split; [|split; assumption]. rewrite <- I'. destruct a as [| | |m l|]; try reflexivity. contradiction.
Qed.
Print Assumptions C110_one.
Definition rows : barray Z := BArray 1 (fun i => hd 0%Z i).
Example C110_one_case :
  match item (whole 2) (KeyOne (AArr [3; 1]%Z)) Rightward rows with
  | Ok (x', Some v') => b_at x' [1; 8]%Z = [1; 8]%Z /\ element Rightward v' [1; 8]%Z = 1%Z /\ element Rightward v' [0; 8]%Z = 3%Z
  | _ => False
  end.
Proof. repeat split. Qed.

(** x[[i, j, ...]], a list: the code makes a tuple of it.  The derived unit of all the rows is that of the
    row i, whereas the rows are i, j, ... *)
Theorem C110_list_refuted : forall A ndim i l (v : barray A), 0 < ndim -> b_rank v = 1 ->
  exists x' v', item (whole ndim) (KeyList (i :: l)) Rightward v = Ok (x', Some v') /\ b_rank v' = 0 /\
  (forall idx, element Rightward v' idx = b_at v [i]) /\
  forall k idx, k < length (i :: l) -> length idx = ndim - 1 -> element Rightward v (b_at x' (Z.of_nat k :: idx)) = b_at v [nth k (i :: l) 0%Z].
Proof.
  intros A ndim i l v Hn Rv.
  assert (FE : full_key ndim [AArr (i :: l)] = Ok ([AArr (i :: l)] ++ repeat acolon (ndim - 1))) by (apply simple_full; [repeat constructor|cbn; lia]).
  set (E := [AArr (i :: l)] ++ repeat acolon (ndim - 1)) in *.
  assert (BE : broadcastable E = true).
  { apply broadcastable_spec. unfold E, lengths. rewrite flat_map_app. assert (Z : forall m, flat_map (fun a => match a with AArr l => [length l] | _ => [] end) (repeat acolon m) = []) by (induction m; auto). rewrite Z, app_nil_r.
    cbn. eexists; repeat constructor; right; reflexivity. }
  destruct (np_item_full (whole ndim) [AArr (i :: l)] E FE BE) as (x' & X & Rx & Ox).
  assert (Rr : b_rank x' = S (ndim - 1)).
  { rewrite Rx. assert (Y := block_rank [] [AArr (i :: l)] (repeat acolon (ndim - 1)) eq_refl eq_refl (colons_slices _)). cbn [app] in Y. unfold E. cbn [app]. rewrite Y. cbn. now rewrite repeat_length. }
  unfold item. cbn [np_key]. rewrite X. cbn [bind]. rewrite Rr. cbn [Nat.eqb]. cbn [whole b_rank]. unfold code_unit. rewrite Rv. cbn [firstn].
  assert (T : exists r, tuple_of ndim (KeyList (i :: l)) = AInt i :: r).
  { unfold tuple_of. cbn [code_tuple map]. assert (Q : forall m, find_ellipsis (map AInt m) = None) by (intros m; induction m as [|a m IH]; cbn; [|rewrite IH]; reflexivity). cbn [find_ellipsis]. rewrite Q. cbn. eexists. reflexivity. }
  destruct T as [r ->]. unfold np_item, full_key. cbn [firstn flat_map columns app split_ellipsis is_aellipsis]. rewrite Rv. cbn.
  exists x'. eexists. split; [reflexivity|]. split; [reflexivity|]. split; [reflexivity|].
  intros k idx Hk Li. unfold element. rewrite Rv, Ox. cbn [whole b_at]. f_equal.
  assert (Y := block_origin [] [AArr (i :: l)] (repeat acolon (ndim - 1)) (Z.of_nat k) [] idx eq_refl eq_refl (colons_slices _) eq_refl).
  cbn [app join existsb is_arr orb] in Y. unfold join in Y. cbn [existsb is_arr orb app] in Y. unfold E. cbn [app]. rewrite Y by (rewrite repeat_length; exact Li).
  cbn [slices_at combine map app picked firstn]. f_equal. rewrite Nat2Z.id. destruct (Nat.eqb_spec (length (i :: l)) 1) as [E1|]; [|reflexivity]. cbn in E1, Hk. assert (K0 : k = 0) by (clear - Hk E1; lia). now rewrite K0.
Qed.
Print Assumptions C110_list_refuted.

(** x[x > 0] with two axes: a derived unit for each row makes it fail. *)
Theorem C110_mask_refuted : forall A ndim l (v : barray A), 2 <= ndim -> b_rank v = 1 ->
  item (whole ndim) (KeyOne (AMask 2 l)) Rightward v = Err IndexError /\ exists x', np_item (whole ndim) [AMask 2 l] = Ok x'.
Proof.
  intros A ndim l v Hn Rv. assert (X : exists x', np_item (whole ndim) [AMask 2 l] = Ok x' /\ b_rank x' <> 0).
  { unfold np_item, full_key. cbn [whole b_rank flat_map columns seq map app split_ellipsis is_aellipsis existsb length].
    replace (ndim <? 2 + 0) with false by (symmetry; apply Nat.ltb_ge; lia). cbn [bind].
    match goal with |- context [broadcastable ?k] => assert (B : broadcastable k = true) end.
    { apply broadcastable_spec. cbn [app lengths flat_map length]. unfold lengths. assert (Z : forall m, flat_map (fun a => match a with AArr l => [length l] | _ => [] end) (repeat acolon m ++ []) = []) by (induction m; auto). cbn [flat_map app]. rewrite Z. rewrite !map_length.
      exists (length l). repeat constructor; right; reflexivity. }
    rewrite B. cbn [negb existsb is_arr orb app]. eexists. split; [reflexivity|]. cbn. lia. }
  destruct X as (x' & X & Nz). split; [|exists x'; exact X]. unfold item. cbn [np_key]. rewrite X. cbn [bind]. destruct (Nat.eqb_spec (b_rank x') 0) as [|_]; [contradiction|].
  unfold code_unit, tuple_of. cbn [code_tuple find_ellipsis]. rewrite Rv. cbn [app firstn]. unfold np_item, full_key. cbn. rewrite Rv. reflexivity.
Qed.
Print Assumptions C110_mask_refuted.
(** And a derived unit for each column is left as it is, whereas there is one axis, for the elements that
    are selected: that of the element k is the one of the column k. *)
Theorem C110_mask_leftward_refuted :
  exists x' v', item (whole 2) (KeyOne (AMask 2 [[0; 5]; [3; 2]]%Z)) Leftward rows = Ok (x', Some v') /\ b_rank x' = 1 /\
  element Leftward v' [0]%Z = 0%Z /\ element Leftward rows (b_at x' [0]%Z) = 5%Z.
Proof. eexists _, _. split; [reflexivity|]. repeat split. Qed.
Print Assumptions C110_mask_leftward_refuted.

(** x[[3, 1], :, [6, 2]]: the axis of the index arrays is the first of the item, the unit of the last axis
    does not follow. *)
Theorem C110_separated_refuted :
  exists x' v', item (whole 3) (KeyTuple [AArr [3; 1]; acolon; AArr [6; 2]]%Z) Leftward rows = Ok (x', Some v') /\ b_rank x' = 2 /\
  b_at x' [0; 1]%Z = [3; 1; 6]%Z /\ element Leftward v' [0; 1]%Z = 2%Z /\ element Leftward rows (b_at x' [0; 1]%Z) = 6%Z.
Proof. eexists _, _. split; [reflexivity|]. repeat split. Qed.
Print Assumptions C110_separated_refuted.
(** x[0, :, [6, 2]]: an integer is enough. *)
Theorem C110_separated_integer_refuted :
  exists x' v', item (whole 3) (KeyTuple [AInt 0; acolon; AArr [6; 2]]%Z) Leftward rows = Ok (x', Some v') /\ b_rank x' = 2 /\
  b_at x' [0; 1]%Z = [0; 1; 6]%Z /\ element Leftward v' [0; 1]%Z = 2%Z /\ element Leftward rows (b_at x' [0; 1]%Z) = 6%Z.
Proof. eexists _, _. split; [reflexivity|]. repeat split. Qed.
Print Assumptions C110_separated_integer_refuted.
(** x[[3, 1], ..., 0] with two axes: the ellipsis is not found behind an array, the unit of the rows keeps
    no trace of the column; with four axes, the slices are added at the end. *)
Theorem C110_ellipsis_refuted :
  (exists x' v', item (whole 2) (KeyTuple [AArr [3; 1]; AEllipsis; AInt 7]%Z) Rightward grid = Ok (x', Some v') /\ b_rank x' = 1 /\ b_rank v' = 2 /\ b_at x' [0]%Z = [3; 7]%Z) /\
  (exists x' v', item (whole 4) (KeyTuple [AArr [3; 1]; AEllipsis; AInt 7]%Z) Leftward rows = Ok (x', Some v') /\
     b_at x' [0; 5; 6]%Z = [3; 5; 6; 7]%Z /\ element Leftward v' [0; 5; 6]%Z = 6%Z /\ element Leftward rows (b_at x' [0; 5; 6]%Z) = 7%Z).
Proof. split; eexists _, _; (split; [reflexivity|]); repeat split. Qed.
Print Assumptions C110_ellipsis_refuted.

(** ** The derived units of an item in its conversions *)
(** A row of an array with a derived unit for each row: the derived unit is a number that has lost its unit,
    every conversion of the row fails. *)
Theorem C110_row_refuted : forall B C ndim i name (v : barray B) (same : C) convert, 2 <= ndim -> b_rank v = 1 ->
  exists du', item_units ndim (KeyOne (AInt i)) [((name, Some Rightward), VQty v)] = Ok du' /\
  inunit_start true true du' same convert = Err UnitError /\ get_du du' name = Err AttributeError.
Proof.
  intros B C ndim i name v same convert Hn Rv. destruct ndim as [|[|n]]; try lia. unfold item_units. cbn [update_all update_one snd fst].
  unfold code_unit. rewrite Rv. unfold tuple_of. cbn [code_tuple find_ellipsis option_map length Nat.sub repeat app firstn]. unfold np_item, full_key. cbn [flat_map columns app split_ellipsis is_aellipsis existsb length]. rewrite Rv. cbn.
  destruct (name_dec _ _) as [_|N]; [|contradiction]. cbn. eexists. split; [reflexivity|]. split; [reflexivity|]. unfold get_du. cbn [find fst]. destruct (list_eq_dec Ascii.ascii_dec name name); [reflexivity|contradiction].
Qed.
Print Assumptions C110_row_refuted.
(** Even if the unit of the row has nothing to do with it. *)
Example C110_row_case : exists du', item_units 2 (KeyOne (AInt 3)) [((TemplateModel.lit "detector"%string, Some Rightward), VQty rows)] = Ok du' /\
  du' = [((TemplateModel.lit "detector"%string, None), VNum 3%Z)].
Proof. eexists. split; reflexivity. Qed.
(** A function that has brackets in its name is accepted, no item can be taken then. *)
Theorem C110_function_refuted : forall B ndim k name dir n r, @item_units B ndim k (((name, Some dir), VFun n) :: r) = Err AttributeError /\
  (Forall (fun p => match snd p with VNum _ => False | _ => True end) r -> du_setter (((name, Some dir), @VFun B n) :: r) = Ok (((name, Some dir), VFun n) :: r)).
Proof.
  intros. split; [reflexivity|]. intros F. unfold du_setter. cbn [existsb snd orb].
  assert (E : existsb (fun p : du_name * du_value B => match snd p with VNum _ => true | _ => false end) r = false) by (induction F as [|p l H F IH]; [reflexivity|]; destruct p as [d x]; cbn [snd existsb] in H |- *; rewrite IH; destruct x; [reflexivity|contradiction|reflexivity]).
  now rewrite E.
Qed.
Print Assumptions C110_function_refuted.
(** The conversion of an item starts when every derived unit keeps an axis; the names are those of the array. *)
Theorem C110_convertible_partial : forall B C ndim k (du du' : du_dict B) (same : C) convert named named', NoDup (map fst du) ->
  Forall (fun p => match snd p with VNum _ => False | VFun _ => snd (fst p) = None
    | VQty v => forall dir, snd (fst p) = Some dir -> exists v', code_unit ndim k dir v = Ok v' /\ 0 < b_rank v' end) du ->
  item_units ndim k du = Ok du' ->
  map fst du' = map fst du /\ inunit_start named named' du' same convert = (if named && named' then convert du' else Ok same) /\
  Forall2 (fun p q => match snd (fst p), snd p with Some dir, VQty v => exists v', code_unit ndim k dir v = Ok v' /\ snd q = VQty v' | _, x => snd q = x end) du du'.
Proof.
  intros B C ndim k du du' same convert named named' ND F H.
  assert (P : forall l1 l2 acc : du_dict B, map fst l1 = map fst acc -> NoDup (map fst (l1 ++ l2)) ->
     Forall (fun p => match snd p with VNum _ => False | VFun _ => snd (fst p) = None
       | VQty v => forall dir, snd (fst p) = Some dir -> exists v', code_unit ndim k dir v = Ok v' /\ 0 < b_rank v' end) l2 ->
     exists l2' : du_dict B, update_all ndim k l2 (acc ++ l2) = Ok (acc ++ l2') /\ map fst l2' = map fst l2 /\
     Forall2 (fun p q => match snd (fst p), snd p with Some dir, VQty v => exists v', code_unit ndim k dir v = Ok v' /\ snd q = VQty v' | _, x => snd q = x end) l2 l2').
  { intros l1 l2. revert l1. induction l2 as [|[d x] l2 IH]; intros l1 acc Em Nd Fa; [exists []; repeat constructor|]. inversion Fa as [|? ? Fx Fr]; subst. cbn [fst snd] in Fx.
    assert (U : exists x', update_one ndim k d x (acc ++ (d, x) :: l2) = Ok (acc ++ (d, x') :: l2) /\ match snd d, x with Some dir, VQty v => exists v', code_unit ndim k dir v = Ok v' /\ x' = VQty v' | _, y => x' = y end).
    { unfold update_one. destruct (snd d) as [dir|] eqn:Sd; [|exists x; split; reflexivity].
      destruct x as [v|y|n]; [|contradiction|discriminate]. destruct (Fx dir eq_refl) as (v' & E & R). rewrite E. cbn [bind]. destruct (Nat.eqb_spec (b_rank v') 0) as [Z|_]; [lia|].
      exists (VQty v'). split; [|exists v'; auto]. f_equal.
      assert (NI : ~ In d (map fst acc)).
      { rewrite <- Em. rewrite map_app in Nd. cbn [map fst] in Nd. apply NoDup_remove_2 in Nd. intros I. apply Nd. apply in_or_app. auto. }
      clear - NI. induction acc as [|p acc IHa]; cbn [app dict_put fst].
      - destruct (name_dec d d); [reflexivity|contradiction].
      - destruct (name_dec (fst p) d) as [e|_]; [exfalso; apply NI; left; exact e|]. f_equal. apply IHa. intros I. apply NI. right. exact I. }
    destruct U as (x' & U & Ux). cbn [update_all]. rewrite U. cbn [bind].
    destruct (IH (l1 ++ [(d, x)]) (acc ++ [(d, x')])) as (l2' & E & M & G).
    - rewrite !map_app. now rewrite Em.
    - rewrite <- app_assoc. exact Nd.
    - exact Fr.
    - rewrite <- !app_assoc in E. cbn [app] in E. exists ((d, x') :: l2'). split; [exact E|]. split; [cbn; now rewrite M|]. constructor; [|exact G]. cbn [fst snd]. destruct (snd d); [destruct x|]; exact Ux. }
  destruct (P [] du [] eq_refl ND F) as (l & E & M & G). cbn [app] in E. unfold item_units in H. rewrite E in H. injection H as <-.
  split; [exact M|]. split; [|exact G]. unfold inunit_start. destruct named, named'; cbn [negb orb andb]; try reflexivity.
  assert (X : existsb (fun p : du_name * du_value B => match snd p with VNum _ => true | _ => false end) l = false).
  { clear - F G. induction G as [|p q du l H G IH]; [reflexivity|]. inversion F as [|? ? Fp Fr]; subst. cbn. rewrite (IH Fr), orb_false_r. destruct (snd (fst p)) as [dir|]; destruct (snd p) as [v|y|n]; try contradiction; try (rewrite H; reflexivity).
    destruct H as (v' & _ & ->). reflexivity. }
  unfold du_setter. rewrite X. reflexivity.
Qed.
Print Assumptions C110_convertible_partial.
Example C110_convertible_case : exists du', item_units 2 (KeyOne (ASlice 1 2)) [((TemplateModel.lit "det"%string, Some Rightward), VQty rows); ((TemplateModel.lit "x"%string, None), VFun 0)] = Ok du' /\
  map fst du' = [(TemplateModel.lit "det"%string, Some Rightward); (TemplateModel.lit "x"%string, None)] /\ inunit_start true true du' 0 (fun _ => Ok 1) = Ok 1.
Proof. eexists. split; [reflexivity|]. split; reflexivity. Qed.

(** The derived units without brackets are those of the array, unless they share their name. *)
Lemma put_keeps {B} (l : du_dict B) n v p : In p l -> fst p <> n -> In p (dict_put l n v).
Proof.
  intros I N. induction l as [|q l IH]; [destruct I|]. cbn. destruct (name_dec (fst q) n) as [E|E]; destruct I as [->|I].
  - contradiction.
  - right. exact I.
  - left. reflexivity.
  - right. apply IH, I.
Qed.
Theorem C110_unbracketed : forall B ndim k (du du' : du_dict B) name x,
  In ((name, None), x) du -> (forall dir, ~ In (name, Some dir) (map fst du)) -> item_units ndim k du = Ok du' ->
  In ((name, None), x) du'.
Proof.
  intros B ndim k du du' name x I N H. unfold item_units in H.
  assert (P : forall l acc, incl l du -> In ((name, None), x) acc -> update_all ndim k l acc = Ok du' -> In ((name, None), x) du'); [|apply (P du du); auto; intros q Q; exact Q].
  clear H I. induction l as [|[d v] l IH]; intros acc J I H; cbn in H; [injection H as <-; exact I|].
  destruct (update_one ndim k d v acc) as [acc'|] eqn:U; [|discriminate]. cbn in H. apply (IH acc'); [intros q Q; apply J; right; exact Q| |exact H].
  unfold update_one in U. destruct d as [g [dir|]]; cbn [snd fst] in U; [|injection U as <-; exact I].
  assert (G : g <> name).
  { intros ->. apply (N dir). apply in_map_iff. exists ((name, Some dir), v). split; [reflexivity|]. apply J. left. reflexivity. }
  destruct v as [v| |]; try discriminate. destruct (code_unit ndim k dir v) as [v'|]; [|discriminate]. cbn in U.
  destruct (b_rank v' =? 0); injection U as <-.
  - apply put_keeps; [|cbn; congruence]. apply filter_In. split; [exact I|]. cbn [fst]. destruct (name_dec (name, None) (g, Some dir)); [discriminate|reflexivity].
  - apply put_keeps; [exact I|cbn; congruence].
Qed.
Print Assumptions C110_unbracketed.
(** A row: the bracketed unit is removed, the other one is found. *)
Example C110_unbracketed_case : exists du', item_units 2 (KeyOne (AInt 3)) [((TemplateModel.lit "det"%string, Some Rightward), VQty rows); ((TemplateModel.lit "x"%string, None), VFun 5)] = Ok du' /\
  get_du du' (TemplateModel.lit "x"%string) = Ok (Some (VFun 5)) /\ get_du du' (TemplateModel.lit "y"%string) = Ok None /\ ~ In (TemplateModel.lit "det"%string, Some Rightward) (map fst du').
Proof. eexists. split; [reflexivity|]. split; [reflexivity|]. split; [reflexivity|]. intros [H|[H|[]]]; discriminate. Qed.
(** What is found under a name: nothing if there is no such name, brackets or not. *)
Theorem C110_find : forall B (du : du_dict B) name,
  (get_du du name = Ok None <-> forall d, In d (map fst du) -> fst d <> name) /\
  (forall x, get_du du name = Ok (Some x) -> exists d, fst d = name /\ In (d, x) du).
Proof.
  intros B du name. unfold get_du. induction du as [|[[g b] x] du [IH1 IH2]]; cbn [find map fst].
  - split; [split; [intros _ d []|reflexivity]|discriminate].
  - destruct (list_eq_dec Ascii.ascii_dec g name) as [E|E].
    + split; [|destruct x; intros y H; try discriminate; injection H as <-; eexists; (split; [|left; reflexivity]); exact E].
      split; [destruct x; discriminate|]. intros H. exfalso. apply (H (g, b)); [left; reflexivity|exact E].
    + split.
      * rewrite IH1. split; intros H d; [intros [<-|I]; [exact E|apply H, I]|intros I; apply H; right; exact I].
      * intros y H. destruct (IH2 y H) as [d [F I]]. exists d. split; [exact F|right; exact I].
Qed.
Print Assumptions C110_find.

(** ** The ellipsis *)
Definition basic (a : aitem) : Prop := match a with AInt _ | ASlice _ _ => True | _ => False end.
Lemma find_basic a b : Forall basic a -> find_ellipsis (a ++ AEllipsis :: b) = Some (length a).
Proof. induction 1 as [|x a H _ IH]; [reflexivity|]. destruct x; try contradiction; cbn; rewrite IH; reflexivity. Qed.
Lemma find_none a : Forall basic a -> find_ellipsis a = None.
Proof. induction 1 as [|x a H _ IH]; [reflexivity|]. destruct x; try contradiction; cbn; rewrite IH; reflexivity. Qed.
Lemma basic_columns a : Forall basic a -> flat_map columns a = a.
Proof. induction 1 as [|x a H _ IH]; [reflexivity|]. cbn. rewrite IH. destruct x; try contradiction; reflexivity. Qed.
Lemma basic_split a : Forall basic a -> split_ellipsis a = (a, None) /\ forall b, split_ellipsis (a ++ AEllipsis :: b) = (a, Some b).
Proof. induction 1 as [|x a H _ [IH1 IH2]]; [split; reflexivity|]. destruct x; try contradiction; cbn; rewrite IH1; (split; [reflexivity|]); intros b; rewrite IH2; reflexivity. Qed.

(** At the end of the key it changes nothing. *)
Theorem C110_ellipsis_end : forall A ndim key dir (v : barray A), Forall basic key -> length key < ndim ->
  item (whole ndim) (KeyTuple (key ++ [AEllipsis])) dir v = item (whole ndim) (KeyTuple key) dir v.
Proof.
  intros A ndim key dir v F L. unfold item.
  assert (T : tuple_of ndim (KeyTuple (key ++ [AEllipsis])) = tuple_of ndim (KeyTuple key)).
  { unfold tuple_of. cbn [code_tuple]. rewrite find_basic, find_none by exact F. cbv zeta.
    rewrite firstn_app, Nat.sub_diag, firstn_all. replace (S (length key)) with (length (key ++ [AEllipsis])) by (rewrite app_length; cbn; lia).
    rewrite skipn_all, firstn_O, !app_nil_r, <- app_assoc. f_equal. rewrite !app_length, repeat_length. cbn [length].
    rewrite <- repeat_app. f_equal. lia. }
  assert (N : np_item (whole ndim) (key ++ [AEllipsis]) = np_item (whole ndim) key).
  { unfold np_item, full_key. rewrite flat_map_app, !basic_columns by exact F. cbn [flat_map columns app].
    destruct (basic_split key F) as [S1 S2]. rewrite S1, S2. reflexivity. }
  cbn [np_key]. rewrite N. destruct (np_item (whole ndim) key) as [x'|]; [|reflexivity]. cbn [bind]. unfold code_unit. cbn [whole b_rank]. rewrite T. reflexivity.
Qed.
Print Assumptions C110_ellipsis_end.
Example C110_ellipsis_end_case : match item (whole 3) (KeyTuple [AInt 4; AEllipsis]) Leftward rows with
  | Ok (x', Some v') => b_at x' [1; 2]%Z = [4; 1; 2]%Z /\ element Leftward v' [1; 2]%Z = 2%Z | _ => False end.
Proof. split; reflexivity. Qed.

(** x[..., i]: the unit of the last axis is not indexed, it applies to another axis. *)
Theorem C110_last_refuted : forall A ndim i (v : barray A), 2 <= ndim -> b_rank v = 1 ->
  exists x' v', item (whole ndim) (KeyTuple [AEllipsis; AInt i]) Leftward v = Ok (x', Some v') /\ b_rank v' = 1 /\
  forall idx j, length idx = ndim - 2 -> b_at x' (idx ++ [j]) = idx ++ [j; i] /\
    element Leftward v' (idx ++ [j]) = b_at v [j] /\ element Leftward v (b_at x' (idx ++ [j])) = b_at v [i].
Proof.
  intros A ndim i v Hn Rv. destruct ndim as [|[|n]]; try lia. unfold item. cbn [np_key].
  assert (C : forall m, flat_map columns (repeat acolon m) = repeat acolon m) by (intros m; apply basic_columns, Forall_forall; intros a I; apply repeat_spec in I; subst a; exact Logic.I).
  assert (NP : np_item (whole (S (S n))) [AEllipsis; AInt i] = Ok (BArray (S n) (fun idx => fill (repeat acolon (S n) ++ [AInt i]) 0 idx))).
  { unfold np_item, full_key. cbn [whole b_rank flat_map columns app split_ellipsis is_aellipsis existsb length orb].
    replace (S (S n) <? 0 + 1) with false by (symmetry; apply Nat.ltb_ge; lia). cbn [bind]. replace (S (S n) - (0 + 1)) with (S n) by lia. cbn [app].
    assert (B : broadcastable (repeat acolon (S n) ++ [AInt i]) = true).
    { apply broadcastable_spec. exists 0. unfold lengths. rewrite flat_map_app. cbn [flat_map]. rewrite app_nil_r.
      assert (Z : forall m, flat_map (fun a => match a with AArr l => [length l] | _ => [] end) (repeat acolon m) = []) by (induction m; auto). rewrite Z. constructor. }
    rewrite B. cbn [negb].
    assert (Ex : existsb is_arr (repeat acolon (S n) ++ [AInt i]) = false).
    { rewrite existsb_app. cbn [existsb is_arr orb]. rewrite orb_false_r. clear. induction (S n) as [|m IH]; [reflexivity|]. cbn. exact IH. }
    rewrite Ex. f_equal. assert (SC : slice_count (repeat acolon (S n) ++ [AInt i]) = S n); [|rewrite SC; reflexivity].
    unfold slice_count. rewrite filter_app, app_length. cbn [filter is_slice length]. rewrite Nat.add_0_r. clear. induction (S n) as [|m IH]; [reflexivity|]. cbn. now rewrite IH. }
  rewrite NP. set (X := BArray (S n) _). assert (RX : b_rank X = S n) by reflexivity.
  assert (FX : forall idx j, length idx = n -> b_at X (idx ++ [j]) = idx ++ [j; i]).
  { intros idx j L. unfold X. cbn [b_at]. replace (S n) with (length (idx ++ [j])) by (rewrite app_length; cbn; lia).
    replace (idx ++ [j; i]) with ((idx ++ [j]) ++ [i]) by (rewrite <- app_assoc; reflexivity). generalize (idx ++ [j]). clear. intros l.
    induction l as [|x l IH]; [reflexivity|]. cbn [length repeat app]. unfold acolon at 1. cbn [fill hd tl]. rewrite IH. f_equal. destruct x; lia. }
  clearbody X. cbn [bind]. rewrite RX. cbn [Nat.eqb]. unfold code_unit. cbn [whole b_rank].
  assert (T : tuple_of (S (S n)) (KeyTuple [AEllipsis; AInt i]) = (repeat acolon n ++ [AInt i]) ++ [acolon]).
  { unfold tuple_of. cbn [code_tuple find_ellipsis]. cbv zeta. cbn [firstn skipn app length].
    replace (S (S n) - 2) with n by lia. rewrite app_length, repeat_length. cbn [length]. replace (S (S n) - (n + 1)) with 1 by lia. reflexivity. }
  rewrite T.
  assert (SK : skipn (length ((repeat acolon n ++ [AInt i]) ++ [acolon]) - 1) ((repeat acolon n ++ [AInt i]) ++ [acolon]) = [acolon]).
  { rewrite app_length. cbn [length]. rewrite Nat.add_sub, skipn_app, skipn_all, Nat.sub_diag. reflexivity. }
  rewrite Rv, SK. unfold np_item, full_key. cbn [flat_map columns app split_ellipsis is_aellipsis existsb length acolon]. rewrite Rv.
  replace (1 <? 1 + 0) with false by reflexivity. cbn. eexists _, _. split; [reflexivity|]. split; [reflexivity|]. intros idx j L.
  rewrite FX by lia. split; [reflexivity|]. unfold element, last_. cbn [b_rank b_at]. rewrite Rv.
  split.
  - rewrite app_length. cbn [length]. rewrite Nat.add_sub, skipn_app, skipn_all, Nat.sub_diag. cbn. f_equal. f_equal. destruct j; lia.
  - rewrite app_length. cbn [length]. replace (length idx + 2 - 1) with (length idx + 1) by lia. replace (idx ++ [j; i]) with ((idx ++ [j]) ++ [i]) by (rewrite <- app_assoc; reflexivity).
    replace (length idx + 1) with (length (idx ++ [j])) by (rewrite app_length; reflexivity). rewrite skipn_app, skipn_all, Nat.sub_diag. reflexivity.
Qed.
Print Assumptions C110_last_refuted.
