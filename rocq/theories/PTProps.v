(** Properties C01 to C11: packed tables.
    Statements only mention the API operations of PTModel and the vocabulary of PTSpec. *)
From Coq Require Import String Sorted Permutation.
From Verif Require Import Base BaseFacts PTModel PTSpec PTSliceFacts PTIndexFacts PTGetFacts PTCtorFacts PTFacts PTPropLemmas.

(** ** C01: slices *)

(** Selecting with a slice at construction gives exactly Python's positions, for every
    slice except backward slices whose stop is below -n-1. *)
Theorem C01_slice_construction_partial : forall (A : Type) n s,
  0 <= n ->
  (0 < py_step s \/ (py_step s < 0 /\ match sl_stop s with Some v => - n - 1 <= v | None => True end)) ->
  exists t l, mk_table [n] (SelSlice s) None [] = Ok (t : table A) /\
    py_slice_positions s n = Ok l /\ t_indices t = Ok l /\ t_len t = Ok (zlen l).
Proof. exact @slice_new. Qed.
Print Assumptions C01_slice_construction_partial.

Example C01_example :
  py_slice_positions (PySlice (Some (-2)) None (Some (-3))) 10 = Ok [8; 5; 2] /\
  (do t <- mk_table (A := Z) [10] (SelSlice (PySlice (Some (-2)) None (Some (-3)))) None []; t_indices t) = Ok [8; 5; 2].
Proof. split; reflexivity. Qed.

(** Any chain of slices, in any direction, of a table without array attributes gives
    Python's chained slicing of its index. *)
Theorem C01_slice_chain_partial : forall (A : Type) n ss,
  0 <= n -> slices_ok ss (iota n) ->
  exists t l, fold_slices (Table [n] IAll [] : table A) ss = Ok t /\ chain (iota n) ss = Ok l /\
    t_indices t = Ok l /\ t_len t = Ok (zlen l).
Proof.
  intros A n ss Hn Hok.
  assert (EP : prodZ [n] = n) by (cbn; lia).
  exact (slice_chain_ok (A := A) ss [n] IAll (iota n) ltac:(lia) ltac:(cbn [ix_rep]; rewrite EP; reflexivity) I
           ltac:(rewrite EP; apply iota_range) Hok).
Qed.
Print Assumptions C01_slice_chain_partial.

Example C01_chain_example :
  chain (iota 10) [PySlice None None (Some (-1)); PySlice (Some 1) (Some (-1)) (Some 3); PySlice None None (Some (-1))]
  = Ok [2; 5; 8] /\
  (do t <- fold_slices (Table [10] IAll [] : table Z)
     [PySlice None None (Some (-1)); PySlice (Some 1) (Some (-1)) (Some 3); PySlice None None (Some (-1))]; t_indices t)
  = Ok [2; 5; 8].
Proof. split; reflexivity. Qed.

(** A zero step is rejected. *)
Theorem C01_zero_step : forall (A : Type) shape (t : table A) a b,
  mk_table shape (SelSlice (PySlice a b (Some 0))) None [] = Err (A := table A) ValueError /\
  (forall n, t_len t = Ok n -> getitem t (SelSlice (PySlice a b (Some 0))) = Err ValueError).
Proof. exact @zero_step. Qed.
Print Assumptions C01_zero_step.

Example C01_zero_step_example :
  getitem (Table [4] IAll [] : table Z) (SelSlice (PySlice (Some 1) None (Some 0))) = Err ValueError.
Proof. reflexivity. Qed.

(** FINDING 1.  A backward slice whose stop is below -n-1 is not clamped: Python keeps 5
    elements, the table claims 99. *)
Theorem C01_refuted : exists n s l,
  py_slice_positions s n = Ok l /\
  exists t, mk_table [n] (SelSlice s) None [] = Ok (t : table Z) /\
    t_len t = Ok 99 /\ zlen l = 5.
Proof.
  exists 5, (PySlice None (Some (-100)) (Some (-1))), [4; 3; 2; 1; 0].
  split; [reflexivity|]. eexists; split; [reflexivity|]. split; reflexivity.
Qed.
Print Assumptions C01_refuted.

(** ** C02: integer selections *)
Theorem C02_integer_selection_partial : forall (A : Type) size l,
  0 <= size -> in_range size l -> ~ repeated_only l ->
  exists t, mk_table [size] (SelInts l) None [] = Ok (t : table A) /\
    t_indices t = Ok l /\ t_len t = Ok (zlen l).
Proof. exact @ints_new. Qed.
Print Assumptions C02_integer_selection_partial.

Example C02_example :
  (do t <- mk_table (A := Z) [9] (SelInts [7; 5; 3; 1]) None []; do l <- t_indices t; do n <- t_len t; Ok (l, n))
    = Ok ([7; 5; 3; 1], 4) /\
  (do t <- mk_table (A := Z) [9] (SelInts [7; 7; 3]) None []; do l <- t_indices t; do n <- t_len t; Ok (l, n))
    = Ok ([7; 7; 3], 3) /\
  (do t <- mk_table (A := Z) [3] (SelInts [0; 1; 2]) None []; do l <- t_indices t; do n <- t_len t; Ok (l, n))
    = Ok ([0; 1; 2], 3).
Proof. repeat split. Qed.

(** FINDING 3.  Two or more copies of the same position always give a table whose length
    cannot even be taken. *)
Theorem C02_repeated_refuted : forall (A : Type) size l,
  0 <= size -> in_range size l -> repeated_only l ->
  exists t, mk_table [size] (SelInts l) None [] = Ok (t : table A) /\ t_len t = Err ZeroDivisionError.
Proof. exact @ints_repeated. Qed.
Print Assumptions C02_repeated_refuted.

Example C02_repeated_example : in_range 5 [3; 3] /\ repeated_only [3; 3].
Proof. split; [repeat constructor; discriminate|repeat constructor]. Qed.

(** ** C03: construction without ordering *)
Theorem C03_construction_partial : forall (A : Type) shape s kw (t : table A),
  Forall (fun d => 0 <= d) shape -> ctor_safe s shape -> mk_table shape s None kw = Ok t ->
  exists l, t_indices t = Ok l /\ t_len t = Ok (zlen l) /\ NoDup l /\
    (forall i, In i l <-> 0 <= i < prodZ shape /\ selects s shape i) /\ natural_order s shape l.
Proof.
  intros A shape s kw t HS Hs HM. destruct (mk_table_spec shape s kw t HS Hs HM) as (l & HT & _ & Hin & Ho).
  exists l. split; [apply table_inv_indices; exact HT|]. split; [apply table_inv_len; exact HT|].
  split; [destruct HT as (_ & (_ & _ & _ & ND) & _); exact ND|]. auto.
Qed.
Print Assumptions C03_construction_partial.

(** Construction in the domain succeeds (no attributes). *)
Theorem C03_construction_succeeds : forall (A : Type) shape s,
  Forall (fun d => 0 <= d) shape -> ctor_safe s shape ->
  exists t, mk_table shape s None [] = Ok (t : table A) /\ t_shape t = shape.
Proof.
  intros A shape s HS Hs. destruct (get_index_spec s shape HS Hs) as (ix & l & E & _).
  exists (Table shape ix []). split; [unfold mk_table; rewrite E; reflexivity|reflexivity].
Qed.
Print Assumptions C03_construction_succeeds.

Example C03_example :
  ctor_safe (SelTuple [USlice (PySlice (Some 1) None None); UInt (-1)]) [3; 4] /\
  (do t <- mk_table (A := Z) [3; 4] (SelTuple [USlice (PySlice (Some 1) None None); UInt (-1)]) None []; t_indices t)
   = Ok [7; 11] /\
  (do t <- mk_table (A := Z) [2; 3] (SelBool [2; 3] [true; false; false; true; true; false]) None []; t_indices t)
   = Ok [0; 3; 4] /\
  (do t <- mk_table (A := Z) [4; 3] (SelTuple [USlice (PySlice (Some 1) (Some 3) None)]) None []; t_indices t)
   = Ok [3; 4; 5; 6; 7; 8].
Proof.
  split; [|repeat split].
  split; [discriminate|]. split; [|left; reflexivity].
  cbn. unfold forward. cbn. split; [lia|]. split; [exists 3; reflexivity|exact I].
Qed.

(** FINDING 5.  A full slice in a tuple is turned into an Ellipsis: (slice(None),
    slice(0, 1)) on a (2, 2, 2) table restricts the last axis instead of the second. *)
Theorem C03_full_slice_refuted : exists t : table Z,
  mk_table [2; 2; 2] (SelTuple [USlice (PySlice None None None); USlice (PySlice (Some 0) (Some 1) None)]) None [] = Ok t /\
  t_indices t = Ok [0; 2; 4; 6] /\
  (forall i, In i [0; 1; 4; 5] <-> 0 <= i < 8 /\
     tuple_selects [USlice (PySlice None None None); USlice (PySlice (Some 0) (Some 1) None)] [2; 2; 2] (unravel [2; 2; 2] i)).
Proof.
  eexists; split; [reflexivity|]. split; [reflexivity|].
  intros i; split.
  - intros [<-|[<-|[<-|[<-|[]]]]]; (split; [lia|]); cbn;
      (split; [exists [0; 1]; split; [reflexivity|cbn; auto]|split; [exists [0]; split; [reflexivity|cbn; auto]|exact I]]).
  - intros [Hi H].
    assert (C : i = 0 \/ i = 1 \/ i = 2 \/ i = 3 \/ i = 4 \/ i = 5 \/ i = 6 \/ i = 7) by lia.
    cbn [tuple_selects unravel item_selects] in H. destruct H as (_ & (l & El & Hl) & _).
    vm_compute in El. injection El as <-.
    destruct C as [->|[->|[->|[->|[->|[->|[->| ->]]]]]]]; vm_compute in Hl; cbn; try tauto;
      destruct Hl as [Hl|[]]; discriminate.
Qed.
Print Assumptions C03_full_slice_refuted.

(** FINDING 5 (continued).  Two interior full slices make construction fail. *)
Theorem C03_two_full_slices_refuted :
  mk_table (A := Z) [2; 2; 2] (SelTuple [USlice (PySlice None None None); USlice (PySlice None None None); UInt 0]) None []
  = Err IndexError.
Proof. reflexivity. Qed.
Print Assumptions C03_two_full_slices_refuted.

(** ** C04: orderings *)
Theorem C04_ordering : forall (A : Type) shape s kw keys (t : table A),
  Forall (fun d => 0 <= d) shape -> ordering_sel_safe s shape -> zlen keys = prodZ shape ->
  mk_table shape s (Some (shape, keys)) kw = Ok t ->
  exists l, t_indices t = Ok l /\ t_len t = Ok (zlen l) /\ NoDup l /\
    (forall i, In i l <-> 0 <= i < prodZ shape /\ selects s shape i /\ 0 <= key_of keys i) /\
    StronglySorted (key_lt keys) l.
Proof.
  intros A shape s kw keys t HS Hs HK HM.
  destruct (mk_table_ordering_spec shape s kw keys t HS Hs HK HM) as (l & HT & _ & Hin & Ho).
  exists l. split; [apply table_inv_indices; exact HT|]. split; [apply table_inv_len; exact HT|].
  split; [destruct HT as (_ & (_ & _ & _ & ND) & _); exact ND|]. auto.
Qed.
Print Assumptions C04_ordering.

Theorem C04_ordering_succeeds : forall (A : Type) shape s keys,
  Forall (fun d => 0 <= d) shape -> ordering_sel_safe s shape -> zlen keys = prodZ shape ->
  exists t, mk_table shape s (Some (shape, keys)) [] = Ok (t : table A).
Proof.
  intros A shape s keys HS Hs HK. destruct (get_index_ordering s shape keys HS Hs HK) as (ix & l & E & _).
  exists (Table shape ix []). unfold mk_table; rewrite E; reflexivity.
Qed.
Print Assumptions C04_ordering_succeeds.

Example C04_example :
  (do t <- mk_table (A := Z) [2; 3] (SelBool [2; 3] [true; true; true; true; false; true]) (Some ([2; 3], [5; -1; 2; 2; 0; 2])) [];
   t_indices t) = Ok [2; 3; 5; 0] /\
  ordering_sel_safe (SelBool [2; 3] [true; true; true; true; false; true]) [2; 3].
Proof. split; [reflexivity|split; reflexivity]. Qed.

(** An ordering of another shape is rejected. *)
Theorem C04_bad_ordering_shape : forall (A : Type) shape s kw osh keys ns,
  normalize_selection s shape = Ok ns -> osh <> shape ->
  mk_table shape s (Some (osh, keys)) kw = Err (A := table A) ValueError.
Proof.
  intros A shape s kw osh keys ns E Hne. unfold mk_table, get_index. rewrite E. cbn [bind].
  destruct (list_eqb osh shape) eqn:El; [apply list_eqb_eq in El; contradiction|]. reflexivity.
Qed.
Print Assumptions C04_bad_ordering_shape.

(** FINDING 6.  The same slice selects elements without ordering and rows with one. *)
Theorem C04_slice_meaning_refuted :
  (do t <- mk_table (A := Z) [2; 2] (SelSlice (PySlice (Some 0) (Some 1) None)) None []; t_indices t) = Ok [0] /\
  (do t <- mk_table (A := Z) [2; 2] (SelSlice (PySlice (Some 0) (Some 1) None)) (Some ([2; 2], [0; 1; 2; 3])) []; t_indices t)
    = Ok [0; 1].
Proof. split; reflexivity. Qed.
Print Assumptions C04_slice_meaning_refuted.

(** ** C05: packing *)
Theorem C05_pack : forall (A : Type) (t : table A) x,
  reachable t -> zlen x = prodZ (t_shape t) ->
  exists l y, t_indices t = Ok l /\ zlen y = zlen l /\
    (forall k i, nth_error l k = Some i -> exists a, get x i = Ok a /\ nth_error y k = Some a) /\
    pack_view t (t_shape t) x = Ok y /\ pack_copy t (t_shape t) x = Ok y /\
    (forall olen, pack_out t (t_shape t) x olen = if olen =? zlen l then Ok y else Err ValueError).
Proof. exact @pack_reachable. Qed.
Print Assumptions C05_pack.

Theorem C05_pack_mismatch : forall (A : Type) (t : table A) sh x,
  sh <> t_shape t -> pack_view t sh x = Err ValueError /\ pack_copy t sh x = Err ValueError.
Proof. exact @pack_mismatch. Qed.
Print Assumptions C05_pack_mismatch.

Lemma C05_example_reachable :
  exists t : table Z, reachable t /\ t_indices t = Ok [4; 2; 0] /\
    pack_view t (t_shape t) [10; 11; 12; 13; 14] = Ok [14; 12; 10].
Proof.
  exists (Table [5] (ISlice 4 (-2) (-2)) []). split; [|split; reflexivity].
  eapply (reach_new _ [5] (SelSlice (PySlice None None (Some (-2)))) None []); [repeat constructor; lia| |reflexivity].
  cbn. split; [lia|auto].
Qed.

(** FINDING 4.  t[0:0][0:] is empty but packing it returns one element. *)
Theorem C05_empty_refuted : exists t1 t2 : table Z,
  getitem (Table [3] IAll []) (SelSlice (PySlice (Some 0) (Some 0) None)) = Ok t1 /\
  getitem t1 (SelSlice (PySlice (Some 0) None None)) = Ok t2 /\
  t_len t2 = Ok 0 /\ pack_view t2 [3] [10; 11; 12] = Ok [12] /\
  unpack t2 [] 0 [0; 0; 0] = Err ValueError.
Proof. do 2 eexists. repeat split. Qed.
Print Assumptions C05_empty_refuted.

(** ** C06: unpacking *)
Theorem C06_unpack : forall (A : Type) (t : table A),
  reachable t -> exists l, t_indices t = Ok l /\
   forall x missing garbage, zlen garbage = prodZ (t_shape t) ->
    (zlen x = zlen l -> exists y, unpack t x missing garbage = Ok y /\ zlen y = prodZ (t_shape t) /\
       (forall k i, nth_error l k = Some i -> exists a, nth_error x k = Some a /\ get y i = Ok a) /\
       (forall i, 0 <= i < prodZ (t_shape t) -> ~ In i l -> get y i = Ok missing)) /\
    (forall a, x = [a] -> exists y, unpack t x missing garbage = Ok y /\ zlen y = prodZ (t_shape t) /\
       (forall i, In i l -> get y i = Ok a) /\
       (forall i, 0 <= i < prodZ (t_shape t) -> ~ In i l -> get y i = Ok missing)) /\
    (zlen x <> 1 -> zlen x <> zlen l -> unpack t x missing garbage = Err ValueError).
Proof. exact @unpack_reachable. Qed.
Print Assumptions C06_unpack.

Example C06_example :
  unpack (Table [5] (ISlice 4 (-2) (-2)) []) [7; 8; 9] (-1) [99; 99; 99; 99; 99] = Ok [9; -1; 8; -1; 7].
Proof. reflexivity. Qed.

(** FINDING 6b.  With repeated positions (accepted by the constructor) and as many
    entries as elements, unselected elements keep uninitialised memory. *)
Theorem C06_duplicates_refuted : exists t : table Z,
  mk_table [3] (SelInts [0; 0; 1]) None [] = Ok t /\ t_indices t = Ok [0; 0; 1] /\
  unpack t [7; 7; 8] (-1) [99; 99; 99] = Ok [7; 8; 99].
Proof. eexists; repeat split. Qed.
Print Assumptions C06_duplicates_refuted.

(** ** C07: pack and unpack are inverse *)
Theorem C07_pack_unpack : forall (A : Type) (t : table A) y missing garbage z,
  reachable t -> zlen garbage = prodZ (t_shape t) -> t_len t = Ok (zlen y) ->
  unpack t y missing garbage = Ok z -> pack_view t (t_shape t) z = Ok y.
Proof. exact @pack_unpack. Qed.
Print Assumptions C07_pack_unpack.

Theorem C07_unpack_pack : forall (A : Type) (t : table A) x y missing garbage l,
  reachable t -> t_indices t = Ok l -> zlen x = prodZ (t_shape t) -> zlen garbage = prodZ (t_shape t) ->
  pack_view t (t_shape t) x = Ok y ->
  exists z, unpack t y missing garbage = Ok z /\ zlen z = zlen x /\
    forall i, 0 <= i < zlen x -> get z i = if existsb (Z.eqb i) l then get x i else Ok missing.
Proof. exact @unpack_pack. Qed.
Print Assumptions C07_unpack_pack.

Example C07_example :
  (do y <- pack_view (Table [4] (IArr [3; 0]) []) [4] [5; 6; 7; 8]; unpack (Table [4] (IArr [3; 0]) []) y (-1) [0; 0; 0; 0])
  = Ok [5; -1; -1; 8].
Proof. reflexivity. Qed.

(** ** C08: removed mask *)
Theorem C08_removed : forall (A : Type) (t : table A) garbage,
  reachable t -> zlen garbage = prodZ (t_shape t) ->
  exists l y, t_indices t = Ok l /\ removed t garbage = Ok y /\ zlen y = prodZ (t_shape t) /\
    forall i, 0 <= i < prodZ (t_shape t) -> (get y i = Ok true <-> ~ In i l).
Proof. exact @removed_reachable. Qed.
Print Assumptions C08_removed.

Example C08_example :
  removed (Table [4] (IArr [3; 0]) [] : table Z) [true; true; true; true] = Ok [false; true; true; false].
Proof. reflexivity. Qed.

(** ** C09: sub-selections compose *)

(** For every consistent table and every forward slice, mask or list of in-range
    positions, also with duplicates. *)
Theorem C09_compose_partial : forall (A : Type) (t : table A) l s,
  0 <= prodZ (t_shape t) -> t_indices t = Ok l -> t_len t = Ok (zlen l) -> in_range (prodZ (t_shape t)) l ->
  (forall k rows, In (k, AtArr rows) (t_attrs t) -> zlen rows = zlen l) ->
  sel_dom s (zlen l) ->
  exists p l', sel_meaning s (zlen l) = Ok p /\ map_res (get l) p = Ok l' /\
    (~ repeated_only l' ->
     exists t', getitem t s = Ok t' /\ t_indices t' = Ok l' /\ t_len t' = Ok (zlen l') /\ t_shape t' = t_shape t /\
       forall k rows, assoc k (t_attrs t) = Some (AtArr rows) ->
         exists rows', assoc k (t_attrs t') = Some (AtArr rows') /\ map_res (get rows) p = Ok rows').
Proof. exact @getitem_compose. Qed.
Print Assumptions C09_compose_partial.

(** Every reachable table is consistent, so the theorem above applies to it. *)
Theorem C09_reachable_consistent : forall (A : Type) (t : table A),
  reachable t -> exists l, 0 <= prodZ (t_shape t) /\ t_indices t = Ok l /\ t_len t = Ok (zlen l) /\
    in_range (prodZ (t_shape t)) l /\ NoDup l /\
    (forall k rows, In (k, AtArr rows) (t_attrs t) -> zlen rows = zlen l).
Proof.
  intros A t HR. destruct (reachable_inv t HR) as (l & HT). exists l.
  pose proof (table_inv_indices t l HT). pose proof (table_inv_len t l HT).
  destruct HT as (H1 & (_ & _ & H2 & H3) & H4). repeat split; auto.
Qed.
Print Assumptions C09_reachable_consistent.

Example C09_example :
  (do t <- getitem (Table [9] (IArr [8; 1; 5; 2]) [("v"%string, AtArr [80; 10; 50; 20])]) (SelSlice (PySlice (Some 1) None (Some 2)));
   do l <- t_indices t; Ok (l, t_attrs t)) = Ok ([1; 2], [("v"%string, AtArr [10; 20])]).
Proof. reflexivity. Qed.

(** FINDING 2.  Reversing a table whose index is an explicit list silently gives an
    empty table, and fails when it has array attributes. *)
Theorem C09_reverse_refuted :
  (do t <- getitem (Table [9] (IArr [8; 1; 5; 2]) [] : table Z) (SelSlice (PySlice None None (Some (-1)))); t_indices t) = Ok [] /\
  getitem (Table [3] IAll [("v"%string, AtArr [1; 2; 3])]) (SelSlice (PySlice None None (Some (-1)))) = Err ValueError /\
  py_slice_positions (PySlice None None (Some (-1))) 4 = Ok [3; 2; 1; 0].
Proof. repeat split. Qed.
Print Assumptions C09_reverse_refuted.

(** FINDING 3 (continued).  A negative position is kept as it is by a whole table. *)
Theorem C09_negative_refuted :
  (do t <- getitem (Table [4] IAll [] : table Z) (SelScalar (-1)); t_indices t) = Ok [-1].
Proof. reflexivity. Qed.
Print Assumptions C09_negative_refuted.

(** ** C10: attributes stay aligned *)

(** Refinement: a table built with unpacked keyword arrays, then changed by any history of
    sub-selections and assignments (rejected operations leaving it as it was), shows the
    abstract table in which each attribute is a dictionary from element positions. *)
Theorem C10_aligned : forall (A : Type) shape s ord kw (t : table A),
  Forall (fun d => 0 <= d) shape ->
  match ord with
  | None => ctor_safe s shape
  | Some (osh, keys) => ordering_sel_safe s shape /\ zlen keys = prodZ osh
  end ->
  NoDup (map fst kw) -> kw_wf kw -> mk_table shape s ord kw = Ok t ->
  exists l, t_indices t = Ok l /\
    forall os, ops_safe shape (ATable l (kw_env kw)) os ->
      shows (fold_left cstep' os t) (fold_left (astep' shape) os (ATable l (kw_env kw))).
Proof. exact @history_shows. Qed.
Print Assumptions C10_aligned.

Lemma C10_example :
  exists t : table Z,
    mk_table [2; 2] (SelBool [2; 2] [true; false; true; true]) None [("v"%string, UVArr [2; 2] [1; 2; 3; 4])] = Ok t /\
    ops_safe [2; 2] (ATable [0; 2; 3] (kw_env [("v"%string, UVArr [2; 2] [1; 2; 3; 4])]))
      [OpSet "w"%string [10; 20; 30]; OpGet (SelInts [2; 0]); OpSet "w"%string [5]; OpSet0 "v"%string 7] /\
    fold_left cstep' [OpSet "w"%string [10; 20; 30]; OpGet (SelInts [2; 0]); OpSet "w"%string [5]; OpSet0 "v"%string 7] t
      = Table [2; 2] (ISlice 3 (-3) (-3)) [("v"%string, AtArr [7; 7]); ("w"%string, AtArr [30; 10])].
Proof.
  eexists. split; [reflexivity|]. split; [|reflexivity].
  cbn. split; [exact I|]. split; [|repeat split].
  split; [split; [repeat constructor; cbn; lia|]|exact I].
  constructor; [intros [H|[]]; discriminate|constructor; [intros []|constructor]].
Qed.

(** ** C11: splitting *)
Theorem C11_split : forall (A : Type) (t : table A) m,
  reachable t -> 0 < m ->
  exists l ts ls, t_indices t = Ok l /\ t_split t m = Ok ts /\ length ts = Z.to_nat m /\
    Forall2 (fun t' l' => t_shape t' = t_shape t /\ t_indices t' = Ok l' /\ t_len t' = Ok (zlen l')) ts ls /\
    concat ls = l /\ (forall a b, In a ls -> In b ls -> zlen a <= zlen b + 1).
Proof. exact @split_reachable. Qed.
Print Assumptions C11_split.

Example C11_example :
  (do ts <- t_split (Table [9] (IArr [8; 1; 5; 2; 7]) [] : table Z) 3; map_res t_indices ts) = Ok [[8; 1]; [5; 2]; [7]].
Proof. reflexivity. Qed.
