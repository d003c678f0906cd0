(** Property theorem C76: the coverage and the error of a Map follow its pixels. *)
From Coq Require Import Lia.
From Verif Require Import Base BaseFacts TodModel TodSpec TodFacts TodFacts2 MapModel.
Open Scope Z_scope.

(** As the documentation says: the coverage and the error have the shape of the data. *)
Definition good_arr {A} (a : varr A) : Prop := good_shape (v_shape a) /\ zlen (v_data a) = prodZ (v_shape a).
Definition alike {C} (s : list Z) (c : option (varr C)) : Prop := match c with Some c => good_arr c /\ v_shape c = s | None => True end.
Definition good_map {E C} (m : pmap E C) : Prop := good_arr (pm_arr m) /\ alike (v_shape (pm_arr m)) (pm_coverage m) /\ alike (v_shape (pm_arr m)) (pm_error m).
(** Element j of the second array is element p of the first one; same for the option. *)
Definition moved_to {A} (a b : varr A) (j : nat) (p : Z) : Prop := nth_error (v_data b) j = nth_error (v_data a) (Z.to_nat p) /\ nth_error (v_data b) j <> None.
Definition moved_opt {A} (a b : option (varr A)) (j : nat) (p : Z) : Prop :=
  match a, b with Some a, Some b => moved_to a b j p | None, None => True | _, _ => False end.

Lemma take_moves {A} (a : varr A) s l : good_arr a -> good_shape s -> zlen l = prodZ s -> Forall (fun p => 0 <= p < prodZ (v_shape a)) l ->
  exists b, take a s l = Ok b /\ v_shape b = s /\ good_arr b /\ forall j p, nth_error l j = Some p -> moved_to a b j p.
Proof.
  intros [GS GD] Gs L F. rewrite <- GD in F. destruct (map_get_total (v_data a) l F) as [d [E [Ld N]]]. unfold take. rewrite E. cbn [bind].
  exists (VArr s d). split; [reflexivity|]. split; [reflexivity|]. split; [split; [exact Gs|cbn [v_data v_shape]; unfold zlen in *; lia]|].
  intros j p J. split; [now apply N|]. cbn [v_data]. apply nth_error_Some. rewrite Ld. apply nth_error_Some. rewrite J. discriminate.
Qed.
Lemma opt_moves {A} (f : varr A -> res (varr A)) (c : option (varr A)) s0 s (l : list Z) : alike s0 c ->
  (forall a, good_arr a -> v_shape a = s0 -> exists b, f a = Ok b /\ v_shape b = s /\ good_arr b /\ forall j p, nth_error l j = Some p -> moved_to a b j p) ->
  exists r, opt_res f c = Ok r /\ alike s r /\ forall j p, nth_error l j = Some p -> moved_opt c r j p.
Proof.
  intros G H. destruct c as [a|]; [|exists None; repeat split]. destruct G as [G S]. destruct (H a G S) as [b [X [Sb [Gb M]]]].
  cbn [opt_res]. rewrite X. cbn [bind]. exists (Some b). split; [reflexivity|]. split; [now split|exact M].
Qed.
Theorem C76_item : forall E C K (index : list Z -> K -> res item) (m : pmap E C) (key : K) v s l, faithful index -> good_map m ->
  index (v_shape (pm_arr m)) key = Ok (Positions v s l) ->
  exists i, pm_item index m key = Ok (inr i) /\ v_shape (pm_arr i) = s /\ good_map i /\
  forall j p, nth_error l j = Some p -> moved_to (pm_arr m) (pm_arr i) j p /\ moved_opt (pm_coverage m) (pm_coverage i) j p /\ moved_opt (pm_error m) (pm_error i) j p.
Proof.
  intros E C K index m key v s l F [GA [GC GE]] I. assert (X := F _ key (proj1 GA)). rewrite I in X. destruct X as [Gs [L P]].
  unfold pm_item. rewrite I. cbn [bind]. destruct (take_moves (pm_arr m) s l GA Gs L P) as [b [Tb [Sb [Gb Mb]]]]. rewrite Tb. cbn [bind pm_finalize pm_coverage pm_error].
  assert (IT : forall a : varr C, good_arr a -> v_shape a = v_shape (pm_arr m) ->
    exists b, v_item index a key = Ok b /\ v_shape b = s /\ good_arr b /\ forall j p, nth_error l j = Some p -> moved_to a b j p).
  { intros a G S. unfold v_item. rewrite S, I. cbn [bind]. apply take_moves; try assumption. now rewrite S. }
  destruct (opt_moves (fun c => v_item index c key) (pm_coverage m) _ s l GC IT) as [c [Ec [Gc Mc]]]. rewrite Ec. cbn [bind].
  destruct (opt_moves (fun c => v_item index c key) (pm_error m) _ s l GE IT) as [e [Ee [Ge Me]]]. rewrite Ee. cbn [bind].
  eexists. split; [reflexivity|]. cbn [pm_arr pm_coverage pm_error]. split; [exact Sb|]. split; [|intros j p J; auto].
  split; [exact Gb|]. cbn [pm_arr pm_coverage pm_error]. now rewrite Sb.
Qed.
Print Assumptions C76_item.
Definition map23 : pmap Z Z := PMap (VArr [2; 3] [1; 2; 3; 4; 5; 6]) (Some (VArr [2; 3] [10; 20; 30; 40; 50; 60])) None.
Lemma good_map23 : good_map map23.
Proof. repeat split; repeat constructor; cbn; lia. Qed.
(** m[1, ::2], and m[1, 2, ...] which has no dimension. *)
Example C76_item_case : good_map map23 /\
  pm_item np_index map23 [KInt 1; KSlice (PySlice None None (Some 2))] = Ok (inr (PMap (VArr [2] [4; 6]) (Some (VArr [2] [40; 60])) None)) /\
  pm_item np_index map23 [KInt 1; KInt 2; KEllipsis] = Ok (inr (PMap (VArr [] [6]) (Some (VArr [] [60])) None)).
Proof. split; [exact good_map23|]. split; reflexivity. Qed.
Theorem C76_rearranged : forall E C (m : pmap E C) s l, good_map m -> good_shape s -> zlen l = prodZ s ->
  Forall (fun p => 0 <= p < prodZ (v_shape (pm_arr m))) l ->
  exists r, pm_rearrange m s l = Ok r /\ v_shape (pm_arr r) = s /\ good_map r /\
  forall j p, nth_error l j = Some p -> moved_to (pm_arr m) (pm_arr r) j p /\ moved_opt (pm_coverage m) (pm_coverage r) j p /\ moved_opt (pm_error m) (pm_error r) j p.
Proof.
  intros E C m s l [GA [GC GE]] Gs L P. unfold pm_rearrange. destruct (take_moves (pm_arr m) s l GA Gs L P) as [b [Tb [Sb [Gb Mb]]]]. rewrite Tb. cbn [bind].
  assert (IT : forall a : varr C, good_arr a -> v_shape a = v_shape (pm_arr m) ->
    exists b, take a s l = Ok b /\ v_shape b = s /\ good_arr b /\ forall j p, nth_error l j = Some p -> moved_to a b j p).
  { intros a G S. apply take_moves; try assumption. now rewrite S. }
  destruct (opt_moves (fun c => take c s l) (pm_coverage m) _ s l GC IT) as [c [Ec [Gc Mc]]]. rewrite Ec. cbn [bind].
  destruct (opt_moves (fun c => take c s l) (pm_error m) _ s l GE IT) as [e [Ee [Ge Me]]]. rewrite Ee. cbn [bind].
  eexists. split; [reflexivity|]. cbn [pm_arr pm_coverage pm_error]. split; [exact Sb|]. split; [|intros j p J; auto].
  split; [exact Gb|]. cbn [pm_arr pm_coverage pm_error]. now rewrite Sb.
Qed.
Print Assumptions C76_rearranged.
Example C76_rearranged_case : pm_rearrange map23 [3; 2] [0; 1; 2; 3; 4; 5] = Ok (PMap (VArr [3; 2] [1; 2; 3; 4; 5; 6]) (Some (VArr [3; 2] [10; 20; 30; 40; 50; 60])) None).
Proof. reflexivity. Qed.
(** The constructor: the coverage given, else that of the map. *)
Theorem C76_constructed : forall E C (a : varr E) (p : pmap E C) c e, good_arr a -> alike (v_shape a) (pm_coverage p) -> alike (v_shape a) (pm_error p) ->
  alike (v_shape a) c -> alike (v_shape a) e ->
  let r := pm_construct a (Some p) c e in good_map r /\ pm_arr r = a /\
  (forall x, c = Some x -> pm_coverage r = Some x) /\ (c = None -> pm_coverage r = pm_coverage p) /\
  (forall x, e = Some x -> pm_error r = Some x) /\ (e = None -> pm_error r = pm_error p).
Proof.
  intros E C a p c e Ga P1 P2 Gc Ge r. split; [|split; [reflexivity|]].
  - split; [exact Ga|]. split; cbn; [destruct c|destruct e]; assumption.
  - repeat split; intros; subst; reflexivity.
Qed.
Print Assumptions C76_constructed.
Example C76_constructed_case : pm_construct (VArr [1] [5]) (Some (PMap (VArr [1] [7]) (Some (VArr [1] [2])) None)) None (Some (VArr [1] [3])) =
  PMap (VArr [1] [5]) (Some (VArr [1] [2])) (Some (VArr [1] [3])).
Proof. reflexivity. Qed.
(** Any shape is accepted, and then an item of the map can raise an error. *)
Theorem C76_shape_refuted : exists (m : pmap Z Z), m = pm_construct (VArr [3] [1; 2; 3]) None (Some (VArr [] [8])) None /\ ~ good_map m /\
  np_index [3] [KSlice (PySlice (Some 0) (Some 2) None)] = Ok (Positions true [2] [0; 1]) /\
  pm_item np_index m [KSlice (PySlice (Some 0) (Some 2) None)] = Err IndexError.
Proof. eexists. split; [reflexivity|]. split; [intros [_ [[_ S] _]]; discriminate|]. split; reflexivity. Qed.
Print Assumptions C76_shape_refuted.
(** The transpose, and the sum along an axis, keep the coverage of the original. *)
Theorem C76_transpose_refuted : exists (m : pmap Z Z), good_map m /\ let r := pm_ndarray_method m (VArr [3; 2] [1; 4; 2; 5; 3; 6]) in
  ~ good_map r /\ moved_to (pm_arr m) (pm_arr r) 1 3 /\ ~ moved_opt (pm_coverage m) (pm_coverage r) 1 3.
Proof.
  exists map23. split; [exact good_map23|]. split; [intros [_ [[_ S] _]]; discriminate|]. split; [split; [reflexivity|discriminate]|]. intros [S _]. discriminate.
Qed.
Print Assumptions C76_transpose_refuted.
