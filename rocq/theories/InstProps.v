(** C129: instruments. *)
From Coq Require Import String.
From Verif Require Import Base BaseFacts PTModel PTSpec PTFacts PTProps PTMpiModel PTMoreProps InstModel.
Open Scope Z_scope.

(** The constructor takes the layout and the name in any order. *)
Theorem C129_constructor : forall (A Op : Type) (t : table A) s,
  (new_instrument (ALayout t) (AName s) : instrument A Op) = new_instrument (AName s) (ALayout t) /\
  let x : instrument A Op := new_instrument (ALayout t) (AName s) in name x = Ok (AName s) /\ detector x = Ok t /\ len x = t_len t.
Proof. intros. repeat split. Qed.
Print Assumptions C129_constructor.

(** What a selection keeps beside the layout. *)
Definition same_but_layout {A Op} (x y : instrument A Op) : Prop := i_name x = i_name y /\ i_transforms x = i_transforms y.

Theorem C129_item : forall (A Op : Type) (x : instrument A Op) t l s p l', detector x = Ok t -> reachable t -> t_indices t = Ok l -> sel_dom s (zlen l) ->
  sel_meaning s (zlen l) = Ok p -> map_res (get l) p = Ok l' -> ~ repeated_only l' ->
  exists y t', item x s = Ok y /\ same_but_layout x y /\ detector y = Ok t' /\ t_indices t' = Ok l' /\ len y = Ok (zlen l') /\
    forall k rows, assoc k (t_attrs t) = Some (AtArr rows) -> exists rows', assoc k (t_attrs t') = Some (AtArr rows') /\ map_res (get rows) p = Ok rows'.
Proof.
  intros A Op x t l s p l' D Rt I S M G N. destruct (C09_reachable_consistent A t Rt) as (l0 & H0 & I0 & L0 & R0 & _ & A0). rewrite I in I0. injection I0 as <-.
  destruct (C09_compose_partial A t l s H0 I L0 R0 A0 S) as (p' & l'' & M' & G' & K). rewrite M in M'. injection M' as <-. rewrite G in G'. injection G' as <-.
  destruct (K N) as (t' & E & I' & L' & _ & A'). exists (Instr (i_name x) (ALayout t') (i_transforms x)), t'. unfold item. rewrite D. cbn [bind]. rewrite E. cbn [bind].
  split; [reflexivity|]. split; [split; reflexivity|]. split; [reflexivity|]. split; [exact I'|]. split; [exact L' | exact A'].
Qed.
Print Assumptions C129_item.

Lemma iterate_range {A B} (f : A -> res B) (P : A -> B -> Prop) : forall l, (forall a, In a l -> exists b, f a = Ok b /\ P a b) -> exists bs, map_res f l = Ok bs /\ Forall2 P l bs.
Proof.
  induction l as [|a l IH]; intros H; [exists []; split; [reflexivity | constructor]|]. destruct (H a (or_introl eq_refl)) as (b & E & Pb). destruct (IH (fun a' I => H a' (or_intror I))) as (bs & E' & F).
  exists (b :: bs). cbn. rewrite E. cbn [bind]. rewrite E'. split; [reflexivity | constructor; assumption].
Qed.

(** Iterating gives the detectors one by one. *)
Theorem C129_iterate : forall (A Op : Type) (x : instrument A Op) t l, detector x = Ok t -> reachable t -> t_indices t = Ok l ->
  exists ys, iterate x = Ok ys /\ Forall2 (fun i y => same_but_layout x y /\ exists t', detector y = Ok t' /\ (exists j, get l i = Ok j /\ t_indices t' = Ok [j]) /\
    forall k rows, assoc k (t_attrs t) = Some (AtArr rows) -> exists v, get rows i = Ok v /\ assoc k (t_attrs t') = Some (AtArr [v])) (iota (zlen l)) ys.
Proof.
  intros A Op x t l D Rt I. destruct (C09_reachable_consistent A t Rt) as (l0 & H0 & I0 & L0 & R0 & _ & A0). rewrite I in I0. injection I0 as <-.
  unfold iterate, len. rewrite D. cbn [bind]. rewrite L0. cbn [bind]. apply iterate_range. intros i Hi. apply In_iota in Hi.
  destruct (get_total l i Hi) as (j & Gj).
  destruct (C129_item A Op x t l (SelScalar i) [i] [j] D Rt I) as (y & t' & E & Sm & D' & I' & _ & K).
  - exact Hi.
  - cbn. rewrite np_wrap_in by exact Hi. reflexivity.
  - cbn. rewrite Gj. reflexivity.
  - cbn. tauto.
  - exists y. split; [exact E|]. split; [exact Sm|]. exists t'. split; [exact D'|]. split; [exists j; split; [exact Gj | exact I']|]. intros k rows Hk. destruct (K k rows Hk) as (rows' & Hr & G). cbn in G. destruct (get rows i) as [v|]; [|discriminate]. cbn in G. injection G as <-. exists v. split; [reflexivity | exact Hr].
Qed.
Print Assumptions C129_iterate.

Lemma split_detectors {A Op} (x : instrument A Op) t : detector x = Ok t -> forall ss, map_res (fun s => item x (SelSlice s)) ss = do ts <- map_res (fun s => getitem t (SelSlice s)) ss; Ok (map (fun t' => Instr (i_name x) (ALayout t') (i_transforms x)) ts).
Proof.
  intros D. induction ss as [|s ss IH]; [reflexivity|]. cbn. unfold item at 1. rewrite D. cbn [bind]. destruct (getitem t (SelSlice s)) as [t'|e]; [|reflexivity]. cbn [bind]. rewrite IH. destruct (map_res (fun s0 => getitem t (SelSlice s0)) ss); reflexivity.
Qed.
(** The parts of a split, and those of a scatter, tile the detectors. *)
Theorem C129_split : forall (A Op : Type) (x : instrument A Op) t l m, detector x = Ok t -> reachable t -> t_indices t = Ok l -> 0 < m ->
  exists ys ls, split x m = Ok ys /\ length ys = Z.to_nat m /\ Forall2 (fun y l' => same_but_layout x y /\ len y = Ok (zlen l') /\ exists t', detector y = Ok t' /\ t_indices t' = Ok l') ys ls /\
    concat ls = l /\ (forall a b, In a ls -> In b ls -> zlen a <= zlen b + 1).
Proof.
  intros A Op x t l m D Rt I Hm. destruct (C11_split A t m Rt Hm) as (l0 & ts & ls & I0 & E & L & F & C & B). rewrite I in I0. injection I0 as <-.
  exists (map (fun t' => Instr (i_name x) (ALayout t') (i_transforms x)) ts), ls. unfold t_split in E. unfold split, len. rewrite D. cbn [bind]. destruct (t_len t) as [n|]; [|discriminate]. cbn [bind] in *. rewrite (split_detectors x t D), E.
  split; [reflexivity|]. split; [now rewrite map_length|]. split; [|split; assumption]. clear - F. induction F as [|t' l' ts ls (_ & I & L) F IH]; [constructor|]. cbn. constructor; [|exact IH]. split; [split; reflexivity|]. split; [exact L|]. exists t'. split; [reflexivity | exact I].
Qed.
Print Assumptions C129_split.
Theorem C129_scatter : forall (A Op : Type) (x : instrument A Op) t l m, detector x = Ok t -> reachable t -> t_indices t = Ok l -> 0 < m ->
  InstModel.scatter true x m = Err ValueError /\
  exists ys ls, InstModel.scatter false x m = Ok ys /\ zlen ys = m /\ Forall2 (fun y l' => same_but_layout x y /\ exists t', detector y = Ok t' /\ t_indices t' = Ok l') ys ls /\ concat ls = l.
Proof.
  intros A Op x t l m D Rt I Hm. split; [reflexivity|]. destruct (C12_scatter_gather A t m Rt Hm) as (l0 & ts & ls & I0 & E & L & M & C & _). rewrite I in I0. injection I0 as <-.
  exists (map (fun t' => Instr (i_name x) (ALayout t') (i_transforms x)) ts), ls. unfold InstModel.scatter. rewrite D. cbn [bind]. rewrite E. cbn [bind]. split; [reflexivity|]. split; [unfold zlen in *; rewrite map_length; exact L|]. split; [|exact C].
  clear - M. revert ls M. induction ts as [|t' ts IH]; intros ls M; cbn in M; [injection M as <-; constructor|]. destruct (t_indices t') as [l'|] eqn:E; [|discriminate]. cbn [bind] in M. destruct (map_res t_indices ts) as [ls'|]; [|discriminate]. injection M as <-. cbn. constructor; [|apply IH; reflexivity]. split; [split; reflexivity|]. exists t'. split; [reflexivity | exact E].
Qed.
Print Assumptions C129_scatter.

(** The arrays are packed and unpacked by the layout. *)
Theorem C129_pack : forall (A Op : Type) (x : instrument A Op) t sh v missing garbage, detector x = Ok t ->
  InstModel.pack x [] sh v = pack_view t sh v /\ InstModel.unpack x [] v missing garbage = PTModel.unpack t v missing garbage.
Proof. intros A Op x t sh v missing garbage D. unfold InstModel.pack, InstModel.unpack. rewrite D. split; reflexivity. Qed.
Print Assumptions C129_pack.
(** Refuted: the documented keywords (the documentation is that of the layout) are refused. *)
Theorem C129_keywords_refuted : forall (A Op : Type) (x : instrument A Op) sh v missing garbage,
  InstModel.pack x ["out"%string] sh v = Err TypeError /\ InstModel.unpack x ["missing_value"%string] v missing garbage = Err TypeError.
Proof. intros. split; reflexivity. Qed.
Print Assumptions C129_keywords_refuted.

(** Imagers: [undoes f g] is any symmetric relation between an operator and its inverse. *)
Theorem C129_imager_partial : forall (A Op : Type) (inv : Op -> Op) (undoes : Op -> Op -> Prop) (t : table A) s i2o o2i,
  (forall f, undoes f (inv f)) -> (forall f g, undoes f g -> undoes g f) ->
  ((i2o = None /\ o2i = None) /\ new_imager inv (AName s) (ALayout t) i2o o2i = Err ValueError \/
   exists x f g, new_imager inv (AName s) (ALayout t) i2o o2i = Ok x /\ i_transforms x = Some (f, g) /\ undoes f g /\ name x = Ok (AName s) /\ detector x = Ok t /\
     (forall f', o2i = Some f' -> f = f') /\ (forall g', o2i = None -> i2o = Some g' -> g = g')).
Proof.
  intros A Op inv undoes t s i2o o2i U Sy. destruct o2i as [f|].
  - right. exists (Instr (Some (AName s)) (ALayout t) (Some (f, inv f))), f, (inv f). repeat split; auto; intros; congruence.
  - destruct i2o as [g|]; [|left; repeat split]. right. exists (Instr (Some (AName s)) (ALayout t) (Some (inv g, g))), (inv g), g. repeat split; auto; intros; congruence.
Qed.
Print Assumptions C129_imager_partial.
(** Refuted: of two transforms that are not inverse of each other, the second is silently ignored. *)
Theorem C129_both_refuted : forall (A Op : Type) (inv : Op -> Op) (t : table A) s f g, g <> inv f ->
  exists x g', new_imager inv (AName s) (ALayout t) (Some g) (Some f) = Ok x /\ i_transforms x = Some (f, g') /\ g' <> g.
Proof. intros A Op inv t s f g N. exists (Instr (Some (AName s)) (ALayout t) (Some (f, inv f))), (inv f). repeat split. congruence. Qed.
Print Assumptions C129_both_refuted.
(** Refuted: an imager without name has no detector, its layout is its name. *)
Theorem C129_anonymous_refuted : forall (A Op : Type) (inv : Op -> Op) (t : table A) f, exists x, new_imager inv ANone (ALayout t) None (Some f) = Ok x /\ name x = Ok (ALayout t) /\ len x = Err TypeError.
Proof. intros. eexists. repeat split. Qed.
Print Assumptions C129_anonymous_refuted.
(** An instrument without name has no attribute of that name, so have its parts. *)
Theorem C129_no_name : forall (A Op : Type) (t : table A) s (y : instrument A Op), name (new_instrument (ALayout t) ANone : instrument A Op) = Err AttributeError /\
  (item (new_instrument (ALayout t) ANone) s = Ok y -> name y = Err AttributeError).
Proof. intros A Op t s y. split; [reflexivity|]. unfold item. cbn. destruct (getitem t s); [|discriminate]. cbn. intros E. injection E as <-. reflexivity. Qed.
Print Assumptions C129_no_name.

Example C129_example : let x : instrument Z nat := Instr (Some (AName "cam"%string)) (ALayout ex_table) (Some (1%nat, 2%nat)) in
  detector x = Ok ex_table /\ reachable ex_table /\ t_indices ex_table = Ok [5; 1; 4] /\
  (do ys <- iterate x; map_res (fun y => do t <- detector y; Ok (i_transforms y, t_attrs t)) ys) = Ok [(Some (1%nat, 2%nat), [("v"%string, AtArr [50])]); (Some (1%nat, 2%nat), [("v"%string, AtArr [10])]); (Some (1%nat, 2%nat), [("v"%string, AtArr [40])])] /\
  (do ys <- split x 2; map_res (fun y => do t <- detector y; t_indices t) ys) = Ok [[5; 1]; [4]] /\
  (exists y, item x (SelSlice (PySlice (Some 1) None None)) = Ok y /\ len y = Ok 2) /\ ~ repeated_only [1; 4].
Proof.
  cbv zeta. split; [reflexivity|]. split; [exact ex_table_reachable|]. split; [reflexivity|]. split; [reflexivity|]. split; [reflexivity|]. split; [eexists; split; reflexivity|].
  cbn. intros H. inversion H as [|? ? ? H']. inversion H'. discriminate.
Qed.
