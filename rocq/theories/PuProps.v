(** C91: units of projected data. *)
From Coq Require Import String Ascii QArith Qcanon Lia.
From Verif Require Import Base BaseFacts TemplateModel UnitModel UnitSpec UnitFacts PuModel PuSpec.

Lemma get_lookup a k : a_get a k = lookup a k.
Proof.
  unfold lookup. induction a as [|[k' v] a IH]; [reflexivity|]. cbn [a_get List.find fst]. unfold text_eqb. destruct (list_eq_dec ascii_dec k' k); [reflexivity|exact IH].
Qed.
Lemma get_set a k v j : a_get (a_set a k v) j = if text_eqb k j then Some v else a_get a j.
Proof.
  induction a as [|[k' v'] a IH]; cbn [a_set a_get]; [reflexivity|]. destruct (text_eqb k' k) eqn:E; cbn [a_get].
  - apply text_eqb_eq in E. subst k'. destruct (text_eqb k j); reflexivity.
  - rewrite IH. destruct (text_eqb k' j) eqn:E1, (text_eqb k j) eqn:E2; try reflexivity. apply text_eqb_eq in E1, E2. subst. now rewrite text_eqb_refl in E.
Qed.
Lemma get_del a k j : a_get (a_del a k) j = if text_eqb k j then None else a_get a j.
Proof.
  induction a as [|[k' v'] a IH]; cbn [a_del a_get]; [now destruct (text_eqb k j)|]. destruct (text_eqb k' k) eqn:E; cbn [a_get]; rewrite IH.
  - apply text_eqb_eq in E. subst k'. now destruct (text_eqb k j).
  - destruct (text_eqb k' j) eqn:E1, (text_eqb k j) eqn:E2; try reflexivity. apply text_eqb_eq in E1, E2. subst. now rewrite text_eqb_refl in E.
Qed.
Lemma get_update b a j : (forall v, ~ In (j, v) b) -> a_get (a_update a b) j = a_get a j.
Proof.
  unfold a_update. revert a. induction b as [|[k v] b IH]; intros a H; [reflexivity|]. cbn [fold_left fst snd]. rewrite IH; [|intros w Hw; apply (H w); now right]. rewrite get_set.
  destruct (text_eqb k j) eqn:E; [|reflexivity]. apply text_eqb_eq in E. subst. elim (H v). now left.
Qed.
(** Names that the caller gives and that have nothing to do with units and headers. *)
Definition unrelated (b : attrs) : Prop := forall k v, In (k, v) b -> k <> unit_name /\ k <> header_ /\ k <> derived_.
Lemma unrelated_get b a j : unrelated b -> j = unit_name \/ j = header_ \/ j = derived_ -> a_get (a_update a b) j = a_get a j.
Proof. intros H Hj. apply get_update. intros v Hv. destruct (H j v Hv) as (A & B & C). tauto. Qed.

Lemma set_attrout_get p a j : unrelated (attrout p) -> j = unit_name \/ j = header_ \/ j = derived_ ->
  a_get (set_attrout p a) j = if text_eqb header_ j then None
    else if text_eqb derived_ j then match duout p with Some d => Some (VDerived d) | None => a_get a j end
    else match unit_of a with [] => a_get a j | u => Some (VUnit (multiply_unit u (punit p))) end.
Proof.
  intros H Hj. unfold set_attrout. cbv zeta. rewrite unrelated_get by assumption.
  assert (U : unit_of (a_del a header_) = unit_of a) by (unfold unit_of; rewrite get_del; reflexivity). rewrite U.
  destruct (unit_of a) as [|x r]; destruct (duout p) as [d|]; destruct Hj as [ -> | [ -> | -> ] ]; rewrite ?get_set, ?get_del; reflexivity.
Qed.
Lemma set_attrin_get p a j : unrelated (attrin p) -> j = unit_name \/ j = header_ \/ j = derived_ ->
  a_get (set_attrin p a) j = if text_eqb header_ j then None
    else if text_eqb derived_ j then match duin p with Some d => Some (VDerived d) | None => a_get a j end
    else match unit_of a with [] => a_get a j | u => Some (VUnit (divide_unit u (punit p))) end.
Proof.
  intros H Hj. unfold set_attrin. cbv zeta. rewrite unrelated_get by assumption.
  assert (U : unit_of (a_del a header_) = unit_of a) by (unfold unit_of; rewrite get_del; reflexivity). rewrite U.
  destruct (unit_of a) as [|x r]; destruct (duin p) as [d|]; destruct Hj as [ -> | [ -> | -> ] ]; rewrite ?get_set, ?get_del; reflexivity.
Qed.

(** Data that have a unit: projected from the input unit to the output unit, and back; the header and the derived units are
    those of the other side. *)
Theorem C91_units_partial uo ui derived ain aout a u p : canonical uo -> canonical ui -> canonical u -> u <> [] -> unrelated ain -> unrelated aout ->
  p = new_projection (Some (uo, ui)) derived ain aout -> lookup a unit_name = Some (VUnit u) ->
  has_unit (set_attrout p a) (fun k => exponent u k + exponent uo k - exponent ui k)%Qc /\
  has_unit (set_attrin p a) (fun k => exponent u k - exponent uo k + exponent ui k)%Qc /\
  lookup (set_attrout p a) header_ = None /\ lookup (set_attrin p a) header_ = None /\
  (forall dout din, derived = Some (Some dout, Some din) -> lookup (set_attrout p a) derived_ = Some (VDerived dout) /\ lookup (set_attrin p a) derived_ = Some (VDerived din)).
Proof.
  intros Co Ci Cu Hu Hin Hout -> Hl. rewrite <- get_lookup in Hl.
  assert (U : unit_of a = u) by (unfold unit_of; now rewrite Hl).
  assert (Cp : canonical (divide_unit uo ui)) by now apply canonical_divide.
  unfold has_unit. rewrite <- !get_lookup. rewrite !set_attrout_get, !set_attrin_get by (try exact Hin; try exact Hout; tauto).
  rewrite U. cbn [text_eqb punit new_projection fst snd duout duin].
  change (text_eqb header_ unit_name) with false. change (text_eqb derived_ unit_name) with false. change (text_eqb header_ header_) with true. change (text_eqb header_ derived_) with false. change (text_eqb derived_ derived_) with true. cbv iota.
  destruct u as [|x r]; [easy|]. set (u := x :: r) in *. destruct Co as [No Fo], Ci as [Ni Fi], Cu as [Nu Fu]. split; [|split; [|split; [reflexivity|split; [reflexivity|]]]].
  - split; [now apply canonical_multiply|]. intros k. rewrite multiply_exponent by exact Nu. rewrite divide_exponent by exact No. ring.
  - split; [now apply canonical_divide|]. intros k. rewrite divide_exponent by exact Nu. rewrite divide_exponent by exact No. ring.
  - intros dout din ->. split; reflexivity.
Qed.
Print Assumptions C91_units_partial.
(** Projected and back-projected data have their former unit, if none of the two units is that of numbers. *)
Theorem C91_round_trip_partial uo ui derived ain aout a u p : canonical uo -> canonical ui -> canonical u -> unrelated ain -> unrelated aout ->
  p = new_projection (Some (uo, ui)) derived ain aout -> lookup a unit_name = Some (VUnit u) -> (exists k, exponent u k + exponent uo k <> exponent ui k)%Qc ->
  has_unit (set_attrin p (set_attrout p a)) (exponent u) \/ u = [].
Proof.
  intros Co Ci Cu Hin Hout Ep Hl [k Hk]. destruct u as [|x r]; [now right|left]. set (u := x :: r) in *.
  destruct (C91_units_partial uo ui derived ain aout a u p Co Ci Cu ltac:(discriminate) Hin Hout Ep Hl) as (A & _). unfold has_unit in A.
  destruct (lookup (set_attrout p a) unit_name) as [[v| | |]|] eqn:E; try easy.
  2:{ elim Hk. specialize (A k). cbn beta in A. apply (f_equal (fun z => z + exponent ui k)%Qc) in A. ring_simplify in A. rewrite <- A. ring. }
  destruct A as [Cv Hv]. destruct (C91_units_partial uo ui derived ain aout (set_attrout p a) v p Co Ci Cv) as (_ & B & _); try assumption.
  - intros ->. elim Hk. specialize (Hv k). cbn [exponent] in Hv. symmetry in Hv. apply (f_equal (fun z => z + exponent ui k)%Qc) in Hv. ring_simplify in Hv. rewrite <- Hv. ring.
  - unfold has_unit in *. destruct (lookup (set_attrin p (set_attrout p a)) unit_name) as [[w| | |]|]; try easy.
    + destruct B as [Cw Hw]. split; [exact Cw|]. intros j. rewrite Hw, Hv. ring.
    + intros j. specialize (B j). rewrite Hv in B. rewrite <- B. ring.
Qed.
Print Assumptions C91_round_trip_partial.
Definition u1 (s : string) (n : Z) : unit_ := [(lit s, Q2Qc (inject_Z n))].
Example C91_case : let p := new_projection (Some (u1 "Jy" 1, u1 "pixel" 1)) (Some (Some [], Some [])) [] [(lit "coverage", VOther 3)] in
  lookup (set_attrout p [(header_, VHeader 1); (unit_name, VUnit (u1 "K" 1))]) unit_name = Some (VUnit [(lit "K", 1%Qc); (lit "Jy", 1%Qc); (lit "pixel", (- (1))%Qc)]) /\ unrelated [(lit "coverage", VOther 3)].
Proof. split; [|intros k v [E|[]]; injection E as <- <-; repeat split; discriminate]. vm_compute. reflexivity. Qed.

(** Wrong: numbers have the unit of the projection on the way out, and none here; a round trip through numbers loses the unit. *)
Theorem C91_number_refuted : let p := new_projection (Some (u1 "Jy" 1, [])) None [] [] in
  lookup (set_attrout p [(unit_name, VUnit [])]) unit_name = Some (VUnit []) /\ lookup (set_attrout p [(unit_name, VUnit (u1 "s" 1))]) unit_name <> Some (VUnit (u1 "s" 1)).
Proof. split; [reflexivity|]. vm_compute. discriminate. Qed.
Print Assumptions C91_number_refuted.
Theorem C91_trip_refuted : let p := new_projection (Some ([], u1 "Jy" 1)) None [] [] in
  let a := [(unit_name, VUnit (u1 "Jy" 1))] in lookup (set_attrin p (set_attrout p a)) unit_name = Some (VUnit []).
Proof. reflexivity. Qed.
Print Assumptions C91_trip_refuted.
(** Wrong: the back projection of get_pTx_pT1 has the unit of its argument, that of the transpose is divided by the unit of the projection. *)
Theorem C91_back_projection_refuted u p : unrelated (attrin p) -> canonical u -> canonical (punit p) -> u <> [] -> punit p <> [] ->
  lookup (pTx_attrs p (Some u)) unit_name = Some (VUnit u) /\
  exists v, lookup (set_attrin p [(unit_name, VUnit u)]) unit_name = Some (VUnit v) /\ exists k, exponent v k <> exponent u k.
Proof.
  intros Hin Cu [Np Fp] Hu Hp. split; [unfold pTx_attrs; rewrite <- get_lookup, get_set, text_eqb_refl; reflexivity|].
  rewrite <- get_lookup, set_attrin_get by tauto. change (text_eqb header_ unit_name) with false. change (text_eqb derived_ unit_name) with false. cbv iota.
  assert (U : unit_of [(unit_name, VUnit u)] = u) by reflexivity. rewrite U. destruct u as [|x r]; [easy|]. exists (divide_unit (x :: r) (punit p)). split; [reflexivity|].
  destruct (punit p) as [|[k e] q] eqn:E; [easy|]. exists k. destruct Cu as [Nu Fu]. rewrite divide_exponent by exact Nu.
  assert (X : exponent ((k, e) :: q) k = e). { cbn [exponent]. destruct (list_eq_dec ascii_dec k k); [|easy]. rewrite exponent_absent by (inversion Np; assumption). ring. }
  rewrite X. inversion Fp as [|? ? He]; subst. cbn [snd] in He. intros Z. apply He. apply (f_equal (fun z => exponent (x :: r) k - z)%Qc) in Z. ring_simplify in Z. exact Z.
Qed.
Print Assumptions C91_back_projection_refuted.
(** By default, derived units are removed. *)
Theorem C91_default_derived_refuted a d u : let p := new_projection u None [] [] in lookup ((derived_, VDerived d) :: a) derived_ = Some (VDerived d) /\ lookup (set_attrout p ((derived_, VDerived d) :: a)) derived_ = Some (VDerived []).
Proof.
  split; [reflexivity|]. rewrite <- get_lookup, set_attrout_get; [reflexivity|intros k v []|tauto].
Qed.
Print Assumptions C91_default_derived_refuted.
