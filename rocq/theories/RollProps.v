(** C40: rolls. *)
From Coq Require Import Lia Permutation.
From Verif Require Import Base BaseFacts SparseModel SparseSpec RingFacts RollModel RollSpec RollFacts.
Local Open Scope Z_scope.

(** Every element of the result is the one found by subtracting from its index along each
    axis the sum of the offsets given for this axis; the transpose adds them. *)
Theorem C40_elements : forall A shape n axis (a : list A), array_of shape a -> Forall (valid_axis shape) axis -> length n = length axis -> n <> [] ->
  (exists o, roll_direct shape n axis a = Ok o /\ array_of shape o /\ forall i, in_shape shape i -> element shape o i = element shape a (source shape n axis i)) /\
  (exists o, roll_transpose shape n axis a = Ok o /\ array_of shape o /\ forall i, in_shape shape i -> element shape o i = element shape a (source shape (map Z.opp n) axis i)).
Proof.
  intros A s n axis a H V L N. split; [now apply direct_ok|]. rewrite transpose_direct. apply direct_ok; auto; [now rewrite map_length | destruct n; [contradiction | discriminate]].
Qed.
Print Assumptions C40_elements.
(** Rolls compose, in any order of the axes. *)
Theorem C40_compose : forall A shape n m axis (a b c d : list A), array_of shape a -> Forall (valid_axis shape) axis -> length n = length axis -> length m = length axis ->
  roll_direct shape n axis a = Ok b -> roll_direct shape m axis b = Ok c ->
  roll_direct shape (map (fun p => fst p + snd p) (combine n m)) axis a = Ok c /\
  (roll_direct shape m axis a = Ok d -> roll_direct shape n axis d = Ok c).
Proof.
  intros A s n m axis a b c d H V Ln Lm Eb Ec. assert (Nn : n <> []) by (destruct n; [discriminate | discriminate]). assert (Nm : m <> []) by (destruct m; discriminate).
  destruct (direct_ok s n axis a H V Ln Nn) as [b' [Eb' [Hb Pb]]]. rewrite Eb in Eb'. injection Eb' as <-.
  destruct (direct_ok s m axis b Hb V Lm Nm) as [c' [Ec' [Hc Pc]]]. rewrite Ec in Ec'. injection Ec' as <-.
  set (nm := map (fun p => fst p + snd p) (combine n m)). assert (Lnm : length nm = length axis) by (unfold nm; rewrite map_length, combine_length; lia).
  assert (Nnm : nm <> []) by (destruct nm; [cbn in Lnm; destruct n; [contradiction | cbn in Ln; lia] | discriminate]).
  split.
  - destruct (direct_ok s nm axis a H V Lnm Nnm) as [e [Ee [He Pe]]]. rewrite Ee. f_equal. apply (array_ext s); auto. intros i Hi. rewrite Pe, Pc, Pb by auto using source_shape. f_equal.
    apply index_ext; [now rewrite !source_length|]. rewrite source_length. intros k Hk. rewrite source_source by auto. rewrite source_nth by auto. unfold nm. now rewrite offset_add by auto.
  - intros Ed. destruct (direct_ok s m axis a H V Lm Nm) as [d' [Ed' [Hd Pd]]]. rewrite Ed in Ed'. injection Ed' as <-.
    destruct (direct_ok s n axis d Hd V Ln Nn) as [e [Ee [He Pe]]]. rewrite Ee. f_equal. apply (array_ext s); auto. intros i Hi. rewrite Pe, Pd, Pc, Pb by auto using source_shape. f_equal.
    apply index_ext; [now rewrite !source_length|]. rewrite source_length. intros k Hk. rewrite !source_source by auto. f_equal. lia.
Qed.
Print Assumptions C40_compose.
(** The transpose is the inverse, on both sides; no element is lost. *)
Theorem C40_inverse : forall A shape n axis (a : list A), array_of shape a -> Forall (valid_axis shape) axis -> length n = length axis -> n <> [] ->
  exists o t, roll_direct shape n axis a = Ok o /\ roll_transpose shape n axis o = Ok a /\
              roll_transpose shape n axis a = Ok t /\ roll_direct shape n axis t = Ok a /\ Permutation a o /\ Permutation a t.
Proof.
  intros A s n axis a H V L N. destruct (C40_elements A s n axis a H V L N) as [[o [Eo [Ho Po]]] [t [Et [Ht Pt]]]]. exists o, t.
  destruct (C40_elements A s n axis o Ho V L N) as [_ [a1 [E1 [H1 P1]]]]. destruct (C40_elements A s n axis t Ht V L N) as [[a2 [E2 [H2 P2]]] _].
  split; [exact Eo|]. split; [|split; [exact Et|split; [|split; eapply rolled_perm; eauto]]].
  - rewrite E1. f_equal. apply (array_ext s); auto. intros i Hi. rewrite P1, Po by auto using source_shape. now rewrite source_inverse.
  - rewrite E2. f_equal. apply (array_ext s); auto. intros i Hi. rewrite P2, Pt by auto using source_shape. now rewrite source_inverse_r.
Qed.
Print Assumptions C40_inverse.
(** Over any commutative ring the transpose is the adjoint. *)
Theorem C40_adjoint : forall K (o : ops K), ring_laws o -> forall shape n axis x y, array_of shape x -> array_of shape y -> Forall (valid_axis shape) axis -> length n = length axis -> n <> [] ->
  exists dx ty, roll_direct shape n axis x = Ok dx /\ roll_transpose shape n axis y = Ok ty /\
  sum_over o (combine dx y) (fun p => kmul o (fst p) (snd p)) = sum_over o (combine x ty) (fun p => kmul o (fst p) (snd p)).
Proof.
  intros K o RL s n axis x y Hx Hy V L N. destruct (C40_elements K s n axis x Hx V L N) as [[dx [Ex [Hdx Px]]] _]. destruct (C40_elements K s n axis y Hy V L N) as [_ [ty [Ey [Hty Py]]]].
  exists dx, ty. split; [exact Ex|]. split; [exact Ey|]. symmetry. apply (sum_over_perm o RL). destruct Hx as [F Lx], Hy as [_ Ly], Hdx as [_ Ldx], Hty as [_ Lty].
  apply (rolled_perm s n axis); [split; [exact F|]; rewrite combine_length; lia | split; [exact F|]; rewrite combine_length; lia|].
  intros i Hi. rewrite !element_combine. rewrite Px, Py by auto using source_shape. rewrite source_inverse_r by exact Hi. reflexivity.
Qed.
Print Assumptions C40_adjoint.
(** The constructor: default axes are the last ones, a scalar offset is that of every axis. *)
Theorem C40_init : forall n axis,
  match n, axis with
  | Scalar x, None => roll_init n axis = Ok ([x], [-1])
  | Sequence l, None => exists a, roll_init n axis = Ok (l, a) /\ length a = length l /\ forall k, (k < length l)%nat -> nth k a 0 = Z.of_nat k - zlen l
  | Scalar x, Some (Scalar a) => roll_init n axis = Ok ([x], [a])
  | Scalar x, Some (Sequence a) => exists l, roll_init n axis = Ok (l, a) /\ length l = length a /\ forall y, In y l -> y = x
  | Sequence l, Some (Scalar a) => roll_init n axis = if (length l =? 1)%nat then Ok (l, [a]) else Err ValueError
  | Sequence l, Some (Sequence a) => roll_init n axis = if (length l =? length a)%nat then Ok (l, a) else Err ValueError
  end.
Proof.
  assert (LI : forall l : list Z, length (map (fun k => k - zlen l) (iota (zlen l))) = length l) by (intros l; unfold iota, progression; rewrite !map_length, seq_length; unfold zlen; lia).
  intros [x|l] [[a|a]|]; unfold roll_init; cbn [repeat length].
  - reflexivity.
  - rewrite repeat_length, Nat.eqb_refl. exists (repeat x (length a)). split; [reflexivity|]. split; [apply repeat_length|]. intros y Hy. now apply repeat_spec in Hy.
  - reflexivity.
  - destruct l as [|x [|y l]]; reflexivity.
  - rewrite Nat.eqb_sym. now destruct (length l =? length a)%nat.
  - rewrite LI, Nat.eqb_refl. eexists. split; [reflexivity|]. split; [apply LI|]. intros k Hk. rewrite (nth_indep _ 0 (0 - zlen l)) by (rewrite LI; exact Hk). rewrite (map_nth (fun k => k - zlen l)).
    unfold iota, progression. set (g := fun k => _). rewrite (nth_indep _ 0 (g 0%nat)) by (rewrite map_length, seq_length; unfold zlen; lia). rewrite map_nth, seq_nth by (unfold zlen; lia). unfold g. lia.
Qed.
Print Assumptions C40_init.
(** An array of 2 x 3 rolled by 1 along its rows and by -1 along its columns; an axis can be
    given twice. *)
Example C40_example : roll_direct [2; 3] [1; -1] [-2; 1] [1; 2; 3; 4; 5; 6] = Ok [5; 6; 4; 2; 3; 1] /\
  roll_direct [2; 3] [1; 1] [1; -1] [1; 2; 3; 4; 5; 6] = Ok [2; 3; 1; 5; 6; 4] /\
  array_of [2; 3] [1; 2; 3; 4; 5; 6] /\ Forall (valid_axis [2; 3]) [-2; 1].
Proof. repeat split; try (repeat constructor; unfold valid_axis; cbn; lia). Qed.
(** Without any axis the operator cannot be applied. *)
Theorem C40_no_axis_refuted : exists n axis, roll_init (Sequence []) None = Ok (n, axis) /\ roll_direct [2] n axis [1; 2] = Err IndexError.
Proof. exists [], []. split; reflexivity. Qed.
Print Assumptions C40_no_axis_refuted.
