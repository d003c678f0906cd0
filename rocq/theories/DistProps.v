(** C137: distortions and headers given as texts. *)
From Coq Require Import ZArith Reals List Bool Ascii String Lia.
From Verif Require Import Base BaseFacts TemplateModel DistModel.
Import ListNotations.
Local Open Scope list_scope.

(** An interpolator goes through the values at distinct nodes. *)
Definition interpolates {V} (interp : list (V * V) -> list V -> V * V -> option V) : Prop :=
  forall nodes values k p v, NoDup nodes -> List.length nodes = List.length values -> nth_error nodes k = Some p -> nth_error values k = Some v -> interp nodes values p = Some v.
Definition well_formed {V} (c : coords (V:=V)) : Prop := c_shape c = [Z.of_nat (List.length (c_points c)); 2%Z].

(** Every object point is sent to its image, and the inverse sends it back; the inverse of the inverse is the operator. *)
Theorem C137_nodes : forall V (interp : list (V * V) -> list V -> V * V -> option V) xin xout, interpolates interp -> well_formed xin -> well_formed xout ->
  List.length (c_points xin) = List.length (c_points xout) -> NoDup (c_points xin) -> NoDup (c_points xout) ->
  exists d i, new xin xout = Ok d /\ inverse d = Ok i /\ inverse i = Ok d /\
    forall k p q, nth_error (c_points xin) k = Some p -> nth_error (c_points xout) k = Some q ->
      direct interp d p = (Some (fst q), Some (snd q)) /\ direct interp i q = (Some (fst p), Some (snd p)).
Proof.
  intros V interp xin xout I Wi Wo L Ni No. assert (N : forall a b : coords (V:=V), well_formed a -> well_formed b -> List.length (c_points a) = List.length (c_points b) -> new a b = Ok (Distortion a b)).
  { intros a b A B E. unfold new. unfold well_formed in A, B. rewrite A, B, E. cbn [rev app Z.eqb Pos.eqb negb List.length Nat.eqb]. destruct (list_eq_dec _ _ _); [reflexivity | congruence]. }
  exists (Distortion xin xout), (Distortion xout xin). split; [now apply N|]. split; [unfold inverse; cbn; now apply N|]. split; [unfold inverse; cbn; now apply N|].
  intros k p q P Q. unfold direct. cbn [d_in d_out]. split; f_equal; eapply I with (k := k); try eassumption; rewrite ?map_length, ?nth_error_map, ?P, ?Q; auto.
Qed.
Print Assumptions C137_nodes.
(** Coordinates are refused unless both have the same shape (npoints, 2). *)
Theorem C137_shapes : forall V (xin xout : coords (V:=V)), c_shape xin <> [] -> (exists d, new xin xout = Ok d) <-> c_shape xin = c_shape xout /\ exists n, c_shape xin = [n; 2%Z].
Proof.
  intros V xin xout H. unfold new. split.
  - destruct (rev (c_shape xin)) as [|m r] eqn:R; [intros [d E]; discriminate|]. destruct (Z.eqb_spec m 2) as [->|N]; cbn [negb]; [|intros [d E]; discriminate]. destruct (list_eq_dec _ _ _) as [E|N]; cbn [negb]; [|intros [d E']; discriminate]. destruct (Nat.eqb_spec (List.length (c_shape xin)) 2) as [L|L]; cbn [negb]; [|intros [d E']; discriminate].
    intros _. split; [exact E|]. destruct (c_shape xin) as [|a [|b [|c l]]]; try discriminate. cbn in R. injection R as -> _. now exists a.
  - intros [E [n S]]. rewrite <- E, S. cbn [rev app Z.eqb Pos.eqb negb]. destruct (list_eq_dec _ _ _); [|congruence]. cbn. eexists. reflexivity.
Qed.
Print Assumptions C137_shapes.
Theorem C137_errors : forall V (xin xout : coords (V:=V)) e, c_shape xin <> [] -> new xin xout = Err e -> e = ValueError.
Proof.
  intros V xin xout e H. unfold new. destruct (rev (c_shape xin)) as [|m r] eqn:R; [apply (f_equal (@rev Z)) in R; rewrite rev_involutive in R; contradiction|]. destruct (negb (m =? 2)%Z); [congruence|]. destruct (negb (if list_eq_dec _ _ _ then true else false)); [congruence|]. destruct (negb (Nat.eqb _ _)); congruence.
Qed.
Print Assumptions C137_errors.
(** Refuted: a scalar is refused with a ValueError. *)
Theorem C137_scalar_refuted : forall V (xout : coords (V:=V)) l, new (Coords [] l) xout = Err IndexError.
Proof. reflexivity. Qed.
Print Assumptions C137_scalar_refuted.

(** Headers: the function does not work with the libraries it is written for, whatever the text. *)
Theorem C137_header_refuted : forall s, str2fitsheader Absent s = Err AttributeError /\ str2fitsheader NotCallable s = Err TypeError.
Proof. split; reflexivity. Qed.
Print Assumptions C137_header_refuted.
(** Were there such a method, the cards would be the pieces of 80 characters before the first that starts with END. *)
Lemma cards_ok pieces rest fuel : Forall (fun p => List.length p = 80 /\ firstn 3 p <> lit "END") pieces -> (List.length rest = 0 \/ firstn 3 rest = lit "END") -> List.length (concat pieces ++ rest) <= fuel -> cards fuel (concat pieces ++ rest) = pieces.
Proof.
  intros F R. revert fuel. induction F as [|p ps [L E] _ IH]; intros fuel B; cbn [concat app] in *.
  - destruct R as [R|R]; [destruct rest; [destruct fuel; reflexivity | discriminate]|]. destruct fuel as [|f]; [reflexivity|]. destruct rest as [|c r]; [reflexivity|]. cbn [cards]. rewrite firstn_firstn. cbn [Nat.min]. rewrite R. unfold text_eqb. destruct (list_eq_dec _ _ _); [reflexivity | congruence].
  - rewrite <- app_assoc in *. destruct fuel as [|f]; [rewrite app_length in B; lia|]. cbn [cards]. assert (firstn 80 (p ++ concat ps ++ rest) = p) as -> by (rewrite <- L, firstn_app, Nat.sub_diag, firstn_all; apply app_nil_r). assert (skipn 80 (p ++ concat ps ++ rest) = concat ps ++ rest) as -> by (rewrite <- L, skipn_app, Nat.sub_diag, skipn_all; reflexivity).
    destruct (p ++ concat ps ++ rest) eqn:Z; [destruct p; discriminate|]. unfold text_eqb. destruct (list_eq_dec _ _ _) as [H|_]; [contradiction|]. f_equal. apply IH. rewrite <- Z in B. rewrite app_length in B. lia.
Qed.
Theorem C137_cards : forall pieces rest, Forall (fun p => List.length p = 80 /\ firstn 3 p <> lit "END") pieces -> (rest = [] \/ firstn 3 rest = lit "END") -> str2fitsheader Method (concat pieces ++ rest) = Ok pieces.
Proof. intros pieces rest F R. unfold str2fitsheader. rewrite (cards_ok pieces rest); auto. destruct R as [->|R]; auto. Qed.
Print Assumptions C137_cards.
(** Refuted: only the keyword END stops: a card ENDDATE does too. *)
Theorem C137_end_refuted : exists card, List.length card = 80 /\ firstn 8 card = lit "ENDDATE " /\ str2fitsheader Method card = Ok [].
Proof. exists (lit "ENDDATE = 1" ++ repeat " "%char 69). repeat split. Qed.
Print Assumptions C137_end_refuted.

Definition nearest_node (nodes : list (Z * Z)) (values : list Z) (p : Z * Z) : option Z :=
  match find (fun nv => Z.eqb (fst (fst nv)) (fst p) && Z.eqb (snd (fst nv)) (snd p)) (combine nodes values) with Some nv => Some (snd nv) | None => None end.
Example C137_example : interpolates nearest_node /\
  let xin := Coords [3; 2]%Z [(0, 0); (1, 0); (0, 1)]%Z in let xout := Coords [3; 2]%Z [(0, 0); (2, 0); (0, 3)]%Z in
  well_formed xin /\ well_formed xout /\ exists d, new xin xout = Ok d /\ apply nearest_node d [(1, 0); (0, 1)]%Z = [(Some 2, Some 0); (Some 0, Some 3)]%Z.
Proof.
  split; [|split; [reflexivity|]; split; [reflexivity|]; eexists; split; reflexivity].
  intros nodes. induction nodes as [|a nodes IH]; intros values k p v N L P Q; [destruct k; discriminate|]. destruct values as [|w values]; [destruct k; discriminate|]. inversion N as [|? ? Na N']. subst. unfold nearest_node. cbn [combine find fst snd]. destruct k as [|k]; cbn in P, Q.
  - injection P as ->. injection Q as ->. rewrite !Z.eqb_refl. reflexivity.
  - destruct (Z.eqb (fst a) (fst p) && Z.eqb (snd a) (snd p)) eqn:E.
    + exfalso. apply Na. replace a with p by (destruct a, p; cbn in E; f_equal; lia). now apply nth_error_In in P.
    + apply (IH values k p v N'); auto.
Qed.
