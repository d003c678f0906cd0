(** Lemmas for HobjProps.v. *)
From Coq Require Import String.
From Verif Require Import Base BaseFacts TemplateModel HobjModel HobjSpec.
From Verif Require WcsModel.
Open Scope Z_scope.

Definition rel (H : list cards) (o : obj) (x : value) : Prop :=
  o_shape o = v_shape x /\ o_type o = v_type x /\
  match o_header o, v_header x with Some r, Some h => nth_error H r = Some h | None, None => True | _, _ => False end.
Definition inv (s : state) (v : list value) : Prop :=
  s_vars s = seq 0 (length v) /\ length (s_objs s) = length v /\
  (forall i o x, nth_error (s_objs s) i = Some o -> nth_error v i = Some x -> rel (s_headers s) o x) /\
  (forall i j oi oj xi xj r, nth_error (s_objs s) i = Some oi -> nth_error (s_objs s) j = Some oj -> nth_error v i = Some xi -> nth_error v j = Some xj ->
     o_header oi = Some r -> o_header oj = Some r -> v_family xi = v_family xj).

Lemma rel_app H H' o x : rel H o x -> rel (H ++ H') o x.
Proof.
  intros (A & B & C). split; [exact A|]. split; [exact B|].
  destruct (o_header o) as [r|], (v_header x) as [h|]; try exact C.
  rewrite nth_error_app1; [exact C|]. apply nth_error_Some; congruence.
Qed.
Lemma nth_snoc {A} (l : list A) x i y : nth_error (l ++ [x]) i = Some y -> ((i < length l)%nat /\ nth_error l i = Some y) \/ (i = length l /\ y = x).
Proof.
  intros E. destruct (Nat.lt_ge_cases i (length l)) as [L|L].
  - left. split; [exact L|]. rewrite nth_error_app1 in E by exact L. exact E.
  - right. rewrite nth_error_app2 in E by exact L. destruct (i - length l)%nat as [|k] eqn:D; cbn in E.
    + injection E as <-. split; [lia|reflexivity].
    + destruct k; discriminate.
Qed.
Lemma inv_push s v H' o x : inv s v -> rel (s_headers s ++ H') o x ->
  (forall j oj xj r, nth_error (s_objs s) j = Some oj -> nth_error v j = Some xj -> o_header o = Some r -> o_header oj = Some r -> v_family xj = v_family x) ->
  inv (State (s_headers s ++ H') (s_objs s ++ [o]) (s_vars s ++ [length (s_objs s)])) (v ++ [x]).
Proof.
  intros (V & L & R & S) Rn F. repeat split; cbn.
  - rewrite V, L, app_length, seq_app. reflexivity.
  - rewrite !app_length. cbn. lia.
  - intros. destruct (nth_snoc _ _ _ _ H) as [(A & B)|(A & B)], (nth_snoc _ _ _ _ H0) as [(A' & B')|(A' & B')]; try lia.
    + exact (proj1 (R _ _ _ B B')).
    + subst. apply Rn.
  - intros. destruct (nth_snoc _ _ _ _ H) as [(A & B)|(A & B)], (nth_snoc _ _ _ _ H0) as [(A' & B')|(A' & B')]; try lia.
    + exact (proj1 (proj2 (R _ _ _ B B'))).
    + subst. apply Rn.
  - destruct (nth_snoc _ _ _ _ H) as [(A & B)|(A & B)], (nth_snoc _ _ _ _ H0) as [(A' & B')|(A' & B')]; try lia.
    + exact (proj2 (proj2 (rel_app _ H' _ _ (R _ _ _ B B')))).
    + subst. apply Rn.
  - intros i j oi oj xi xj r A B C D E G.
    destruct (nth_snoc _ _ _ _ A) as [(A1 & A2)|(A1 & A2)], (nth_snoc _ _ _ _ B) as [(B1 & B2)|(B1 & B2)],
             (nth_snoc _ _ _ _ C) as [(C1 & C2)|(C1 & C2)], (nth_snoc _ _ _ _ D) as [(D1 & D2)|(D1 & D2)]; try lia; subst.
    + exact (S _ _ _ _ _ _ _ A2 B2 C2 D2 E G).
    + exact (F _ _ _ _ A2 C2 G E).
    + symmetry. exact (F _ _ _ _ B2 D2 E G).
    + reflexivity.
Qed.
Lemma nth_set {A} (l : list A) p x i y : nth_error (set_nth l p x) i = Some y -> (i <> p /\ nth_error l i = Some y) \/ (i = p /\ y = x).
Proof.
  intros E. destruct (Nat.eq_dec i p) as [->|N].
  - right. split; [reflexivity|]. rewrite set_nth_same in E; [congruence|].
    rewrite <- (set_nth_length l p x). apply nth_error_Some. congruence.
  - left. rewrite set_nth_other in E by congruence. auto.
Qed.
Lemma inv_update s v H' p o x : inv s v -> rel (s_headers s ++ H') o x ->
  (forall j oj xj r, j <> p -> nth_error (s_objs s) j = Some oj -> nth_error v j = Some xj -> o_header o = Some r -> o_header oj = Some r -> v_family xj = v_family x) ->
  inv (State (s_headers s ++ H') (set_nth (s_objs s) p o) (s_vars s)) (set_nth v p x).
Proof.
  intros (V & L & R & S) Rn F. repeat split; cbn.
  - rewrite V, set_nth_length. reflexivity.
  - rewrite !set_nth_length. exact L.
  - destruct (nth_set _ _ _ _ _ H) as [(A & B)|(A & B)], (nth_set _ _ _ _ _ H0) as [(A' & B')|(A' & B')]; try congruence.
    + exact (proj1 (R _ _ _ B B')).
    + subst. apply Rn.
  - destruct (nth_set _ _ _ _ _ H) as [(A & B)|(A & B)], (nth_set _ _ _ _ _ H0) as [(A' & B')|(A' & B')]; try congruence.
    + exact (proj1 (proj2 (R _ _ _ B B'))).
    + subst. apply Rn.
  - destruct (nth_set _ _ _ _ _ H) as [(A & B)|(A & B)], (nth_set _ _ _ _ _ H0) as [(A' & B')|(A' & B')]; try congruence.
    + exact (proj2 (proj2 (rel_app _ H' _ _ (R _ _ _ B B')))).
    + subst. apply Rn.
  - intros i j oi oj xi xj r A B C D E G.
    destruct (nth_set _ _ _ _ _ A) as [(A1 & A2)|(A1 & A2)], (nth_set _ _ _ _ _ B) as [(B1 & B2)|(B1 & B2)],
             (nth_set _ _ _ _ _ C) as [(C1 & C2)|(C1 & C2)], (nth_set _ _ _ _ _ D) as [(D1 & D2)|(D1 & D2)]; try congruence; subst.
    + exact (S _ _ _ _ _ _ _ A2 B2 C2 D2 E G).
    + exact (F _ _ _ _ A1 A2 C2 G E).
    + symmetry. exact (F _ _ _ _ B1 B2 D2 E G).
Qed.
Lemma inv_write s v p r h x : inv s v -> nth_error (s_objs s) p <> None -> (forall o, nth_error (s_objs s) p = Some o -> o_header o = Some r) ->
  nth_error v p = Some x -> (r < length (s_headers s))%nat -> (forall j y, nth_error v j = Some y -> v_family y = v_family x -> j = p) ->
  inv (State (set_nth (s_headers s) r h) (s_objs s) (s_vars s)) (set_nth v p (Value (v_shape x) (v_type x) (Some h) (v_family x))).
Proof.
  intros (V & L & R & S) N O X B A.
  destruct (nth_error (s_objs s) p) as [op|] eqn:E; [|congruence]. clear N. specialize (O op eq_refl).
  assert (P : (p < length v)%nat) by (apply nth_error_Some; congruence).
  repeat split; cbn.
  - rewrite V, set_nth_length. reflexivity.
  - rewrite set_nth_length. exact L.
  - destruct (nth_set _ _ _ _ _ H0) as [(A1 & A2)|(A1 & A2)].
    + exact (proj1 (R _ _ _ H A2)).
    + subst. exact (proj1 (R _ _ _ H X)).
  - destruct (nth_set _ _ _ _ _ H0) as [(A1 & A2)|(A1 & A2)].
    + exact (proj1 (proj2 (R _ _ _ H A2))).
    + subst. exact (proj1 (proj2 (R _ _ _ H X))).
  - destruct (nth_set _ _ _ _ _ H0) as [(A1 & A2)|(A1 & A2)].
    + pose proof (proj2 (proj2 (R _ _ _ H A2))) as C.
      destruct (o_header o) as [r'|] eqn:Q, (v_header x0) as [h'|]; try exact C.
      destruct (Nat.eq_dec r' r) as [->|D].
      * exfalso. apply A1. apply (A i x0 A2). exact (S _ _ _ _ _ _ _ H E A2 X Q O).
      * rewrite set_nth_other by congruence. exact C.
    + subst x0. cbn in H. replace o with op by congruence. rewrite O. cbn. apply set_nth_same. exact B.
  - intros i j oi oj xi xj r' A0 B0 C D F G.
    destruct (nth_set _ _ _ _ _ C) as [(C1 & C2)|(C1 & C2)], (nth_set _ _ _ _ _ D) as [(D1 & D2)|(D1 & D2)]; subst; cbn.
    + exact (S _ _ _ _ _ _ _ A0 B0 C2 D2 F G).
    + exact (S _ _ _ _ _ _ _ A0 B0 C2 X F G).
    + exact (S _ _ _ _ _ _ _ A0 B0 X D2 F G).
    + reflexivity.
Qed.

(** ** The tables *)
Lemma bitpix_bits t : WcsModel.dtype2bitpix (name_of t) = match bits t with Some b => Ok b | None => Err KeyError end.
Proof. destruct t; reflexivity. Qed.
Lemma header_for_spec shape t : t <> Complex128 -> header_for shape t =
  if 8 <? zlen (axes_of shape) then Err ValueError else match stored_bits t with Some b => Ok (Cards (axes_of shape) b []) | None => Err KeyError end.
Proof.
  intros N. unfold header_for. replace (rev match shape with [] => [1] | _ => shape end) with (axes_of shape) by (destruct shape; reflexivity).
  destruct (8 <? zlen (axes_of shape)); [reflexivity|]. destruct t; try reflexivity; congruence.
Qed.
Lemma no_int_spec t : quantity_type None t = no_int t.
Proof. destruct t; reflexivity. Qed.

(** ** Lookup and reading *)
Lemma obj_of_inv s v i : inv s v ->
  match vget v i with
  | Ok x => exists o, obj_of s i = Ok (i, o) /\ nth_error (s_objs s) i = Some o /\ nth_error v i = Some x /\ rel (s_headers s) o x
  | Err e => obj_of s i = Err e
  end.
Proof.
  intros (V & L & R & S). unfold vget, obj_of. destruct (nth_error v i) as [x|] eqn:X.
  - assert (P : (i < length v)%nat) by (apply nth_error_Some; congruence).
    destruct (nth_error (s_objs s) i) as [o|] eqn:O; [|apply nth_error_None in O; lia].
    exists o. rewrite V. replace (nth_error (seq 0 (length v)) i) with (Some i).
    + rewrite O. pose proof (R _ _ _ O X). auto.
    + symmetry. rewrite (nth_error_nth' _ 0%nat); [|rewrite seq_length; exact P]. rewrite seq_nth by exact P. reflexivity.
  - rewrite V. replace (nth_error (seq 0 (length v)) i) with (@None nat); [reflexivity|].
    symmetry. apply nth_error_None. rewrite seq_length. apply nth_error_None. exact X.
Qed.
Lemma header_inv s v i : inv s v ->
  match vread v i with
  | Ok v' => exists s' r, header s i = Ok (s', r) /\ inv s' v' /\ length v' = length v /\
               exists o x, nth_error (s_objs s') i = Some o /\ nth_error v' i = Some x /\ o_header o = r /\
               (forall j, option_map v_family (nth_error v' j) = option_map v_family (nth_error v j))
  | Err e => header s i = Err e
  end.
Proof.
  intros I. pose proof (obj_of_inv s v i I) as G. unfold vread, header. destruct (vget v i) as [x|e]; cbn [bind] in *.
  2:{ rewrite G. reflexivity. }
  destruct G as (o & G & O & X & (R1 & R2 & R3)). rewrite G. cbn [bind].
  destruct (v_header x) as [h|] eqn:Hx, (o_header o) as [r|] eqn:Ho; try contradiction.
  - exists s, (Some r). split; [reflexivity|]. split; [exact I|]. split; [reflexivity|]. exists o, x. auto.
  - assert (D : forall t, o_type o = t -> t <> Complex128 ->
      match (if 8 <? zlen (axes_of (v_shape x)) then Err ValueError
             else match stored_bits t with Some b => Ok (vput v i (Some (Cards (axes_of (v_shape x)) b [])) (v_family x)) | None => Err KeyError end) with
      | Ok v' => exists s' r, (do h <- header_for (o_shape o) t; let '(s0, r) := new_header s h in Ok (set_href s0 i o (Some r), Some r)) = Ok (s', r) /\ inv s' v' /\ length v' = length v /\
               exists o x, nth_error (s_objs s') i = Some o /\ nth_error v' i = Some x /\ o_header o = r /\
               (forall j, option_map v_family (nth_error v' j) = option_map v_family (nth_error v j))
      | Err e => (do h <- header_for (o_shape o) t; let '(s0, r) := new_header s h in Ok (set_href s0 i o (Some r), Some r)) = Err e
      end).
    { intros t T N. rewrite header_for_spec by exact N. rewrite R1.
      destruct (8 <? zlen (axes_of (v_shape x))); [reflexivity|]. destruct (stored_bits t) as [b|]; [|reflexivity].
      cbn [bind]. unfold new_header, set_href, vput. cbn. rewrite X.
      assert (Li : (i < length (s_objs s))%nat) by (apply nth_error_Some; congruence).
      assert (Lv : (i < length v)%nat) by (apply nth_error_Some; congruence).
      eexists _, _. split; [reflexivity|]. split.
      - apply (inv_update s v [Cards (axes_of (v_shape x)) b []]); [exact I| |].
        + split; [exact R1|]. split; [exact R2|]. cbn. rewrite nth_error_app2, Nat.sub_diag by lia. reflexivity.
        + cbn. intros j oj xj r Nj Oj Xj [= <-] C. destruct I as (V & L & R & S).
          pose proof (proj2 (proj2 (R _ _ _ Oj Xj))) as Q. rewrite C in Q. destruct (v_header xj); [|contradiction].
          assert ((length (s_headers s) < length (s_headers s))%nat) by (apply nth_error_Some; congruence). lia.
      - split; [apply set_nth_length|]. cbn. eexists _, _. split; [apply set_nth_same; exact Li|]. split; [apply set_nth_same; exact Lv|].
        split; [reflexivity|]. intros j. destruct (Nat.eq_dec j i) as [->|Nj].
        + rewrite set_nth_same by exact Lv. rewrite X. reflexivity.
        + rewrite set_nth_other by congruence. reflexivity. }
    rewrite <- R2. destruct (o_type o) eqn:T; try (apply D; [reflexivity|discriminate]).
    exists s, None. split; [reflexivity|]. split; [exact I|]. split; [reflexivity|]. exists o, x. auto.
Qed.
