(** C109: the header of an array belongs to it and describes it. *)
From Coq Require Import String.
From Verif Require Import Base BaseFacts TemplateModel HobjModel HobjSpec HobjFacts.
From Verif Require WcsModel.
Open Scope Z_scope.

Definition show_obj (s : state) (i : nat) : res (list Z * dtype * option cards) :=
  do x <- obj_of s i;
  let o := snd x in
  match o_header o with
  | None => Ok (o_shape o, o_type o, None)
  | Some r => match nth_error (s_headers s) r with Some h => Ok (o_shape o, o_type o, Some h) | None => Err KeyError end
  end.
Definition observe (s : state) : res (list (list Z * dtype * option cards)) := map_res (show_obj s) (seq 0 (length (s_vars s))).

Lemma fam_fresh s v o x n r : inv s v -> nth_error (s_objs s) n = Some o -> nth_error v n = Some x -> o_header o = Some r -> (r < length (s_headers s))%nat.
Proof.
  intros (V & L & R & S) O X E. pose proof (proj2 (proj2 (R _ _ _ O X))) as Q. rewrite E in Q. destruct (v_header x); [|contradiction].
  apply nth_error_Some. congruence.
Qed.
Lemma push_none s v shape t f : inv s v -> inv (new_obj s (Obj shape t None)) (v ++ [Value shape t None f]).
Proof.
  intros I. unfold new_obj. rewrite <- (app_nil_r (s_headers s)). apply inv_push; [exact I|repeat split|].
  cbn. discriminate.
Qed.
Lemma push_fresh s v shape t h f : inv s v ->
  inv (let '(s, r) := new_header s h in new_obj s (Obj shape t (Some r))) (v ++ [Value shape t (Some h) f]).
Proof.
  intros I. unfold new_obj, new_header. cbn. apply (inv_push s v [h]); [exact I| |].
  - repeat split. cbn. rewrite nth_error_app2, Nat.sub_diag by lia. reflexivity.
  - cbn. intros j oj xj r Oj Xj [= <-] C. pose proof (fam_fresh _ _ _ _ _ _ I Oj Xj C). lia.
Qed.
Lemma push_share s v shape t n o x : inv s v -> nth_error (s_objs s) n = Some o -> nth_error v n = Some x ->
  inv (new_obj s (Obj shape t (o_header o))) (v ++ [Value shape t (v_header x) (v_family x)]).
Proof.
  intros I O X. unfold new_obj. rewrite <- (app_nil_r (s_headers s)). pose proof I as (V & L & R & S). apply inv_push; [exact I| |].
  - repeat split. cbn. rewrite app_nil_r. exact (proj2 (proj2 (R _ _ _ O X))).
  - cbn. intros j oj xj r Oj Xj E C. exact (S _ _ _ _ _ _ _ Oj O Xj X C E).
Qed.
Lemma rel_header s o x : rel (s_headers s) o x ->
  match o_header o with Some r => v_header x = Some (header_at s r) | None => v_header x = None end.
Proof.
  intros (_ & _ & C). unfold header_at. destruct (o_header o) as [r|], (v_header x) as [h|]; try contradiction; [|reflexivity].
  rewrite (nth_error_nth _ _ _ C). reflexivity.
Qed.
Lemma family_stays v v' i : (forall j, option_map v_family (nth_error v' j) = option_map v_family (nth_error v j)) -> alone v i -> alone v' i.
Proof.
  intros F A j x y X Y E. pose proof (F i) as Fi. pose proof (F j) as Fj. rewrite X in Fi. rewrite Y in Fj.
  destruct (nth_error v i) as [x'|] eqn:X'; [|discriminate]. destruct (nth_error v j) as [y'|] eqn:Y'; [|discriminate].
  cbn in Fi, Fj. injection Fi as Fi. injection Fj as Fj. apply (A j x' y' X' Y'). congruence.
Qed.

Lemma step_inv s v e : inv s v -> allowed v e ->
  match vstep v e with Ok v' => exists s', step s e = Ok s' /\ inv s' v' | Err x => step s e = Err x end.
Proof.
  intros I A. destruct e; cbn [vstep step allowed] in *.
  - rewrite no_int_spec. destruct h as [h|].
    + eexists. split; [reflexivity|]. apply push_fresh. exact I.
    + eexists. split; [reflexivity|]. apply push_none. exact I.
  - pose proof (header_inv s v j I) as G. destruct (vread v j) as [v'|x]; cbn [bind]; [|rewrite G; reflexivity].
    destruct G as (s' & r & G & I' & _ & o & x & O & X & E & _). rewrite G. unfold vget. rewrite X. cbn [bind]. rewrite no_int_spec.
    eexists. split; [reflexivity|]. subst r. apply (push_share s' v' shape (no_int t) j o x I' O X).
  - pose proof (obj_of_inv s v i I) as G. destruct (vget v i) as [x|x]; cbn [bind]; [|rewrite G; reflexivity].
    destruct G as (o & G & O & X & R). rewrite G. cbn [bind snd]. pose proof (rel_header s o x R) as H. destruct R as (R1 & R2 & _).
    rewrite <- R1, <- R2. replace (match t with Some t => t | None => no_int (o_type o) end) with (quantity_type t (o_type o)) by (destruct t; [reflexivity|apply no_int_spec]).
    destruct (o_header o) as [r|]; rewrite H; (eexists; split; [reflexivity|]).
    + apply push_fresh. exact I.
    + apply push_none. exact I.
  - contradiction.
  - pose proof (obj_of_inv s v i I) as G. destruct (vget v i) as [x|x]; cbn [bind]; [|rewrite G; reflexivity].
    destruct G as (o & G & O & X & R). rewrite G. cbn [bind snd]. eexists. split; [reflexivity|].
    destruct (v_header x) as [h|] eqn:Hx.
    + unfold vnew. rewrite <- Hx. apply push_share with i; assumption.
    + pose proof (rel_header s o x R) as H. destruct (o_header o); [congruence|]. apply push_none. exact I.
  - pose proof (obj_of_inv s v i I) as G. destruct (vget v i) as [x|x]; cbn [bind]; [|rewrite G; reflexivity].
    destruct G as (o & G & O & X & R). rewrite G. cbn [bind snd]. pose proof (rel_header s o x R) as H. destruct R as (R1 & R2 & _).
    rewrite <- R1. destruct (o_header o) as [r|]; rewrite H.
    + rewrite bitpix_bits. destruct (bits t) as [b|]; cbn [bind]; [|reflexivity]. eexists. split; [reflexivity|]. apply push_fresh. exact I.
    + eexists. split; [reflexivity|]. apply push_none. exact I.
  - pose proof (header_inv s v i I) as G. destruct (vread v i) as [v'|x]; [|rewrite G; reflexivity].
    destruct G as (s' & r & G & I' & _). rewrite G. exists s'. split; [reflexivity|exact I'].
  - pose proof (header_inv s v i I) as G. destruct (vread v i) as [v'|x]; cbn [bind]; [|rewrite G; reflexivity].
    destruct G as (s' & r & G & I' & _ & o & x & O & X & E & F). rewrite G. unfold vget. rewrite X. cbn [bind snd fst].
    pose proof I' as (V & L & R & S). pose proof (rel_header _ _ _ (R _ _ _ O X)) as H. subst r. destruct (o_header o) as [r|] eqn:Ho; rewrite H; [|reflexivity].
    eexists. split; [reflexivity|]. unfold vput. rewrite X. apply (inv_write s' v' i r); try assumption.
    + congruence.
    + intros o' O'. congruence.
    + exact (fam_fresh _ _ _ _ _ _ I' O X Ho).
    + intros j y Y Fy. exact (family_stays v v' i F A j x y X Y Fy).
  - pose proof (header_inv s v j I) as G. destruct (vread v j) as [v'|x]; cbn [bind]; [|rewrite G; reflexivity].
    destruct G as (s' & r & G & I' & _ & o & x & O & X & E & _). rewrite G. replace (vget v' j) with (Ok x) by (unfold vget; rewrite X; reflexivity). cbn [bind].
    pose proof (obj_of_inv s' v' i I') as G'. destruct (vget v' i) as [y|y]; cbn [bind]; [|rewrite G'; reflexivity].
    destruct G' as (oy & G' & Oy & Y & Ry). rewrite G'. cbn [bind fst snd]. eexists. split; [reflexivity|].
    unfold set_href, vput. rewrite Y. rewrite <- (app_nil_r (s_headers s')). pose proof I' as (V & L & R & S). apply inv_update; [exact I'| |].
    + split; [apply Ry|]. split; [apply Ry|]. cbn. subst r. rewrite app_nil_r. exact (proj2 (proj2 (R _ _ _ O X))).
    + cbn. intros k ok xk r' Nk Ok_ Xk Er C. subst r. exact (S _ _ _ _ _ _ _ Ok_ O Xk X C Er).
Qed.
Lemma exec_inv l : forall s v, inv s v -> guarded_from v l ->
  match vexec v l with Ok v' => exists s', exec s l = Ok s' /\ inv s' v' | Err x => exec s l = Err x end.
Proof.
  induction l as [|e l IH]; intros s v I G; cbn [vexec exec].
  - exists s. auto.
  - destruct G as (A & G). pose proof (step_inv s v e I A) as P. destruct (vstep v e) as [v'|x]; cbn [bind].
    + destruct P as (s' & P & I'). rewrite P. cbn [bind]. apply (IH s' v' I'). apply G. reflexivity.
    + rewrite P. reflexivity.
Qed.
Lemma observe_inv s v : inv s v -> observe s = Ok (map show_value v).
Proof.
  intros I. unfold observe. pose proof I as (V & L & R & S).
  rewrite V, seq_length.
  assert (P : forall k w, (exists u, v = u ++ w /\ length u = k) -> map_res (show_obj s) (seq k (length w)) = Ok (map show_value w)).
  { intros k w. revert k. induction w as [|x w IH]; intros k (u & E & K); [reflexivity|].
    cbn [length seq map_res]. rewrite (IH (Datatypes.S k)) by (exists (u ++ [x]); rewrite <- app_assoc; split; [exact E|rewrite app_length; cbn; lia]).
    assert (X : nth_error v k = Some x) by (rewrite E, nth_error_app2, K, Nat.sub_diag by lia; reflexivity).
    pose proof (obj_of_inv s v k I) as G. unfold vget in G. rewrite X in G. destruct G as (o & G & _ & _ & (R1 & R2 & R3)).
    unfold show_obj. rewrite G. cbn [bind snd]. unfold show_value. cbn [map].
    destruct (o_header o) as [r|], (v_header x) as [h|]; try contradiction; [rewrite R3|]; cbn [bind]; rewrite R1, R2; reflexivity. }
  apply P. exists []. auto.
Qed.

(** In a program that does not write in a header that several arrays were given, every array has a
    header of its own: what every array holds is what the program of values says, and the exceptions
    are the same. *)
Theorem C109_values_partial : forall l, guarded l -> (do s <- run l; observe s) = (do v <- vrun l; Ok (map show_value v)).
Proof.
  intros l G. unfold run, vrun, guarded in *.
  assert (I : inv (State [] [] []) []).
  { repeat split; cbn; intros; destruct i; discriminate. }
  pose proof (exec_inv l _ _ I G) as P. destruct (vexec [] l) as [v|e]; cbn [bind].
  - destruct P as (s & P & Is). rewrite P. cbn [bind]. exact (observe_inv s v Is).
  - rewrite P. reflexivity.
Qed.
Print Assumptions C109_values_partial.

(** A header is written, the array is copied, the copy and a conversion are written. *)
Definition a_program := [New [2; 3] Float64 None; Write 0 (lit "EQUINOX") 2000; Copy 0 None; Write 1 (lit "EQUINOX") 1950; AsType 0 Int32; Write 2 (lit "A") 1; Derive 0 [3] Float64].
Example C109_values_example :
  guarded a_program /\
  (do s <- run a_program; observe s) =
  Ok [([2; 3], Float64, Some (Cards [3; 2] (-64) [(lit "EQUINOX", 2000)])); ([2; 3], Float64, Some (Cards [3; 2] (-64) [(lit "EQUINOX", 1950)]));
      ([2; 3], Int32, Some (Cards [3; 2] 32 [(lit "EQUINOX", 2000); (lit "A", 1)])); ([3], Float64, Some (Cards [3; 2] (-64) [(lit "EQUINOX", 2000)]))].
Proof.
  split; [|vm_compute; reflexivity].
  unfold guarded, a_program. repeat (split; [first [exact Logic.I | intros j x y X Y F; destruct j as [|[|[|j]]]; cbn in X, Y; try reflexivity; try discriminate; try (destruct j; discriminate); injection X as <-; injection Y as <-; cbn in F; discriminate] | intros v' [= <-]]). exact Logic.I.
Qed.

Lemma text_eqb_eq (a b : text) : text_eqb a b = true <-> a = b.
Proof. unfold text_eqb. destruct (list_eq_dec _ a b); split; congruence. Qed.
(** A keyword written in a header is found with its value, the others are unchanged. *)
Definition read_card (h : cards) (k : text) : option Z := option_map snd (find (fun p => text_eqb k (fst p)) (c_user h)).
Theorem C109_card : forall h k v, read_card (set_card h k v) k = Some v /\ (forall k', k' <> k -> read_card (set_card h k v) k' = read_card h k') /\
  c_axes (set_card h k v) = c_axes h /\ c_bitpix (set_card h k v) = c_bitpix h.
Proof.
  intros [a b l] k v. unfold read_card, set_card. cbn [c_user c_axes c_bitpix].
  assert (R : forall x : text, text_eqb x x = true) by (intros x; now apply text_eqb_eq).
  split; [|split; [|auto]].
  - induction l as [|[k0 v0] l IH]; cbn [put find fst]; [rewrite R; reflexivity|]. destruct (text_eqb k0 k) eqn:E; cbn [find fst].
    + rewrite R. reflexivity.
    + destruct (text_eqb k k0) eqn:F; [|exact IH]. apply text_eqb_eq in F. subst. rewrite R in E. discriminate.
  - intros k' N. assert (F : text_eqb k' k = false) by (destruct (text_eqb k' k) eqn:F; [apply text_eqb_eq in F; contradiction|reflexivity]).
    induction l as [|[k0 v0] l IH]; cbn [put find fst]; [rewrite F; reflexivity|]. destruct (text_eqb k0 k) eqn:E; cbn [find fst].
    + apply text_eqb_eq in E. subst. rewrite F. reflexivity.
    + destruct (text_eqb k' k0); [reflexivity|exact IH].
Qed.
Print Assumptions C109_card.
Example C109_card_example : read_card (set_card (Cards [4] (-64) [(lit "A", 1); (lit "B", 2)]) (lit "B") 5) (lit "B") = Some 5.
Proof. reflexivity. Qed.

(** A keyword written in the header of a part of an array changes the header of the array. *)
Theorem C109_slice_refuted :
  (do s <- run [New [4] Float64 None; Read 0; Derive 0 [2] Float64; Write 1 (lit "A") 1]; show_obj s 0) = Ok ([4], Float64, Some (Cards [4] (-64) [(lit "A", 1)])).
Proof. reflexivity. Qed.
Print Assumptions C109_slice_refuted.
(** And reading the header of the array before, which should change nothing, decides it. *)
Theorem C109_read_refuted :
  (do s <- run [New [4] Float64 None; Read 0; Derive 0 [4] Float64; Write 1 (lit "A") 1; Read 0]; show_obj s 0) = Ok ([4], Float64, Some (Cards [4] (-64) [(lit "A", 1)])) /\
  (do s <- run [New [4] Float64 None; Derive 0 [4] Float64; Write 1 (lit "A") 1; Read 0]; show_obj s 0) = Ok ([4], Float64, Some (Cards [4] (-64) [])).
Proof. split; reflexivity. Qed.
Print Assumptions C109_read_refuted.
(** A new array made with copy=False and a header gives it to the first array. *)
Theorem C109_nocopy_refuted :
  (do s <- run [New [4] Float64 (Some (Cards [4] (-64) [(lit "A", 1)])); New [4] Float64 (Some (Cards [4] (-64) [(lit "A", 2)])); NoCopy 0 1]; show_obj s 0)
  = Ok ([4], Float64, Some (Cards [4] (-64) [(lit "A", 2)])).
Proof. reflexivity. Qed.
Print Assumptions C109_nocopy_refuted.
(** An array whose header was read cannot be converted to booleans or complex numbers. *)
Theorem C109_astype_refuted : forall t, In t [Bool_; Complex128; Float16] ->
  run [New [4] Float64 None; Read 0; AsType 0 t] = Err KeyError /\ (do s <- run [New [4] Float64 None; AsType 0 t]; show_obj s 1) = Ok ([4], t, None).
Proof. intros t [<-|[<-|[<-|[]]]]; split; reflexivity. Qed.
Print Assumptions C109_astype_refuted.

(** ** The header describes the array *)
Definition described (s : state) : Prop :=
  forall p o r, nth_error (s_objs s) p = Some o -> o_header o = Some r ->
  exists h, nth_error (s_headers s) r = Some h /\ describes h (o_shape o) (o_type o).
(** The events that keep it: a header that is given describes the array, and a part or a result with
    another shape or another type is made from an array without a header. *)
Definition same_as (s : state) (j : nat) (shape : list Z) (t : dtype) : Prop :=
  forall o, obj_of s j = Ok o -> o_shape (snd o) = shape /\ o_type (snd o) = t.
Definition headless (s : state) (i : nat) : Prop := forall o, obj_of s i = Ok o -> o_header (snd o) = None.
Definition faithful (s : state) (e : event) : Prop :=
  match e with
  | New shape t h => match h with Some h => describes h shape (no_int t) | None => True end
  | NewFrom shape t j => same_as s j shape (no_int t)
  | Copy i t => headless s i \/ exists shape t', same_as s i shape t' /\ match t with Some t => t | None => no_int t' end = t'
  | NoCopy i j | Take i j => exists shape t, same_as s i shape t /\ same_as s j shape t
  | Derive i shape t => headless s i \/ same_as s i shape t
  | AsType _ _ | Read _ | Write _ _ _ => True
  end.
Fixpoint faithful_from (s : state) (l : list event) : Prop :=
  match l with [] => True | e :: l => faithful s e /\ forall s', step s e = Ok s' -> faithful_from s' l end.

Lemma obj_of_nth s i p o : obj_of s i = Ok (p, o) -> nth_error (s_objs s) p = Some o.
Proof.
  unfold obj_of. destruct (nth_error (s_vars s) i) as [q|]; [|discriminate]. destruct (nth_error (s_objs s) q) as [o'|] eqn:E; [|discriminate].
  intros [= <- <-]. exact E.
Qed.
Lemma described_app s h : described s -> described (State (s_headers s ++ [h]) (s_objs s) (s_vars s)).
Proof.
  intros D p o r O E. destruct (D p o r O E) as (h' & A & B). exists h'. split; [|exact B]. cbn.
  rewrite nth_error_app1; [exact A|]. apply nth_error_Some. congruence.
Qed.
Lemma described_new s o : described s -> (forall r, o_header o = Some r -> exists h, nth_error (s_headers s) r = Some h /\ describes h (o_shape o) (o_type o)) -> described (new_obj s o).
Proof.
  intros D N p o' r O E. cbn in *. destruct (nth_snoc _ _ _ _ O) as [(_ & O')|(_ & ->)]; [exact (D _ _ _ O' E)|exact (N r E)].
Qed.
Lemma described_set s p o r : described s -> nth_error (s_objs s) p = Some o ->
  (forall q, r = Some q -> exists h, nth_error (s_headers s) q = Some h /\ describes h (o_shape o) (o_type o)) -> described (set_href s p o r).
Proof.
  intros D O N p' o' r' O' E. cbn in *. destruct (nth_set _ _ _ _ _ O') as [(_ & O'')|(_ & ->)]; [exact (D _ _ _ O'' E)|]. cbn in *. exact (N r' E).
Qed.
Lemma header_for_describes shape t h : t <> Complex128 -> header_for shape t = Ok h -> describes h shape t.
Proof.
  intros N. rewrite header_for_spec by exact N. destruct (8 <? _); [discriminate|]. destruct (stored_bits t) as [b|] eqn:B; [|discriminate].
  intros [= <-]. split; [reflexivity|exact B].
Qed.
(** After a read the array keeps its shape and its type, and its header is the one that is returned. *)
Lemma header_described s i s' r : described s -> header s i = Ok (s', r) ->
  described s' /\ s_vars s' = s_vars s /\
  (forall j, match obj_of s j, obj_of s' j with
             | Ok (p, o), Ok (p', o') => p = p' /\ o_shape o' = o_shape o /\ o_type o' = o_type o
             | Err _, Err _ => True
             | _, _ => False
             end) /\
  (forall q p o, r = Some q -> obj_of s' i = Ok (p, o) -> o_header o = Some q).
Proof.
  intros D. unfold header. destruct (obj_of s i) as [[p o]|e] eqn:G; [|discriminate]. cbn [bind].
  assert (Same : forall j, match obj_of s j, obj_of s j with Ok (p, o), Ok (p', o') => p = p' /\ o_shape o' = o_shape o /\ o_type o' = o_type o | Err _, Err _ => True | _, _ => False end).
  { intros j. destruct (obj_of s j) as [[a b]|]; auto. }
  destruct (o_header o) as [r0|] eqn:Ho.
  - intros [= <- <-]. split; [exact D|]. split; [reflexivity|]. split; [exact Same|]. intros q p' o' [= <-] G'. congruence.
  - assert (K : forall t, o_type o = t -> t <> Complex128 ->
      (do h <- header_for (o_shape o) t; let '(s0, r1) := new_header s h in Ok (set_href s0 p o (Some r1), Some r1)) = Ok (s', r) ->
      described s' /\ s_vars s' = s_vars s /\
      (forall j, match obj_of s j, obj_of s' j with Ok (p, o), Ok (p', o') => p = p' /\ o_shape o' = o_shape o /\ o_type o' = o_type o | Err _, Err _ => True | _, _ => False end) /\
      (forall q p o, r = Some q -> obj_of s' i = Ok (p, o) -> o_header o = Some q)).
    { intros t T N. destruct (header_for (o_shape o) t) as [h|] eqn:Hf; [|discriminate]. cbn [bind new_header]. intros [= <- <-].
      pose proof (obj_of_nth _ _ _ _ G) as O. assert (Lp : (p < length (s_objs s))%nat) by (apply nth_error_Some; congruence).
      split.
      - apply described_set; [apply described_app; exact D|exact O|]. cbn. intros q [= <-]. exists h. split.
        + rewrite nth_error_app2, Nat.sub_diag by lia. reflexivity.
        + rewrite T. exact (header_for_describes _ _ _ N Hf).
      - split; [reflexivity|]. split.
        + intros j. unfold obj_of. cbn. destruct (nth_error (s_vars s) j) as [k|]; [|auto].
          destruct (Nat.eq_dec k p) as [->|Nk].
          * rewrite O, set_nth_same by exact Lp. cbn. auto.
          * rewrite set_nth_other by congruence. destruct (nth_error (s_objs s) k); auto.
        + intros q p' o' [= <-] G'. unfold obj_of in G, G'. cbn in G'. destruct (nth_error (s_vars s) i) as [k|]; [|discriminate].
          destruct (nth_error (s_objs s) k) as [ok|] eqn:Ek; [|discriminate]. injection G as -> ->.
          rewrite set_nth_same in G' by exact Lp. injection G' as <- <-. reflexivity. }
    destruct (o_type o) eqn:T; try (apply K; [reflexivity|discriminate]).
    intros [= <- <-]. split; [exact D|]. split; [reflexivity|]. split; [exact Same|]. discriminate.
Qed.
Lemma header_ref s i s' q : described s -> header s i = Ok (s', Some q) -> forall shape t, same_as s i shape t ->
  exists h, nth_error (s_headers s') q = Some h /\ describes h shape t.
Proof.
  intros D E shape t S. destruct (header_described _ _ _ _ D E) as (D' & _ & Sm & Hr). specialize (Sm i).
  destruct (obj_of s i) as [[p o]|x] eqn:G; [|unfold header in E; rewrite G in E; discriminate].
  destruct (obj_of s' i) as [[p' o']|x] eqn:G'; [|contradiction]. destruct Sm as (_ & A & B). destruct (S _ G) as (A' & B'). cbn in A', B'.
  specialize (Hr q p' o' eq_refl eq_refl). destruct (D' p' o' q (obj_of_nth _ _ _ _ G') Hr) as (h & Q & Ds). exists h. split; [exact Q|]. congruence.
Qed.
Lemma step_described s e s' : described s -> faithful s e -> step s e = Ok s' -> described s'.
Proof.
  intros D F. destruct e; cbn [step faithful] in *.
  - rewrite no_int_spec. destruct h as [h|]; cbn; intros [= <-].
    + apply (described_new (State (s_headers s ++ [h]) (s_objs s) (s_vars s))); [apply described_app; exact D|]. cbn. intros r [= <-]. exists h. split; [|exact F]. rewrite nth_error_app2, Nat.sub_diag by lia. reflexivity.
    + apply described_new; [exact D|discriminate].
  - destruct (header s j) as [[s1 r]|] eqn:E; [|discriminate]. cbn [bind]. rewrite no_int_spec. intros [= <-].
    apply described_new; [exact (proj1 (header_described _ _ _ _ D E))|]. cbn. intros q ->. exact (header_ref _ _ _ _ D E _ _ F).
  - destruct (obj_of s i) as [[p o]|] eqn:G; [|discriminate]. cbn [bind snd]. destruct (o_header o) as [r|] eqn:Ho; cbn; intros [= <-].
    + destruct (D p o r (obj_of_nth _ _ _ _ G) Ho) as (h & Q & Ds).
      apply (described_new (State (s_headers s ++ [header_at s r]) (s_objs s) (s_vars s))); [apply described_app; exact D|]. cbn. intros q [= <-]. exists h. split.
      * rewrite nth_error_app2, Nat.sub_diag by lia. cbn. unfold header_at. rewrite (nth_error_nth _ _ _ Q). reflexivity.
      * destruct F as [F|(shape & t' & F & T)]; [specialize (F _ G); cbn in F; congruence|]. destruct (F _ G) as (A & B). cbn in A, B.
        replace (quantity_type t (o_type o)) with (o_type o); [exact Ds|]. rewrite B. rewrite <- T at 1. destruct t; [reflexivity|symmetry; apply no_int_spec].
    + apply described_new; [exact D|discriminate].
  - destruct F as (shape & t & F1 & F2). destruct (header s j) as [[s1 r]|] eqn:E; [|discriminate]. cbn [bind].
    destruct (header_described _ _ _ _ D E) as (D1 & _ & Sm & _). specialize (Sm i).
    destruct (obj_of s1 i) as [[p o]|] eqn:G; [|discriminate]. cbn [bind]. destruct (obj_of s i) as [[p0 o0]|] eqn:G0; [|contradiction].
    destruct (signed (o_type o)); [discriminate|].
    assert (D2 : described (State (s_headers s1) (s_objs s1) (s_vars s1 ++ [p]))) by exact D1.
    destruct r as [q|]; intros [= <-]; [|exact D2]. apply described_set; [exact D2|exact (obj_of_nth _ _ _ _ G)|].
    cbn. intros q' [= <-]. destruct (F1 _ G0) as (A & B). cbn in A, B. destruct Sm as (_ & A' & B').
    destruct (header_ref _ _ _ _ D E _ _ F2) as (h & Q & Ds). exists h. split; [exact Q|]. congruence.
  - destruct (obj_of s i) as [[p o]|] eqn:G; [|discriminate]. cbn [bind snd]. intros [= <-]. apply described_new; [exact D|]. cbn. intros r Er.
    destruct F as [F|F]; [specialize (F _ G); cbn in F; congruence|]. destruct (F _ G) as (A & B). cbn in A, B. subst.
    exact (D p o r (obj_of_nth _ _ _ _ G) Er).
  - destruct (obj_of s i) as [[p o]|] eqn:G; [|discriminate]. cbn [bind snd]. destruct (o_header o) as [r|] eqn:Ho.
    + rewrite bitpix_bits. destruct (bits t) as [b|] eqn:B; [|discriminate]. cbn. intros [= <-].
      destruct (D p o r (obj_of_nth _ _ _ _ G) Ho) as (h & Q & Ds & _).
      apply (described_new (State (s_headers s ++ [set_bitpix (header_at s r) b]) (s_objs s) (s_vars s))); [apply described_app; exact D|]. cbn. intros q [= <-].
      exists (set_bitpix h b). split.
      * rewrite nth_error_app2, Nat.sub_diag by lia. cbn. unfold header_at. rewrite (nth_error_nth _ _ _ Q). reflexivity.
      * split; [exact Ds|]. cbn. destruct t; try discriminate; exact B.
    + intros [= <-]. apply described_new; [exact D|discriminate].
  - destruct (header s i) as [[s1 r]|] eqn:E; [|discriminate]. cbn. intros [= <-]. exact (proj1 (header_described _ _ _ _ D E)).
  - destruct (header s i) as [[s1 r]|] eqn:E; [|discriminate]. cbn [bind snd fst]. destruct r as [r|]; [|discriminate]. intros [= <-].
    pose proof (proj1 (header_described _ _ _ _ D E)) as D1. intros p o q O Ho. cbn in O. destruct (D1 p o q O Ho) as (h & Q & Ds). cbn.
    destruct (Nat.eq_dec q r) as [->|N].
    + exists (set_card h k v). split; [|exact Ds]. rewrite set_nth_same by (apply nth_error_Some; congruence). unfold header_at. rewrite (nth_error_nth _ _ _ Q). reflexivity.
    + exists h. rewrite set_nth_other by congruence. auto.
  - destruct F as (shape & t & F1 & F2). destruct (header s j) as [[s1 r]|] eqn:E; [|discriminate]. cbn [bind].
    destruct (header_described _ _ _ _ D E) as (D1 & _ & Sm & _). specialize (Sm i).
    destruct (obj_of s1 i) as [[p o]|] eqn:G; [|discriminate]. cbn [bind fst snd]. destruct (obj_of s i) as [[p0 o0]|] eqn:G0; [|contradiction].
    intros [= <-]. apply described_set; [exact D1|exact (obj_of_nth _ _ _ _ G)|]. intros q ->.
    destruct (F1 _ G0) as (A & B). cbn in A, B. destruct Sm as (_ & A' & B').
    destruct (header_ref _ _ _ _ D E _ _ F2) as (h & Q & Ds). exists h. split; [exact Q|]. congruence.
Qed.
(** In such programs, shared or not, the header of every array describes it. *)
Theorem C109_describes_partial : forall l s, faithful_from (State [] [] []) l -> run l = Ok s ->
  forall i shape t h, show_obj s i = Ok (shape, t, Some h) -> describes h shape t.
Proof.
  intros l s F R i shape t h E.
  assert (D : described s).
  { assert (D0 : described (State [] [] [])) by (intros p o r O; destruct p; discriminate).
    unfold run in R. revert F R D0. generalize (State [] [] []). induction l as [|e l IH]; intros s0 F R D0; cbn in *.
    - injection R as <-. exact D0.
    - destruct F as (F1 & F2). destruct (step s0 e) as [s1|] eqn:St; [|discriminate]. cbn in R. exact (IH s1 (F2 _ eq_refl) R (step_described _ _ _ D0 F1 St)). }
  unfold show_obj in E. destruct (obj_of s i) as [[p o]|] eqn:G; [|discriminate]. cbn [bind snd] in E.
  destruct (o_header o) as [r|] eqn:Ho; [|discriminate]. destruct (D p o r (obj_of_nth _ _ _ _ G) Ho) as (h' & Q & Ds).
  rewrite Q in E. injection E as <- <- <-. exact Ds.
Qed.
Print Assumptions C109_describes_partial.
Definition b_program := [New [4; 3] Int16 None; Derive 0 [3] Float64; Read 1; Derive 1 [3] Float64; AsType 2 Int16; Read 0; Write 2 (lit "A") 1; Take 2 1; Copy 3 (Some Int16); NoCopy 0 0].
Example C109_describes_example :
  faithful_from (State [] [] []) b_program /\
  (do s <- run b_program; observe s) =
  Ok [([4; 3], Float64, Some (Cards [3; 4] (-64) [])); ([3], Float64, Some (Cards [3] (-64) [(lit "A", 1)])); ([3], Float64, Some (Cards [3] (-64) [(lit "A", 1)]));
      ([3], Int16, Some (Cards [3] 16 [])); ([3], Int16, Some (Cards [3] 16 [])); ([4; 3], Float64, Some (Cards [3; 4] (-64) []))].
Proof.
  split; [|vm_compute; reflexivity]. unfold b_program.
  assert (N : forall s i, (exists p sh t, obj_of s i = Ok (p, Obj sh t None)) -> headless s i).
  { intros s i (p & sh & t & E) o E'. rewrite E in E'. injection E' as <-. reflexivity. }
  assert (M : forall s i sh t, (exists p h, obj_of s i = Ok (p, Obj sh t h)) -> same_as s i sh t).
  { intros s i sh t (p & h & E) o E'. rewrite E in E'. injection E' as <-. auto. }
  repeat (split; [cbn [faithful]; first [exact Logic.I
    | left; apply N; eexists _, _, _; reflexivity
    | right; apply M; eexists _, _; reflexivity
    | right; eexists _, _; split; [apply M; eexists _, _; reflexivity|reflexivity]
    | eexists _, _; split; apply M; eexists _, _; reflexivity ] | intros s' [= <-]]).
  exact Logic.I.
Qed.

(** The header of a part, of a product by a complex number and of a copy of integers describes the array they were made from. *)
Theorem C109_describes_refuted :
  (do s <- run [New [4; 3] Float64 None; Read 0; Derive 0 [3] Float64]; show_obj s 1) = Ok ([3], Float64, Some (Cards [3; 4] (-64) [])) /\
  (do s <- run [New [4] Float64 None; Read 0; Derive 0 [4] Complex128]; show_obj s 1) = Ok ([4], Complex128, Some (Cards [4] (-64) [])) /\
  (do s <- run [New [4] Float64 None; AsType 0 Int32; Read 1; Copy 1 None]; show_obj s 2) = Ok ([4], Float64, Some (Cards [4] 32 [])).
Proof. repeat split. Qed.
Print Assumptions C109_describes_refuted.
