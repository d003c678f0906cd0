(** C124: default values of the removed elements. *)
From Coq Require Import String Lia.
From Verif Require Import Base BaseFacts PTModel PTSpec PTFacts PTProps MvModel.

(** The types of the plain fields, by the names that lead to them. *)
Fixpoint field {A} (l : list (string * A)) (f : string) : option A :=
  match l with [] => None | (g, a) :: l => if String.eqb f g then Some a else field l f end.
Definition typed (fields : list (string * option string * dtype)) : list (string * dtype) := map (fun f => (fst (fst f), snd f)) fields.
Inductive leaf : dtype -> list string -> kind -> Prop :=
| leaf_plain k : leaf (Plain k) [] k
| leaf_field fields f d path k : field (typed fields) f = Some d -> leaf d path k -> leaf (Struct fields) (f :: path) k.
Fixpoint at_path (v : value) (path : list string) : option scalar :=
  match path, v with
  | [], Scalar s => Some s
  | f :: path, Record l => match field l f with Some v => at_path v path | None => None end
  | _, _ => None
  end.
(** No date, no opaque bytes, no array inside of a field, no title. *)
Inductive supported : dtype -> Prop :=
| supported_plain k : k <> Kdate -> k <> Kdelta -> k <> Kvoid -> supported (Plain k)
| supported_struct fields : NoDup (map (fun f => fst (fst f)) fields) -> (forall n t d, In (n, t, d) fields -> t = None /\ supported d) -> supported (Struct fields).
(** The documented values: False, -1, 0, NaN, empty strings and None. *)
Definition missing_of (k : kind) (s : scalar) : Prop :=
  match k with
  | Kbool => s = False_ | Kint => s = Minus_one | Kuint => s = Zero | Kfloat | Kcomplex => s = Nan | Kbytes | Kstr => s = Empty | Kobject => s = None_
  | Kdate | Kdelta | Kvoid => False
  end.

Fixpoint height (d : dtype) : nat :=
  match d with Plain _ => 0 | Sub d _ => S (height d) | Struct fields => S (fold_right (fun f m => Nat.max (height (snd f)) m) 0 fields) end%nat.
Lemma height_in n t d fields : In (n, t, d) fields -> (height d < height (Struct fields))%nat.
Proof.
  cbn [height]. induction fields as [|f fields IH]; intros H; [destruct H|]. cbn [fold_right]. destruct H as [->|H]; [cbn [snd]; lia|]. specialize (IH H). lia.
Qed.
Lemma set_other l f v : forall pre w, ~ In f (map fst pre) -> set_field (pre ++ (f, w) :: l) f v = pre ++ (f, v) :: l.
Proof.
  intros pre. induction pre as [|[g u] pre IH]; intros w H; cbn [app set_field].
  - rewrite String.eqb_refl. reflexivity.
  - cbn in H. destruct (String.eqb_spec f g) as [->|N]; [destruct H; now left|]. rewrite IH by tauto. reflexivity.
Qed.

Definition loop (junk : nat) := fix loop (fs : list (string * option string * dtype)) (l : list (string * value)) : res (list (string * value)) :=
  match fs with
  | [] => Ok l
  | (name, title, dt) :: fs => match title with Some _ => Err ValueError | None => do v <- default_missing junk dt; loop fs (set_field l name v) end
  end.
Lemma default_struct junk fields : default_missing junk (Struct fields) = do l <- loop junk fields (map (fun f => (fst (fst f), np_empty junk (snd f))) fields); Ok (Record l).
Proof. reflexivity. Qed.
(** The fields are those of the type, in their order, each with its own value. *)
Lemma loop_ok junk fs : (forall n t d, In (n, t, d) fs -> t = None /\ exists v, default_missing junk d = Ok v) -> NoDup (map (fun f => fst (fst f)) fs) ->
  forall pre, (forall n, In n (map fst pre) -> ~ In n (map (fun f => fst (fst f)) fs)) ->
  exists l, loop junk fs (pre ++ map (fun f => (fst (fst f), np_empty junk (snd f))) fs) = Ok (pre ++ l) /\
    Forall2 (fun f w => fst w = fst (fst f) /\ default_missing junk (snd f) = Ok (snd w)) fs l.
Proof.
  induction fs as [|[[n t] d] fs IH]; intros H N pre P; [exists []; split; [reflexivity|constructor]|].
  destruct (H n t d (or_introl eq_refl)) as [-> [v Hv]]. cbn [loop map fst snd]. rewrite Hv. cbn [bind].
  rewrite set_other by (intros I; apply (P n I); now left). inversion N as [|? ? N1 N2]; subst.
  destruct (IH (fun n t d I => H n t d (or_intror I)) N2 (pre ++ [(n, v)])) as [l [E F]].
  { intros m Hm. rewrite map_app in Hm. apply in_app_or in Hm. destruct Hm as [Hm|[<-|[]]]; [|exact N1]. intros I. apply (P m Hm). now right. }
  exists ((n, v) :: l). rewrite <- !app_assoc in E. cbn [app] in E. split; [exact E|]. constructor; [split; [reflexivity|exact Hv]|exact F].
Qed.
Lemma default_at junk : forall h d, (height d < h)%nat -> supported d -> exists v, default_missing junk d = Ok v /\ forall path k, leaf d path k -> exists s, at_path v path = Some s /\ missing_of k s.
Proof.
  induction h as [|h IH]; intros d Hh Sd; [lia|]. destruct Sd as [k N1 N2 N3|fields N F].
  - destruct k; try contradiction; eexists; (split; [reflexivity|]); intros path k L; inversion L; subst; eexists; (split; [reflexivity|]); reflexivity.
  - destruct (loop_ok junk fields) with (pre := @nil (string * value)) as [l [E Fl]].
    + intros n t d I. destruct (F n t d I) as [-> Sd]. split; [reflexivity|]. destruct (IH d) as [v [Hv _]]; [pose proof (height_in _ _ _ _ I); lia|exact Sd|]. now exists v.
    + exact N.
    + intros n [].
    + cbn [app] in E. exists (Record l). rewrite default_struct, E. split; [reflexivity|]. intros path k L. inversion L as [|? f d path' ? Hf Ld]; subst. clear L. cbn [at_path].
      assert (G : exists w, field l f = Some w /\ default_missing junk d = Ok w /\ exists t, In (f, t, d) fields).
      { clear - Fl Hf. induction Fl as [|[[n t] e] [m w] fs l [A B] _ IHl]; [discriminate|]. cbn [fst snd] in *. subst m. cbn [typed map field fst snd] in *. destruct (String.eqb_spec f n) as [->|Nf].
        - injection Hf as ->. exists w. split; [reflexivity|]. split; [exact B|]. exists t. now left.
        - destruct (IHl Hf) as [w' [X [Y [t' Z]]]]. exists w'. split; [exact X|]. split; [exact Y|]. exists t'. now right. }
      destruct G as [w [-> [Ew [t I]]]]. destruct (F f t d I) as [_ Sd]. destruct (IH d) as [v [Hv P]]; [pose proof (height_in _ _ _ _ I); lia|exact Sd|]. rewrite Hv in Ew. injection Ew as ->. now apply P.
Qed.

(** Whatever the memory contained, every plain field, however deep, has the value of its kind. *)
Theorem C124_default : forall junk d, supported d ->
  exists v, default_missing junk d = Ok v /\ forall path k, leaf d path k -> exists s, at_path v path = Some s /\ missing_of k s.
Proof. intros junk d. apply (default_at junk (S (height d))). lia. Qed.
Print Assumptions C124_default.
Definition beam_type : dtype := Struct [("gain"%string, None, Plain Kfloat); ("beam"%string, None, Struct [("id"%string, None, Plain Kint); ("name"%string, None, Plain Kstr)])].
Example C124_default_case : supported beam_type /\ leaf beam_type ["beam"; "id"]%string Kint /\
  exists v, default_missing 5 beam_type = Ok v /\ at_path v ["beam"; "id"]%string = Some Minus_one /\ at_path v ["gain"]%string = Some Nan.
Proof.
  split; [|split; [|eexists; split; [reflexivity|split; reflexivity]]].
  - constructor; [repeat constructor; cbn; intuition discriminate|]. intros n t d [E|[E|[]]]; injection E as <- <- <-; (split; [reflexivity|]).
    + constructor; discriminate.
    + constructor; [repeat constructor; cbn; intuition discriminate|]. intros n t d [E|[E|[]]]; injection E as <- <- <-; (split; [reflexivity|]); constructor; discriminate.
  - eapply leaf_field; [reflexivity|]. eapply leaf_field; [reflexivity|]. constructor.
Qed.

(** The removed elements of an attribute of such a type are these values, the others are those of
    the attribute. *)
Theorem C124_unpack : forall t d x junk garbage l, reachable t -> supported d -> t_indices t = Ok l -> zlen garbage = prodZ (t_shape t) -> zlen x = zlen l -> zlen l < prodZ (t_shape t) ->
  exists y, unpack_default t d x junk garbage = Ok y /\ zlen y = prodZ (t_shape t) /\
    (forall k i, nth_error l k = Some i -> exists a, nth_error x k = Some a /\ get y i = Ok a) /\
    (forall i, 0 <= i < prodZ (t_shape t) -> ~ In i l -> exists v, get y i = Ok v /\ forall path k, leaf d path k -> exists s, at_path v path = Some s /\ missing_of k s).
Proof.
  intros t d x junk garbage l Rt Sd Hl Hg Hx Hn. destruct (C124_default junk d Sd) as [v [Hv P]].
  destruct (C06_unpack _ t Rt) as [l' [Hl' U]]. rewrite Hl in Hl'. injection Hl' as <-. destruct (U x v garbage Hg) as [U1 _]. destruct (U1 Hx) as [y [E [Ly [A B]]]].
  destruct (C09_reachable_consistent _ t Rt) as [l' [_ [Hl' [Tn _]]]]. rewrite Hl in Hl'. injection Hl' as <-.
  exists y. unfold unpack_default. rewrite Tn. cbn [bind]. replace (negb ((zlen x =? 1) || (zlen x =? zlen l))) with false by lia. unfold t_size. replace (zlen l <? prodZ (t_shape t)) with true by lia.
  rewrite Hv. cbn [bind]. split; [exact E|]. split; [exact Ly|]. split; [exact A|]. intros i Hi Ni. exists v. split; [now apply B|exact P].
Qed.
Print Assumptions C124_unpack.
Example C124_unpack_case : exists t, mk_table (A := value) [3] (SelInts [2; 0]) None [] = Ok t /\ t_indices t = Ok [2; 0] /\
  unpack_default t (Plain Kint) [Scalar Zero; Scalar False_] 7 [Scalar (Junk 1); Scalar (Junk 2); Scalar (Junk 3)] = Ok [Scalar False_; Scalar Minus_one; Scalar Zero].
Proof. eexists. repeat split. Qed.

(** FINDING 206.  The other types have no default value: with a removed element, the attributes
    that are dates or durations cannot be unpacked, nor those with an array inside of a field
    or with a title. *)
Theorem C124_types_refuted : forall t x junk garbage l d, reachable t -> t_indices t = Ok l -> zlen x = zlen l -> zlen l < prodZ (t_shape t) ->
  (d = Plain Kdate \/ d = Plain Kdelta -> unpack_default t d x junk garbage = Err KeyError) /\
  (forall n k s, d = Struct [(n, None, Sub (Plain k) s)] -> unpack_default t d x junk garbage = Err AttributeError) /\
  (forall n k s, d = Struct [(n, Some s, Plain k)] -> unpack_default t d x junk garbage = Err ValueError).
Proof.
  intros t x junk garbage l d Rt Hl Hx Hn. destruct (C09_reachable_consistent _ t Rt) as [l' [_ [Hl' [Tn _]]]]. rewrite Hl in Hl'. injection Hl' as <-.
  unfold unpack_default. rewrite Tn. cbn [bind]. replace (negb ((zlen x =? 1) || (zlen x =? zlen l))) with false by lia. unfold t_size. replace (zlen l <? prodZ (t_shape t)) with true by lia.
  split; [intros [-> | ->]; reflexivity|]. split; intros n k s ->; reflexivity.
Qed.
Print Assumptions C124_types_refuted.
