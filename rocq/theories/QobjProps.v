(** C105: the objects behind quantities. *)
From Coq Require Import List Arith Bool String QArith Qcanon Lia ZArith.
From Verif Require Import Base BaseFacts TemplateModel UnitModel QobjModel.
Import ListNotations.
Local Open Scope nat_scope.

(** ** Lists *)
Lemma set_nth_length {A} (l : list A) i x : length (set_nth l i x) = length l.
Proof. revert i; induction l as [|y l IH]; intros [|i]; cbn; auto. Qed.
Lemma nth_set_nth_same {A} (l : list A) i x d : i < length l -> nth i (set_nth l i x) d = x.
Proof. revert i; induction l as [|y l IH]; intros [|i] H; cbn in *; try lia; [reflexivity|]. apply IH. lia. Qed.
Lemma nth_set_nth_other {A} (l : list A) i j x d : i <> j -> nth j (set_nth l i x) d = nth j l d.
Proof. revert i j; induction l as [|y l IH]; intros [|i] [|j] H; cbn; auto; try lia. Qed.

Section Props.
Context {K D : Type} (zero : K) (mul : K -> K -> K) (factor : D -> unit_ -> unit_ -> res K) (no_du : D) (check_du : D -> bool).
Notation state := (@state K D).
Notation values := (@values K D zero).
Notation values_of := (@values_of K D zero).
Notation unit_of := (@unit_of K D).
Notation du_of := (@du_of K D no_du).
Notation new := (new zero no_du check_du).
Notation inunit := (inunit zero mul factor no_du).
Notation tounit := (tounit zero mul factor no_du).

(** ** Specification *)
(** References lead somewhere; an object sees each position of its buffer once. *)
Definition good_obj (s : state) (o : obj) : Prop :=
  o_buf o < length (bufs s) /\ NoDup (o_pos o) /\ Forall (fun p => p < length (b_val (the_buf s o))) (o_pos o) /\
  (o_cls o <> 0 -> o_unit o < length (dicts s) /\ o_du o < length (dus s)).
Definition good (s : state) : Prop := Forall (good_obj s) (objs s).
(** What the user sees of an object has not changed. *)
Definition same_look (s s' : state) (i : nat) : Prop :=
  o_cls (the_obj s' i) = o_cls (the_obj s i) /\ values s' i = values s i /\
  (o_cls (the_obj s i) <> 0 -> unit_of s' i = unit_of s i /\ du_of s' i = du_of s i).
(** What can be done to an object. *)
Inductive change := Assign (v : list K) | Convert (u : uarg) | SetUnit (u : uarg) | SetDu (d : D).
Definition do_change (s : state) (i : nat) (c : change) : res state :=
  match c with
  | Assign v => assign s i v
  | Convert u => inunit s i u
  | SetUnit u => set_unit s i u
  | SetDu d => set_du check_du s i d
  end.
Fixpoint do_changes (s : state) (i : nat) (l : list change) : res state :=
  match l with [] => Ok s | c :: l => do s <- do_change s i c; do_changes s i l end.
(** Nothing that is done to i after s' is seen by the objects of s. *)
Definition independent (s s' : state) (i : nat) : Prop :=
  forall l s'', do_changes s' i l = Ok s'' -> forall j, j < length (objs s) -> same_look s s'' j.

(** ** Proofs *)
Definition prefix {A} (a b : list A) : Prop := exists c, b = a ++ c.
Lemma prefix_refl {A} (a : list A) : prefix a a. Proof. exists []. now rewrite app_nil_r. Qed.
Lemma prefix_app {A} (a b c : list A) : prefix a b -> prefix a (b ++ c).
Proof. intros [x ->]. exists (x ++ c). now rewrite app_assoc. Qed.
Lemma prefix_nth {A} (a b : list A) i d : prefix a b -> i < length a -> nth i b d = nth i a d.
Proof. intros [c ->] H. now apply app_nth1. Qed.
Lemma prefix_length {A} (a b : list A) : prefix a b -> length a <= length b.
Proof. intros [c ->]. rewrite app_length. lia. Qed.
Lemma prefix_set {A} (a b : list A) i x : prefix a b -> length a <= i -> prefix a (set_nth b i x).
Proof.
  intros [c ->] H. exists (set_nth c (i - length a) x). revert i H. induction a as [|y a IH]; intros i H; cbn [app length] in *; [now rewrite Nat.sub_0_r|].
  destruct i as [|i]; [lia|]. cbn [set_nth]. f_equal. apply IH. lia.
Qed.
Definition extends (s s' : state) : Prop := prefix (bufs s) (bufs s') /\ prefix (dicts s) (dicts s') /\ prefix (dus s) (dus s') /\ prefix (objs s) (objs s').
Lemma extends_refl s : extends s s. Proof. repeat split; apply prefix_refl. Qed.
Lemma extends_look s s' j : good s -> extends s s' -> j < length (objs s) -> same_look s s' j.
Proof.
  intros G (B & U & T & O) H. assert (E : the_obj s' j = the_obj s j) by (unfold the_obj; now apply prefix_nth).
  unfold good in G. rewrite Forall_forall in G. specialize (G (the_obj s j) (nth_In _ _ H)). destruct G as (Gb & _ & _ & Gu).
  unfold same_look, QobjModel.values, QobjModel.values_of, QobjModel.unit_of, QobjModel.du_of, the_buf. rewrite !E. rewrite (prefix_nth _ _ _ dbuf B Gb).
  split; [reflexivity|]. split; [reflexivity|]. intros N. destruct (Gu N) as [G1 G2]. split; [exact (prefix_nth _ _ _ _ U G1)|exact (prefix_nth _ _ _ _ T G2)].
Qed.

(** Objects made after s with buffers of their own. *)
Definition detached (s s' : state) (i : nat) : Prop :=
  extends s s' /\ length (objs s) <= i < length (objs s') /\ length (bufs s) <= o_buf (the_obj s' i).
Lemma set_obj_detached s s' i o : detached s s' i -> length (bufs s) <= o_buf o -> detached s (set_obj s' i o) i.
Proof.
  intros ((B & U & T & O) & Hi & Hb) Ho. split; [|split].
  - repeat split; try assumption. cbn. apply prefix_set; [exact O|lia].
  - cbn. rewrite set_nth_length. exact Hi.
  - unfold the_obj, set_obj. cbn [objs]. rewrite nth_set_nth_same by lia. exact Ho.
Qed.
Lemma add_dict_detached s s' i u : detached s s' i -> detached s (fst (add_dict s' u)) i.
Proof. intros ((B & U & T & O) & Hi & Hb). split; [|split; assumption]. repeat split; try assumption. cbn. now apply prefix_app. Qed.
Lemma add_table_detached s s' i d : detached s s' i -> detached s (fst (add_table s' d)) i.
Proof. intros ((B & U & T & O) & Hi & Hb). split; [|split; assumption]. repeat split; try assumption. cbn. now apply prefix_app. Qed.
Lemma write_detached s s' i v : detached s s' i -> detached s (write s' (the_obj s' i) v) i.
Proof. intros ((B & U & T & O) & Hi & Hb). split; [|split; assumption]. repeat split; try assumption. cbn. now apply prefix_set. Qed.
Lemma set_unit_detached s s' i u s'' : detached s s' i -> set_unit s' i u = Ok s'' -> detached s s'' i.
Proof.
  intros DT. unfold set_unit. destruct u as [t|a].
  - destruct (extract_str t) as [d|]; [|discriminate]. cbn [bind add_dict]. intros H. injection H as <-. apply set_obj_detached; [apply (add_dict_detached s s' i d DT)|apply DT].
  - intros H. injection H as <-. apply set_obj_detached; [exact DT|apply DT].
Qed.
Lemma set_du_detached s s' i d s'' : detached s s' i -> set_du check_du s' i d = Ok s'' -> detached s s'' i.
Proof.
  intros DT. unfold set_du. destruct (check_du d); [|discriminate]. cbn [add_table]. intros H. injection H as <-. apply set_obj_detached; [apply (add_table_detached s s' i d DT)|apply DT].
Qed.
Lemma change_detached s s' i c s'' : detached s s' i -> do_change s' i c = Ok s'' -> detached s s'' i.
Proof.
  intros DT. destruct c as [v|u|u|d]; cbn [do_change].
  - unfold assign. destruct (_ =? _); [|discriminate]. intros H. injection H as <-. now apply write_detached.
  - unfold QobjModel.inunit.
    set (r := match u with UText t => _ | UDict a => _ end).
    assert (R : forall s1 a, r = Ok (s1, a) -> detached s s1 i /\ the_obj s1 i = the_obj s' i).
    { intros s1 a. unfold r. destruct u as [t|b]; [destruct (extract_str t) as [d|]; [|discriminate]; cbn [bind]|]; intros E; injection E as <- <-; (split; [|reflexivity]); [apply (add_dict_detached s s' i d DT)|exact DT]. }
    destruct r as [[s1 a]|]; [|discriminate]. destruct (R s1 a eq_refl) as [D1 E1]. cbn [bind].
    set (o' := Obj _ _ _ a _). assert (Ho : length (bufs s) <= o_buf o') by (unfold o'; cbn; apply DT).
    destruct (unit_of s' i) as [|p l]; [intros H; injection H as <-; now apply set_obj_detached|].
    destruct (nth a (dicts s1) []) as [|q l']; [intros H; injection H as <-; now apply set_obj_detached|].
    destruct (factor _ _ _) as [f|]; [|discriminate]. cbn [bind]. destruct (b_kind _); [discriminate|]. intros H. injection H as <-.
    apply set_obj_detached; [|exact Ho]. rewrite <- E1. now apply write_detached.
  - apply set_unit_detached; exact DT.
  - apply set_du_detached; exact DT.
Qed.
Lemma detached_independent s s' i : good s -> detached s s' i -> independent s s' i.
Proof.
  intros G DT l. revert s' DT. induction l as [|c l IH]; intros s' DT s'' H j Hj; cbn [do_changes] in H.
  - injection H as <-. apply extends_look; [exact G|apply DT|exact Hj].
  - destruct (do_change s' i c) as [s1|] eqn:E; [|discriminate]. cbn [bind] in H. eapply IH; [eapply change_detached; eassumption|exact H|exact Hj].
Qed.

(** Objects just made. *)
Lemma nth_app_last {A} (l : list A) x d : nth (length l) (l ++ [x]) d = x.
Proof. rewrite app_nth2, Nat.sub_diag by lia. reflexivity. Qed.
Lemma finalize_made s s0 cls o buf pos s' i : finalize no_du s cls o buf pos = (s', i) -> extends s0 s ->
  extends s0 s' /\ i = length (objs s) /\ length (objs s') = S (length (objs s)) /\ bufs s' = bufs s /\ o_cls (the_obj s' i) = cls /\ o_buf (the_obj s' i) = buf /\ o_pos (the_obj s' i) = pos /\
  (o_cls o = 0 -> unit_of s' i = [] /\ du_of s' i = no_du) /\
  (o_cls o <> 0 -> o_unit o < length (dicts s) -> o_du o < length (dus s) -> unit_of s' i = nth (o_unit o) (dicts s) [] /\ du_of s' i = nth (o_du o) (dus s) no_du) /\
  prefix (dicts s) (dicts s') /\ prefix (dus s) (dus s').
Proof.
  unfold finalize. intros H (B & U & T & O). destruct (Nat.eqb_spec (o_cls o) 0) as [E|N]; cbn in H; injection H as <- <-; unfold the_obj, QobjModel.unit_of, QobjModel.du_of, the_obj; cbn [bufs dicts dus objs].
  all: rewrite !nth_app_last; cbn [o_cls o_buf o_pos o_unit o_du]; rewrite app_length; cbn [length].
  all: split; [repeat split; cbn; try assumption; apply prefix_app; assumption|].
  all: do 6 (split; [try reflexivity; lia|]).
  - split; [intros _; rewrite !nth_app_last; auto|]. split; [intros; contradiction|]. split; apply prefix_app, prefix_refl.
  - split; [intros; contradiction|]. split; [auto|]. split; apply prefix_refl.
Qed.
Lemma seq_values (l : list K) : map (fun p => nth p l zero) (seq 0 (length l)) = l.
Proof. apply (nth_ext _ _ zero zero); [now rewrite map_length, seq_length|]. intros k H. rewrite map_length, seq_length in H. rewrite (nth_indep _ zero (nth 0 l zero)) by (rewrite map_length, seq_length; exact H). rewrite (map_nth (fun p => nth p l zero)), seq_nth by exact H. reflexivity. Qed.

(** A copy: fresh object, fresh buffer, same look. *)
Lemma copy_made s0 s k j s' i : good s -> j < length (objs s) -> extends s0 s -> copy_as zero no_du s k j = (s', i) ->
  detached s0 s' i /\ values s' i = values s j /\ o_cls (the_obj s' i) = o_cls (the_obj s j) /\ b_kind (the_buf s' (the_obj s' i)) = k /\
  (o_cls (the_obj s j) <> 0 -> unit_of s' i = unit_of s j /\ du_of s' i = du_of s j /\ o_unit (the_obj s' i) < length (dicts s') /\ o_du (the_obj s' i) < length (dus s')) /\
  (o_cls (the_obj s j) = 0 -> unit_of s' i = [] /\ du_of s' i = no_du) /\ prefix (dicts s) (dicts s').
Proof.
  intros G Hj E. unfold copy_as. cbn [add_buf]. set (o := the_obj s j). set (v := values_of s o). set (s1 := St (bufs s ++ [Buf k v]) (dicts s) (dus s) (objs s)).
  intros H. unfold good in G. rewrite Forall_forall in G. specialize (G o (nth_In _ _ Hj)). destruct G as (_ & _ & _ & Gu).
  assert (E1 : extends s0 s1) by (destruct E as (B & U & T & O); repeat split; try assumption; cbn; now apply prefix_app).
  destruct (finalize_made s1 s0 _ _ _ _ _ _ H E1) as (X & -> & L & HB & C & Bf & Ps & Z1 & Z2 & Z3 & Z4). cbn [objs s1] in *.
  set (i := length (objs s)) in *.
  split; [|split; [|split; [|split; [|split; [|split]]]]].
  - split; [exact X|]. split; [split; [unfold i; destruct E as (_ & _ & _ & O); exact (prefix_length _ _ O)|rewrite L; unfold i; lia]|]. rewrite Bf. destruct E as (B & _). exact (prefix_length _ _ B).
  - unfold QobjModel.values, QobjModel.values_of, the_buf. rewrite Bf, Ps, HB. unfold s1. cbn [bufs]. rewrite nth_app_last. cbn [b_val]. apply seq_values.
  - exact C.
  - unfold the_buf. rewrite Bf, HB. unfold s1. cbn [bufs]. now rewrite nth_app_last.
  - intros N. destruct (Gu N) as [G1 G2]. destruct (Z2 N G1 G2) as [Z5 Z6]. split; [exact Z5|]. split; [exact Z6|].
    revert H. unfold finalize. destruct (Nat.eqb_spec (o_cls o) 0) as [E0|_]; [contradiction|]. cbn. intros H. injection H as <-. unfold the_obj. cbn [objs dicts dus]. unfold i. rewrite nth_app_last. cbn. auto.
  - exact Z1.
  - exact Z3.
Qed.
Definition class_ok (s : state) (i : nat) (c : nat) : Prop := o_cls (the_obj s i) = c.

(** The data of __new__, as an object. *)
Definition data_values (s : state) (d : @data K) : list K := match d with Ref j => values s j | Lit _ v => v end.
Definition data_kind (s : state) (d : @data K) : kind := match d with Ref j => b_kind (the_buf s (the_obj s j)) | Lit k _ => k end.
Definition data_class (s : state) (d : @data K) : nat := match d with Ref j => o_cls (the_obj s j) | Lit _ _ => 0 end.
Definition data_unit (s : state) (d : @data K) : unit_ := match d with Ref j => if o_cls (the_obj s j) =? 0 then [] else unit_of s j | Lit _ _ => [] end.
Definition data_du (s : state) (d : @data K) : D := match d with Ref j => if o_cls (the_obj s j) =? 0 then no_du else du_of s j | Lit _ _ => no_du end.
(** Any class of quantities is accepted where a Quantity is asked for with subok=True. *)
Definition class_wanted (subok : bool) (c cls : nat) : nat := if subok then match cls, c with 1, S _ => c | _, _ => cls end else cls.
Lemma class_viewed subok c cls : 1 <= cls -> negb subok && negb (c =? cls) || negb (isinstance c cls) = true -> class_wanted subok c cls = cls.
Proof.
  intros H. unfold class_wanted, isinstance. destruct subok; [|reflexivity]. destruct cls as [|[|cls]]; [lia| |reflexivity]. destruct c as [|[|c]]; [reflexivity| |]; cbn; intros E; discriminate E.
Qed.
Lemma class_kept subok c cls : 1 <= cls -> negb subok && negb (c =? cls) || negb (isinstance c cls) = false -> class_wanted subok c cls = c.
Proof.
  intros H E. apply orb_false_iff in E as [E1 E2]. apply negb_false_iff in E2. unfold class_wanted, isinstance in *. destruct subok; cbn in E1.
  - destruct cls as [|[|cls]]; [lia| |]; destruct c as [|c]; cbn in E2; try discriminate; try reflexivity. rewrite !orb_false_r in E2. apply Nat.eqb_eq in E2. congruence.
  - apply negb_false_iff, Nat.eqb_eq in E1. congruence.
Qed.
Definition given (s : state) (d : @data K) : Prop := match d with Ref j => j < length (objs s) | Lit _ _ => True end.

Lemma good_extends s s' o : extends s s' -> good_obj s o -> good_obj s' o.
Proof.
  intros (B & U & T & O) (G1 & G2 & G3 & G4). assert (L1 := prefix_length _ _ B). assert (L2 := prefix_length _ _ U). assert (L3 := prefix_length _ _ T).
  split; [lia|]. split; [exact G2|]. split; [unfold the_buf in *; now rewrite (prefix_nth _ _ _ dbuf B G1)|]. intros N. destruct (G4 N). lia.
Qed.
Lemma asanyarray_made s d s1 i : good s -> given s d -> asanyarray s d = (s1, i) ->
  good s1 /\ extends s s1 /\ i < length (objs s1) /\ values s1 i = data_values s d /\ b_kind (the_buf s1 (the_obj s1 i)) = data_kind s d /\ o_cls (the_obj s1 i) = data_class s d /\
  (o_cls (the_obj s1 i) <> 0 -> unit_of s1 i = data_unit s d /\ du_of s1 i = data_du s d) /\ (o_cls (the_obj s1 i) = 0 -> data_unit s d = [] /\ data_du s d = no_du) /\ dicts s1 = dicts s.
Proof.
  intros G HD H. destruct d as [j|k v]; cbn [asanyarray given] in *.
  - injection H as <- <-. cbn [data_values data_kind data_class data_unit data_du]. split; [exact G|]. split; [apply extends_refl|]. split; [exact HD|]. do 3 (split; [reflexivity|]).
    split; [intros N; destruct (Nat.eqb_spec (o_cls (the_obj s j)) 0); [contradiction|auto]|]. split; [intros ->; auto|reflexivity].
  - cbn in H. injection H as <- <-.
    set (o := Obj 0 (length (bufs s)) (seq 0 (length v)) 0 0). set (s1 := St _ _ _ _).
    assert (EO : the_obj s1 (length (objs s)) = o) by (unfold the_obj, s1; cbn [objs]; apply nth_app_last).
    assert (E : extends s s1) by (unfold s1; repeat split; cbn; try apply prefix_refl; apply prefix_app, prefix_refl).
    split.
    { unfold good, s1. cbn [objs]. apply Forall_app. split.
      - unfold good in G. rewrite Forall_forall in G |- *. intros o' Ho. apply (good_extends s); [exact E|now apply G].
      - repeat constructor; cbn [o_buf o_pos o_cls bufs].
        + rewrite app_length. cbn. lia.
        + apply seq_NoDup.
        + unfold the_buf, o. cbn [o_buf bufs o_pos]. rewrite nth_app_last. cbn [b_val]. apply Forall_forall. intros p Hp. apply in_seq in Hp. lia.
        + exfalso; apply H; reflexivity.
        + exfalso; apply H; reflexivity. }
    split; [exact E|]. split; [cbn; rewrite app_length; cbn; lia|]. 
    assert (B : the_buf s1 o = Buf k v) by (unfold the_buf, s1; cbn [o o_buf bufs]; now rewrite nth_app_last).
    unfold QobjModel.values, QobjModel.values_of. rewrite EO, B. split; [apply seq_values|].
    split; [reflexivity|]. split; [reflexivity|]. split; [cbn; intros N; exfalso; now apply N|]. split; [auto|reflexivity].
Qed.
Lemma set_unit_look s i u s' : i < length (objs s) -> o_cls (the_obj s i) <> 0 -> set_unit s i u = Ok s' ->
  o_cls (the_obj s' i) = o_cls (the_obj s i) /\ values s' i = values s i /\ o_buf (the_obj s' i) = o_buf (the_obj s i) /\ bufs s' = bufs s /\ du_of s' i = du_of s i /\
  match u with UText t => extract_str t = Ok (unit_of s' i) | UDict a => unit_of s' i = nth a (dicts s) [] end /\ length (objs s') = length (objs s).
Proof.
  intros Hi N. unfold set_unit. destruct u as [t|a].
  - destruct (extract_str t) as [d|] eqn:E; [|discriminate]. cbn [bind add_dict]. intros H. injection H as <-.
    unfold QobjModel.values, QobjModel.values_of, QobjModel.du_of, QobjModel.unit_of, the_buf, the_obj, set_obj. cbn [objs bufs dus dicts]. rewrite nth_set_nth_same by exact Hi. cbn [o_cls o_buf o_pos o_unit o_du]. rewrite nth_app_last, set_nth_length.
    repeat split; reflexivity.
  - intros H. injection H as <-.
    unfold QobjModel.values, QobjModel.values_of, QobjModel.du_of, QobjModel.unit_of, the_buf, the_obj, set_obj. cbn [objs bufs dus dicts]. rewrite nth_set_nth_same by exact Hi. cbn [o_cls o_buf o_pos o_unit o_du]. rewrite set_nth_length.
    repeat split; reflexivity.
Qed.
Lemma set_du_look s i d s' : i < length (objs s) -> set_du check_du s i d = Ok s' ->
  o_cls (the_obj s' i) = o_cls (the_obj s i) /\ values s' i = values s i /\ bufs s' = bufs s /\ o_buf (the_obj s' i) = o_buf (the_obj s i) /\ unit_of s' i = unit_of s i /\ du_of s' i = d /\ check_du d = true /\ length (objs s') = length (objs s).
Proof.
  intros Hi. unfold set_du. destruct (check_du d) eqn:E; [|discriminate]. cbn [add_table]. intros H. injection H as <-.
  unfold QobjModel.values, QobjModel.values_of, QobjModel.du_of, QobjModel.unit_of, the_buf, the_obj, set_obj. cbn [objs bufs dus dicts]. rewrite nth_set_nth_same by exact Hi. cbn [o_cls o_buf o_pos o_unit o_du]. rewrite nth_app_last, set_nth_length.
  repeat split; reflexivity.
Qed.
Lemma new_copy s cls d unit du dtype subok s' i : good s -> given s d -> 1 <= cls -> new s cls d unit du dtype true subok = Ok (s', i) ->
  independent s s' i /\ length (objs s) <= i /\
  values s' i = data_values s d /\ b_kind (the_buf s' (the_obj s' i)) = match dtype with Some k => k | None => KFloat end /\
  o_cls (the_obj s' i) = class_wanted subok (data_class s d) cls /\
  match unit with
  | None => unit_of s' i = data_unit s d
  | Some (UText t) => extract_str t = Ok (unit_of s' i)
  | Some (UDict a) => a < length (dicts s) -> unit_of s' i = nth a (dicts s) []
  end /\
  match du with None => du_of s' i = data_du s d | Some t => du_of s' i = t /\ check_du t = true end.
Proof.
  intros G HD HC H. unfold QobjModel.new in H. destruct (asanyarray s d) as [s1 i1] eqn:EA.
  destruct (asanyarray_made s d s1 i1 G HD EA) as (G1 & X1 & L1 & V1 & K1 & C1 & U1 & U1' & DD1).
  set (target := match dtype with Some k => k | None => KFloat end) in *.
  set (r := match b_kind _, target with KFloat, KInt => _ | _, _ => _ end) in H.
  assert (R : forall s2 i2, r = Ok (s2, i2) -> copy_as zero no_du s1 target i1 = (s2, i2)).
  { intros s2 i2. unfold r. destruct (b_kind _), target; intros E; try discriminate E; now injection E. }
  destruct r as [[s2 i2]|]; [|discriminate]. specialize (R s2 i2 eq_refl). cbn [bind] in H.
  destruct (copy_made s s1 target i1 s2 i2 G1 L1 X1 R) as (D2 & V2 & C2 & K2 & U2 & U2' & P2).
  set (q := if _ || _ then finalize _ _ _ _ _ _ else (s2, i2)) in H.
  assert (Q : forall s3 i3, q = (s3, i3) -> detached s s3 i3 /\ values s3 i3 = values s2 i2 /\ b_kind (the_buf s3 (the_obj s3 i3)) = target /\
     o_cls (the_obj s3 i3) = class_wanted subok (data_class s d) cls /\ unit_of s3 i3 = data_unit s d /\ du_of s3 i3 = data_du s d /\ o_cls (the_obj s3 i3) <> 0 /\ prefix (dicts s2) (dicts s3)).
  { intros s3 i3. unfold q.
    assert (UU : unit_of s2 i2 = data_unit s d /\ du_of s2 i2 = data_du s d).
    { destruct (Nat.eq_dec (o_cls (the_obj s1 i1)) 0) as [Z|N].
      - destruct (U2' Z) as [-> ->]. destruct (U1' Z) as [-> ->]. auto.
      - destruct (U2 N) as (-> & -> & _). exact (U1 N). }
    destruct (negb subok && negb (o_cls (the_obj s2 i2) =? cls) || negb (isinstance (o_cls (the_obj s2 i2)) cls)) eqn:EQ; intros E.
    - destruct D2 as (X2 & I2 & B2). destruct (finalize_made s2 s _ _ _ _ _ _ E X2) as (X3 & -> & L3 & HB & C3 & Bf & Ps & Z1 & Z2 & Z3 & Z4).
      split; [split; [exact X3|]; split; [split; [destruct X2 as (_ & _ & _ & O); exact (prefix_length _ _ O)|lia]|rewrite Bf; exact B2]|].
      split; [unfold QobjModel.values, QobjModel.values_of, the_buf; rewrite Bf, Ps, HB; reflexivity|]. split; [unfold the_buf; rewrite Bf, HB; exact K2|].
      split; [rewrite C3, <- C1, <- C2; symmetry; now apply class_viewed|].
      assert (UU' : unit_of s3 (length (objs s2)) = data_unit s d /\ du_of s3 (length (objs s2)) = data_du s d).
      { destruct UU as [<- <-]. destruct (Nat.eq_dec (o_cls (the_obj s2 i2)) 0) as [Z|N].
        - destruct (Z1 Z) as [-> ->]. rewrite C2 in Z. destruct (U2' Z) as [-> ->]. auto.
        - pose proof N as N'. rewrite C2 in N'. destruct (U2 N') as (_ & _ & Q1 & Q2). destruct (Z2 N Q1 Q2) as [-> ->]. split; reflexivity. }
      destruct UU' as [-> ->]. split; [reflexivity|]. split; [reflexivity|]. split; [lia|exact Z3].
    - injection E as <- <-. split; [exact D2|]. split; [reflexivity|]. split; [exact K2|]. split; [rewrite <- C1, <- C2; symmetry; now apply class_kept|]. apply orb_false_iff in EQ as [E1 E2]. apply negb_false_iff in E2. destruct UU as [-> ->]. split; [reflexivity|]. split; [reflexivity|].
      split; [|apply prefix_refl]. intros Z. rewrite Z in E2. unfold isinstance in E2. destruct cls as [|[|c]]; [lia|discriminate E2|discriminate E2]. }
  destruct q as [s3 i3]. destruct (Q s3 i3 eq_refl) as (D3 & V3 & K3 & C3 & U3 & T3 & N3 & P3). clear Q.
  set (ru := match unit with Some u => set_unit s3 i3 u | None => Ok s3 end) in H.
  assert (RU : forall s4, ru = Ok s4 -> detached s s4 i3 /\ values s4 i3 = values s3 i3 /\ b_kind (the_buf s4 (the_obj s4 i3)) = target /\ o_cls (the_obj s4 i3) = o_cls (the_obj s3 i3) /\ du_of s4 i3 = du_of s3 i3 /\
    match unit with None => unit_of s4 i3 = data_unit s d | Some (UText t) => extract_str t = Ok (unit_of s4 i3) | Some (UDict a) => a < length (dicts s) -> unit_of s4 i3 = nth a (dicts s) [] end).
  { intros s4. unfold ru. destruct unit as [u|]; intros E.
    - assert (L3 : i3 < length (objs s3)) by apply D3. destruct (set_unit_look s3 i3 u s4 L3 N3 E) as (A1 & A2 & A3 & A4 & A5 & A6 & A7).
      split; [eapply set_unit_detached; eassumption|]. split; [exact A2|]. split; [unfold the_buf; rewrite A3, A4; exact K3|]. split; [exact A1|]. split; [exact A5|].
      destruct u as [t|a]; [exact A6|]. intros Ha. rewrite A6. destruct D3 as ((_ & P & _) & _). now apply prefix_nth.
    - injection E as <-. repeat split; try assumption; apply D3. }
  destruct ru as [s4|]; [|discriminate]. destruct (RU s4 eq_refl) as (D4 & V4 & K4 & C4 & T4 & U4). clear RU. cbn [bind] in H.
  set (rd := match du with Some d => set_du check_du s4 i3 d | None => Ok s4 end) in H.
  assert (RD : forall s5, rd = Ok s5 -> detached s s5 i3 /\ values s5 i3 = values s4 i3 /\ b_kind (the_buf s5 (the_obj s5 i3)) = target /\ o_cls (the_obj s5 i3) = o_cls (the_obj s4 i3) /\ unit_of s5 i3 = unit_of s4 i3 /\
    match du with None => du_of s5 i3 = data_du s d | Some t => du_of s5 i3 = t /\ check_du t = true end).
  { intros s5. unfold rd. destruct du as [t|]; intros E.
    - assert (L4 : i3 < length (objs s4)) by apply D4. destruct (set_du_look s4 i3 t s5 L4 E) as (A1 & A2 & A3 & A4 & A5 & A6 & A7 & A8).
      split; [eapply set_du_detached; eassumption|]. split; [exact A2|]. split; [unfold the_buf; rewrite A4, A3; exact K4|]. auto.
    - injection E as <-. split; [exact D4|]. do 4 (split; [auto|]). congruence. }
  destruct rd as [s5|]; [|discriminate]. destruct (RD s5 eq_refl) as (D5 & V5 & K5 & C5 & U5 & T5). cbn [bind] in H. injection H as <- <-.
  split; [now apply detached_independent|]. split; [apply D5|]. split; [congruence|]. split; [exact K5|]. split; [rewrite C5, C4; exact C3|]. split; [|exact T5].
  destruct unit as [[t|a]|]; [rewrite U5; exact U4| |congruence]. intros Ha. rewrite U5. now apply U4.
Qed.

(** Writing. *)
Definition put (l : list K) (w : list (nat * K)) : list K := fold_left (fun l pv => set_nth l (fst pv) (snd pv)) w l.
Lemma put_length l w : length (put l w) = length l.
Proof. revert l. induction w as [|[p x] w IH]; intros l; [reflexivity|]. change (length (put (set_nth l p x) w) = length l). rewrite IH. apply set_nth_length. Qed.
Lemma put_other l w p d : ~ In p (map fst w) -> nth p (put l w) d = nth p l d.
Proof. revert l. induction w as [|[q x] w IH]; intros l H; [reflexivity|]. change (nth p (put (set_nth l q x) w) d = nth p l d). cbn [map fst In] in H. rewrite IH by tauto. apply nth_set_nth_other. tauto. Qed.
Lemma put_same l pos v : NoDup pos -> Forall (fun p => p < length l) pos -> length v = length pos -> map (fun p => nth p (put l (combine pos v)) zero) pos = v.
Proof.
  intros ND. revert l v. induction ND as [|p pos N ND IH]; intros l [|x v] F L; cbn in L; try lia; [reflexivity|]. inversion F; subst. cbn [combine map]. f_equal.
  - unfold put. cbn [fold_left fst snd]. change (nth p (put (set_nth l p x) (combine pos v)) zero = x). rewrite put_other; [now apply nth_set_nth_same|].
    intros X. apply in_map_iff in X as ([a b] & <- & X). apply in_combine_l in X. contradiction.
  - change (map (fun q => nth q (put (set_nth l p x) (combine pos v)) zero) pos = v). apply IH; [|lia]. rewrite set_nth_length. assumption.
Qed.
Lemma write_look s i v : good s -> i < length (objs s) -> length v = length (o_pos (the_obj s i)) ->
  values (write s (the_obj s i) v) i = v /\
  forall j, o_buf (the_obj s j) <> o_buf (the_obj s i) \/ (forall p, In p (o_pos (the_obj s i)) -> ~ In p (o_pos (the_obj s j))) -> values (write s (the_obj s i) v) j = values s j.
Proof.
  intros G Hi L. unfold good in G. rewrite Forall_forall in G. specialize (G _ (nth_In _ dobj Hi)). fold (the_obj s i) in G. destruct G as (Gb & ND & F & _).
  unfold QobjModel.values, QobjModel.values_of, the_buf, the_obj, write. cbn [objs bufs]. fold (the_obj s i). split.
  - rewrite nth_set_nth_same by exact Gb. cbn [b_val]. now apply put_same.
  - intros j H. fold (the_obj s j). destruct (Nat.eq_dec (o_buf (the_obj s j)) (o_buf (the_obj s i))) as [E|N].
    + destruct H as [H|H]; [contradiction|]. rewrite E, nth_set_nth_same by exact Gb. cbn [b_val]. apply map_ext_in. intros p Hp. fold (put (b_val (the_buf s (the_obj s i))) (combine (o_pos (the_obj s i)) v)).
      rewrite put_other; [reflexivity|]. intros X. apply in_map_iff in X as ([a b] & <- & X). apply in_combine_l in X. exact (H a X Hp).
    + rewrite nth_set_nth_other by congruence. reflexivity.
Qed.
Lemma inunit_exact s i u s' : good s -> i < length (objs s) -> o_cls (the_obj s i) <> 0 -> inunit s i u = Ok s' ->
  exists newu, match u with UText t => extract_str t = Ok newu | UDict a => nth a (dicts s) [] = newu end /\
    unit_of s' i = newu /\ du_of s' i = du_of s i /\
    (unit_of s i = [] \/ newu = [] -> values s' i = values s i /\ forall j, values s' j = values s j) /\
    (unit_of s i <> [] -> newu <> [] -> exists f, factor (du_of s i) (unit_of s i) newu = Ok f /\ b_kind (the_buf s (the_obj s i)) = KFloat /\ values s' i = map (fun x => mul x f) (values s i)) /\
    (forall j, j < length (objs s) -> j <> i -> o_cls (the_obj s' j) = o_cls (the_obj s j) /\ (o_cls (the_obj s j) <> 0 -> unit_of s' j = unit_of s j /\ du_of s' j = du_of s j) /\
       (o_buf (the_obj s j) <> o_buf (the_obj s i) \/ (forall p, In p (o_pos (the_obj s i)) -> ~ In p (o_pos (the_obj s j))) -> values s' j = values s j)).
Proof.
  intros G Hi HC. unfold QobjModel.inunit. set (r := match u with UText t => _ | UDict a => _ end).
  assert (R : forall s1 a, r = Ok (s1, a) -> match u with UText t => extract_str t = Ok (nth a (dicts s1) []) | UDict a => nth a (dicts s) [] = nth a (dicts s1) [] end /\ (forall b, u = UDict b -> a = b) /\
     objs s1 = objs s /\ bufs s1 = bufs s /\ dus s1 = dus s /\ prefix (dicts s) (dicts s1)).
  { intros s1 a. unfold r. destruct u as [t|b].
    - destruct (extract_str t) as [d|]; [|discriminate]. cbn [bind]. intros E. injection E as <- <-. cbn [dicts objs bufs dus]. rewrite nth_app_last. do 2 (split; [congruence|]). do 3 (split; [reflexivity|]). apply prefix_app, prefix_refl.
    - intros E. injection E as <- <-. split; [reflexivity|]. split; [congruence|]. do 3 (split; [reflexivity|]). apply prefix_refl. }
  destruct r as [[s1 a]|]; [|discriminate]. destruct (R s1 a eq_refl) as (E1 & E2 & O1 & B1 & T1 & P1). clear R. cbn [bind].
  set (newu := nth a (dicts s1) []) in *. set (o' := Obj _ _ _ a _).
  assert (GU : forall j, j < length (objs s) -> o_cls (the_obj s j) <> 0 -> o_unit (the_obj s j) < length (dicts s) /\ o_du (the_obj s j) < length (dus s)).
  { intros j Hj N. unfold good in G. rewrite Forall_forall in G. destruct (G _ (nth_In _ dobj Hj)) as (_ & _ & _ & X). exact (X N). }
  assert (E0 : match u with UText t => extract_str t = Ok newu | UDict a => nth a (dicts s) [] = newu end).
  { destruct u as [t|b]; [exact E1|]. rewrite E1. unfold newu. now rewrite (E2 b eq_refl). }
  assert (TH : forall j, the_obj s1 j = the_obj s j) by (intros j; unfold the_obj; now rewrite O1).
  (* the objects after the change of unit *)
  assert (Look : forall s2, objs s2 = objs s -> dicts s2 = dicts s1 -> dus s2 = dus s ->
    unit_of (set_obj s2 i o') i = newu /\ du_of (set_obj s2 i o') i = du_of s i /\ (forall j, values (set_obj s2 i o') j = values s2 j) /\
    forall j, j < length (objs s) -> j <> i -> o_cls (the_obj (set_obj s2 i o') j) = o_cls (the_obj s j) /\ (o_cls (the_obj s j) <> 0 -> unit_of (set_obj s2 i o') j = unit_of s j /\ du_of (set_obj s2 i o') j = du_of s j)).
  { intros s2 A1 A2 A3. unfold QobjModel.unit_of, QobjModel.du_of, the_obj, set_obj. cbn [objs dicts dus]. rewrite A1, A2, A3. rewrite nth_set_nth_same by exact Hi. unfold o'. cbn [o_unit o_du].
    split; [reflexivity|]. split; [reflexivity|]. split.
    - intros j. unfold QobjModel.values, QobjModel.values_of, the_buf, the_obj. cbn [objs bufs]. rewrite A1. destruct (Nat.eq_dec i j) as [<-|N]; [rewrite nth_set_nth_same by exact Hi; reflexivity|rewrite nth_set_nth_other by exact N; reflexivity].
    - intros j Hj N. rewrite nth_set_nth_other by congruence. split; [reflexivity|]. intros NC. destruct (GU j Hj NC) as [Gu _]. split; [exact (prefix_nth _ _ _ _ P1 Gu)|reflexivity]. }
  assert (V1 : forall j, values s1 j = values s j) by (intros j; unfold QobjModel.values, QobjModel.values_of, the_buf; now rewrite TH, B1).
  assert (Plain : forall s', Ok (set_obj s1 i o') = Ok s' -> unit_of s i = [] \/ newu = [] -> exists newu0, match u with UText t => extract_str t = Ok newu0 | UDict a => nth a (dicts s) [] = newu0 end /\
    unit_of s' i = newu0 /\ du_of s' i = du_of s i /\ (unit_of s i = [] \/ newu0 = [] -> values s' i = values s i /\ forall j, values s' j = values s j) /\
    (unit_of s i <> [] -> newu0 <> [] -> exists f, factor (du_of s i) (unit_of s i) newu0 = Ok f /\ b_kind (the_buf s (the_obj s i)) = KFloat /\ values s' i = map (fun x => mul x f) (values s i)) /\
    (forall j, j < length (objs s) -> j <> i -> o_cls (the_obj s' j) = o_cls (the_obj s j) /\ (o_cls (the_obj s j) <> 0 -> unit_of s' j = unit_of s j /\ du_of s' j = du_of s j) /\
       (o_buf (the_obj s j) <> o_buf (the_obj s i) \/ (forall p, In p (o_pos (the_obj s i)) -> ~ In p (o_pos (the_obj s j))) -> values s' j = values s j))).
  { intros s2 H X. injection H as <-. exists newu. destruct (Look s1 O1 eq_refl T1) as (L1 & L2 & L3 & L4). split; [exact E0|]. split; [exact L1|]. split; [exact L2|].
    split; [intros _; split; [|intros j]; rewrite L3; apply V1|]. split; [intros N1 N2; destruct X; contradiction|].
    intros j Hj N. destruct (L4 j Hj N) as [L5 L6]. split; [exact L5|]. split; [exact L6|]. intros _. rewrite L3. apply V1. }
  destruct (unit_of s i) as [|p0 l0] eqn:EU; [intros H; apply Plain; [exact H|now left]|].
  destruct newu as [|q0 l1] eqn:EN; [intros H; apply Plain; [exact H|now right]|]. clear Plain.
  assert (ED : du_of s1 i = du_of s i) by (unfold QobjModel.du_of; now rewrite TH, T1). rewrite ED.
  destruct (factor (du_of s i) (p0 :: l0) (q0 :: l1)) as [f|] eqn:EF; [|discriminate]. cbn [bind].
  assert (EB : the_buf s1 (the_obj s i) = the_buf s (the_obj s i)) by (unfold the_buf; now rewrite B1). rewrite EB.
  destruct (b_kind (the_buf s (the_obj s i))) eqn:EK; [discriminate|]. intros H. injection H as <-.
  assert (EV : values_of s1 (the_obj s i) = values_of s (the_obj s i)) by (unfold QobjModel.values_of; now rewrite EB). rewrite EV.
  set (v := map (fun x => mul x f) (values_of s (the_obj s i))).
  assert (Lv : length v = length (o_pos (the_obj s i))) by (unfold v, QobjModel.values_of; now rewrite !map_length).
  destruct (write_look s i v G Hi Lv) as [W1 W2].
  assert (WV : forall j, values (write s1 (the_obj s i) v) j = values (write s (the_obj s i) v) j).
  { intros j. unfold QobjModel.values, QobjModel.values_of, the_buf, the_obj, write. cbn [objs bufs]. unfold the_buf. rewrite B1, O1. reflexivity. }
  destruct (Look (write s1 (the_obj s i) v) O1 eq_refl T1) as (L1 & L2 & L3 & L4).
  exists (q0 :: l1). split; [exact E0|]. split; [exact L1|]. split; [exact L2|]. split; [intros [X|X]; discriminate X|].
  split; [intros _ _; exists f; split; [exact EF|]; split; [reflexivity|]; rewrite L3, WV, W1; reflexivity|].
  intros j Hj N. destruct (L4 j Hj N) as [L5 L6]. split; [exact L5|]. split; [exact L6|]. intros X. rewrite L3, WV. now apply W2.
Qed.
Lemma copy_good s k j s' i : good s -> j < length (objs s) -> copy_as zero no_du s k j = (s', i) -> good s'.
Proof.
  intros G Hj. unfold copy_as. cbn [add_buf]. set (o := the_obj s j). set (v := values_of s o). set (s1 := St (bufs s ++ [Buf k v]) (dicts s) (dus s) (objs s)). intros H.
  assert (Gj : good_obj s o) by (unfold good in G; rewrite Forall_forall in G; apply G, nth_In, Hj). destruct Gj as (_ & _ & _ & Gu).
  assert (X : extends s s') by (destruct (finalize_made s1 s _ _ _ _ _ _ H) as (X & _); [repeat split; cbn; try apply prefix_refl; apply prefix_app, prefix_refl|exact X]).
  assert (Old : forall x, In x (objs s) -> good_obj s' x) by (intros x Hx; apply (good_extends s); [exact X|]; unfold good in G; rewrite Forall_forall in G; now apply G).
  unfold good. revert H. unfold finalize. destruct (Nat.eqb_spec (o_cls o) 0) as [Z|N]; cbn; intros H; injection H as <- <-; cbn [objs] in *; apply Forall_app; (split; [apply Forall_forall; exact Old|]).
  all: constructor; [|constructor]; split; [cbn; rewrite app_length; cbn; lia|]; split; [apply seq_NoDup|]; split; [cbn [o_pos]; unfold the_buf; cbn [o_buf bufs]; rewrite nth_app_last; cbn [b_val]; apply Forall_forall; intros p Hp; apply in_seq in Hp; lia|]; cbn [o_cls o_unit o_du dicts dus].
  - intros Y. contradiction.
  - intros _. exact (Gu N).
Qed.
Lemma tounit_exact s i u s' j : good s -> i < length (objs s) -> o_cls (the_obj s i) <> 0 -> match u with UDict a => a < length (dicts s) | UText _ => True end -> tounit s i u = Ok (s', j) ->
  independent s s' j /\ exists newu, match u with UText t => extract_str t = Ok newu | UDict a => nth a (dicts s) [] = newu end /\ unit_of s' j = newu /\ du_of s' j = du_of s i /\
   (unit_of s i = [] \/ newu = [] -> values s' j = values s i) /\
   (unit_of s i <> [] -> newu <> [] -> exists f, factor (du_of s i) (unit_of s i) newu = Ok f /\ values s' j = map (fun x => mul x f) (values s i)).
Proof.
  intros G Hi HC HU. unfold QobjModel.tounit. destruct (copy_as _ _ s _ i) as [s1 j1] eqn:EC. destruct (copy_made s s _ i s1 j1 G Hi (extends_refl s) EC) as (D1 & V1 & C1 & K1 & U1 & _ & P1).
  destruct (U1 HC) as (U2 & T2 & _). destruct (inunit s1 j1 u) as [s2|] eqn:EI; [|discriminate]. cbn [bind]. intros H. injection H as <- <-.
  assert (G1 : good s1) by (eapply copy_good; eassumption). rewrite <- C1 in HC.
  destruct (inunit_exact s1 j1 u s2 G1 ltac:(apply D1) HC EI) as (newu & A1 & A2 & A3 & A4 & A5 & _).
  split; [apply detached_independent; [exact G|]; apply (change_detached s s1 j1 (Convert u)); [exact D1|exact EI]|].
  exists newu. split; [destruct u as [t|a]; [exact A1|]; rewrite <- A1; symmetry; exact (prefix_nth _ _ _ _ P1 HU)|]. split; [exact A2|]. rewrite A3, T2. split; [reflexivity|]. rewrite U2, V1, T2 in *. split; [intros X; now apply A4|].
  intros N1 N2. destruct (A5 N1 N2) as (f & F1 & _ & F2). exists f. auto.
Qed.
Lemma pickle_exact s0 s i s' j : good s0 -> setstate s0 (reduce zero no_du s i) = (s', j) ->
  independent s0 s' j /\ o_cls (the_obj s' j) = o_cls (the_obj s i) /\ values s' j = values s i /\ b_kind (the_buf s' (the_obj s' j)) = b_kind (the_buf s (the_obj s i)) /\ unit_of s' j = unit_of s i /\ du_of s' j = du_of s i.
Proof.
  intros G. unfold setstate, reduce. cbn [add_buf add_dict add_table add_obj p_cls p_kind p_val p_unit p_du]. intros H. injection H as <- <-.
  match goal with |- independent _ ?x _ /\ _ => set (s1 := x) end.
  assert (EO : the_obj s1 (length (objs s0)) = Obj (o_cls (the_obj s i)) (length (bufs s0)) (seq 0 (length (values s i))) (length (dicts s0)) (length (dus s0))) by (unfold the_obj, s1; cbn [objs]; apply nth_app_last).
  split.
  - apply detached_independent; [exact G|]. split; [repeat split; apply prefix_app, prefix_refl|]. split; [unfold s1; cbn [objs]; rewrite app_length; cbn; lia|]. rewrite EO. cbn. lia.
  - unfold QobjModel.values at 1, QobjModel.values_of, QobjModel.unit_of, QobjModel.du_of, the_buf at 1 2. cbn [objs bufs dicts dus]. unfold the_buf in *. rewrite EO. cbn [o_cls o_buf o_pos o_unit o_du]. unfold s1. cbn [bufs dicts dus]. rewrite !nth_app_last. cbn [b_val b_kind].
    split; [reflexivity|]. split; [apply seq_values|]. split; [reflexivity|]. split; reflexivity.
Qed.
Lemma result_exact s i v s' j : good s -> i < length (objs s) -> o_cls (the_obj s i) <> 0 -> same_unit_result no_du s i v = (s', j) ->
  independent s s' j /\ values s' j = v /\ unit_of s' j = unit_of s i /\ du_of s' j = du_of s i.
Proof.
  intros G Hi HC. unfold same_unit_result. cbn [add_buf]. set (s1 := St (bufs s ++ [Buf KFloat v]) (dicts s) (dus s) (objs s)). intros H.
  assert (E1 : extends s s1) by (repeat split; cbn; try apply prefix_refl; apply prefix_app, prefix_refl).
  assert (Gj : good_obj s (the_obj s i)) by (unfold good in G; rewrite Forall_forall in G; apply G, nth_In, Hi). destruct Gj as (_ & _ & _ & Gu). destruct (Gu HC) as [Gu1 Gu2].
  destruct (finalize_made s1 s _ _ _ _ _ _ H E1) as (X & -> & L & HB & C & Bf & Ps & _ & Z2 & _). destruct (Z2 HC Gu1 Gu2) as [Z3 Z4].
  split; [apply detached_independent; [exact G|]; split; [exact X|]; split; [cbn [s1 objs] in *; lia|rewrite Bf; lia]|]. split; [|split; [exact Z3|exact Z4]].
  unfold QobjModel.values, QobjModel.values_of, the_buf. rewrite Bf, Ps, HB. unfold s1. cbn [bufs]. rewrite nth_app_last. apply seq_values.
Qed.
End Props.

(** * C105 *)
(** Quantity(x, ...) with its default copy=True: the result has the values, the kind, the
    class, the unit and the derived units asked for, and nothing done to it later (assignment
    of values, conversion, change of unit or of derived units, any number of them) is seen by
    the objects that existed before. *)
Theorem C105_new : forall (K D : Type) (zero : K) (mul : K -> K -> K) factor (no_du : D) check_du s cls (d : @data K) unit du dtype subok s' i,
  good s -> given s d -> 1 <= cls -> new zero no_du check_du s cls d unit du dtype true subok = Ok (s', i) ->
  independent zero mul factor no_du check_du s s' i /\ length (objs s) <= i /\
  values zero s' i = data_values zero s d /\ b_kind (the_buf s' (the_obj s' i)) = match dtype with Some k => k | None => KFloat end /\
  o_cls (the_obj s' i) = class_wanted subok (data_class s d) cls /\
  match unit with
  | None => unit_of s' i = data_unit s d
  | Some (UText t) => extract_str t = Ok (unit_of s' i)
  | Some (UDict a) => a < length (dicts s) -> unit_of s' i = nth a (dicts s) []
  end /\
  match du with None => du_of no_du s' i = data_du no_du s d | Some t => du_of no_du s' i = t /\ check_du t = true end.
Proof. intros. eapply new_copy; eassumption. Qed.
Print Assumptions C105_new.

(** q.tounit(u) *)
Theorem C105_tounit : forall (K D : Type) (zero : K) (mul : K -> K -> K) factor (no_du : D) check_du s i u s' j,
  good s -> i < length (objs s) -> o_cls (the_obj s i) <> 0 -> match u with UDict a => a < length (dicts s) | UText _ => True end ->
  tounit zero mul factor no_du s i u = Ok (s', j) ->
  independent zero mul factor no_du check_du s s' j /\
  exists newu, match u with UText t => extract_str t = Ok newu | UDict a => nth a (dicts s) [] = newu end /\ unit_of s' j = newu /\ du_of no_du s' j = du_of no_du s i /\
   (unit_of s i = [] \/ newu = [] -> values zero s' j = values zero s i) /\
   (unit_of s i <> [] -> newu <> [] -> exists f, factor (du_of no_du s i) (unit_of s i) newu = Ok f /\ values zero s' j = map (fun x => mul x f) (values zero s i)).
Proof. intros. eapply tounit_exact; eassumption. Qed.
Print Assumptions C105_tounit.

(** q.inunit(u): the other objects keep their class, their unit and their derived units; those
    that share none of its values keep theirs. *)
Theorem C105_inunit : forall (K D : Type) (zero : K) (mul : K -> K -> K) factor (no_du : D) s i u s',
  good s -> i < length (objs s) -> o_cls (the_obj s i) <> 0 -> inunit zero mul factor no_du s i u = Ok s' ->
  exists newu, match u with UText t => extract_str t = Ok newu | UDict a => nth a (dicts s) [] = newu end /\
    unit_of s' i = newu /\ du_of no_du s' i = du_of no_du s i /\
    (unit_of s i = [] \/ newu = [] -> values zero s' i = values zero s i /\ forall j, values zero s' j = values zero s j) /\
    (unit_of s i <> [] -> newu <> [] -> exists f, factor (du_of no_du s i) (unit_of s i) newu = Ok f /\ b_kind (the_buf s (the_obj s i)) = KFloat /\ values zero s' i = map (fun x => mul x f) (values zero s i)) /\
    (forall j, j < length (objs s) -> j <> i -> o_cls (the_obj s' j) = o_cls (the_obj s j) /\ (o_cls (the_obj s j) <> 0 -> unit_of s' j = unit_of s j /\ du_of no_du s' j = du_of no_du s j) /\
       (o_buf (the_obj s j) <> o_buf (the_obj s i) \/ (forall p, In p (o_pos (the_obj s i)) -> ~ In p (o_pos (the_obj s j))) -> values zero s' j = values zero s j)).
Proof. intros K D zero mul factor no_du s i u s' G Hi HC H. exact (inunit_exact zero mul factor no_du (fun _ => true) s i u s' G Hi HC H). Qed.
Print Assumptions C105_inunit.

(** The results of sums, absolute values, ... share the dictionaries of an operand: changing
    them afterwards never changes the operand. *)
Theorem C105_result : forall (K D : Type) (zero : K) (mul : K -> K -> K) factor (no_du : D) check_du s i v s' j,
  good s -> i < length (objs s) -> o_cls (the_obj s i) <> 0 -> same_unit_result no_du s i v = (s', j) ->
  independent zero mul factor no_du check_du s s' j /\ values zero s' j = v /\ unit_of s' j = unit_of s i /\ du_of no_du s' j = du_of no_du s i.
Proof. intros. eapply result_exact; eassumption. Qed.
Print Assumptions C105_result.

(** Pickling and reading in another process (state s0): same class, values, kind, unit and
    derived units, nothing shared. *)
Theorem C105_pickle : forall (K D : Type) (zero : K) (mul : K -> K -> K) factor (no_du : D) check_du s0 s i s' j,
  good s0 -> setstate s0 (reduce zero no_du s i) = (s', j) ->
  independent zero mul factor no_du check_du s0 s' j /\ o_cls (the_obj s' j) = o_cls (the_obj s i) /\ values zero s' j = values zero s i /\
  b_kind (the_buf s' (the_obj s' j)) = b_kind (the_buf s (the_obj s i)) /\ unit_of s' j = unit_of s i /\ du_of no_du s' j = du_of no_du s i.
Proof. intros. eapply pickle_exact; eassumption. Qed.
Print Assumptions C105_pickle.

(** Slices see the same values as the object they come from: a conversion in place of a slice
    multiplies the values of the original and leaves its unit.  q = [x, y] km, q[:1].inunit('m'):
    q is [1000 x, y] km. *)
Definition two {K D : Type} (x y : K) (u : unit_) (d : D) : @state K D := St [Buf KFloat [x; y]] [u] [d] [Obj 1 0 [0; 1] 0 0].
Theorem C105_slice_refuted : forall (K D : Type) (zero : K) (mul : K -> K -> K) factor (no_du : D) x y u0 t u1 f,
  u0 <> [] -> u1 <> [] -> extract_str t = Ok u1 -> factor no_du u0 u1 = Ok f ->
  exists s1 v s2, getitem no_du (two x y u0 no_du) 0 [0] = Ok (s1, v) /\ inunit zero mul factor no_du s1 v (UText t) = Ok s2 /\
    values zero s2 v = [mul x f] /\ unit_of s2 v = u1 /\ values zero s2 0 = [mul x f; y] /\ unit_of s2 0 = u0.
Proof.
  intros K D zero mul factor no_du x y u0 t u1 f N0 N1 E F. eexists _, _, _. split; [reflexivity|]. unfold inunit. rewrite E. cbn [bind add_dict].
  unfold unit_of at 1, du_of. cbn. destruct u0 as [|p0 u0]; [contradiction|]. destruct u1 as [|p1 u1]; [contradiction|]. rewrite F. cbn [bind].
  split; [reflexivity|]. repeat split; reflexivity.
Qed.
Print Assumptions C105_slice_refuted.

(** Quantity(q, unit, copy=False): q is returned, and it is the caller's quantity that gets the
    unit, its values not being converted. *)
Theorem C105_no_copy_refuted : forall (K D : Type) (zero : K) (no_du : D) check_du x y u0 t u1,
  extract_str t = Ok u1 ->
  exists s', new zero no_du check_du (two x y u0 no_du) 1 (Ref 0) (Some (UText t)) None None false false = Ok (s', 0) /\
    unit_of s' 0 = u1 /\ values zero s' 0 = [x; y].
Proof. intros K D zero no_du check_du x y u0 t u1 E. unfold new. cbn [asanyarray bind]. cbn. rewrite E. cbn. eexists. split; [reflexivity|]. split; reflexivity. Qed.
Print Assumptions C105_no_copy_refuted.

(** Integers are always refused with copy=False, unless they are asked for. *)
Theorem C105_no_copy_integers_refuted : forall (K D : Type) (zero : K) (no_du : D) check_du s cls (d : @data K) unit du subok,
  good s -> given s d -> data_kind s d = KInt ->
  new zero no_du check_du s cls d unit du None false subok = Err ValueError.
Proof.
  intros K D zero no_du check_du s cls d unit du subok G HD HK. unfold new. destruct (asanyarray s d) as [s1 i1] eqn:EA.
  destruct (asanyarray_made zero (fun x _ => x) (fun _ _ _ => Ok zero) no_du check_du s d s1 i1 G HD EA) as (_ & _ & _ & _ & K1 & _). rewrite K1, HK. reflexivity.
Qed.
Print Assumptions C105_no_copy_integers_refuted.

(** A unit given as a dictionary is kept as it is: the caller changing it later changes the
    unit of the quantity. *)
Theorem C105_dictionary_refuted : forall (K D : Type) (zero : K) (no_du : D) check_du x y u0 u1 u2,
  exists s' i, new zero no_du check_du (St [Buf KFloat [x; y]] [u0; u1] [no_du] [Obj 1 0 [0; 1] 0 0]) 1 (Ref 0) (Some (UDict 1)) None None true false = Ok (s', i) /\
    unit_of s' i = u1 /\ unit_of (set_dict s' 1 u2) i = u2.
Proof. intros. eexists _, _. split; [reflexivity|]. split; reflexivity. Qed.
Print Assumptions C105_dictionary_refuted.

(** An item holds the elements asked for, of the same class; the positions must exist, and
    nothing that existed changes. *)
Theorem C105_item : forall (K D : Type) (zero : K) (no_du : D) s i sel, good s -> i < length (objs s) ->
  (Forall (fun p => p < length (values zero s i)) sel ->
   exists s' j, getitem no_du s i sel = Ok (s', j) /\ o_cls (the_obj s' j) = o_cls (the_obj s i) /\
     values zero s' j = map (fun p => nth p (values zero s i) zero) sel /\ forall k, k < length (objs s) -> same_look zero no_du s s' k) /\
  (~ Forall (fun p => p < length (values zero s i)) sel -> getitem no_du s i sel = Err IndexError).
Proof.
  intros K D zero no_du s i sel G Hi. assert (L : length (values zero s i) = length (o_pos (the_obj s i))) by apply map_length. rewrite L.
  assert (T : forallb (fun p => p <? length (o_pos (the_obj s i))) sel = true <-> Forall (fun p => p < length (o_pos (the_obj s i))) sel).
  { rewrite forallb_forall, Forall_forall. split; intros H x I; apply Nat.ltb_lt, H, I. }
  unfold getitem. split.
  - intros F. rewrite (proj2 T F). destruct (finalize no_du s _ _ _ _) as [s' j] eqn:E. exists s', j. split; [reflexivity|].
    destruct (finalize_made zero (fun x _ => x) (fun _ _ _ => Ok zero) no_du (fun _ => true) s s _ _ _ _ _ _ E (extends_refl s)) as (X & -> & _ & HB & C & Bf & Ps & _). split; [exact C|]. split.
    + unfold values at 1, values_of at 1, the_buf. rewrite Bf, Ps, HB, map_map. apply map_ext_in. intros p I. rewrite Forall_forall in F. specialize (F p I).
      unfold values, values_of. symmetry. rewrite (nth_indep (map _ _) zero (nth 0 (b_val (the_buf s (the_obj s i))) zero)) by (rewrite map_length; exact F).
      rewrite (map_nth (fun q => nth q (b_val (the_buf s (the_obj s i))) zero)). reflexivity.
    + intros k Hk. apply extends_look; assumption.
  - intros F. destruct (forallb _ sel); [|reflexivity]. exfalso. apply F, T. reflexivity.
Qed.
Print Assumptions C105_item.
(** copy=False: the object itself, unless its positions are not consecutive. *)
Theorem C105_no_copy_same : forall (K D : Type) (zero : K) (no_du : D) check_du s j, good s -> j < length (objs s) ->
  1 <= o_cls (the_obj s j) -> b_kind (the_buf s (the_obj s j)) = KFloat ->
  let p := o_pos (the_obj s j) in let consecutive := forall k, k < length p -> nth k p 0 = nth 0 p 0 + k in
  (consecutive -> new zero no_du check_du s 1 (Ref j) None None None false true = Ok (s, j)) /\
  (~ consecutive -> new zero no_du check_du s 1 (Ref j) None None None false true = Err ValueError).
Proof.
  intros K D zero no_du check_du s j G Hj HC HK p consecutive.
  assert (T : contiguous p = true <-> consecutive).
  { unfold contiguous, consecutive. destruct p as [|a r]; [cbn; split; [intros _ k H; lia|reflexivity]|]. destruct (list_eq_dec _ _ _) as [E|N].
    - split; [|reflexivity]. intros _ k H. rewrite E at 1. rewrite seq_nth by exact H. reflexivity.
    - split; [discriminate|]. intros H. exfalso. apply N. apply (nth_ext _ _ 0 0); [now rewrite seq_length|]. intros k Hk. rewrite seq_nth by exact Hk. apply H, Hk. }
  unfold new. cbn [asanyarray]. rewrite HK. fold p. cbn [kind_eqb andb]. split.
  - intros C. rewrite (proj2 T C). cbn [bind negb andb orb].
    assert (I : isinstance (o_cls (the_obj s j)) 1 = true) by (unfold isinstance; destruct (o_cls (the_obj s j)) as [|[|c]]; [lia|reflexivity|reflexivity]). rewrite I. reflexivity.
  - intros C. destruct (contiguous p); [exfalso; apply C, T; reflexivity|reflexivity].
Qed.
Print Assumptions C105_no_copy_same.
Example C105_item_case : let s := St [Buf KFloat [1; 2; 3]%Z] [[]] [tt] [Obj 2 0 [0; 2] 0 0] in
  match getitem tt s 0 [1; 0] with Ok (s', j) => j = 1 /\ values 0%Z s' j = [3; 1]%Z /\ o_cls (the_obj s' j) = 2 | Err _ => False end /\
  getitem tt s 0 [2] = Err IndexError /\ new 0%Z tt (fun _ => true) s 1 (Ref 0) None None None false true = Err ValueError.
Proof. repeat split. Qed.

(** Cases: q = [1, 2] km; Quantity(q, 'm', subok=True), q.tounit('m'), q.inunit('m') beside
    the two slices of a copy, abs(q), pickling. *)
Definition km : unit_ := [(lit "km", 1%Qc)].
Definition q12 : @state Z unit := two 1%Z 2%Z km tt.
Definition thousand (_ : unit) (_ _ : unit_) : res Z := Ok 1000%Z.
Definition names (u : unit_) : list text := map fst u.
Example C105_state_case : good q12 /\ 0 < length (objs q12) /\ o_cls (the_obj q12 0) <> 0.
Proof.
  split; [|cbn; lia]. constructor; [|constructor]. split; [cbn; lia|]. split; [cbn; repeat constructor; cbn; lia|]. split; [cbn; repeat constructor|cbn; lia].
Qed.
Example C105_new_case : match new 0%Z tt (fun _ => true) q12 1 (Ref 0) (Some (UText (lit "m"))) (Some tt) None true true with
  Ok (s, i) => i = 1 /\ values 0%Z s i = [1; 2]%Z /\ names (unit_of s i) = [lit "m"] | Err _ => False end.
Proof. vm_compute. repeat split. Qed.
Example C105_tounit_case : match tounit 0%Z Z.mul thousand tt q12 0 (UText (lit "m")) with
  Ok (s, i) => i = 1 /\ values 0%Z s i = [1000; 2000]%Z /\ names (unit_of s i) = [lit "m"] /\ values 0%Z s 0 = [1; 2]%Z /\ names (unit_of s 0) = [lit "km"] | Err _ => False end.
Proof. vm_compute. repeat split. Qed.
Example C105_inunit_case : match (do r <- getitem tt q12 0 [0]; do r <- getitem tt (fst r) 0 [1]; inunit 0%Z Z.mul thousand tt (fst r) 1 (UText (lit "m"))) with
  Ok s => values 0%Z s 1 = [1000]%Z /\ values 0%Z s 2 = [2]%Z /\ names (unit_of s 1) = [lit "m"] /\ names (unit_of s 2) = [lit "km"] | Err _ => False end.
Proof. vm_compute. repeat split. Qed.
Example C105_result_case : let '(s, j) := same_unit_result tt q12 0 [1; 2]%Z in j = 1 /\ o_unit (the_obj s 1) = o_unit (the_obj s 0).
Proof. vm_compute. repeat split. Qed.
Example C105_pickle_case : let '(s, j) := setstate q12 (reduce 0%Z tt q12 0) in j = 1 /\ values 0%Z s 1 = [1; 2]%Z /\ o_unit (the_obj s 1) <> o_unit (the_obj s 0).
Proof. vm_compute. repeat split. discriminate. Qed.
Example C105_refuted_case : extract_str (lit "m") = Ok [(lit "m", 1%Qc)] /\ thousand tt km [(lit "m", 1%Qc)] = Ok 1000%Z.
Proof. split; reflexivity. Qed.
Example C105_integers_case : data_kind q12 (Lit KInt [3%Z]) = KInt /\ given q12 (Lit KInt [3%Z]).
Proof. split; [reflexivity|exact I]. Qed.
