(** C103: attribute access of packed and unpacked tables. *)
From Coq Require Import ZArith List Bool String Lia.
From Verif Require Import Base BaseFacts PTModel PTSpec PTFacts PTProps AttrModel.
Import ListNotations.
Local Open Scope Z_scope.

Section Props.
  Context {A U : Type}.

  (** *** Specification.  A function of the table with [a] required and [b] parameters in
      all, the table being the first of them, is a mathematical function [f] of a list of
      between [a - 1] and [b - 1] further arguments. *)
Definition takes (b a : nat) (n : nat) : Prop := (a <= S n <= b)%nat.

  (** [depends c f a b]: the callable [c] computes [f] of the table and further arguments. *)
Definition depends (c : callable A U) (f : list U -> res (list A)) (a b : nat) : Prop :=
    c_nargs c = b /\ (c_nargs c - c_ndefaults c = a)%nat /\
    forall us, takes b a (List.length us) ->
      c_body c (Self :: List.map User us) = f us.

  (** ** The table is passed as the first argument; what requires nothing else is evaluated *)
Theorem C103_packed : forall (c : callable A U) f a b,
    c_kind c <> Object -> depends c f a b -> (1 <= a <= b)%nat ->
    (a = 1%nat -> getattribute (SCallable c) = evaluated (f [])) /\
    ((2 <= a)%nat -> exists g, getattribute (SCallable c) = Ok (VFun g) /\
       forall us, (takes b a (List.length us) -> g (List.map User us) = f us) /\
                  (~ takes b a (List.length us) -> g (List.map User us) = Err TypeError)).
  Proof.
    intros c f a b Hk (Hb & Ha & Hf) Hab.
    assert (Hinv : forall us,
      (takes b a (List.length us) ->
         (if (Nat.leb a (S (List.length us)) && Nat.leb (S (List.length us)) b)%bool
          then c_body c (Self :: List.map User us) else Err TypeError) = f us) /\
      (~ takes b a (List.length us) ->
         (if (Nat.leb a (S (List.length us)) && Nat.leb (S (List.length us)) b)%bool
          then c_body c (Self :: List.map User us) else Err TypeError) = Err TypeError)).
    { intros us. unfold takes in *. split; intros H.
      - destruct (Nat.leb_spec a (S (List.length us))); [|lia].
        destruct (Nat.leb_spec (S (List.length us)) b); [|lia]. now apply Hf.
      - destruct (Nat.leb_spec a (S (List.length us))); [|reflexivity].
        destruct (Nat.leb_spec (S (List.length us)) b); [lia|reflexivity]. }
    split.
    - intros ->. unfold getattribute. rewrite Ha.
      destruct (Hinv []) as [H0 _]. specialize (H0 ltac:(unfold takes; cbn; lia)).
      destruct (c_kind c) eqn:E; [| |now elim Hk]; cbn [Nat.eqb];
        unfold invoke; rewrite E, Hb; cbn [actual List.length]; cbn in H0;
        (replace (b - c_ndefaults c)%nat with 1%nat by lia); cbn; now rewrite <- H0.
    - intros Ha2. unfold getattribute. rewrite Ha.
      destruct (c_kind c) eqn:E; [| |now elim Hk].
      + destruct (Nat.eqb_spec a 0); [lia|]. destruct (Nat.eqb_spec a 1); [lia|].
        eexists. split; [reflexivity|]. intros us. unfold invoke. rewrite E, Ha, Hb.
        cbn [actual List.length]. rewrite map_length. apply Hinv.
      + destruct (Nat.eqb_spec a 1); [lia|].
        eexists. split; [reflexivity|]. intros us. unfold invoke. rewrite E, Ha, Hb.
        cbn [actual List.length]. rewrite map_length. apply Hinv.
  Qed.

  (** Functions without required parameter are called without the table. *)
Theorem C103_constant : forall (c : callable A U),
    c_kind c = Function -> (c_nargs c <= c_ndefaults c)%nat ->
    getattribute (SCallable c) = evaluated (c_body c []).
  Proof.
    intros c Hk H. unfold getattribute. rewrite Hk.
    replace (c_nargs c - c_ndefaults c)%nat with 0%nat by lia. cbn. unfold invoke.
    rewrite Hk. cbn. now replace (c_nargs c - c_ndefaults c)%nat with 0%nat by lia.
  Qed.

  (** [spread l x missing n y]: the [n] elements of [y] are [x] at the positions [l] and the
      missing value elsewhere. *)
Definition spread (l : list Z) (x : list A) (missing : A) (n : Z) (y : list A) : Prop :=
    zlen y = n /\
    (forall k i, nth_error l k = Some i -> exists a, nth_error x k = Some a /\ get y i = Ok a) /\
    (forall i, 0 <= i < n -> ~ In i l -> get y i = Ok missing).

  (** ** Unpacked attributes are the packed ones put at their positions *)
Theorem C103_unpacked : forall (t : table A) (slots : list (string * slot A U))
      missing garbage key s, reachable t -> zlen garbage = prodZ (t_shape t) ->
    slot_of key slots = Some s ->
    exists l, t_indices t = Ok l /\
    (forall e, getattribute s = Err e -> getattribute_all t slots missing garbage key = Err e) /\
    (getattribute s = Ok VNone -> getattribute_all t slots missing garbage key = Ok VNone) /\
    (forall x, getattribute s = Ok (VArray x) -> zlen x = zlen l ->
       exists y, getattribute_all t slots missing garbage key = Ok (VArray y) /\
                 spread l x missing (prodZ (t_shape t)) y) /\
    (forall f, getattribute s = Ok (VFun f) ->
       exists g, getattribute_all t slots missing garbage key = Ok (VFun g) /\
         (forall args e, f args = Err e -> g args = Err e) /\
         (forall args x, f args = Ok x -> zlen x = zlen l ->
            exists y, g args = Ok y /\ spread l x missing (prodZ (t_shape t)) y)).
  Proof.
    intros t slots missing garbage key s Hr Hg Hs.
    destruct (C06_unpack A t Hr) as (l & Hl & HU). exists l. split; [exact Hl|].
    unfold getattribute_all. rewrite Hs. split; [|split; [|split]].
    - intros e ->. reflexivity.
    - intros ->. reflexivity.
    - intros x -> Hx. destruct (HU x missing garbage Hg) as (H1 & _ & _).
      destruct (H1 Hx) as (y & Hy & Hn & Ha & Hm). exists y.
      cbn [bind]. rewrite Hy. split; [reflexivity|]. repeat split; assumption.
    - intros f ->. eexists. split; [reflexivity|]. split.
      + intros args e He. cbn. now rewrite He.
      + intros args x Hx Hz. destruct (HU x missing garbage Hg) as (H1 & _ & _).
        destruct (H1 Hz) as (y & Hy & Hn & Ha & Hm). exists y.
        cbn. rewrite Hx. cbn. split; [exact Hy|]. repeat split; assumption.
  Qed.

Theorem C103_unknown : forall (t : table A) (slots : list (string * slot A U))
      missing garbage key, ~ In key (List.map fst slots) ->
    getattribute_all t slots missing garbage key = Err AttributeError.
  Proof.
    intros t slots missing garbage key H. unfold getattribute_all.
    replace (slot_of key slots) with (@None (slot A U)); [reflexivity|].
    induction slots as [|[k s] r IH]; [reflexivity|]. cbn in *.
    destruct (String.eqb_spec key k) as [->|]; [tauto|]. apply IH. tauto.
  Qed.
End Props.
Print Assumptions C103_packed.
Print Assumptions C103_constant.
Print Assumptions C103_unpacked.
Print Assumptions C103_unknown.

(** A table of 5 elements of which 4, 2 and 0 are kept; [area] is a function of the table
    and [scaled] also takes a factor and an optional offset. *)
Definition area : callable Z Z :=
  Callable Method 1 0 (fun _ => Ok [7; 8; 9]).
Definition scaled : callable Z Z :=
  Callable Function 3 1 (fun args => match args with
    | [Self; User a] => Ok [7 * a; 8 * a; 9 * a]
    | [Self; User a; User b] => Ok [7 * a + b; 8 * a + b; 9 * a + b]
    | _ => Err TypeError end).
Definition scaled_by (us : list Z) : res (list Z) :=
  match us with
  | [a] => Ok [7 * a; 8 * a; 9 * a]
  | [a; b] => Ok [7 * a + b; 8 * a + b; 9 * a + b]
  | _ => Err TypeError end.

Example C103_depends : depends area (fun _ => Ok [7; 8; 9]) 1 1 /\
  depends scaled scaled_by 2 3.
Proof.
  split; (split; [reflexivity|]); (split; [reflexivity|]).
  - reflexivity.
  - intros us [H1 H2]. destruct us as [|a [|b [|c us]]]; cbn in *; try lia; reflexivity.
Qed.
Example C103_example :
  let t := Table [5] (ISlice 4 (-2) (-2)) [] in
  let slots := [("area"%string, SCallable area); ("scaled"%string, SCallable scaled)] in
  let all := getattribute_all t slots (-1) [99; 99; 99; 99; 99] in
  reachable t /\ t_indices t = Ok [4; 2; 0] /\
  getattribute (SCallable area) = Ok (VArray [7; 8; 9]) /\
  all "area"%string = Ok (VArray [9; -1; 8; -1; 7]) /\
  (exists g, all "scaled"%string = Ok (VFun g) /\
     g [User 10] = Ok [90; -1; 80; -1; 70] /\ g [User 10; User 1] = Ok [91; -1; 81; -1; 71] /\
     g [] = Err TypeError) /\
  all "angle"%string = Err AttributeError.
Proof.
  cbv zeta. split; [|split; [reflexivity|split; [reflexivity|split; [reflexivity|split]]]].
  - eapply (reach_new _ [5] (SelSlice (PySlice None None (Some (-2)))) None []); [repeat constructor; lia| |reflexivity].
    cbn. split; [lia|auto].
  - eexists. repeat split.
  - reflexivity.
Qed.

(** FINDING 155.  For an object with a __call__ method the parameter self is counted: an
    object called with the table alone is not evaluated, and one called without argument,
    which would be evaluated as a function, fails. *)
Theorem C103_objects_refuted :
  (forall (c : callable Z Z), c_kind c = Object -> c_nargs c = 2%nat -> c_ndefaults c = 0%nat ->
     exists g, getattribute (SCallable c) = Ok (VFun g) /\ g [] = c_body c [Own; Self]) /\
  (forall (c : callable Z Z), c_kind c = Object -> c_nargs c = 1%nat -> c_ndefaults c = 0%nat ->
     getattribute (SCallable c) = Err TypeError).
Proof.
  split; intros c Hk Hn Hd; unfold getattribute; rewrite Hk, Hn, Hd; cbn.
  - eexists. split; [reflexivity|]. unfold invoke. now rewrite Hk, Hn, Hd.
  - unfold invoke. now rewrite Hk, Hn, Hd.
Qed.
Print Assumptions C103_objects_refuted.
