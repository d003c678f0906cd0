(** C138: what the drawing of a layout is. *)
From Coq Require Import Reals String Ascii.
From Verif Require Import Base TemplateModel PlotModel.
Open Scope R_scope.

(** Colours: names (matplotlib also takes the grey levels '0' to '1'), triplets or quadruplets of levels. *)
Definition is_colour (c : colour) : Prop :=
  match c with
  | Name _ => True
  | TupleOf l => (length l = 3 \/ length l = 4)%nat /\ Forall (fun x => match x with Level _ => True | _ => False end) l
  | _ => False
  end.
(** The colour of the component i of n: none, the given one, or the one given for this component. *)
Inductive paints (n : nat) : colour -> nat -> colour -> Prop :=
  | paint_none i : paints n NoColour i NoColour
  | paint_one c i : is_colour c -> paints n c i c
  | paint_list l i c : length l = n -> Forall is_colour l -> nth_error l i = Some c -> paints n (ListOf l) i c
  | paint_tuple l i c : length l = n -> Forall is_colour l -> nth_error l i = Some c -> paints n (TupleOf l) i c
  | paint_same i c : is_colour c -> paints n (ListOf [c]) i c.
(** The colours that can be given. *)
Definition colours_for (n : nat) (c : colour) : Prop := forall i, (i < n)%nat -> exists d, paints n c i d.

(** zip_broadcast with iter_str=False: texts and None are not sequences; sequences of one element are repeated.  Nothing is said
    of the other lengths. *)
Definition entry (c : colour) (i : nat) : colour :=
  match c with ListOf [d] | TupleOf [d] => d | ListOf l | TupleOf l => nth i l NoColour | _ => c end.
Definition fits (n : nat) (c : colour) : Prop := match c with ListOf l | TupleOf l => length l = n \/ length l = 1%nat | _ => True end.
Definition zips (zip : list (list (list R)) -> colour -> colour -> res (list (list (list R) * colour * colour))) : Prop :=
  forall cs e f, cs <> [] -> fits (length cs) e -> fits (length cs) f ->
  zip cs e f = Ok (map (fun i => (nth i cs [], entry e i, entry f i)) (seq 0 (length cs))).
