(** Specification of texts: numbers read in a text, order of names, lines. *)
From Coq Require Import ZArith List Ascii String.
From Verif Require Import Base TemplateModel.
Import ListNotations.

(** Two texts in the order of code points: one starts the other, or they differ first by a smaller character. *)
Definition starts (a b : text) : Prop := exists r, b = a ++ r.
Definition precedes (a b : text) : Prop :=
  starts a b \/ exists p x y u v, a = p ++ x :: u /\ b = p ++ y :: v /\ nat_of_ascii x < nat_of_ascii y.

(** The number of line feeds. *)
Definition feeds (t : text) : nat := count_occ ascii_dec t (ascii_of_nat 10).

(** The last two dimensions of a shape: detectors and samples. *)
Definition last_two (shape : list Z) : list Z := skipn (List.length shape - 2) shape.

(** English: one detector, otherwise detectors. *)
Definition plural (n : Z) (noun : text) : text := if Z.eq_dec n 1 then noun else noun ++ lit "s".
