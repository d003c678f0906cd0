(** Model of the texts of time-ordered data and of packed tables:
    src/pysimulators/datatypes.py, Tod.__str__ (lines 1293-1306), and
    src/pysimulators/packedtables/core.py, PackedTable.__str__ (lines 347-364).

    The text of the array of a Tod (FitsArray.__str__, that of a quantity) and the texts of the
    values of the attributes (numpy's) are given.  Names are those of Python identifiers: sorted
    by code points.  An attribute holds nothing, a function or a method, or anything else,
    described by the text of what the access to it gives. *)
From Coq Require Import ZArith List Bool Ascii String.
From Verif Require Import Base TemplateModel UnitModel.
Import ListNotations.
Local Open Scope Z_scope.
Local Open Scope list_scope.

(** A number and a noun, 1299-1305: an s is added above one. *)
Definition counted (n : Z) (noun : text) : text := str_nonneg n ++ " "%char :: noun ++ (if 1 <? n then lit "s" else []).
(** Lines 1293-1306; [base] is FitsArray.__str__. *)
Definition tod_str (base : text) (shape : list Z) : text :=
  match rev shape with
  | [] => base
  | n :: r => base ++ lit " (" ++ match r with d :: _ => counted d (lit "detector") ++ lit ", " | [] => [] end ++ counted n (lit "sample") ++ lit ")"
  end.

Inductive held := Nothing | Function | Value (s : text).

(** str of a tuple of integers. *)
Fixpoint joined (sep : text) (l : list text) : text :=
  match l with [] => [] | [x] => x | x :: r => x ++ sep ++ joined sep r end.
Definition tuple_str (l : list Z) : text :=
  match l with [n] => "("%char :: str_nonneg n ++ lit ",)" | _ => "("%char :: joined (lit ", ") (map str_nonneg l) ++ lit ")" end.

(** sorted(...) of the names, with their texts. *)
Fixpoint insert_name (x : text * text) (l : list (text * text)) : list (text * text) :=
  match l with [] => [x] | y :: r => if text_leb (fst x) (fst y) then x :: l else y :: insert_name x r end.
Definition shown (attributes : list (text * held)) : list (text * text) :=
  fold_right insert_name [] (flat_map (fun a => match snd a with
    | Value s => if text_eqb (fst a) (lit "index") || text_eqb (fst a) (lit "removed") then [] else [(fst a, s)]
    | _ => [] end) attributes).
Definition newline : ascii := "010".
Definition break : text := newline :: lit "    ".
(** name=text, cut at 65 characters, 361. *)
Definition entry (a : text * text) : text := fst a ++ "="%char :: firstn 65 (snd a).
(** Lines 347-364; [special] are the special attributes, [index] the text of the index. *)
Definition table_str (name : text) (shape_actual : list Z) (index : text) (special : list (text * held)) : text :=
  let attributes := (lit "index", index) :: shown special in
  name ++ "("%char :: tuple_str shape_actual ++ lit ", " ++ (if (1 <? zlen attributes) then break else []) ++
  joined (","%char :: break) (map entry attributes) ++ lit ")".
