(** Independent descriptions for C91. *)
From Coq Require Import Ascii QArith Qcanon.
From Verif Require Import Base TemplateModel UnitModel UnitSpec PuModel.

(** The attribute k of an array. *)
Definition lookup (a : attrs) (k : text) : option value :=
  option_map snd (List.find (fun kv => if list_eq_dec ascii_dec (fst kv) k then true else false) a).
(** The array has a unit with these exponents (an array without unit, and a number, have the exponents zero). *)
Definition has_unit (a : attrs) (f : text -> Qc) : Prop :=
  match lookup a unit_name with
  | Some (VUnit u) => canonical u /\ forall k, exponent u k = f k
  | Some _ => False
  | None => forall k, f k = 0%Qc
  end.
