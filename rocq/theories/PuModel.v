(** C91: attributes of projected data, operators.py: ProjectionBaseOperator (613-634, 670-688) and the attributes of
    get_pTx_pT1 (722-736).

    The dictionary of attributes of an array is a list; a header is a number. *)
From Coq Require Import String QArith Qcanon.
From Verif Require Import Base TemplateModel UnitModel.

Inductive value := VUnit (u : unit_) | VDerived (d : list text) | VHeader (n : Z) | VOther (n : Z).
Definition attrs := list (text * value).
Fixpoint a_get (a : attrs) (k : text) : option value :=
  match a with [] => None | (k', v) :: r => if text_eqb k' k then Some v else a_get r k end.
Fixpoint a_set (a : attrs) (k : text) (v : value) : attrs :=
  match a with [] => [(k, v)] | (k', v') :: r => if text_eqb k' k then (k', v) :: r else (k', v') :: a_set r k v end.
Fixpoint a_del (a : attrs) (k : text) : attrs :=
  match a with [] => [] | (k', v') :: r => if text_eqb k' k then a_del r k else (k', v') :: a_del r k end.
Definition a_update (a b : attrs) : attrs := fold_left (fun a kv => a_set a (fst kv) (snd kv)) b a.

Definition header_ : text := lit "_header".
Definition unit_name : text := lit "_unit".
Definition derived_ : text := lit "_derived_units".

Record projection := Projection { punit : unit_; duout : option (list text); duin : option (list text); attrin : attrs; attrout : attrs }.
(** 613-634: the units are (of the output, of the input). *)
Definition new_projection (units : option (unit_ * unit_)) (derived : option (option (list text) * option (list text))) (attrin attrout : attrs) : projection :=
  let units := match units with Some u => u | None => ([], []) end in
  let derived := match derived with Some d => d | None => (Some [], Some []) end in
  Projection (divide_unit (fst units) (snd units)) (fst derived) (snd derived) attrin attrout.

Definition unit_of (a : attrs) : unit_ := match a_get a unit_name with Some (VUnit u) => u | _ => [] end.
(** 670-678 *)
Definition set_attrin (p : projection) (a : attrs) : attrs :=
  let a := a_del a header_ in
  let u := unit_of a in
  let a := match u with [] => a | _ => a_set a unit_name (VUnit (divide_unit u (punit p))) end in
  let a := match duin p with Some d => a_set a derived_ (VDerived d) | None => a end in
  a_update a (attrin p).
(** 680-688 *)
Definition set_attrout (p : projection) (a : attrs) : attrs :=
  let a := a_del a header_ in
  let u := unit_of a in
  let a := match u with [] => a | _ => a_set a unit_name (VUnit (multiply_unit u (punit p))) end in
  let a := match duout p with Some d => a_set a derived_ (VDerived d) | None => a end in
  a_update a (attrout p).
(** 731-736: attributes of the back projection of x, [xunit]: the unit of x if it has one; new maps have no unit. *)
Definition pTx_attrs (p : projection) (xunit : option unit_) : attrs :=
  let a := set_attrin p [(unit_name, VUnit []); (derived_, VDerived [])] in
  match xunit with Some u => a_set a unit_name (VUnit u) | None => a end.
