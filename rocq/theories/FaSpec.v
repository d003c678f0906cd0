(** What is expected of a file, independently of the functions of FaModel.v. *)
From Coq Require Import String Ascii QArith Qcanon.
From Verif Require Import Base TemplateModel UnitModel UnitSpec UnitPrintFacts StrModel MpiModel FaModel.
Open Scope Z_scope.

(** The keywords which describe the structure of the array: NAXIS, NAXIS1, NAXIS2, ... *)
Definition structure (k : text) : Prop := k = lit "NAXIS" \/ exists i, k = (lit "NAXIS" ++ str_int i)%list.
(** The reference pixel is not a text. *)
Definition numeric_wcs (h : header) : Prop := match h_get h (lit "CRPIX2") with Some (HStr _) => False | _ => True end.
(** Data, unit and header which can be saved and read again: real numbers in an array of one
    dimension at least; a unit whose exponents print exactly (C28), or no unit and none in the
    header. *)
Definition saved {V D} (repr : Qc -> text) (f : fits V D) (h : header) : Prop :=
  a_shape (f_arr f) <> [] /\ (a_kind (f_arr f) = KFloat \/ a_kind (f_arr f) = KUnsigned) /\ numeric_wcs h /\
  distinct_names (f_unit f) /\ (f_unit f = [] -> h_get h (lit "BUNIT") = None /\ h_get h (lit "QTTY____") = None) /\
  Forall (fun kv => good_name (fst kv) /\ printable repr (snd kv) /\ printable repr (- snd kv)%Qc) (f_unit f).
