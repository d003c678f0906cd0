(** Specification for the generation of kernels: how a header is written. *)
From Coq Require Import String Ascii.
From Verif Require Import Base TemplateModel.
Open Scope nat_scope.

Fixpoint join (sep : text) (l : list text) : text :=
  match l with [] => [] | [a] => a | a :: r => a ++ sep ++ join sep r end.

(** {# variables: a=1,2; b=3,4 #} *)
Definition write_header (v : variables) : text :=
  lit "{# variables: " ++
  join (lit "; ") (map (fun d => fst d ++ lit "=" ++ join (lit ",") (snd d)) v) ++
  lit " #}".

(** Names and values without blanks and punctuation used by the syntax. *)
Definition clean (t : text) : Prop :=
  Forall (fun c => is_space c = false /\ ~ In c (lit ";=,#")) t.

Definition clean_variables (v : variables) : Prop :=
  NoDup (map fst v) /\ Forall (fun d => clean (fst d) /\ snd d <> [] /\ Forall clean (snd d)) v.
