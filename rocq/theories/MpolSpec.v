(** Specification of the policies: flags, words and codes. *)
From Coq Require Import String Ascii.
From Verif Require Import Base TemplateModel TemplateSpec MpolModel.
Open Scope nat_scope.

(** [t] is [s] without the blanks at both ends. *)
Definition stripped (s t : text) : Prop :=
  exists a b, s = a ++ t ++ b /\ Forall (fun c => is_space c = true) (a ++ b) /\
    (forall c r, t = c :: r -> is_space c = false) /\ (forall r c, t = r ++ [c] -> is_space c = false).

(** [l]: what is between the commas of [s]. *)
Definition pieces (s : text) (l : list text) : Prop :=
  l <> [] /\ join (lit ",") l = s /\ Forall (fun t => ~ In ","%char t) l.

Definition lowered (s t : text) : Prop :=
  Forall2 (fun c d => if (65 <=? nat_of_ascii c) && (nat_of_ascii c <=? 90)
                      then nat_of_ascii d = nat_of_ascii c + 32 else d = c) s t.

Definition words (a : arg) (l : list text) : Prop :=
  match a with
  | Scalar (Str s) => exists ps, pieces s ps /\ Forall2 stripped ps l
  | Scalar NotStr => False
  | Seq is_ => Forall2 (fun i t => exists s, i = Str s /\ stripped s t) is_ l
  end.
Definition lower_words (a : arg) (l : list text) : Prop := exists ws, words a ws /\ Forall2 lowered ws l.

Definition good_flag (f : text) : Prop := exists c r, f = c :: r /\ c <> "_"%char.
Definition code (v : text) (k : Z) : Prop :=
  (v = lit "keep" /\ k = 0%Z) \/ (v = lit "mask" /\ k = 1%Z) \/ (v = lit "remove" /\ k = 2%Z).
Definition good_value (v : text) : Prop := exists k, code v k.

(** The value stated last for a flag. *)
Inductive stated : list text -> list text -> text -> text -> Prop :=
| stated_here f v fl vl : ~ In f fl -> stated (f :: fl) (v :: vl) f v
| stated_later f v g w fl vl : stated fl vl f v -> stated (g :: fl) (w :: vl) f v.

(** Attribute of the class with the code of a value. *)
Definition reserved (v : text) (name : text) : Prop :=
  (v = lit "keep" /\ name = lit "KEEP") \/ (v = lit "mask" /\ name = lit "MASK") \/ (v = lit "remove" /\ name = lit "REMOVE").
