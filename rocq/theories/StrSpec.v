(** Reference for strings. *)
From Coq Require Import String Ascii.
From Verif Require Import Base TemplateModel.
Open Scope nat_scope.

(** The 26 letters, position by position. *)
Definition uppers : text := lit "ABCDEFGHIJKLMNOPQRSTUVWXYZ"%string.
Definition lowers : text := lit "abcdefghijklmnopqrstuvwxyz"%string.
(** [b] is the letter of [tab'] at the place of [a] in [tab], or [a] itself. *)
Definition translated (tab tab' : text) (a b : ascii) : Prop :=
  (exists i, nth_error tab i = Some a /\ nth_error tab' i = Some b) \/ (~ In a tab /\ b = a).
Definition is_lowered (s t : text) : Prop := Forall2 (translated uppers lowers) s t.
Definition is_uppered (s t : text) : Prop := Forall2 (translated lowers uppers) s t.

(** Elements separated by a delimiter. *)
Fixpoint joined (d : ascii) (l : list text) : text :=
  match l with [] => [] | [s] => s | s :: r => s ++ d :: joined d r end.

(** [s] followed by blanks only, length n. *)
Definition padded (n : nat) (s t : text) : Prop := exists k, t = s ++ repeat " "%char k /\ length t = n.
Definition no_blank (s : text) : text := filter (fun c => negb (Ascii.eqb c " ")) s.

(** Number of decimal digits. *)
Definition ndigits (n k : Z) : Prop := (1 <= k /\ 10 ^ (k - 1) <= n < 10 ^ k)%Z.
(** What a string of length n holds after the value [p] was assigned to it. *)
Definition stored (n : nat) (p o : text) : Prop :=
  (length p <= n -> padded n p o) /\ (n < length p -> o = firstn n p).
(** [p] is [o] without its trailing blanks. *)
Definition trimmed (o p : text) : Prop :=
  exists k, o = p ++ repeat " "%char k /\ forall q, p <> q ++ [" "%char].
