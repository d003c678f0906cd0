(** Reference for the headers of FITS files. *)
From Coq Require Import Ascii String.
From Verif Require Import Base TemplateModel StrSpec.
Open Scope nat_scope.

(** The same letter, up to its case. *)
Definition same_letter (a b : ascii) : Prop :=
  a = b \/ exists i, nth_error uppers i = Some a /\ nth_error lowers i = Some b \/ nth_error lowers i = Some a /\ nth_error uppers i = Some b.
(** The card starts with the keyword padded to 8 characters, whatever the case. *)
Definition named (keyword card : text) : Prop := exists p, padded 8 keyword p /\ Forall2 same_letter p (firstn 8 card).
(** A header is made of cards of 80 characters. *)
Definition cards_of (header : text) (cards : list text) : Prop := header = concat cards /\ Forall (fun c => length c = 80) cards.
Definition absent (header keyword : text) : Prop := exists cards, cards_of header cards /\ Forall (fun c => ~ named keyword c) cards.
(** A string is written between quotes with its quotes doubled. *)
Fixpoint doubled (s : text) : text :=
  match s with [] => [] | c :: r => if Ascii.eqb c (ascii_of_nat 39) then c :: c :: doubled r else c :: doubled r end.
Definition quoted (s : text) : text := ascii_of_nat 39 :: doubled s ++ [ascii_of_nat 39].
(** Values written in the 70 last characters of a card: as they are or quoted, then anything
    without slash, then a slash and the comment. *)
Definition tail_of (t comment : text) : Prop :=
  exists m, ~ In "/"%char m /\ hd_error m <> Some (ascii_of_nat 39) /\ (t = m ++ "/"%char :: comment \/ t = m /\ comment = []).
Definition quoted_field (field s comment : text) : Prop := exists k t, field = repeat " "%char k ++ quoted s ++ t /\ tail_of t comment.
Definition plain_field (field v comment : text) : Prop :=
  exists k c r t, v = c :: r /\ ~ In "/"%char v /\ c <> " "%char /\ c <> ascii_of_nat 39 /\
    field = repeat " "%char k ++ v ++ t /\ (t = "/"%char :: comment \/ t = [] /\ comment = []).
(** The field of the first card with this keyword. *)
Definition field_of (header keyword field : text) : Prop :=
  exists before card after, cards_of header (before ++ card :: after) /\ Forall (fun c => ~ named keyword c) before /\ named keyword card /\
    field = skipn 10 card.
(** Keywords have at most 8 characters. *)
Definition keyword_ok (keyword : text) : Prop := 1 <= length keyword <= 8 /\ ~ In " "%char keyword.

(** Decimal numbers. *)
Definition figures : text := lit "0123456789"%string.
Inductive decimal : text -> Z -> Prop :=
| decimal_nil : decimal [] 0
| decimal_digit s n d c : decimal s n -> nth_error figures d = Some c -> decimal (s ++ [c]) (10 * n + Z.of_nat d).
Definition integer (v : text) (n : Z) : Prop :=
  exists s m, s <> [] /\ decimal s m /\ (v = s /\ n = m \/ v = "+"%char :: s /\ n = m \/ v = "-"%char :: s /\ n = (- m)%Z).
