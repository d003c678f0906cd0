(** Character strings: module_string.f90.  A string is the list of its characters; an
    assignment to a string of length n truncates or pads with blanks.

    Not modelled: strreal, strternary, integers that do not fit in the format. *)
From Coq Require Import Ascii.
From Verif Require Import Base TemplateModel UnitModel.
Open Scope nat_scope.

Definition blank : ascii := " "%char.
(** [s = value] for s of length n. *)
Definition assign (n : nat) (v : text) : text := firstn n v ++ repeat blank (n - length v).
(** len_trim, trim: trailing blanks. *)
Fixpoint drop_blanks (s : text) : text :=
  match s with c :: r => if Ascii.eqb c blank then drop_blanks r else s | [] => [] end.
Definition trim (s : text) : text := rev (drop_blanks (rev s)).
(** adjustl: leading blanks are moved to the end. *)
Definition adjustl (s : text) : text := assign (length s) (drop_blanks s).

(** strlowcase, 39-52; strupcase, 59-72. *)
Definition lower_char (c : ascii) : ascii :=
  let ic := nat_of_ascii c in if (65 <=? ic) && (ic <? 90) then ascii_of_nat (ic + 32) else c.
Definition strlowcase (s : text) : text := map lower_char s.
Definition upper_char (c : ascii) : ascii :=
  let ic := nat_of_ascii c in if (97 <=? ic) && (ic <? 122) then ascii_of_nat (ic - 32) else c.
Definition strupcase (s : text) : text := map upper_char s.

(** strcompress, 80-95: j is one more than the characters written so far. *)
Fixpoint compress_loop (inp : text) (out : text) (j : nat) : text :=
  match inp with
  | [] => out
  | c :: r => if nat_of_ascii c =? 32 then compress_loop r out j else compress_loop r (set_nth out j c) (S j)
  end.
Definition strcompress (s : text) : text := compress_loop (trim s) (repeat blank (length s)) 0.

(** strsplit, 101-132; [len]: length of the elements of the output.  The first loop counts
    the elements, the second one fills them: an element is written at ioutput.  Positions
    start at zero. *)
Definition count_char (d : ascii) (s : text) : nat := length (filter (Ascii.eqb d) s).
Definition section_ (s : text) (a b : nat) : text := firstn (b - a) (skipn a s).
Fixpoint split_loop (len : nat) (s : text) (d : ascii) (is_ : list nat) (out : list text) (ioutput start : nat) : option (list text * nat * nat) :=
  match is_ with
  | [] => Some (out, ioutput, start)
  | i :: r =>
      if Ascii.eqb (nth i s blank) d then
        if ioutput <? length out
        then split_loop len s d r (set_nth out ioutput (assign len (section_ s start i))) (S ioutput) (S i)
        else None
      else split_loop len s d r out ioutput start
  end.
Definition strsplit (len : nat) (s : text) (d : ascii) (unset : text) : option (list text) :=
  let noutputs := 1 + count_char d s in
  match split_loop len s d (seq 0 (length s)) (repeat unset noutputs) 0 0 with
  | Some (out, ioutput, start) =>
      if ioutput <? length out then Some (set_nth out ioutput (assign len (section_ s start (length s)))) else None
  | None => None
  end.

(** Integers, 138-234.  [flog10 n] is floor(log10(dble(n))). *)
Section Int.
Variable flog10 : Z -> Z.
Definition strinteger_len (n : Z) : nat :=
  if (n =? 0)%Z then 1
  else let l := Z.to_nat (flog10 (Z.abs n) + 1) in if (n <? 0)%Z then S l else l.
(** [write (string, '(i80)')], right-justified. *)
Definition write_right (w : nat) (n : Z) : text := repeat blank (w - length (str_int n)) ++ str_int n.
Definition strinteger (n : Z) : text := assign (strinteger_len n) (adjustl (write_right 80 n)).

(** strsection, 365-408 and 414-460; [None]: end of record (the string is too short). *)
Definition strsection_len (first last : Z) : nat :=
  let l := length (strinteger first) + length (strinteger last) + 1 in
  let l := if (first =? 0)%Z then l - 1 else l in
  if (last =? 0)%Z then l - 1 else l.
Definition write_to (n : nat) (v : text) : option text := if length v <=? n then Some (assign n v) else None.
Definition strsection (first last : Z) : option text :=
  let n := strsection_len first last in
  if ((first =? 0) && (last =? 0))%Z then Some (assign n [":"%char])
  else if (first =? 0)%Z then write_to n (":"%char :: str_int last)
  else if (last =? 0)%Z then write_to n (str_int first ++ [":"%char])
  else write_to n (str_int first ++ ":"%char :: str_int last).
End Int.

(** strinteger(input, width), 172-181; a number that is too long gives stars. *)
Definition strinteger_left (n : Z) (width : nat) : text :=
  if length (str_int n) <=? width then adjustl (assign width (str_int n)) else repeat "*"%char width.

(** strjoin, 288-360; elements of the same length. *)
Definition put (s : text) (k : nat) (v : text) : text := firstn k s ++ v ++ skipn (k + length v) s.
Fixpoint join_loop (l : list text) (out : text) (k : nat) : text :=
  match l with [] => out | s :: r => join_loop r (put out k (trim s)) (k + length (trim s)) end.
Definition strjoin (l : list text) (unset : ascii) : text :=
  join_loop l (repeat unset (list_sum (map (fun s => length (trim s)) l))) 0.
Fixpoint join_raw_loop (k : nat) (l : list text) (i : nat) (out : text) : text :=
  match l with [] => out | s :: r => join_raw_loop k r (S i) (put out (i * k) s) end.
Definition strjoin_raw (len : nat) (l : list text) (unset : ascii) : text :=
  join_raw_loop len l 0 (repeat unset (length l * len)).
