(** MaskPolicy, acquisitions.py 313-362.

    Strings are ASCII.  What is not a string has no method [strip].  [isscalarlike] is true of
    strings and of what is not a sequence. *)
From Coq Require Import String Ascii.
From Verif Require Import Base TemplateModel.
Open Scope nat_scope.

Inductive item := Str (s : text) | NotStr.
Inductive arg := Scalar (i : item) | Seq (l : list item).

(** lines 320-325 and 327-331. *)
Definition as_list (a : arg) : list item :=
  match a with
  | Scalar (Str s) => map Str (split ","%char s)
  | Scalar NotStr => [NotStr]
  | Seq l => l
  end.
Definition strip_item (i : item) : res text := match i with Str s => Ok (strip s) | NotStr => Err AttributeError end.

(** [str.lower]. *)
Definition lower_char (c : ascii) : ascii :=
  let n := nat_of_ascii c in if (65 <=? n) && (n <=? 90) then ascii_of_nat (n + 32) else c.
Definition lower (s : text) : text := map lower_char s.

(** Attributes: KEEP, MASK and REMOVE are those of the class, lines 314-316. *)
Record policy := Policy { p_description : option text; p_flags : list text; p_dict : list (text * text) }.
Inductive attribute := AStr (s : text) | AInt (n : Z).

Definition choices : list text := map lit ["keep"; "mask"; "remove"]%string.

(** lines 338-351. *)
Fixpoint set_all (l : list (text * text)) (d : list (text * text)) : res (list (text * text)) :=
  match l with
  | [] => Ok d
  | (flag, value) :: r =>
      match flag with
      | [] => Err IndexError
      | c :: _ =>
          if Ascii.eqb c "_"%char then Err ValueError
          else if negb (existsb (text_eqb value) choices) then Err KeyError
          else set_all r (dict_set d flag value)
      end
  end.

(** __init__, 318-351. *)
Definition mask_policy (flags values : arg) (description : option text) : res policy :=
  do f <- map_res strip_item (as_list flags);
  do v <- map_res (fun i => rmap lower (strip_item i)) (as_list values);
  if negb (length f =? length v) then Err ValueError
  else do d <- set_all (combine f v) [];
       Ok (Policy description f d).

Definition getattr (p : policy) (name : text) : res attribute :=
  match dict_get (p_dict p) name with
  | Some v => Ok (AStr v)
  | None => if text_eqb name (lit "KEEP") then Ok (AInt 0)
            else if text_eqb name (lit "MASK") then Ok (AInt 1)
            else if text_eqb name (lit "REMOVE") then Ok (AInt 2)
            else Err AttributeError
  end.

(** [setattr(policy, name, value)] by the user. *)
Definition set_attribute (p : policy) (name value : text) : policy :=
  Policy (p_description p) (p_flags p) (dict_set (p_dict p) name value).

(** __array__, 353-357; [np.array(..., dtype=int)] of a word raises a ValueError. *)
Definition as_array (p : policy) : res (list Z) :=
  do keep <- getattr p (lit "KEEP"); do mask <- getattr p (lit "MASK"); do remove <- getattr p (lit "REMOVE");
  let conversion := [(lit "keep", keep); (lit "mask", mask); (lit "remove", remove)] in
  do l <- map_res (fun f => do a <- getattr p f;
                            match a with
                            | AStr v => match dict_get conversion v with Some x => Ok x | None => Err KeyError end
                            | AInt _ => Err KeyError
                            end) (p_flags p);
  map_res (fun a => match a with AInt n => Ok n | AStr _ => Err ValueError end) l.

(** __str__, 359-362; the values are words without quote. *)
Fixpoint join_str (sep : text) (l : list text) : text :=
  match l with [] => [] | [x] => x | x :: r => x ++ sep ++ join_str sep r end.
Definition show (a : attribute) : text := match a with AStr v => lit "'" ++ v ++ lit "'" | AInt n => [] (* not reached *) end.
Definition to_string (p : policy) : res text :=
  do l <- map_res (fun f => do a <- getattr p f; Ok (f ++ lit "=" ++ show a)) (p_flags p);
  Ok ((match p_description p with Some d => d ++ lit ": " | None => [] end) ++ join_str (lit ", ") l).
