(** Generation of the Fortran kernels: tools/generate_fortran.py, the guards of the
    templates, and the names of kernels requested by the Python code. *)
From Coq Require Import String Ascii.
From Verif Require Import Base.
Open Scope nat_scope.

Definition text := list ascii.
Definition lit (s : string) : text := list_ascii_of_string s.
Definition text_eqb (a b : text) : bool := if list_eq_dec ascii_dec a b then true else false.

(** ASCII characters removed by [str.strip] and matched by [\s]. *)
Definition is_space (c : ascii) : bool :=
  let n := nat_of_ascii c in ((9 <=? n) && (n <=? 13)) || ((28 <=? n) && (n <=? 32)).

Fixpoint lstrip (s : text) : text :=
  match s with c :: r => if is_space c then lstrip r else s | [] => [] end.
Definition strip (s : text) : text := rev (lstrip (rev (lstrip s))).

(** [s.split(sep)]. *)
Fixpoint split (sep : ascii) (s : text) : list text :=
  match s with
  | [] => [[]]
  | c :: r => if Ascii.eqb c sep then [] :: split sep r
              else match split sep r with w :: ws => (c :: w) :: ws | [] => [[c]] end
  end.

(** [s.split(sep, 1)] when sep is present. *)
Fixpoint split_once (sep : ascii) (s : text) : option (text * text) :=
  match s with
  | [] => None
  | c :: r => if Ascii.eqb c sep then Some ([], r)
              else option_map (fun p => (c :: fst p, snd p)) (split_once sep r)
  end.

Fixpoint prefix (p s : text) : option text :=
  match p, s with
  | [], _ => Some s
  | a :: p', b :: s' => if Ascii.eqb a b then prefix p' s' else None
  | _ :: _, [] => None
  end.

(** [(.*?)\s*#\}]: shortest group. *)
Definition newline : ascii := ascii_of_nat 10.
Fixpoint lazy_group (s : text) : option text :=
  match prefix (lit "#}") (lstrip s) with
  | Some _ => Some []
  | None => match s with
            | [] => None
            | c :: r => if Ascii.eqb c newline then None else option_map (cons c) (lazy_group r)
            end
  end.

(** [re.search(r'\{#\s*variables:\s*(.*?)\s*#\}', s)], lines 35-36: group 1.  The
    backtracking of the second [\s*] cannot change the outcome and is left out. *)
Definition match_here (s : text) : option text :=
  match prefix (lit "{#") s with
  | None => None
  | Some r => match prefix (lit "variables:") (lstrip r) with
              | None => None
              | Some r' => lazy_group (lstrip r')
              end
  end.
Fixpoint search (s : text) : option text :=
  match match_here s with
  | Some g => Some g
  | None => match s with [] => None | _ :: r => search r end
  end.

(** Python dictionaries: a key keeps its first position and takes the last value. *)
Fixpoint dict_set {A} (d : list (text * A)) (k : text) (v : A) : list (text * A) :=
  match d with
  | [] => [(k, v)]
  | (k', v') :: r => if text_eqb k' k then (k', v) :: r else (k', v') :: dict_set r k v
  end.
Fixpoint dict_get {A} (d : list (text * A)) (k : text) : option A :=
  match d with [] => None | (k', v) :: r => if text_eqb k' k then Some v else dict_get r k end.

Definition variables := list (text * list text).

(** parse_template_variables, lines 21-49. *)
Definition add_definition (d : variables) (def : text) : variables :=
  match split_once "="%char (strip def) with
  | None => d
  | Some (name, values) => dict_set d (strip name) (map strip (split ","%char values))
  end.
Definition parse (content : text) : variables :=
  match search content with
  | None => []
  | Some g => fold_left add_definition (split ";"%char g) []
  end.

(** generate_combinations, lines 52-83. *)
Definition combo := list (text * text).
Definition combinations (v : variables) : res (list combo) :=
  match v with
  | [] => Ok [[]]
  | (_, vs) :: r =>
      if forallb (fun d => Nat.eqb (length (snd d)) (length vs)) r
      then Ok (map (fun i => map (fun d => (fst d, nth i (snd d) [])) v) (seq 0 (length vs)))
      else Err ValueError
  end.

(** ** Guards of the templates (Jinja2 expressions).  Attributes of [combo] are strings. *)
Inductive atom := InStr (attr : text) (l : list text)   (* combo.attr in ['..', ..] *)
                | InInt (attr : text) (l : list nat)    (* combo.attr in [4, 8] *)
                | LeInt (attr : text) (n : nat)         (* combo.attr <= 8 *)
                | IndexGe (n : nat) | IndexLt (n : nat). (* loop.index0 >= n, < n *)

(** A string never equals an integer; ordering them raises; an undefined attribute
    raises (StrictUndefined: here UnboundLocalError). *)
Definition eval_atom (index : nat) (c : combo) (a : atom) : res bool :=
  let attr k := match dict_get c k with Some v => Ok v | None => Err UnboundLocalError end in
  match a with
  | InStr k l => do v <- attr k; Ok (existsb (text_eqb v) l)
  | InInt k l => do _ <- attr k; Ok false
  | LeInt k _ => do _ <- attr k; Err TypeError
  | IndexGe n => Ok (n <=? index)
  | IndexLt n => Ok (index <? n)
  end.

(** [a and b and ...], left to right. *)
Fixpoint eval_guard (index : nat) (c : combo) (g : list atom) : res bool :=
  match g with
  | [] => Ok true
  | a :: r => do b <- eval_atom index c a; if b then eval_guard index c r else Ok false
  end.

(** [{% for combo in combinations %}{% if guard %}...]: the combinations for which the
    body is written. *)
Fixpoint written (g : list atom) (index : nat) (cs : list combo) : res (list combo) :=
  match cs with
  | [] => Ok []
  | c :: r => do b <- eval_guard index c g; do l <- written g (S index) r; Ok (if b then c :: l else l)
  end.

Definition expand (content : text) (g : list atom) : res (list combo) :=
  do cs <- combinations (parse content); written g 0 cs.

(** The headers, first lines of sparse.f90.j2 and operators.f90.j2. *)
Definition sparse_header : text := lit "{# variables: ikind=int32,int32,int32,int64,int64,int64,int32,int32,int32,int64,int64,int64,int8,int16,int32,int64; isize=4,4,4,8,8,8,4,4,4,8,8,8,1,2,4,8; rkind=real32,real32,real64,real32,real32,real64,real32,real32,real64,real32,real32,real64,real32,real32,real32,real32; rsize=4,4,8,4,4,8,4,4,8,4,4,8,4,4,4,4; vkind=real32,real64,real64,real32,real64,real64,real32,real64,real64,real32,real64,real64,real32,real32,real32,real32; vsize=4,8,8,4,8,8,4,8,8,4,8,8,4,4,4,4 #}".
Definition operators_header : text := lit "{# variables: ikind=int32,int32,int64,int64,int32,int32,int32,int64,int64,int64,int32,int32,int32,int64,int64,int64,real32,real64; isize=4,4,8,8,4,4,4,8,8,8,4,4,4,8,8,8,4,8; rkind=real32,real64,real32,real64,real32,real32,real64,real32,real32,real64,real32,real64,real32,real64,real32,real64,real32,real64; rsize=4,8,4,8,4,4,8,4,4,8,4,8,4,8,4,8,4,8 #}".

Definition ints : list text := map lit ["int32"; "int64"]%string.
Definition all_ints : list text := map lit ["int8"; "int16"; "int32"; "int64"]%string.

(** sparse.f90.j2 lines 14, 427, 518. *)
Definition guard_matvec := [InStr (lit "ikind") ints; IndexLt 6].
Definition guard_ncolmax1 := [InStr (lit "ikind") ints; IndexGe 6; IndexLt 12].
Definition guard_kernel := [InStr (lit "ikind") all_ints; IndexGe 12].
(** operators.f90.j2 lines 11, 91, 243, 355. *)
Definition guard_old_kernel := [InStr (lit "ikind") ints; InInt (lit "rsize") [4; 8]; LeInt (lit "isize") 8].
Definition guard_pT1 := [InStr (lit "ikind") ints; InInt (lit "isize") [4; 8]; IndexLt 12].
Definition guard_old_restrict := [InStr (lit "ikind") ints; InInt (lit "isize") [4; 8]; IndexGe 12; IndexLt 16].
Definition guard_trexp := [InStr (lit "ikind") (map lit ["real32"; "real64"]%string)].

(** Suffix of the generated names: [_i.._r.._v..]. *)
Definition field (c : combo) (k : string) : text := match dict_get c (lit k) with Some v => v | None => [] end.
Definition suffix_irv (c : combo) : text * text * text := (field c "isize", field c "rsize", field c "vsize").

(** ** Names requested: [_matvec], sparse.py 133-161.  Types of numbers. *)
Inductive dtype := Bool_ | Int_ (bytes : nat) | UInt_ (bytes : nat) | Float (bytes : nat) | Complex (bytes : nat).

Definition dtype_eqb (a b : dtype) : bool :=
  match a, b with
  | Bool_, Bool_ => true
  | Int_ n, Int_ m | UInt_ n, UInt_ m | Float n, Float m | Complex n, Complex m => Nat.eqb n m
  | _, _ => false
  end.
Definition digits (n : nat) : text :=
  match n with 1 => lit "1" | 2 => lit "2" | 4 => lit "4" | 8 => lit "8" | 16 => lit "16" | _ => lit "?" end.

(** [None]: fallback in Python; otherwise the suffix of the kernel, and whether the
    vector is first converted to the type of the matrix ([v.astype(self.dtype)]). *)
Definition matvec_name (di ds dv : dtype) : option (text * text * text * bool) :=
  if negb (dtype_eqb ds (Float 4) || dtype_eqb ds (Float 8)) then None
  else if negb (dtype_eqb di (Int_ 4) || dtype_eqb di (Int_ 8)) then None
  else
    let convert := match dv with
                   | Float n => Nat.eqb n 2 || Nat.eqb n 16 || (Nat.eqb n 4 && dtype_eqb ds (Float 8))
                   | _ => true
                   end in
    let dv' := if convert then ds else dv in
    let size d := match d with Bool_ => 1 | Int_ n | UInt_ n | Float n | Complex n => n end in
    Some (digits (size di), digits (size ds), digits (size dv'), convert).

(** NumPy's floating types have 2, 4, 8 or 16 bytes. *)
Definition numpy_dtype (d : dtype) : Prop :=
  match d with Float n => In n [2; 4; 8; 16] | _ => True end.
