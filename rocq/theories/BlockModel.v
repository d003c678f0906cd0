(** operators.py 65-225: block_diagonal, the decorator that builds one operator per block.

    Outcome of the constructor: the arguments of the original constructor, for the whole
    operator or for each block with the partition given to BlockDiagonalOperator, which is
    not modelled.  pyoperators: isscalarlike is true for scalars only, tointtuple is the
    identity on tuples of integers; a keyword shapein or shapeout is a tuple of integers. *)
From Coq Require Import String.
From Verif Require Import Base.
Open Scope nat_scope.

(** An argument: a scalar, a sequence, or something that is neither (None). *)
Inductive arg (V : Type) := Scalar (v : V) | Sequence (l : list V) | Other (v : V).
Arguments Scalar {V}. Arguments Sequence {V}. Arguments Other {V}.
Inductive axis := Chunk (axisin : Z) | Stack (new_axisin : Z).
Record call (V : Type) := Call {
  positional : list (arg V); keyword : list (string * arg V);
  shapein : option (list (option Z)); shapeout : option (list (option Z)) }.
Arguments Call {V}. Arguments positional {V}. Arguments keyword {V}. Arguments shapein {V}. Arguments shapeout {V}.
Inductive outcome (V : Type) := Whole (c : call V) | Blocks (bs : list (call V)) (partition : list (option Z)).
Arguments Whole {V}. Arguments Blocks {V}.

Section B.
Context {V : Type}.
(** 0 if isscalarlike(a) else len(a) *)
Definition count (a : arg V) : res nat :=
  match a with Scalar _ => Ok 0 | Sequence l => Ok (length l) | Other _ => Err TypeError end.
Definition is_in (s : string) (l : list string) : bool := existsb (String.eqb s) l.
Definition name_of (class_args : list string) (i : nat) : res string :=
  match nth_error class_args i with Some s => Ok s | None => Err IndexError end.

(** 140-148: the numbers of elements of the partition variables. *)
Fixpoint counts_args (class_args parts : list string) (i : nat) (l : list (arg V)) : res (list nat) :=
  match l with
  | [] => Ok []
  | a :: r => do s <- name_of class_args i;
              do h <- (if is_in s parts then do n <- count a; Ok [n] else Ok []);
              do t <- counts_args class_args parts (S i) r; Ok (h ++ t)
  end.
Fixpoint counts_keys (parts : list string) (l : list (string * arg V)) : res (list nat) :=
  match l with
  | [] => Ok []
  | (s, a) :: r => do h <- (if is_in s parts then do n <- count a; Ok [n] else Ok []);
                   do t <- counts_keys parts r; Ok (h ++ t)
  end.
(** 180-198: the argument of the block [i]. *)
Definition part (is_part : bool) (i : nat) (a : arg V) : res (arg V) :=
  match a with
  | Scalar _ => Ok a
  | Sequence l => if is_part then match nth_error l i with Some v => Ok (Scalar v) | None => Err IndexError end else Ok a
  | Other _ => if is_part then Err TypeError else Ok a
  end.
Fixpoint parts_args (class_args parts : list string) (i j : nat) (l : list (arg V)) : res (list (arg V)) :=
  match l with
  | [] => Ok []
  | a :: r => do s <- name_of class_args j; do h <- part (is_in s parts) i a; do t <- parts_args class_args parts i (S j) r; Ok (h :: t)
  end.
Definition parts_keys (parts : list string) (i : nat) (l : list (string * arg V)) : res (list (string * arg V)) :=
  map_res (fun sa => do h <- part (is_in (fst sa) parts) i (snd sa); Ok (fst sa, h)) l.
(** 200-207: for a stack, the result of np.delete is not used. *)
Definition reshape (ax : axis) (p : option Z) (s : list (option Z)) : res (list (option Z)) :=
  match ax with
  | Chunk a => let k := (if a <? 0 then a + zlen s else a)%Z in
               if ((0 <=? k) && (k <? zlen s))%Z then Ok (set_nth s (Z.to_nat k) p) else Err IndexError
  | Stack a => if ((- zlen s <=? a) && (a <? zlen s))%Z then Ok s else Err IndexError
  end.
Definition opt_reshape (ax : axis) (p : option Z) (s : option (list (option Z))) : res (option (list (option Z))) :=
  match s with None => Ok None | Some s => do r <- reshape ax p s; Ok (Some r) end.

Definition block (class_args parts : list string) (ax : axis) (c : call V) (i : nat) (p : option Z) : res (call V) :=
  do a <- parts_args class_args parts i 0 (positional c);
  do k <- parts_keys parts i (keyword c);
  do si <- opt_reshape ax p (shapein c);
  do so <- opt_reshape ax p (shapeout c);
  Ok (Call a k si so).

Definition partition_init (class_args parts : list string) (ax : axis) (partitionin : option (list Z)) (c : call V) : res (outcome V) :=
  let n1 := match partitionin with Some p => length p | None => 0 end in
  do na <- counts_args class_args parts 0 (positional c);
  do nk <- counts_keys parts (keyword c);
  let ns := na ++ nk in
  let n2 := fold_right Nat.max 0 ns in
  if existsb (fun n => negb ((n =? 0) || (n =? n2))) ns then Err ValueError else
  let n := Nat.max n1 n2 in
  if n =? 0 then Ok (Whole c) else
  if negb (n1 =? 0) && negb (n2 =? 0) && negb (n1 =? n2) then Err ValueError else
  let partition := match partitionin with
                   | Some p => map Some p
                   | None => repeat (match ax with Chunk _ => None | Stack _ => Some 1%Z end) n
                   end in
  do bs <- map_res (fun ip => block class_args parts ax c (fst ip) (snd ip)) (combine (seq 0 (length partition)) partition);
  Ok (Blocks bs partition).
End B.
