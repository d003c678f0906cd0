(** acquisitions.py: blocks 111-125, selection 127-184, operator and its cache 217-245,
    size 247-254, noise 266-284.

    Detectors, samplings and scene pixels are any values.  A selection is all (colon) or a
    list of positions: what the tables select is the subject of PTModel.  An operator is
    described by what it was built from: for each block, the detectors, the samplings and
    the pixels.  Not modelled: the communicators of the selection (175-182), the
    distribution operator. *)
From Verif Require Import Base.
Open Scope nat_scope.

Inductive sel := Colon | Pick (l : list nat).
Inductive item := Dots | Item (s : sel).

Section A.
Context {D S P : Type}.

Record part := Part { p_dets : list D; p_samps : list S; p_pix : list P }.
Definition oper := list part.
Record acq := Acq { dets : list D; samps : list S; pix : list P; blocks : list (nat * nat); cache : option oper }.

(** [self.sampling[b]] for a slice with non-negative bounds. *)
Definition in_block (l : list S) (b : nat * nat) : list S := firstn (snd b - fst b) (skipn (fst b) l).
Definition build (a : acq) : oper := map (fun b => Part (dets a) (in_block (samps a) b) (pix a)) (blocks a).
(** get_operator, 227-245. *)
Definition get_operator (a : acq) : acq * oper :=
  match cache a with
  | Some o => (a, o)
  | None => let o := build a in (Acq (dets a) (samps a) (pix a) (blocks a) (Some o), o)
  end.

Definition pick {A} (l : list A) (s : sel) : res (list A) :=
  match s with
  | Colon => Ok l
  | Pick is => map_res (fun i => match nth_error l i with Some x => Ok x | None => Err IndexError end) is
  end.
Definition undots (x : item) : sel := match x with Dots => Colon | Item s => s end.
(** 151-160; [x] is the tuple. *)
Definition parse (x : list item) : res (sel * sel * sel) :=
  match x with
  | [Dots; b] => Ok (Colon, Colon, undots b)
  | [] => Ok (Colon, Colon, Colon)
  | [a] => Ok (undots a, Colon, Colon)
  | [a; b] => Ok (undots a, undots b, Colon)
  | [a; b; c] => Ok (undots a, undots b, undots c)
  | _ => Err ValueError
  end.
Definition is_colon (s : sel) : bool := match s with Colon => true | Pick _ => false end.
(** __getitem__, 129-184: the new state of self, and the result, a shallow copy of self
    made before its cache is reset (149, 166). *)
Definition getitem (a : acq) (x : list item) : res (acq * acq) :=
  do t <- parse x;
  let '(s0, s1, s2) := t in
  if is_colon s0 && is_colon s1 && is_colon s2 then Ok (a, a)
  else
    do d <- pick (dets a) s0;
    do s <- pick (samps a) s1;
    do p <- pick (pix a) s2;
    Ok (Acq (dets a) (samps a) (pix a) (blocks a) None, Acq d s p (blocks a) (cache a)).

(** Objects of a program, and what it does. *)
Inductive event := Get (i : nat) | Select (i : nat) (x : list item).
Definition object (h : list acq) (i : nat) : res acq := match nth_error h i with Some a => Ok a | None => Err IndexError end.
Fixpoint run (h : list acq) (es : list event) : res (list acq * list oper) :=
  match es with
  | [] => Ok (h, [])
  | Get i :: r => do a <- object h i;
                  let '(a', o) := get_operator a in
                  do q <- run (set_nth h i a') r; Ok (fst q, o :: snd q)
  | Select i x :: r => do a <- object h i;
                       do b <- getitem a x;
                       run (set_nth h i (fst b) ++ [snd b]) r
  end.

(** get_operator_nbytes, 247-254; [w] is the number of bytes for one detector and one
    sampling. *)
Definition op_nbytes (w : nat) (o : oper) : nat := list_sum (map (fun p => w * length (p_dets p) * length (p_samps p)) o).
Definition operator_nbytes (w : nat) (a : acq) : res nat :=
  do b <- getitem a [Item (Pick [0]); Item (Pick [0])];
  Ok (op_nbytes w (snd (get_operator (snd b))) * length (dets a) * length (samps a)).

(** get_noise, 266-284: the samplings (columns of [out]) that receive noise, in order. *)
Definition noise_columns (a : acq) : list nat :=
  concat (map (fun b => seq (fst b) (length (in_block (samps a) b))) (blocks a)).
End A.
Arguments part : clear implicits. Arguments oper : clear implicits. Arguments acq : clear implicits.

(** 111-120: the blocks for [n] samplings, [nbytes] bytes and a limit. *)
Definition make_blocks (n nbytes : Z) (max_nbytes : option Z) : list (Z * Z) :=
  (match max_nbytes with
   | None => [(0, n)]
   | Some m => if m <? nbytes then map (fun r => (split_start n (cdiv nbytes m) r, split_start n (cdiv nbytes m) (r + 1))) (iota (cdiv nbytes m))
               else [(0, n)]
   end)%Z.
