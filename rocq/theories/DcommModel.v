(** C107: acquisitions.py 104-110 (scattering of the instrument and of the sampling over the process grid) and 127-184
    (selection: the communicators, 168-182), packedtables/core.py 309-312 (a selection of all the elements gives the table
    itself), 366-375 (copy), 257-259 (reserved attributes) and 452-483 (scatter), instruments.py 43-51.

    What one process holds.  A communicator is the list of its ranks in the communicator of the acquisition.  The tables are
    objects: a table is its elements (positions in the global table) and its communicator; an acquisition refers to the table
    of its detectors and to that of its samplings.  A selection is slice(None), a slice of step 1 with non-negative bounds, or
    positions; which elements the tables select in general is the subject of PTModel.  The selection of the scene does not
    change communicators.  Third parties: Create_cart keeps the ranks, Sub gives the ranks that have the same coordinate along
    the other axis, in row-major order of the ranks. *)
From Coq Require Import String.
From Verif Require Import Base.
Open Scope nat_scope.

Inductive sel := Colon | Range (a b : nat) | Pick (l : list nat).
Record tab := Tab { elems : list nat; tcomm : list nat }.
Record acq := Acq { a_det : nat; a_samp : nat; a_comm : list nat }.
Record state := State { tabs : list tab; acqs : list acq }.

Definition tab_at (h : list tab) (i : nat) : res tab := match nth_error h i with Some t => Ok t | None => Err IndexError end.
Definition acq_at (l : list acq) (i : nat) : res acq := match nth_error l i with Some t => Ok t | None => Err IndexError end.
(** PackedTable.__getitem__, core.py 309-345; Instrument.__getitem__ gives that of its detectors. *)
Definition table_get (h : list tab) (i : nat) (s : sel) : res (list tab * nat) :=
  do t <- tab_at h i;
  match s with
  | Colon => Ok (h, i)
  | Range a b => let l := firstn (b - a) (skipn a (elems t)) in
                 if length l =? length (elems t) then Ok (h, i) else Ok (h ++ [Tab l (tcomm t)], length h)
  | Pick p => do l <- map_res (fun j => match nth_error (elems t) j with Some x => Ok x | None => Err IndexError end) p;
              Ok (h ++ [Tab l (tcomm t)], length h)
  end.
Definition is_colon (s : sel) : bool := match s with Colon => true | _ => false end.
(** [object.__setattr__(table, 'comm', comm)] *)
Definition set_comm (h : list tab) (i : nat) (c : list nat) : list tab :=
  match nth_error h i with Some t => set_nth h i (Tab (elems t) c) | None => h end.
Definition take (rank : nat) (h : list tab) (i : nat) (s : sel) : res (list tab * nat) :=
  do p <- table_get h i s;
  Ok (if is_colon s then fst p else set_comm (fst p) (snd p) [rank], snd p).
(** Acquisition.__getitem__, 149-184: the selected acquisition is a new object. *)
Definition select (rank : nat) (st : state) (i : nat) (s0 s1 : sel) : res state :=
  do a <- acq_at (acqs st) i;
  do p <- take rank (tabs st) (a_det a) s0;
  do q <- take rank (fst p) (a_samp a) s1;
  do tsamp <- tab_at (fst q) (a_samp a);
  do tdet <- tab_at (fst q) (a_det a);
  let comm := if negb (is_colon s0) && negb (is_colon s1) then [rank]
              else if negb (is_colon s0) then tcomm tsamp
              else if negb (is_colon s1) then tcomm tdet
              else a_comm a in
  Ok (State (fst q) (acqs st ++ [Acq (snd p) (snd q) comm])).

Definition event := (nat * sel * sel)%type.
Fixpoint run (rank : nat) (st : state) (es : list event) : res state :=
  match es with
  | [] => Ok st
  | (i, s0, s1) :: r => do st' <- select rank st i s0 s1; run rank st' r
  end.

(** 104-110: [ni] processes for the detectors, [ns] for the samplings. *)
Definition comm_instrument (ni ns rank : nat) : list nat := filter (fun q => q / ni =? rank / ni) (seq 0 (ni * ns)).
Definition comm_sampling (ni ns rank : nat) : list nat := filter (fun q => q mod ni =? rank mod ni) (seq 0 (ni * ns)).
Definition piece (n m r : nat) : list nat :=
  let a := Z.to_nat (split_start (Z.of_nat n) (Z.of_nat m) (Z.of_nat r)) in
  let b := Z.to_nat (split_start (Z.of_nat n) (Z.of_nat m) (Z.of_nat r + 1)) in
  seq a (b - a).
(** PackedTable.scatter, core.py 452-483, of a table that is not distributed; [c]: the communicator, [r]: the rank in it. *)
Definition scatter (h : list tab) (i : nat) (c : list nat) (r : nat) : res (list tab * nat) :=
  do t <- tab_at h i;
  if 1 <? length (tcomm t) then Err ValueError
  else if length c =? 1 then Ok (h, i)
  else Ok (h ++ [Tab (map (fun j => nth j (elems t) 0) (piece (length (elems t)) (length c) r)) c], length h).
Definition make (ni ns rank : nat) (h : list tab) (det samp : nat) : res state :=
  do p <- scatter h det (comm_instrument ni ns rank) (rank mod ni);
  do q <- scatter (fst p) samp (comm_sampling ni ns rank) (rank / ni);
  Ok (State (fst q) [Acq (snd p) (snd q) (seq 0 (ni * ns))]).
(** The tables given by the program: [nd] detectors and [n] samplings, not distributed. *)
Definition given (nd n rank : nat) : list tab := [Tab (seq 0 nd) [rank]; Tab (seq 0 n) [rank]].
Definition program (ni ns nd n rank : nat) (es : list event) : res state :=
  do st <- make ni ns rank (given nd n rank) 0 1; run rank st es.

(** ** PackedTable.copy, 366-375, and __setattr__, 257-259 *)
Definition reserved : list string := ["all"; "comm"; "index"; "ndim"; "removed"; "shape"]%string.
Definition set_attribute (t : tab) (key : string) (f : tab -> tab) : res tab :=
  if existsb (String.eqb key) reserved then Err AttributeError else Ok (f t).
Definition table_copy (t : tab) : res tab := set_attribute t "comm" (fun t => Tab (elems t) (tcomm t)).
