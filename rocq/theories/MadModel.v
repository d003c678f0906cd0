(** interfaces/madmap1.py: observations in the MADMAP1 format.

    A file is the list of its bytes (0 to 255).  The value of a floating point number is a
    function [f8] or [f4] of its 64 or 32 bits, [trunc] and [ofint] are the conversions between
    single precision numbers and 32-bit integers.  FileNotFoundError is written KeyError.
    Not modelled: astropy's reading of the mask (its pixels are an argument), memory errors,
    BlockDiagonalOperator, BlockColumnOperator, the Toeplitz and projection operators (their
    arguments are the results here). *)
From Coq Require Import String Ascii.
From Verif Require Import Base TemplateModel.
Open Scope Z_scope.

(** ** NumPy: np.fromfile with items of [size] bytes; fewer items are returned at the end of the
    file, and all the items if the count is negative. *)
Fixpoint chunks {A} (size n : nat) (l : list A) : list (list A) :=
  match n with
  | O => []
  | S m => if (length l <? size)%nat then [] else firstn size l :: chunks size m (skipn size l)
  end.
Definition fromfile (size : nat) (count : Z) (file : list Z) : list (list Z) :=
  chunks size (if count <? 0 then (length file / size)%nat else Z.to_nat count) file.

Fixpoint le_uint (l : list Z) : Z := match l with [] => 0 | b :: r => b + 256 * le_uint r end.
Definition uint (big : bool) (l : list Z) : Z := le_uint (if big then rev l else l).
Definition sint (big : bool) (l : list Z) : Z :=
  let n := uint big l in let m := 2 ^ (8 * zlen l) in if 2 * n <? m then n else n - m.

(** ** Names: regular expression made of the name of the file.  A point stands for any character
    but the line feed; the names with other special characters are not modelled. *)
Definition point : ascii := "."%char.
Definition newline : ascii := "010"%char.
Definition special (c : ascii) : bool := existsb (Ascii.eqb c) (lit "^$*+?{}[]\|()").
Definition is_digit (c : ascii) : bool := let n := nat_of_ascii c in ((48 <=? n) && (n <=? 57))%nat.
Fixpoint match_name (name path : text) : option text :=
  match name, path with
  | [], _ => Some path
  | c :: n, d :: p => if Ascii.eqb c d || (Ascii.eqb c point && negb (Ascii.eqb d newline)) then match_name n p else None
  | _ :: _, [] => None
  end.
(** [0-9]+$ after at least one digit: the end, or a final line feed. *)
Fixpoint digits_end (l : text) : bool :=
  match l with
  | [] => true
  | [c] => is_digit c || Ascii.eqb c newline
  | c :: r => is_digit c && digits_end r
  end.
Definition match_path (name path : text) : bool :=
  match match_name name path with
  | Some (p :: d :: r) => Ascii.eqb p point && is_digit d && digits_end r
  | _ => false
  end.
(** int(f.suffix[1:]): the number after the last point. *)
Fixpoint number (acc : Z) (l : text) : Z :=
  match l with
  | [] => acc
  | c :: r => if is_digit c then number (10 * acc + (Z.of_nat (nat_of_ascii c) - 48)) r else acc
  end.
Fixpoint after_point (l : text) (best : text) : text :=
  match l with [] => best | c :: r => after_point r (if Ascii.eqb c point then r else best) end.
Definition suffix_number (path : text) : Z := number 0 (after_point path []).

(** sorted(..., key=...): stable. *)
Fixpoint insert {A} (key : A -> Z) (x : A) (l : list A) : list A :=
  match l with [] => [x] | y :: r => if key x <=? key y then x :: l else y :: insert key x r end.
Definition sorted {A} (key : A -> Z) (l : list A) : list A := fold_right (insert key) [] l.

Section M.
Context {V : Type} (f8 f4 : Z -> V) (trunc : V -> Z) (ofint : Z -> V).

Record filter_ := Filter { f_first : Z; f_last : Z; f_data : list V }.

(** 200-204 *)
Definition read_one_filter (big : bool) (file : list Z) : res filter_ :=
  match map (sint big) (fromfile 8 3 file) with
  | [first; last; ncorr] =>
      Ok (Filter first last (map (fun w => f8 (uint big w)) (skipn 3 (fromfile 8 (4 + ncorr) file))))
  | _ => Err ValueError
  end.

(** 207-223: the directory is the list of its paths, in the order of iterdir, with their bytes. *)
Definition read_filters (big : bool) (name : text) (directory : list (text * list Z)) : res (list filter_) :=
  if existsb special name then Err RuntimeError (* not modelled *) else
  let files := sorted (fun f => suffix_number (fst f)) (List.filter (fun f => match_path name (fst f)) directory) in
  match files with
  | [] => Err KeyError (* FileNotFoundError *)
  | _ => do filters <- map_res (fun f => read_one_filter big (snd f)) files;
         match filters with
         | [] => Err IndexError
         | f0 :: _ => if forallb (fun f => (length (f_data f) =? length (f_data f0))%nat) filters then Ok filters
                      else Err ValueError
         end
  end.

(** 65-77: the mask of the pixels that are not in the map. *)
Definition map_mask (isnan isinf : V -> bool) (eqb : V -> V -> bool) (zero : V) (missing : option V) (pixels : list V) : list bool :=
  match missing with
  | None => map (fun v => negb (eqb v zero)) pixels
  | Some m => if isnan m then map isnan pixels else if isinf m then map isinf pixels else map (fun v => eqb v m) pixels
  end.

(** filters[::ndetectors] *)
Fixpoint every {A} (n : nat) (fuel : nat) (l : list A) : list A :=
  match fuel, l with S k, x :: _ => x :: every n k (skipn n l) | _, _ => [] end.
Record block_ := Block { b_n : Z; b_start : Z; b_stop : Z }.
Fixpoint blocks_of (start : Z) (ns : list Z) : list block_ :=
  match ns with [] => [] | n :: r => Block n start (start + n) :: blocks_of (start + n) r end.

Record observation := Observation {
  o_ndetectors : nat; o_npps : Z; o_npixels : Z; o_ncorrelations : nat; o_big : bool;
  o_mask : list bool; o_filters : list (list (list V)); o_blocks : list block_; o_nsamples : Z; o_file : list Z }.

(** 51-118: constructor, from the filters, the mask and the bytes of the TOD file. *)
Definition init (ndetectors : nat) (big : bool) (filters : list filter_) (mask : list bool) (todfile : list Z) : res observation :=
  match filters with
  | [] => Err IndexError
  | f0 :: _ =>
      if (ndetectors =? 0)%nat then Err ZeroDivisionError else
      let nblocks := (length filters / ndetectors)%nat in
      let ns := map (fun f => f_last f - f_first f + 1) (every ndetectors (length filters) filters) in
      if negb (nblocks * ndetectors =? length filters)%nat then Err ValueError else
      match map (sint big) (fromfile 8 4 todfile) with
      | [_; _; npps; npixels] =>
          if negb (npixels =? zlen (List.filter negb mask)) then Err ValueError else
          if sumZ ns <? 0 then Err ValueError else
          Ok (Observation ndetectors npps npixels (length (f_data f0)) big mask
                (chunks ndetectors nblocks (map f_data filters)) (blocks_of 0 ns) (sumZ ns) todfile)
      | _ => Err ValueError
      end
  end.

(** 123-133: the first rows given to the Toeplitz operator of each block. *)
Definition invntt (o : observation) : list (nat * Z * list (list (list V))) :=
  map (fun b => (o_ndetectors o, b_n b, o_filters o)) (o_blocks o).

(** ** 167-197 *)
(** The fields of a file entry and of an entry of PointingMatrix, in their order. *)
Record file_entry := FileEntry { fe_value : V; fe_index : Z }.
Record pm_entry := PmEntry { pm_index : Z; pm_value : V }.
Definition decode_entry (big : bool) (w : list Z) : file_entry :=
  FileEntry (f4 (uint big (firstn 4 w))) (sint big (skipn 4 w)).
(** NumPy: structured arrays are assigned field by field, by position. *)
Definition assign_by_position (e : file_entry) : pm_entry := PmEntry (trunc (fe_value e)) (ofint (fe_index e)).

Definition decode_record (big : bool) (npps : nat) (w : list Z) : V * list pm_entry :=
  (f8 (uint big (firstn 8 w)), map (fun e => assign_by_position (decode_entry big e)) (chunks 8 npps (skipn 8 w))).
(** row[start:stop] = values *)
Definition set_slice (row : list V) (start : Z) (values : list V) : list V :=
  firstn (Z.to_nat start) row ++ values ++ skipn (Z.to_nat start + length values) row.
Fixpoint zip_with {A B C} (f : A -> B -> C) (l : list A) (r : list B) : list C :=
  match l, r with x :: l, y :: r => f x y :: zip_with f l r | _, _ => [] end.

Fixpoint read_blocks (big : bool) (ndetectors npps : nat) (blocks : list block_) (file : list Z) (tod : list (list V))
  : res (list (list V) * list (list (list (list pm_entry)))) :=
  match blocks with
  | [] => Ok (tod, [])
  | b :: r =>
      let size := (8 * (npps + 1))%nat in
      let count := b_n b * Z.of_nat ndetectors in
      let data := fromfile size count file in
      if (b_n b <? 0) || negb (zlen data =? count) then Err ValueError (* reshape *) else
      let data := chunks (Z.to_nat (b_n b)) ndetectors (map (decode_record big npps) data) in
      let tod := zip_with (fun row d => set_slice row (b_start b) (map fst d)) tod data in
      do tp <- read_blocks big ndetectors npps r (skipn (Z.to_nat count * size) file) tod;
      Ok (fst tp, map (map snd) data :: snd tp)
  end.
(** [junk] is what Tod.empty contains. *)
Definition read_tod_pmatrix (junk : V) (o : observation) : res (list (list V) * list (list (list (list pm_entry)))) :=
  if negb (zlen (o_file o) =? 32 + (o_npps o + 1) * Z.of_nat (o_ndetectors o) * o_nsamples o * 8) then Err ValueError else
  if o_npps o <? 0 then Err ValueError else
  read_blocks (o_big o) (o_ndetectors o) (Z.to_nat (o_npps o)) (o_blocks o) (skipn 32 (o_file o))
    (repeat (repeat junk (Z.to_nat (o_nsamples o))) (o_ndetectors o)).
End M.
