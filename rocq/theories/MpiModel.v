(** mpiutils.py (headers 20-92, distribution 95-149, files 152-342) and the process grid of
    acquisitions.py 85-110.

    Simplifications: a distributed value is the list of the local values in rank order;
    header values are integers, exact rationals or texts; float divisions of small
    integers are exact; byte order is not modelled (a local array is given by its bytes as
    written); writes at an offset are byte writes. *)
From Coq Require Import String Ascii QArith Qcanon.
From Verif Require Import Base TemplateModel UnitModel.
Open Scope nat_scope.

(** ** Headers *)
Inductive hval := HInt (n : Z) | HNum (q : Qc) | HStr (t : text).
Definition header := list (text * hval).
Fixpoint h_get (h : header) (k : text) : option hval :=
  match h with [] => None | (k', v) :: r => if text_eqb k' k then Some v else h_get r k end.
Fixpoint h_set (h : header) (k : text) (v : hval) : header :=
  match h with [] => [(k, v)] | (k', v') :: r => if text_eqb k' k then (k', v) :: r else (k', v') :: h_set r k v end.
Definition h_item (h : header) (k : text) : res hval := match h_get h k with Some v => Ok v | None => Err KeyError end.
Definition h_int (h : header) (k : text) : res Z := do v <- h_item h k; match v with HInt n => Ok n | _ => Err TypeError end.
(** [value += n] *)
Definition h_shift (v : hval) (n : Z) : res hval :=
  match v with HInt a => Ok (HInt (a + n)) | HNum q => Ok (HNum (q + Q2Qc (inject_Z n))) | HStr _ => Err TypeError end.
Definition kNAXIS := lit "NAXIS".
Definition kCRPIX := lit "CRPIX".

(** Checks shared by the functions, 25-28, 46-49, 81-84; the text of the number of axes. *)
Definition last_axis (h : header) : res text :=
  match h_get h kNAXIS with
  | None => Err KeyError
  | Some v => match h_get h (lit "NAXIS1") with
              | None => Err KeyError
              | Some _ => match v with HInt n => Ok (str_int n) | HNum _ => Err TypeError | HStr t => Ok t end
              end
  end.
Definition relabel (h : header) (axis : text) (n shift : Z) : res header :=
  let h' := h_set h (kNAXIS ++ axis) (HInt n) in
  match h_get h' (kCRPIX ++ axis) with
  | None => Ok h'
  | Some v => do v' <- h_shift v shift; Ok (h_set h' (kCRPIX ++ axis) v')
  end.

(** scatter_fitsheader, 77-92, on one rank. *)
Definition scatter_header (h : header) (size rank : Z) : res header :=
  do axis <- last_axis h;
  do n <- h_int h (kNAXIS ++ axis);
  let start := split_start n size rank in
  relabel h axis (split_start n size (rank + 1) - start) (- start).

(** gather_fitsheader, 20-37, on all ranks. *)
Definition gather_headers (hs : list header) : res (list header) :=
  do ns <- map_res (fun h => do axis <- last_axis h; h_int h (kNAXIS ++ axis)) hs;
  let n := sumZ ns in
  map_res (fun hr => do axis <- last_axis (fst hr);
                     relabel (fst hr) axis n (split_start n (zlen hs) (snd hr)))
          (combine hs (iota (zlen hs))).

(** has_wcs, wcsutils.py 456-469. *)
Definition axes (n : Z) : list text := map (fun i => str_int (i + 1)) (iota n).
Definition has_wcs (h : header) : res bool :=
  do n <- h_int h kNAXIS;
  Ok (forallb (fun a => forallb (fun k => match h_get h (lit k ++ a) with Some _ => true | None => false end)
                                ["CRPIX"; "CRVAL"; "CTYPE"]%string) (axes n)).
Definition hval_eqb (a b : hval) : bool :=
  match a, b with
  | HInt x, HInt y => (x =? y)%Z
  | HNum x, HNum y => Qc_eqb x y
  | HInt x, HNum y | HNum y, HInt x => Qc_eqb (Q2Qc (inject_Z x)) y
  | HStr x, HStr y => text_eqb x y
  | _, _ => false
  end.
(** gather_fitsheader_if_needed, 40-74, on all ranks; the keywords that must agree, 58-60. *)
Definition required_same (n : Z) : list text :=
  map lit ["CRVAL1"; "CRVAL2"; "CRTYPE1"; "CRTYPE2"; "CDELT1"; "CDELT2"]%string ++
  map (fun a => kNAXIS ++ a) (axes (n - 1)) ++ map (fun a => kCRPIX ++ a) (axes (n - 1)).
Definition check_same (h0 : header) (hs : list header) (k : text) (h : header) : res unit :=
  match h_get h k with
  | None => Ok tt
  | Some _ => do vs <- map_res (fun g => h_item g k) hs;
              do v0 <- h_item h0 k;
              if forallb (fun v => hval_eqb v v0) vs then Ok tt else Err ValueError
  end.
Definition gather_if_needed (hs : list header) : res (list header) :=
  match hs with
  | [] => Ok []
  | h0 :: _ =>
      do _ <- map_res last_axis hs;
      if Nat.eqb (length hs) 1 then Ok hs
      else
        do w <- map_res has_wcs hs;
        if negb (forallb (fun b => b) w) then Err ValueError
        else
          do _ <- map_res (fun h => do n <- h_int h kNAXIS; map_res (fun k => check_same h0 hs k h) (required_same n)) hs;
          do same <- map_res (fun h => do n <- h_int h kNAXIS; do v0 <- h_item h0 (kCRPIX ++ str_int n);
                                       do vs <- map_res (fun g => h_item g (kCRPIX ++ str_int n)) hs;
                                       Ok (forallb (fun v => hval_eqb v v0) vs)) hs;
          if forallb (fun b => b) same then Ok hs else gather_headers hs
  end.

(** ** Distribution of detectors and observations *)
Definition cdivn (a b : nat) : nat := (a + b - 1) / b.

(** 120-130: for one block size, the first divisor that fits, or the last one. *)
Record layout := Layout { xb : nat; yb : nat; nxb : nat; nyb : nat }.
Definition fits (size : nat) (l : layout) : bool := nxb l * nyb l <=? size.
Fixpoint for_x (nx ny size bs : nat) (xs : list nat) (last : option layout) : option layout :=
  match xs with
  | [] => last
  | x :: r =>
      if bs mod x =? 0 then
        let y := bs / x in
        let l := Layout x y (cdivn nx x) (cdivn ny y) in
        if fits size l then Some l else for_x nx ny size bs r (Some l)
      else for_x nx ny size bs r last
  end.
(** 115-133. *)
Fixpoint find_blocks (fuel nx ny size bs : nat) (last : option layout) : res layout :=
  match fuel with
  | O => Err RuntimeError                                         (* does not end *)
  | S n => match for_x nx ny size bs (seq 1 bs) last with
           | None => Err UnboundLocalError
           | Some l => if fits size l then Ok l else find_blocks n nx ny size (S bs) (Some l)
           end
  end.

Definition good_positions (mask : list bool) : list nat :=
  filter (fun i => negb (nth i mask true)) (seq 0 (length mask)).
Definition mask_all (l : list nat) (mask : list bool) : list bool :=
  fold_left (fun m i => set_nth m i true) l mask.

(** distribute_observation, 95-149. *)
Definition distribute {O} (mask : list bool) (obs : list O) (size nthreads rank : nat) : res (list bool * list O) :=
  if size =? 1 then Ok (mask, obs)
  else
    let good := good_positions mask in
    let nx := length obs in
    let ny := cdivn (length good) nthreads in
    do l <- find_blocks (S (nx * ny)) nx ny size (cdivn (nx * ny) size) None;
    let ix := rank / nyb l in
    let iy := rank mod nyb l in
    let '(dlo, dhi, olo, ohi) :=
      if nxb l <=? ix then (0, 0, 0, 0)
      else (iy * yb l * nthreads, (iy + 1) * yb l * nthreads, ix * xb l, (ix + 1) * xb l) in
    Ok (mask_all (skipn dhi good) (mask_all (firstn dlo good) mask), firstn (ohi - olo) (skipn olo obs)).

(** ** Process grid of an acquisition, acquisitions.py 87-103 *)
Definition process_grid (size : Z) (ni ns : option Z) : res (Z * Z) :=
  (do g <- match ni, ns with
           | None, None => Ok (1, size)
           | None, Some s => if (s <? 1) || (size <? s) then Err ValueError else Ok (size / s, s)
           | Some i, _ => if (i <? 1) || (size <? i) then Err ValueError else Ok (i, size / i)
           end;
   if fst g * snd g =? size then Ok g else Err ValueError)%Z.
(** MPI: coordinates of a rank in the grid (samplings, detectors). *)
Definition grid_coords (g : Z * Z) (rank : Z) : Z * Z := (rank / fst g, rank mod fst g)%Z.

(** ** Files *)
Definition BLOCK_SIZE := 2880%Z.
Definition padding (datasize : Z) : Z := (BLOCK_SIZE - datasize mod BLOCK_SIZE)%Z.     (* 330-332 *)

(** Lines 277-284 on one rank: the number of rows that it must hold. *)
Definition check_rows (rows : list Z) (rank : Z) : res unit :=
  do n <- get rows rank;
  if (n =? split_start (sumZ rows) (zlen rows) (rank + 1) - split_start (sumZ rows) (zlen rows) rank)%Z then Ok tt else Err ValueError.

(** Lines 300-303: the ranks that open the file, and those of the communicator that the
    file is opened with (the result of Incl is not used). *)
Definition opening (nglobal size : Z) : list Z := iota (Z.min size nglobal).
Definition members (nglobal size : Z) : list Z := iota size.

(** Lines 313-325 on one rank: write [data] at the offset of its rows. *)
Definition write_at (file : list ascii) (off : nat) (data : list ascii) : list ascii :=
  firstn off file ++ data ++ skipn (off + length data) file.
Definition rank_offset (rows : list Z) (rowbytes : nat) (rank : Z) : nat :=
  Z.to_nat (split_start (sumZ rows) (zlen rows) rank) * rowbytes.
(** The file: header, then the data unit (undefined before it is written), then padding;
    the ranks write in any order. *)
Definition write_file (head : list ascii) (unset : list ascii) (rows : list Z) (rowbytes : nat) (datas : list (list ascii)) (order : list nat) : list ascii :=
  fold_left (fun f r => write_at f (length head + rank_offset rows rowbytes (Z.of_nat r)) (nth r datas [])) order (head ++ unset) ++
  repeat zero (Z.to_nat (padding (sumZ rows * Z.of_nat rowbytes))).

(** read_fits, 177-190: the search for the first unit with data; a unit is its NAXIS and
    whether its data is not None. *)
Fixpoint first_hdu (fuel : nat) (hdus : list (Z * bool)) (i : nat) : res nat :=
  match fuel with
  | O => Err RuntimeError                                         (* does not end *)
  | S n => match nth_error hdus i with
           | None => Err ValueError                               (* OSError *)
           | Some (naxis, data) => if (naxis =? 0)%Z then first_hdu n hdus (S i) else if data : bool then Ok i else first_hdu n hdus i
           end
  end.
(** read_fits, 192-206: the rows read, and the header. *)
Definition read_rows {A} (data : list A) (size rank : Z) : list A :=
  let a := Z.to_nat (split_start (zlen data) size rank) in
  firstn (Z.to_nat (split_start (zlen data) size (rank + 1)) - a) (skipn a data).
Definition read_header (h : header) (size rank : Z) : res header :=
  do naxis <- h_int h kNAXIS;
  do n <- h_int h (kNAXIS ++ str_int naxis);
  let start := split_start n size rank in
  let h' := h_set h (kNAXIS ++ str_int naxis) (HInt (split_start n size (rank + 1) - start)) in
  match h_get h' (lit "CTYPE1"), h_get h' (lit "CTYPE2"), h_get h' (lit "CRPIX2") with
  | Some (HStr a), Some (HStr b), Some v =>
      if text_eqb a (lit "RA---TAN") && text_eqb b (lit "DEC--TAN")
      then do v' <- h_shift v (- start); Ok (h_set h' (lit "CRPIX2") v') else Ok h'
  | _, _, _ => Ok h'
  end.
