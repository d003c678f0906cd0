(** Headers of FITS files read by the Fortran code: module_fitstools.f90 and init_astrometry of
    module_wcs.f90.  Strings as in StrModel; positions start at zero.

    A status different from zero is an exception: KeyError for 202 (missing keyword), ValueError
    for 404, 407, 409 and 1.  Reading outside of the header and writing outside of the value
    returned are IndexError.  Not modelled: the messages, the conversion of a string to a
    real number (a parameter), the kind of the reals. *)
From Coq Require Import Ascii String.
From Verif Require Import Base TemplateModel UnitModel StrModel.
Open Scope nat_scope.

Definition quote : ascii := ascii_of_nat 39.
Definition slash : ascii := "/"%char.
Definition FLEN_KEYWORD := 71.
Definition FLEN_VALUE := 70.
Definition FLEN_COMMENT := 72.
(** Strings are compared as if the shorter one were padded with blanks. *)
Definition feq (a b : text) : bool := text_eqb (trim a) (trim b).
(** index(s, '/') - 1, or the length of s. *)
Fixpoint find_slash (s : text) : nat :=
  match s with [] => 0 | c :: r => if Ascii.eqb c slash then 0 else S (find_slash r) end.
(** get_keyword, 92-101: number of characters up to and with the ending quote; [s] starts after
    the first quote. *)
Fixpoint to_quote (s : text) : nat :=
  match s with
  | [] => 0
  | c :: r =>
      if Ascii.eqb c quote then
        match r with
        | [] => 1
        | d :: r' => if Ascii.eqb d quote then 2 + to_quote r' else 1
        end
      else S (to_quote r)
  end.
(** get_keyword, 65-70: the first card with the keyword. *)
Fixpoint find_card (header lowkeyword : text) (n i : nat) : res (option nat) :=
  match n with
  | 0 => Ok None
  | S n' =>
      if 80 * i + 8 <=? length header then
        if feq (strlowcase (section_ header (80 * i) (80 * i + 8))) lowkeyword then Ok (Some i)
        else find_card header lowkeyword n' (S i)
      else Err IndexError (* outside of the header *)
  end.
(** get_keyword, 83-111: value and comment of the card. *)
Definition parse_card (field : text) : text * text :=
  let buffer := assign FLEN_VALUE (adjustl field) in
  let i :=
    match buffer with
    | c :: r => if Ascii.eqb c quote then let k := 1 + to_quote r in k + find_slash (skipn k buffer) else find_slash buffer
    | [] => 0 (* not reached *)
    end in
  (assign FLEN_VALUE (firstn i buffer), assign FLEN_COMMENT (skipn (i + 1) buffer)).
(** get_keyword, 42-113: value and comment, or nothing. *)
Definition get_keyword (header keyword : text) (must_exist : bool) : res (option (text * text)) :=
  let ncards := Z.to_nat (Z.quot (Z.of_nat (length header) - 1) 80 + 1) in
  do o <- find_card header (assign FLEN_KEYWORD (strlowcase keyword)) ncards 0;
  match o with
  | None => if must_exist then Err KeyError else Ok None
  | Some i =>
      if 80 * i + 80 <=? length header then Ok (Some (parse_card (section_ header (80 * i + 10) (80 * i + 80))))
      else Err IndexError (* outside of the header *)
  end.

(** ft_read_keyword_header_logical, 119-149.  [must_exist]: the argument found is absent. *)
Definition read_logical (header keyword : text) (must_exist : bool) : res (option bool) :=
  do o <- get_keyword header keyword must_exist;
  match o with
  | None => Ok None
  | Some (v, _) =>
      let charvalue := strupcase v in
      let n := length (trim charvalue) in
      if negb (feq charvalue (firstn (Nat.min 5 n) (lit "FALSE"))) && negb (feq charvalue (firstn (Nat.min 4 n) (lit "TRUE")))
      then Err ValueError
      else Ok (Some (Ascii.eqb (nth 0 charvalue blank) "T"%char))
  end.

(** read (charvalue, '(i20)'): leading blanks are skipped, one sign is accepted, other blanks are
    ignored (blank='null'), the number must fit in lo..hi. *)
Definition digit (c : ascii) : option Z :=
  let n := nat_of_ascii c in if (48 <=? n) && (n <=? 57) then Some (Z.of_nat n - 48)%Z else None.
Fixpoint read_digits (s : text) (value : Z) : res Z :=
  match s with
  | [] => Ok value
  | c :: r =>
      if Ascii.eqb c blank then read_digits r value
      else match digit c with Some d => read_digits r (10 * value + d)%Z | None => Err ValueError end
  end.
Definition read_i20 (lo hi : Z) (charvalue : text) : res Z :=
  do n <-
    match drop_blanks (firstn 20 charvalue) with
    | [] => Ok 0%Z
    | c :: r =>
        if Ascii.eqb c "-"%char then
          match r with [] => Err ValueError | _ => do n <- read_digits r 0; Ok (- n)%Z end
        else if Ascii.eqb c "+"%char then
          match r with [] => Err ValueError | _ => read_digits r 0 end
        else read_digits (c :: r) 0
    end;
  if (lo <=? n)%Z && (n <=? hi)%Z then Ok n else Err ValueError.
(** ft_read_keyword_header_int4, 155-181, and int8, 187-213. *)
Definition read_int (lo hi : Z) (header keyword : text) (must_exist : bool) : res (option Z) :=
  do o <- get_keyword header keyword must_exist;
  match o with None => Ok None | Some (v, _) => do n <- read_i20 lo hi v; Ok (Some n) end.
Definition read_int4 := read_int (- 2 ^ 31) (2 ^ 31 - 1).
Definition read_int8 := read_int (- 2 ^ 63) (2 ^ 63 - 1).

(** ft_read_keyword_header_character, 291-337: [n] is the length of value.  The characters left
    to read, those written and the number of them. *)
Fixpoint unquote (s : text) (out : text) (i : nat) : res text :=
  match s with
  | [] => Ok out
  | c :: r =>
      if Ascii.eqb c quote then
        match r with
        | d :: r' =>
            if Ascii.eqb d quote then if i <? length out then unquote r' (set_nth out i c) (S i) else Err IndexError (* outside of value *)
            else Ok out
        | [] => Ok out
        end
      else if i <? length out then unquote r (set_nth out i c) (S i) else Err IndexError (* outside of value *)
  end.
Definition read_character (n : nat) (header keyword : text) (must_exist : bool) : res (option text) :=
  do o <- get_keyword header keyword must_exist;
  match o with
  | None => Ok None (* value is undefined *)
  | Some (v, _) =>
      if negb (Ascii.eqb (nth 0 v blank) quote) then Ok (Some (assign n v))
      else do out <- unquote (trim (skipn 1 (trim v))) (repeat blank n) 0; Ok (Some out)
  end.

(** ** init_astrometry, module_wcs.f90 40-157.  Numbers are a parameter: [read_real] converts a
    string, [rotated] makes the matrix of CDELT1, CDELT2 and CROTA2 (cd_crota2 of WcsModel). *)
Section Astrometry.
Context {num : Type}.
Variables (read_real : text -> option num) (zero : num) (rotated : num -> num -> num -> (num * num) * (num * num)).
(** ft_read_keyword_header_real8, 239-265. *)
Definition read_num (header keyword : text) (must_exist : bool) : res (option num) :=
  do o <- get_keyword header keyword must_exist;
  match o with
  | None => Ok None
  | Some (v, _) => match read_real v with Some x => Ok (Some x) | None => Err ValueError end
  end.
Record astro := Astro { naxis : Z * Z; crpix : num * num; crval : num * num; cd : (num * num) * (num * num); ctype : text * text; cunit : text * text }.
Definition needed {A} (r : res (option A)) : res A := do o <- r; match o with Some a => Ok a | None => Err KeyError (* not reached *) end.
Definition or_else (o : option num) : num := match o with Some x => x | None => zero end.
Definition is_some {A} (o : option A) : bool := match o with Some _ => true | None => false end.
Definition unit_of (o : option text) : text := match o with Some b => assign 8 (strlowcase (firstn 8 b)) | None => assign 8 (lit "deg") end.
(** 108-140. *)
Definition cd_matrix (header : text) (cd11 cd21 cd12 cd22 : option num) : res ((num * num) * (num * num)) :=
  let has_cd := length (filter (fun b => b) [is_some cd11; is_some cd21; is_some cd12; is_some cd22]) in
  if negb (has_cd =? 0) && negb (has_cd =? 4) then Err ValueError
  else if has_cd =? 0 then
    do cdelt1 <- read_num header (lit "cdelt1") false;
    match cdelt1 with
    | None => Err ValueError
    | Some c1 =>
        do cdelt2 <- read_num header (lit "cdelt2") false;
        match cdelt2 with
        | None => Err ValueError
        | Some c2 => do crota2 <- read_num header (lit "crota2") false; Ok (rotated c1 c2 (or_else crota2))
        end
    end
  else Ok ((or_else cd11, or_else cd12), (or_else cd21, or_else cd22)).
Definition init_astrometry (header : text) : res astro :=
  do naxis1 <- needed (read_int4 header (lit "naxis1") true);
  do naxis2 <- needed (read_int4 header (lit "naxis2") true);
  do crpix1 <- needed (read_num header (lit "crpix1") true);
  do crpix2 <- needed (read_num header (lit "crpix2") true);
  do crval1 <- needed (read_num header (lit "crval1") true);
  do crval2 <- needed (read_num header (lit "crval2") true);
  do cd11 <- read_num header (lit "cd1_1") false;
  do cd21 <- read_num header (lit "cd2_1") false;
  do cd12 <- read_num header (lit "cd1_2") false;
  do cd22 <- read_num header (lit "cd2_2") false;
  do ctype1 <- needed (read_character FLEN_VALUE header (lit "ctype1") true);
  do ctype2 <- needed (read_character FLEN_VALUE header (lit "ctype2") true);
  do cunit1 <- read_character FLEN_VALUE header (lit "cunit1") false;
  do cunit2 <- read_character FLEN_VALUE header (lit "cunit2") false;
  do m <- cd_matrix header cd11 cd21 cd12 cd22;
  let ctype1 := strupcase (firstn 8 ctype1) in let ctype2 := strupcase (firstn 8 ctype2) in
  if feq ctype1 (lit "RA---TAN") && feq ctype2 (lit "DEC--TAN")
  then Ok (Astro (naxis1, naxis2) (crpix1, crpix2) (crval1, crval2) m (ctype1, ctype2) (unit_of cunit1, unit_of cunit2))
  else Err ValueError.
End Astrometry.
Arguments astro : clear implicits.
(** object2xy_minmax, wcsutils.f90 225-238: the header has 2880 characters, a longer one is
    truncated by the call from Python. *)
Definition minmax_header (header : text) : text := assign 2880 header.
