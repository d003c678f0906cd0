(** datatypes.py: FITS files of FitsArray (__new__ 98-158, save 296-324), Map (__new__ 634-700,
    save 933-943) and Tod (__new__ 1063-1118, save 1306-1311), on one process.

    Simplifications: a file is the list of its units (astropy's HDU), each with a name (compared
    without case, here in lower case), a header and an array or the pickle of the derived
    units; astropy sets the keywords of the structure of an array (NAXIS, NAXISn) when it writes
    it; the values of an array are kept by writing and reading; BITPIX and byte order are not
    modelled.  NumPy is 2 or later, as pyproject.toml requires: np.array(x, dtype, copy=False)
    raises ValueError when a conversion of type is needed. *)
From Coq Require Import String Ascii QArith Qcanon.
From Verif Require Import Base TemplateModel UnitModel StrModel MpiModel.
Open Scope Z_scope.

Inductive kind := KFloat | KInteger | KUnsigned | KComplex | KBool.
Section files. Context {V D : Type} (repr : Qc -> text).
Record arr := Arr { a_shape : list Z; a_kind : kind; a_vals : list V }.
(** create_fitsheader_for (see WcsModel.v) of an array. *)
Context (default_header : arr -> header).
Definition dunits := list (text * D).
Inductive payload := PArr (a : arr) | PPickle (d : dunits).
Record hdu := Hdu { h_name : option text; h_head : header; h_data : payload }.
Definition fits_file := list hdu.
(** The objects. *)
Record fits := Fits { f_arr : arr; f_unit : unit_; f_du : dunits; f_header : option header }.
Record fmap := FMap { p_fits : fits; p_coverage : option arr; p_error : option arr; p_origin : text }.
Record ftod := FTod { d_fits : fits; d_mask : option (list Z * list bool) }.

(** ** astropy *)
Fixpoint set_axes (h : header) (i : Z) (shape : list Z) : header :=
  match shape with [] => h | n :: s => set_axes (h_set h (kNAXIS ++ str_int i)%list (HInt n)) (i + 1) s end.
Definition structural (a : arr) (h : header) : header := set_axes (h_set h kNAXIS (HInt (zlen (a_shape a)))) 1 (rev (a_shape a)).
Definition writable (a : arr) : bool := match a_kind a with KComplex | KBool => false | _ => true end.
Definition make_hdu (name : option text) (a : arr) (h : header) : res hdu :=
  if writable a then Ok (Hdu name (structural a h) (PArr a)) else Err KeyError.
Fixpoint find_ext (f : fits_file) (name : text) : res hdu :=
  match f with
  | [] => Err KeyError
  | u :: r => if match h_name u with Some n => text_eqb n name | None => false end then Ok u else find_ext r name
  end.
(** ** mpiutils.py: read_fits 152-209 and write_fits 212-268, on one process.  The first unit
    whose NAXIS is not zero (see also first_hdu of MpiModel.v). *)
Fixpoint first_data (f : fits_file) : res hdu :=
  match f with
  | [] => Err ValueError (* OSError *)
  | u :: r => do n <- h_int (h_head u) kNAXIS; if n =? 0 then first_data r else Ok u
  end.
Definition read_fits (f : fits_file) (name : option text) : res (arr * header) :=
  do u <- match name with Some n => find_ext f n | None => first_data f end;
  do h <- read_header (h_head u) 1 0;
  match h_data u with PArr a => Ok (a, h) | PPickle _ => Err TypeError end.
Definition append_hdu (f : fits_file) (name : text) (a : arr) : res fits_file :=
  do u <- make_hdu (Some name) a (default_header a); Ok (f ++ [u])%list.

(** ** FitsArray *)
Definition kBUNIT := lit "BUNIT".
Definition kQTTY := lit "QTTY____".
Definition kDISPORIG := lit "DISPORIG".
(** header, 282-286: created when there is none, None for complex numbers. *)
Definition the_header (f : fits) : res header :=
  match f_header f with
  | Some h => Ok h
  | None => match a_kind (f_arr f) with KComplex => Err AttributeError | _ => Ok (default_header (f_arr f)) end
  end.
Definition save_fits (f : fits) : res fits_file :=
  do h <- the_header f;
  let h := match f_unit f with [] => h | _ => h_set h kBUNIT (HStr (strunit repr (f_unit f))) end in      (* 313-314 *)
  do u <- make_hdu None (f_arr f) h;
  Ok (match f_du f with [] => [u] | d => [u; Hdu (Some (lit "derived_units")) [] (PPickle d)] end).
(** Quantity.__new__, quantities.py 447-478, for an array read from a file: copy is False. *)
Definition quantity_of_file (a : arr) : res arr := match a_kind a with KInteger => Err ValueError | _ => Ok a end.
Definition load_fits (f : fits_file) (unit : option text) (du : dunits) : res fits :=
  let du := match find_ext f (lit "derived_units") with Ok u => match h_data u with PPickle d => d | PArr _ => du end | Err _ => du end in      (* 117-121 *)
  do x <- read_fits f None;
  let header := snd x in
  do unit <- match unit with                                                              (* 126-132 *)
             | Some t => Ok (Some t)
             | None => match h_get header kBUNIT with
                       | Some (HStr t) => Ok (Some t)
                       | Some _ => Err TypeError
                       | None => match h_get header kQTTY with
                                 | Some (HStr t) => Ok (Some (if text_eqb t (lit "1") then [] else t))
                                 | Some _ => Err TypeError
                                 | None => Ok None
                                 end
                       end
             end;
  do a <- quantity_of_file (fst x);
  do u <- match unit with Some t => extract_str t | None => Ok [] end;
  Ok (Fits a u du (Some header)).

(** ** Map *)
Inductive filename := AsStr | AsPath.
Definition isstr (n : filename) : bool := match n with AsStr => true | AsPath => false end.
Definition kCoverage := lit "coverage". Definition kError := lit "error". Definition kMask := lit "mask".
(** The file, and the map whose header save has changed (937). *)
Definition save_map (m : fmap) : res (fits_file * fmap) :=
  do h <- the_header (p_fits m);
  let fa := p_fits m in
  let fa := Fits (f_arr fa) (f_unit fa) (f_du fa) (Some (h_set h kDISPORIG (HStr (p_origin m)))) in
  do f <- save_fits fa;
  do f <- match p_coverage m with Some c => append_hdu f kCoverage c | None => Ok f end;
  do f <- match p_error m with Some e => append_hdu f kError e | None => Ok f end;
  Ok (f, FMap fa (p_coverage m) (p_error m) (p_origin m)).
Definition read_or_none (f : fits_file) (name : text) : res (option arr) :=
  match read_fits f (Some name) with Ok x => Ok (Some (fst x)) | Err KeyError => Ok None | Err e => Err e end.
Definition load_map (n : filename) (f : fits_file) (unit : option text) (du : dunits) (coverage error : option arr) (origin : option text) : res fmap :=
  do r <- load_fits f unit du;
  do x <- (if isstr n then                                                                 (* 664-681 *)
             do h <- the_header r;
             do origin <- match origin, h_get h kDISPORIG with
                          | Some o, _ => Ok (Some o)
                          | None, Some (HStr o) => Ok (Some o)
                          | None, Some _ => Err AttributeError
                          | None, None => Ok None
                          end;
             do c <- match coverage with Some c => Ok (Some c) | None => read_or_none f kCoverage end;
             do e <- match error with Some e => Ok (Some e) | None => read_or_none f kError end;
             Ok (origin, c, e)
           else Ok (origin, coverage, error));
  let '(origin, c, e) := x in
  do o <- match origin with                                                                (* 683-690 *)
          | None => Ok (lit "lower")
          | Some o => let o := strlowcase (strip o) in
                      if text_eqb o (lit "lower") || text_eqb o (lit "upper") then Ok o else Err ValueError
          end;
  Ok (FMap r c e o).

(** ** Tod *)
(** The mask is written as unsigned bytes and viewed as booleans when read. *)
Context (of_bool : bool -> V) (to_bool : V -> bool).
Definition save_tod (t : ftod) : res fits_file :=
  do f <- save_fits (d_fits t);
  match d_mask t with
  | Some (s, m) => append_hdu f kMask (Arr s KUnsigned (map of_bool m))
  | None => Ok f
  end.
Definition load_tod (n : filename) (f : fits_file) (unit : option text) (du : dunits) (mask : option (list Z * list bool)) : res ftod :=
  do r <- load_fits f unit du;
  let m := match mask with
           | Some m => Some m
           | None => if isstr n then match read_fits f (Some kMask) with Ok x => Some (a_shape (fst x), map to_bool (a_vals (fst x))) | Err _ => None end
                     else None
           end in
  Ok (FTod r m).
End files.
Arguments arr : clear implicits. Arguments dunits : clear implicits. Arguments hdu : clear implicits. Arguments fits_file : clear implicits.
Arguments fits : clear implicits. Arguments fmap : clear implicits. Arguments ftod : clear implicits. Arguments payload : clear implicits.
