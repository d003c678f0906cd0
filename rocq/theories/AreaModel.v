(** C95: quantities.py 1255-1302, the areas of pixels that a FITS header defines.

    Keywords are written in capitals (the header looks them up in any case); the scale of the projection is a parameter (C53
    models it), as is what the axes other than the first two would be. *)
From Coq Require Import Reals String Ascii QArith Qcanon.
From Verif Require Import Base TemplateModel UnitModel WcsModel.
Open Scope R_scope.

(** The unit of an axis: 1299-1300, and Quantity(1, unit) of 1301 (a unit that is not text: TypeError, 241-246). *)
Definition axis_unit (h : header) (k : string) : res unit_ :=
  match hget h k with
  | Some (HS s) => extract_str (lit s)
  | Some _ => Err TypeError
  | None => extract_str (lit "deg")
  end.
(** pixel_reference_to_solid_angle, 1282-1302; [None]: no header, None. *)
Definition pixel_reference_to_solid_angle (h : option header) : res (option (R * unit_)) :=
  match h with
  | None => Ok None
  | Some h =>
      do area <-
        (if forallb (defined h) ["CD1_1"; "CD2_1"; "CD1_2"; "CD2_2"]%string then
           do a <- hnum h "CD1_1"; do b <- hnum h "CD1_2"; do c <- hnum h "CD2_1"; do d <- hnum h "CD2_2"; Ok (Some (Rabs (a * d - b * c)))
         else if (defined h "CDELT1" && defined h "CDELT2")%bool then
           do a <- hnum h "CDELT1"; do b <- hnum h "CDELT2"; Ok (Some (Rabs (a * b)))
         else Ok None);
      match area with
      | None => Ok None
      | Some area => do u <- axis_unit h "CUNIT1"; do v <- axis_unit h "CUNIT2"; Ok (Some (area, multiply_unit u v))
      end
  end.

(** pixel_to_pixel_reference, 1255-1279: one value, or a map of them (lines of the image). *)
Inductive areas := OneArea (x : R) | Areas (l : list (list R)).
Definition transpose (nrows ncols : nat) (l : list (list R)) : list (list R) :=   (* l: columns *)
  map (fun j => map (fun i => nth j (nth i l []) 0) (seq 0 ncols)) (seq 0 nrows).
Section Scale.
(** flib.wcsutils.projection_scale of the header: NAXIS1 columns of NAXIS2 values, or a status that is not zero. *)
Variable projection_scale : header -> Z -> Z -> option (list (list R)).
Definition pixel_to_pixel_reference (h : option header) : res (areas * unit_) :=
  let u := parsed "pixel_reference" in
  match h with
  | None => Ok (OneArea 1, u)
  | Some h =>
      do complete <- has_wcs h;          (* 1261-1268, the lines of has_wcs *)
      if negb complete then Ok (OneArea 1, u)
      else
        do n1 <- hint h "NAXIS1"; do n2 <- hint h "NAXIS2";
        match projection_scale h n1 n2 with
        | Some l => Ok (Areas (transpose (Z.to_nat n2) (Z.to_nat n1) l), u)
        | None => Err RuntimeError
        end
  end.
End Scale.
