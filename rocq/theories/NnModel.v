(** C98: object2pmatrix_nearest_neighbour, wcsutils.f90 269-319, with xy2pmatrix, module_pointingmatrix.f90 621-646, and
    nint_up, module_math_old.f90 527-538, with exact real numbers.  The astrometry and the size of the map are those that are
    read from the header; a column of the matrix (one detector) is a position of the lists, a list for each pointing.  The
    rounding of the values to the kind of the matrix is not modelled. *)
From Coq Require Import Reals.
From Verif Require Import Base SkyModel WcsModel.
Open Scope R_scope.

(** nint of Fortran: halves away from zero. *)
Definition nint_real (x : R) : Z := if Rltb x 0 then (- Int_part (- x + / 2))%Z else Int_part (x + / 2).
Definition nint_up_real (x : R) : Z :=
  let n := nint_real x in
  if Rltb x 0 then (if Req_EM_T (Rabs (x - IZR n)) (/ 2) then (n + 1)%Z else n) else n.
Definition element := (Z * R)%type.
Definition xy2pmatrix_real (nx ny : Z) (x y : R) : bool * element :=
  let ix := nint_up_real x in let iy := nint_up_real y in
  if (ix <? 0)%Z || (nx - 1 <? ix)%Z || (iy <? 0)%Z || (ny - 1 <? iy)%Z then (true, ((-1)%Z, 0)) else (false, ((ix + iy * nx)%Z, 1)).
(** One detector of an unmasked sample, 301-312. *)
Definition nearest_one (a : astrometry) (nx ny : Z) (pointing : R * R * R) (coord : R * R) (area : R) : bool * element :=
  let '(ra, dec, pa) := pointing in
  let '(ra', dec') := object2ad ra dec pa coord in
  let '(xy, s) := ad2xys_gnomonic a ra' dec' in
  let '(out, e) := xy2pmatrix_real nx ny (fst xy) (snd xy) in (out, (fst e, s * area)).
Definition nearest_sample (a : astrometry) (nx ny : Z) (coords : list (R * R)) (areas : list R) (p : (R * R * R) * bool) : bool * list element :=
  if snd p then (false, map (fun _ => ((-1)%Z, 0)) coords)                                          (* 295-299 *)
  else let l := map (fun ca => nearest_one a nx ny (fst p) (fst ca) (snd ca)) (combine coords areas) in (existsb fst l, map snd l).
Definition nearest_neighbour (a : astrometry) (nx ny : Z) (coords : list (R * R)) (areas : list R) (pointings : list ((R * R * R) * bool)) : bool * list (list element) :=
  let l := map (nearest_sample a nx ny coords areas) pointings in (existsb fst l, map snd l).
