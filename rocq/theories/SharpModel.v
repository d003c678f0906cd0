(** C120: object2pmatrix_sharp_edges, wcsutils.f90 325-372, with xy2roi, module_pointingmatrix.f90 601-615,
    roi2pmatrix_cartesian, 652-702 (PmModel), and nint_down, module_math_old.f90 512-523.  The coordinates and the areas are
    exact real numbers; the areas are then rounded to single precision (683).  The astrometry and the size of the map are
    those that are read from the header; [pmatrix]: for each sample, a row for each detector, the rows having
    npixels_per_sample elements.  The samples are done one after the other: what several threads make of
    new_npixels_per_sample is in WcsModel (sharp_edges_width). *)
From Coq Require Import Reals ZArith List Bool.
From Verif Require Import Base SparseModel RndModel PmModel GeoModel SkyModel WcsModel NnModel.
Open Scope R_scope.

Definition nint_down_real (x : R) : Z :=
  let n := nint_real x in
  if Rltb 0 x then (if Req_EM_T (Rabs (x - IZR n)) (/ 2) then (n - 1)%Z else n) else n.
(** xy2roi, for one detector. *)
Definition xy2roi (xy : list pt) : roi :=
  ((nint_up_real (minval (map fst xy)), nint_down_real (maxval (map fst xy))),
   (nint_up_real (minval (map snd xy)), nint_down_real (maxval (map snd xy)))).
(** real(..., sp), 683. *)
Definition single (x : R) : R := rndp (-149) 24 x.
Definition single_area (xy : list pt) (ix iy : Z) : R := single (cell_value xy ix iy).
(** object2ad then ad2xy_gnomonic, 365-366: the vertices of a detector. *)
Definition projected (a : astrometry) (pointing : R * R * R) (vertices : list pt) : list pt :=
  map (fun c => let '(ra, dec, pa) := pointing in let '(ra', dec') := object2ad ra dec pa c in ad2xy_gnomonic a ra' dec') vertices.
(** A sample, 359-368. *)
Definition sharp_sample (a : astrometry) (nx ny : Z) (coords : list (list pt)) (p : (R * R * R) * bool) (m : list (list (Z * R))) (new : Z) (out : bool)
    : res (Z * bool * list (list (Z * R))) :=
  if snd p then Ok (new, out, map (map (fun _ => ((-1)%Z, 0))) m)
  else let coords2 := map (projected a (fst p)) coords in
       roi2pmatrix (fp_ops (-149) 24) (fun x => eqb x 0) nx ny Rabs (map (fun xy => (xy2roi xy, single_area xy)) coords2) m new out.
Fixpoint sharp_loop (a : astrometry) (nx ny : Z) (coords : list (list pt)) (pointings : list ((R * R * R) * bool)) (pmatrix : list (list (list (Z * R)))) (new : Z) (out : bool)
    : res (Z * bool * list (list (list (Z * R)))) :=
  match pointings, pmatrix with
  | p :: ps, m :: ms =>
      do r <- sharp_sample a nx ny coords p m new out;
      let '(new, out, m) := r in
      do r <- sharp_loop a nx ny coords ps ms new out;
      let '(new, out, ms) := r in Ok (new, out, m :: ms)
  | _, _ => Ok (new, out, [])
  end.
Definition sharp_edges (a : astrometry) (nx ny : Z) (coords : list (list pt)) (pointings : list ((R * R * R) * bool)) (pmatrix : list (list (list (Z * R)))) :=
  sharp_loop a nx ny coords pointings pmatrix 0%Z false.
