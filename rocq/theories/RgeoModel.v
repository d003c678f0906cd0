(** Intersection of polygons and pixels, module_geometry.f90.j2 13-100 and
    module_pointingmatrix.f90 / projection.f90.j2 for one pixel, every operation rounded
    (GeoModel is the same code with exact operations).  Products and additions are not
    contracted; overflow is not modelled.  A division by [a] that is zero would give 0 here
    instead of an infinity, and is not used: the line crosses 0 or 1 (RgeoFacts3.a_not_0). *)
From Coq Require Import Reals List ZArith Bool.
From Verif Require Import Base SparseModel PmModel GeoModel RndModel.
Import ListNotations.
Open Scope R_scope.

Section Rgeo.
Variables (emin prec : Z).     (* real64: -1074 and 53; real32: -149 and 24 *)
Notation rn := (rndp emin prec).

(** intersection_segment_unity_square, 34-100. *)
Definition intersection_segment_r (x1 y1 x2 y2 out : R) : R :=
  if eqb x1 x2 then out
  else match clip_x x1 x2 with
       | None => out
       | Some (x1_, x2_) =>
           let a := rn (rn (y2 - y1) / rn (x2 - x1)) in
           let b := rn (y1 - rn (a * x1)) in
           let y1_ := rn (rn (a * x1_) + b) in
           let y2_ := rn (rn (a * x2_) + b) in
           if leb y1_ 0 && leb y2_ 0 then out
           else
             let '(x1_, y1_, x2_, y2_) :=
               if ltb y1_ 0 then (- rn (b / a), 0, x2_, y2_)
               else if ltb y2_ 0 then (x1_, y1_, - rn (b / a), 0)
               else (x1_, y1_, x2_, y2_) in
             if leb 1 y1_ && leb 1 y2_ then rn (rn (out + x2_) - x1_)
             else
               let tmp := rn (rn (1 - b) / a) in
               let '(out, x1_, y1_, x2_, y2_) :=
                 if ltb 1 y1_ then (rn (rn (out + tmp) - x1_), tmp, 1, x2_, y2_)
                 else if ltb 1 y2_ then (rn (rn (out + x2_) - tmp), x1_, y1_, tmp, 1)
                 else (out, x1_, y1_, x2_, y2_) in
               rn (out + rn (rn (/ 2 * rn (x2_ - x1_)) * rn (y1_ + y2_)))
       end.
(** intersection_polygon_unity_square, 13-28. *)
Fixpoint intersection_loop_r (j : pt) (xy : list pt) (out : R) : R :=
  match xy with
  | [] => out
  | i :: r => intersection_loop_r i r (intersection_segment_r (fst i) (snd i) (fst j) (snd j) out)
  end.
Definition intersection_polygon_r (xy : list pt) : R := intersection_loop_r (last xy (0, 0)) xy 0.

(** round_htmi, round_htpi, module_math.f90.j2 26-40. *)
Definition round_htmi_r (x : R) : Z := ceiling (rn (x - / 2)).
Definition round_htpi_r (x : R) : Z := floor (rn (x + / 2)).
(** matrix_polygon_integration, projection.f90.j2 17-72, for one polygon. *)
Definition corner_r (i : Z) : R := rn (rn (IZR i) - / 2).
Definition cell_value_r (vertex : list pt) (ix iy : Z) : R :=
  intersection_polygon_r (map (fun v => (rn (fst v - corner_r ix), rn (snd v - corner_r iy))) vertex).
Definition bounds_r (vertex : list pt) : roi :=
  ((round_htpi_r (minval (map fst vertex)), round_htmi_r (maxval (map fst vertex))),
   (round_htpi_r (minval (map snd vertex)), round_htmi_r (maxval (map snd vertex)))).
Fixpoint integration_loop_r (nx : Z) (vertex : list pt) (pixels : list (Z * Z)) (ncols : Z) (row : list (Z * R)) : res (Z * list (Z * R)) :=
  match pixels with
  | [] => Ok (ncols, row)
  | (ix, iy) :: r =>
      let val := cell_value_r vertex ix iy in
      if eqb val 0 then integration_loop_r nx vertex r ncols row
      else
        let ncols := (ncols + 1)%Z in
        do row <- (if (ncols <=? zlen row)%Z then do _ <- get row (ncols - 1); Ok (set_at row (ncols - 1) ((ix + iy * nx)%Z, Rabs val)) else Ok row);
        integration_loop_r nx vertex r ncols row
  end.
Definition integration_row_r (nx ny : Z) (vertex : list pt) (row : list (Z * R)) : res (Z * list (Z * R)) :=
  do nr <- integration_loop_r nx vertex (roi_pixels (bounds_r vertex) nx ny) 0 row;
  let n := Z.to_nat (fst nr) in
  Ok (fst nr, firstn n (snd nr) ++ map (fun _ => ((-1)%Z, 0)) (skipn n (snd nr))).
End Rgeo.

(** roi2pmatrix_cartesian, module_pointingmatrix.f90 683: the area of real64 is rounded to real32.
    The bounds of the pixels (xy2roi, SharpModel) are exact: nint rounds to an integer, from which
    the difference is a number of real64. *)
Definition single_area_r (xy : list pt) (ix iy : Z) : R := rndp (-149) 24 (cell_value_r (-1074) 53 xy ix iy).
