(** Geometry: module_geometry.f90.j2, geometry.f90, projection.f90.j2, module_math.f90.j2
    and geometry.py, with exact real numbers. *)
From Coq Require Import Reals List ZArith Bool.
From Verif Require Import Base SparseModel PmModel.
Open Scope R_scope.

Definition pt := (R * R)%type.
Definition ltb (x y : R) : bool := if Rlt_dec x y then true else false.
Definition leb (x y : R) : bool := if Rle_dec x y then true else false.
Definition eqb (x y : R) : bool := if Req_EM_T x y then true else false.

(** intersection_segment_unity_square, module_geometry.f90.j2 34-100. *)
Definition clip_x (x1 x2 : R) : option (R * R) :=
  if ltb x1 x2 then (if leb 1 x1 || leb x2 0 then None else Some (Rmax x1 0, Rmin x2 1))
  else (if leb 1 x2 || leb x1 0 then None else Some (Rmin x1 1, Rmax x2 0)).
Definition intersection_segment (x1 y1 x2 y2 out : R) : R :=
  if eqb x1 x2 then out
  else match clip_x x1 x2 with
       | None => out
       | Some (x1_, x2_) =>
           let a := (y2 - y1) / (x2 - x1) in
           let b := y1 - a * x1 in
           let y1_ := a * x1_ + b in
           let y2_ := a * x2_ + b in
           if leb y1_ 0 && leb y2_ 0 then out
           else
             let '(x1_, y1_, x2_, y2_) :=
               if ltb y1_ 0 then (- b / a, 0, x2_, y2_)
               else if ltb y2_ 0 then (x1_, y1_, - b / a, 0)
               else (x1_, y1_, x2_, y2_) in
             if leb 1 y1_ && leb 1 y2_ then out + x2_ - x1_
             else
               let tmp := (1 - b) / a in
               let '(out, x1_, y1_, x2_, y2_) :=
                 if ltb 1 y1_ then (out + tmp - x1_, tmp, 1, x2_, y2_)
                 else if ltb 1 y2_ then (out + x2_ - tmp, x1_, y1_, tmp, 1)
                 else (out, x1_, y1_, x2_, y2_) in
               out + / 2 * (x2_ - x1_) * (y1_ + y2_)
       end.
(** intersection_polygon_unity_square, 13-28: [j] is the previous vertex. *)
Fixpoint intersection_loop (j : pt) (xy : list pt) (out : R) : R :=
  match xy with
  | [] => out
  | i :: r => intersection_loop i r (intersection_segment (fst i) (snd i) (fst j) (snd j) out)
  end.
Definition intersection_polygon (xy : list pt) : R := intersection_loop (last xy (0, 0)) xy 0.

(** point_in_polygon, 109-151. *)
Fixpoint edges_loop (point : pt) (j : pt) (polygon : list pt) (out : Z) : Z :=
  match polygon with
  | [] => out
  | i :: r =>
      if xorb (ltb (snd point) (snd i)) (ltb (snd point) (snd j)) then
        let a := fst point - fst i in
        let b := (fst j - fst i) * (snd point - snd i) / (snd j - snd i) in
        if eqb a b then 0%Z
        else edges_loop point i r (if ltb a b then (- out)%Z else out)
      else if eqb (snd i) (snd j) && eqb (snd point) (snd i) && xorb (ltb (fst point) (fst i)) (ltb (fst point) (fst j)) then 0%Z
      else edges_loop point i r out
  end.
Definition point_in_polygon (point : pt) (polygon : list pt) : Z :=
  if existsb (fun v => eqb (fst v) (fst point) && eqb (snd v) (snd point)) polygon then 0%Z
  else edges_loop point (last polygon (0, 0)) polygon (-1)%Z.

(** round_htmi, round_htpi, module_math.f90.j2 26-40. *)
Definition floor (x : R) : Z := Int_part x.
Definition ceiling (x : R) : Z := (- Int_part (- x))%Z.
Definition round_htmi (x : R) : Z := ceiling (x - / 2).
Definition round_htpi (x : R) : Z := floor (x + / 2).
(** minval, maxval (of one element or more). *)
Definition minval (l : list R) : R := match l with [] => 0 | x :: r => fold_left Rmin r x end.
Definition maxval (l : list R) : R := match l with [] => 0 | x :: r => fold_left Rmax r x end.

(** matrix_polygon_integration, projection.f90.j2 17-72, for one polygon: the columns,
    and what they are in a row of the matrix. *)
Definition shifted (p : pt) (xy : list pt) : list pt := map (fun v => (fst v - fst p, snd v - snd p)) xy.
Definition cell_value (vertex : list pt) (ix iy : Z) : R := intersection_polygon (shifted (IZR ix - / 2, IZR iy - / 2) vertex).
Fixpoint integration_loop (nx : Z) (vertex : list pt) (pixels : list (Z * Z)) (ncols : Z) (row : list (Z * R)) : res (Z * list (Z * R)) :=
  match pixels with
  | [] => Ok (ncols, row)
  | (ix, iy) :: r =>
      let val := cell_value vertex ix iy in
      if eqb val 0 then integration_loop nx vertex r ncols row
      else
        let ncols := (ncols + 1)%Z in
        do row <- (if (ncols <=? zlen row)%Z then do _ <- get row (ncols - 1); Ok (set_at row (ncols - 1) ((ix + iy * nx)%Z, Rabs val)) else Ok row);
        integration_loop nx vertex r ncols row
  end.
Definition bounds (vertex : list pt) : roi :=
  ((round_htpi (minval (map fst vertex)), round_htmi (maxval (map fst vertex))),
   (round_htpi (minval (map snd vertex)), round_htmi (maxval (map snd vertex)))).
Definition integration_row (nx ny : Z) (vertex : list pt) (row : list (Z * R)) : res (Z * list (Z * R)) :=
  do nr <- integration_loop nx vertex (roi_pixels (bounds vertex) nx ny) 0 row;
  let n := Z.to_nat (fst nr) in
  Ok (fst nr, firstn n (snd nr) ++ map (fun _ => ((-1)%Z, 0)) (skipn n (snd nr))).
Definition is_outside (nx ny : Z) (r : roi) : bool :=
  ((fst (fst r) <? 0) || (nx <=? snd (fst r)) || (fst (snd r) <? 0) || (ny <=? snd (snd r)))%Z.
(** All polygons: min_ncolmax, out and the matrix; [out] is what the argument contained. *)
Fixpoint integration_rows (nx ny : Z) (vertices : list (list pt)) (matrix : list (list (Z * R))) (min_ncolmax : Z) (out : bool) : res (Z * bool * list (list (Z * R))) :=
  match vertices, matrix with
  | v :: vs, row :: rows =>
      let out := if is_outside nx ny (bounds v) then true else out in
      do nr <- integration_row nx ny v row;
      do rest <- integration_rows nx ny vs rows (Z.max min_ncolmax (fst nr)) out;
      let '(mn, out, rows) := rest in Ok (mn, out, snd nr :: rows)
  | _, _ => Ok (min_ncolmax, out, [])
  end.
Definition matrix_polygon_integration (nx ny : Z) (vertices : list (list pt)) (matrix : list (list (Z * R))) (out : bool) := integration_rows nx ny vertices matrix 0 out.

(** SceneGrid.get_integration_operator, scenes.py 180-261: [removed]: some element of the
    scene is removed; [garbage k]: what the allocated matrix contains at the kth call;
    [flag k]: what the argument out contains. *)
Fixpoint integration_operator (fuel : nat) (removed : bool) (nx ny : Z) (polygons : list (list pt)) (ncolmax : Z)
    (garbage : nat -> nat -> nat -> Z * R) (flag : nat -> bool) : res (list (list (Z * R)) * Z * bool) :=
  match fuel with
  | O => Err RuntimeError (* does not end *)
  | S fuel =>
      if removed then Err NotImplementedError
      else if (ncolmax <? 0)%Z then Err ValueError (* negative dimension *)
      else
        let matrix := map (fun i => map (garbage fuel i) (seq 0 (Z.to_nat ncolmax))) (seq 0 (length polygons)) in
        do r <- matrix_polygon_integration nx ny polygons matrix (flag fuel);
        let '(min_ncolmax, outside, matrix) := r in
        if (ncolmax <? min_ncolmax)%Z then integration_operator fuel removed nx ny polygons min_ncolmax garbage flag
        else Ok (matrix, min_ncolmax, outside)
  end.

(** surface_simple_polygon, geometry.f90 167-186. *)
Fixpoint surface_loop (j : pt) (xy : list pt) (out : R) : R :=
  match xy with [] => out | i :: r => surface_loop i r (out + fst j * snd i - snd j * fst i) end.
Definition surface_simple_polygon (xy : list pt) : R := / 2 * surface_loop (last xy (0, 0)) xy 0.

(** rotate_2d and rotate_2d_inplace, 117-161; angles in degrees. *)
Definition DEG2RAD : R := PI / 180.
Definition rotate_2d (angle : R) (xy : list pt) : list pt :=
  map (fun v => (cos (angle * DEG2RAD) * fst v - sin (angle * DEG2RAD) * snd v, sin (angle * DEG2RAD) * fst v + cos (angle * DEG2RAD) * snd v)) xy.
Definition rotate_2d_inplace (angle : R) (xy : list pt) : list pt :=
  map (fun v => let tmp := fst v in
                let x1 := cos (angle * DEG2RAD) * fst v - sin (angle * DEG2RAD) * snd v in
                let x2 := sin (angle * DEG2RAD) * tmp + cos (angle * DEG2RAD) * snd v in (x1, x2)) xy.
(** rotate, geometry.py 288-328: the product with the transposed matrix otherwise. *)
Definition rotate_dot (angle : R) (xy : list pt) : list pt :=
  let angle := angle * DEG2RAD in
  let '((m11, m12), (m21, m22)) := ((cos angle, - sin angle), (sin angle, cos angle)) in
  map (fun v => (fst v * m11 + snd v * m12, fst v * m21 + snd v * m22)) xy.
Definition rotate (double contiguous alias : bool) (angle : R) (xy : list pt) : list pt :=
  if double && contiguous then (if alias then rotate_2d_inplace angle xy else rotate_2d angle xy)
  else rotate_dot angle xy.

(** create_rectangle, geometry.py 159-189, and create_square, 226-254: [rot] is the call
    of rotate. *)
Definition corners (sx sy : R) : list pt := [(/ 2 * sx, / 2 * sy); (- / 2 * sx, / 2 * sy); (- / 2 * sx, - / 2 * sy); (/ 2 * sx, - / 2 * sy)].
Definition translate (c : pt) (xy : list pt) : list pt := map (fun v => (fst v + fst c, snd v + snd c)) xy.
Definition create_rectangle (double contiguous : bool) (sx sy : R) (center : pt) (angle : R) : list pt :=
  let out := corners sx sy in
  let out := if eqb angle 0 then out else rotate double contiguous true angle out in
  translate center out.
Definition create_square (double contiguous : bool) (s : R) := create_rectangle double contiguous s s.

(** create_regular_polygon, 192-223. *)
Definition create_regular_polygon (n : nat) (radius : R) (center : pt) (angle : R) : list pt :=
  let pi := 4 * atan 1 in
  map (fun k => let a := 2 * pi / INR n * INR k + angle * DEG2RAD in (radius * cos a + fst center, radius * sin a + snd center)) (seq 0 n).

(** create_grid, geometry.f90 12-52: coords(:,i,j), i and j from 1. *)
Definition grid_matrix (xr yr : bool) (angle : R) : (R * R) * (R * R) :=
  let r11 := cos (DEG2RAD * angle) in let r21 := sin (DEG2RAD * angle) in
  let r12 := - r21 in let r22 := r11 in
  let '(r11, r21) := if xr then (- r11, - r21) else (r11, r21) in
  let '(r12, r22) := if yr then (- r12, - r22) else (r12, r22) in
  ((r11, r12), (r21, r22)).
Definition create_grid (m n : Z) (spacing : R) (xr yr : bool) (angle : R) (center : pt) (i j : Z) : pt :=
  let '((r11, r12), (r21, r22)) := grid_matrix xr (negb yr) angle in
  let x0 := - / 2 * IZR (n + 1) in let y0 := - / 2 * IZR (m + 1) in
  let y := (y0 + IZR j) * spacing in let x := (x0 + IZR i) * spacing in
  (fst center + r11 * x + r12 * y, snd center + r21 * x + r22 * y).
(** create_grid_squares, 58-111: coords(:,:,i,j). *)
Definition create_grid_squares (m n : Z) (spacing filling_factor : R) (xr yr : bool) (angle : R) (center : pt) (i j : Z) : list pt :=
  let size_eff := spacing * sqrt filling_factor in
  let '((r11, r12), (r21, r22)) := grid_matrix xr yr angle in
  let x0 := - / 2 * (IZR (n + 1) * spacing + size_eff) in
  let y0 := / 2 * (IZR (m + 1) * spacing - size_eff) in
  let y := y0 - spacing * IZR j in let x := x0 + spacing * IZR i in
  map (fun c => (fst center + r11 * fst c + r12 * snd c, snd center + r21 * fst c + r22 * snd c))
    [(x + size_eff, y + size_eff); (x, y + size_eff); (x, y); (x + size_eff, y)].

(** segment_polygon, geometry.py 257-285. *)
Definition hypot (x y : R) : R := sqrt (x * x + y * y).
Definition segment_edge (max_distance : R) (v0 v1 : pt) : list pt :=
  let n := Z.to_nat (ceiling (hypot (fst v1 - fst v0) (snd v1 - snd v0) / max_distance)) in
  map (fun k => let alpha := INR k / INR n in
         ((1 - alpha) * fst v0 + alpha * fst v1, (1 - alpha) * snd v0 + alpha * snd v1)) (seq 0 n).
Fixpoint segment_loop (max_distance : R) (first : pt) (vertices : list pt) : list pt :=
  match vertices with
  | [] => []
  | [v] => segment_edge max_distance v first
  | v :: ((w :: _) as r) => segment_edge max_distance v w ++ segment_loop max_distance first r
  end.
Definition segment_polygon (vertices : list pt) (max_distance : R) : list pt :=
  match vertices with [] => [] | v :: _ => segment_loop max_distance v vertices end.
