(** C96: geometry.py 20-64 (convex_hull, create_circle) and beams.py 71-82 (BeamUniformHalfSpace), with exact real numbers.

    The indices of the points of the hull are those of scipy's Delaunay triangulation, a parameter, in the order of a set.
    np.argsort is an insertion sort: two keys are never equal (C96_hull). *)
From Coq Require Import Reals.
From Verif Require Import Base SkyModel WcsModel GeoModel.
Open Scope R_scope.

(** arctan2 of 37-38. *)
Definition arctan2 (v : pt) : R := modulo (atan2 (snd v) (fst v) + 2 * PI) (2 * PI).
Definition sum_by (f : pt -> R) (l : list pt) : R := fold_right (fun p s => f p + s) 0 l.
Definition mean (l : list pt) : pt := (sum_by fst l / INR (length l), sum_by snd l / INR (length l)).
Definition vec (m p : pt) : pt := (fst p - fst m, snd p - snd m).
Fixpoint insert_by (key : pt -> R) (p : pt) (l : list pt) : list pt :=
  match l with [] => [p] | q :: r => if Rle_dec (key p) (key q) then p :: l else q :: insert_by key p r end.
Definition sort_by (key : pt -> R) (l : list pt) : list pt := fold_right (insert_by key) [] l.
(** points.reshape((-1, 2)) *)
Fixpoint pairs (l : list R) : list pt := match l with x :: y :: r => (x, y) :: pairs r | _ => [] end.
Definition sort_hull (hull : list pt) : list pt := let m := mean hull in sort_by (fun p => arctan2 (vec m p)) hull.
Section Hull.
(** list(set(Delaunay(points).convex_hull.ravel())); an error for less than three points, or aligned ones. *)
Variable delaunay_hull : list pt -> res (list nat).
(** points: shape and values. *)
Definition convex_hull (shape : list nat) (values : list R) : res (list pt) :=
  let shape := match shape with [] => [1%nat] | _ => shape end in
  if negb (Nat.eqb (last shape 0%nat) 2) then Err ValueError
  else
    let points := pairs values in
    do ihull <- delaunay_hull points;
    Ok (sort_hull (map (fun i => nth i points (0, 0)) ihull)).
End Hull.

(** create_circle, 46-64: no out, any number of vertices; the default is 72. *)
Definition create_circle (radius : R) (center : pt) (n : nat) : list pt := create_regular_polygon n radius center 0.

(** BeamUniformHalfSpace: solid angle, 77-78; value, 80-82. *)
Definition uniform_solid_angle : R := 2 * PI.
Definition uniform_value (theta phi : R) : R := 1.
