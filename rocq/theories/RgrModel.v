(** Surfaces, rotations and grids with rounded operations: src/flib/geometry.f90, create_grid
    (12-52), rotate_2d (117-136), rotate_2d_inplace (142-161) and surface_simple_polygon (167-186).

    Every operation is rounded to nearest, in the order of the source; [sn] and [cs] are the sine and
    cosine of the library, [deg] the stored constant DEG2RAD.  Simplifications: no overflow, no fused
    operations; the two rotations do the same operations. *)
From Coq Require Import ZArith Reals List.
From Verif Require Import Base RndModel.
Import ListNotations.
Open Scope R_scope.

Section Geometry.
Variables (emin prec : Z) (sn cs : R -> R) (deg : R).
Notation rn := (rndp emin prec).
Fixpoint surface_loop_r (j : R * R) (xy : list (R * R)) (out : R) : R :=
  match xy with [] => out | i :: r => surface_loop_r i r (rn (rn (out + rn (fst j * snd i)) - rn (snd j * fst i))) end.
Definition surface_r (xy : list (R * R)) : R := rn (/ 2 * surface_loop_r (last xy (0, 0)) xy 0).

Definition rotate_r (angle : R) (v : R * R) : R * R :=
  let sinangle := sn (rn (angle * deg)) in let cosangle := cs (rn (angle * deg)) in
  (rn (rn (cosangle * fst v) - rn (sinangle * snd v)), rn (rn (sinangle * fst v) + rn (cosangle * snd v))).

Definition grid_matrix_r (xr yr : bool) (angle : R) : (R * R) * (R * R) :=
  let r11 := cs (rn (deg * angle)) in let r21 := sn (rn (deg * angle)) in
  let r12 := - r21 in let r22 := r11 in
  let '(r11, r21) := if xr then (- r11, - r21) else (r11, r21) in
  let '(r12, r22) := if negb yr then (- r12, - r22) else (r12, r22) in
  ((r11, r12), (r21, r22)).
Definition grid_r (m n : Z) (spacing : R) (xr yr : bool) (angle : R) (center : R * R) (i j : Z) : R * R :=
  let '((r11, r12), (r21, r22)) := grid_matrix_r xr yr angle in
  let x0 := rn (- / 2 * IZR (n + 1)) in let y0 := rn (- / 2 * IZR (m + 1)) in
  let y := rn (rn (y0 + IZR j) * spacing) in let x := rn (rn (x0 + IZR i) * spacing) in
  (rn (rn (fst center + rn (r11 * x)) + rn (r12 * y)), rn (rn (snd center + rn (r21 * x)) + rn (r22 * y))).
End Geometry.
