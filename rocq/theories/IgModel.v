(** geometry.py with integer coordinates: rotate 288-328, create_rectangle and create_square 159-254,
    create_regular_polygon 192-223.

    The matrix of the rotation, the half sizes and the vertices are converted to integers, towards
    zero.  Real numbers otherwise; overflows of integers are not modelled. *)
From Coq Require Import Reals List ZArith.
From Verif Require Import Base GeoModel DataModel.
Import ListNotations.
Local Open Scope R_scope.

Notation ipt := (Z * Z)%type.
(** 319-328: np.asarray(matrix, coords.dtype), then the product with its transpose. *)
Definition rotate_int (angle : R) (xy : list ipt) : list ipt :=
  let angle := angle * DEG2RAD in
  let '((m11, m12), (m21, m22)) := ((trunc (cos angle), trunc (- sin angle)), (trunc (sin angle), trunc (cos angle))) in
  map (fun v => (fst v * m11 + snd v * m12, fst v * m21 + snd v * m22)%Z) xy.
(** 178-189: dtype=int; the size and the center are integers. *)
Definition corners_int (sx sy : Z) : list ipt :=
  map (fun c => (trunc (fst c) * sx, trunc (snd c) * sy)%Z) [(/ 2, / 2); (- / 2, / 2); (- / 2, - / 2); (/ 2, - / 2)].
Definition rectangle_int (sx sy : Z) (center : ipt) (angle : R) : list ipt :=
  let out := corners_int sx sy in
  let out := if eqb angle 0 then out else rotate_int angle out in
  map (fun v => (fst v + fst center, snd v + snd center)%Z) out.
(** 213-223: dtype=int. *)
Definition polygon_int (n : nat) (radius : Z) (center : ipt) (angle : R) : list ipt :=
  let pi := 4 * atan 1 in
  map (fun k => let a := 2 * pi / INR n * INR k + angle * DEG2RAD in
                (trunc (IZR radius * cos a + IZR (fst center)), trunc (IZR radius * sin a + IZR (snd center)))) (seq 0 n).
