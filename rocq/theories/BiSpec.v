(** Polarised light seen in two frames, independently of the program. *)
From Coq Require Import Reals List.
From Verif Require Import SkyModel.
Import ListNotations.
Open Scope R_scope.

(** A direction of colatitude [t] and longitude [f], and the unit vectors towards the south
    and the east there. *)
Definition direction (t f : R) : vec := (sin t * cos f, sin t * sin f, cos t).
Definition south (t f : R) : vec := (cos t * cos f, cos t * sin f, - sin t).
Definition east (t f : R) : vec := (- sin f, cos f, 0).
Definition comb (a : R) (u : vec) (b : R) (v : vec) : vec :=
  let '(x, y, z) := u in let '(x', y', z') := v in (a * x + b * x', a * y + b * y', a * z + b * z').
(** A rotation: columns of length one, orthogonal, of determinant one. *)
Definition det3 (m : mat) : R :=
  let '((a, b, c), (d, e, f), (g, h, i)) := m in
  a * (e * i - f * h) - b * (d * i - f * g) + c * (d * h - e * g).
Definition rotation (m : mat) : Prop :=
  (forall u v, dot3 (apply_mat m u) (apply_mat m v) = dot3 u v) /\ det3 m = 1.
(** The Stokes parameters of a field of components [a] to the south and [b] to the east,
    position angles being counted from the north to the east. *)
Definition stokes (a b : R) : R * R * R := (a ^ 2 + b ^ 2, a ^ 2 - b ^ 2, - (2 * a * b)).
(** What an element of the two kinds of matrices does. *)
Definition apply2d (e : R * R) (q u : R) : R * R := let '(r11, r21) := e in (r11 * q - r21 * u, r21 * q + r11 * u).
