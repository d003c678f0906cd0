(** Specification: rotated points, in degrees, and points of integers. *)
From Coq Require Import Reals ZArith.
Local Open Scope R_scope.
Definition turned (angle : R) (v : Z * Z) : R * R :=
  let a := PI * angle / 180 in (IZR (fst v) * cos a - IZR (snd v) * sin a, IZR (fst v) * sin a + IZR (snd v) * cos a).
Definition real_point (v : Z * Z) : R * R := (IZR (fst v), IZR (snd v)).
Definition right_angles (angle : R) : Prop := exists k : Z, angle = 90 * IZR k.
