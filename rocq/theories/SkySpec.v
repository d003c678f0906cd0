(** Vectors of the sphere. *)
From Coq Require Import Reals.
Open Scope R_scope.
(** The direction of right ascension (or azimuth) and declination (or elevation), in degrees. *)
Definition direction (az el : R) : R * R * R :=
  (cos (el * PI / 180) * cos (az * PI / 180), cos (el * PI / 180) * sin (az * PI / 180), sin (el * PI / 180)).
Definition scalar (u v : R * R * R) : R := fst (fst u) * fst (fst v) + snd (fst u) * snd (fst v) + snd u * snd v.
(** The matrix whose columns are a, b and c is orthogonal. *)
Definition orthonormal (a b c : R * R * R) : Prop :=
  scalar a a = 1 /\ scalar b b = 1 /\ scalar c c = 1 /\ scalar a b = 0 /\ scalar a c = 0 /\ scalar b c = 0.
(** Likewise for a matrix given by its rows. *)
Definition rows_ok (m : (R * R * R) * (R * R * R) * (R * R * R)) : Prop := let '(a, b, c) := m in orthonormal a b c.
