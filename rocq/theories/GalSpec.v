(** Matrices of three rows; directions given by two angles. *)
From Coq Require Import Reals.
From Verif Require Import SkySpec GalModel.
Open Scope R_scope.
Notation v3 := (R * R * R)%type.
Definition near (eps : R) (u v : v3) : Prop :=
  Rabs (fst (fst u) - fst (fst v)) <= eps /\ Rabs (snd (fst u) - snd (fst v)) <= eps /\ Rabs (snd u - snd v) <= eps.
Definition combination (x : v3) (a b c : v3) : v3 :=
  (fst (fst x) * fst (fst a) + snd (fst x) * fst (fst b) + snd x * fst (fst c),
   fst (fst x) * snd (fst a) + snd (fst x) * snd (fst b) + snd x * snd (fst c),
   fst (fst x) * snd a + snd (fst x) * snd b + snd x * snd c).
(** The rows of a product are combinations of the rows of the second matrix. *)
Definition product (m n : v3 * v3 * v3) : v3 * v3 * v3 :=
  let '(a, b, c) := n in (combination (fst (fst m)) a b c, combination (snd (fst m)) a b c, combination (snd m) a b c).
Definition upper (m : v3 * v3 * v3) : Prop := let '((_, _, _), (d, _, _), (g, h, _)) := m in d = 0 /\ g = 0 /\ h = 0.
(** The mixed product of three vectors: 1 for an orthonormal basis that is direct. *)
Definition mixed (a b c : v3) : R :=
  let '(a0, a1, a2) := a in let '(b0, b1, b2) := b in let '(c0, c1, c2) := c in
  a0 * (b1 * c2 - b2 * c1) + a1 * (b2 * c0 - b0 * c2) + a2 * (b0 * c1 - b1 * c0).
(** The direction of two angles, in a convention and a unit. *)
Definition to_degrees (degrees : bool) (x : R) : R := if degrees then x else x * 180 / PI.
Definition towards (c : angles) (degrees : bool) (p : R * R) : v3 :=
  let a := to_degrees degrees (fst p) in let b := to_degrees degrees (snd p) in
  match c with
  | Zenith_azimuth => direction b (90 - a)
  | Azimuth_zenith => direction a (90 - b)
  | Elevation_azimuth => direction b a
  | Azimuth_elevation => direction a b
  end.
(** The elevation, in degrees. *)
Definition elevation (c : angles) (degrees : bool) (p : R * R) : R :=
  match c with
  | Zenith_azimuth => 90 - to_degrees degrees (fst p)
  | Azimuth_zenith => 90 - to_degrees degrees (snd p)
  | Elevation_azimuth => to_degrees degrees (fst p)
  | Azimuth_elevation => to_degrees degrees (snd p)
  end.
