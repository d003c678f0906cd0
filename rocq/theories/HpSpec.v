(** Independent descriptions for C87, C88 and C89. *)
From Coq Require Import Reals List ZArith Ascii String.
From Verif Require Import Base TemplateModel HpModel.
Open Scope R_scope.

(** The direction of colatitude theta and longitude phi in each convention. *)
Definition coords (c : convention) (d : R * R) : R * R :=
  match c with
  | ZenithAzimuth => d
  | AzimuthZenith => (snd d, fst d)
  | ElevationAzimuth => (PI / 2 - fst d, snd d)
  | AzimuthElevation => (snd d, PI / 2 - fst d)
  end.
Definition name (c : convention) : text :=
  lit match c with ZenithAzimuth => "zenith,azimuth" | AzimuthZenith => "azimuth,zenith" | ElevationAzimuth => "elevation,azimuth" | AzimuthElevation => "azimuth,elevation" end.
(** The text s is the text t, with blanks and capital letters. *)
Definition blank : ascii := " "%char.
Definition capital_of (c d : ascii) : Prop := (65 <= nat_of_ascii c <= 90)%nat /\ nat_of_ascii d = (nat_of_ascii c + 32)%nat.
Inductive written : text -> text -> Prop :=
| written_nil : written [] []
| written_blank s t : written s t -> written (blank :: s) t
| written_same c s t : c <> blank -> ~ (65 <= nat_of_ascii c <= 90)%nat -> written s t -> written (c :: s) (c :: t)
| written_capital c d s t : capital_of c d -> written s t -> written (c :: s) (d :: t).

(** A quadratic map around a pixel, with coordinates along the sides of the pixels. *)
Definition quadratic (a b c d e f x y : R) : R := a * (x * x) + b * (x * y) + c * (y * y) + d * x + e * y + f.
(** In a face: offsets, along the sides of the pixels, of the neighbours SW, W, NW, N, NE, E, SE, S. *)
Definition offsets : list (R * R) := [(-1, 0); (-1, 1); (0, 1); (1, 1); (1, 0); (1, -1); (0, -1); (-1, -1)].

(** Planck's law: power of the modes of a pixel at the temperature T. *)
Definition planck (h c k solid_angle nu T : R) : R := 2 * h * nu ^ 3 / c ^ 2 * / (exp (h * nu / (k * T)) - 1) * solid_angle.
