(** Specification of the rows of rounded areas. *)
From Coq Require Import Reals List ZArith.
From Verif Require Import GeoSpec RndSpec.
Import ListNotations.
Open Scope R_scope.

(** What a row stores for a pixel. *)
Definition stored_for (row : list (Z * R)) (k : Z) : R := rsum (map snd (filter (fun e => Z.eqb (fst e) k) row)).
(** Signed area of the polygon inside of the pixel (ix, iy), exact. *)
Definition pixel_area (xy : list (R * R)) (ix iy : Z) : R := rsum (map (under (IZR ix - / 2) (IZR iy - / 2)) (edges xy)).
(** For a polygon of n vertices that are not further than M from the lower left corner of the
    pixel, in both directions. *)
Definition pixel_error (prec : Z) (n : nat) (M : R) : R := INR n * unit_of prec * (4 * INR n + 370 * (M * M)).
(** For a polygon of n vertices, whose coordinates are at most C and differ by D at most. *)
Definition row_error (prec : Z) (n : nat) (C D : R) : R := INR n * unit_of prec * (4 * INR n + 370 * ((D + 3 / 2) * (D + 3 / 2)) + 4 * C + 2).
