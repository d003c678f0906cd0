(** Barycentres of positions in the sky with rounded operations: barycenter_lonlat (wcsutils.f90 38-72).

    Every operation is rounded to nearest, in the order of the source.  The positions are given by thread, as in RmdModel, and so are the
    partial sums.  [sn], [cs], [at2] (arguments y, x), [ac] are the functions of the library, [deg] and [rad] the stored constants, modulo that of
    RmdModel.  [None]: NaN, among the positions and in the result (the latitude of 0 / 0, or of the arccosine of a number above one).
    Simplifications: at least one position; no overflow; no fused operations; no signed zeros. *)
From Coq Require Import ZArith Reals List Bool.
From Verif Require Import Base WcsModel RndModel RmdModel.
Import ListNotations.
Open Scope R_scope.

Section Bary.
Variables (emin prec : Z) (sn cs ac : R -> R) (at2 : R -> R -> R) (deg rad : R).
Notation rn := (rndp emin prec).
(** 58-64 *)
Definition bary_step_r (s : R * R * R) (p : option R * option R) : R * R * R :=
  match p with
  | (Some lon, Some lat) =>
      let '(x, y, z) := s in
      let phi := rn (lon * deg) in let cotheta := rn (lat * deg) in
      let cocotheta := cs cotheta in
      (rn (x + rn (cocotheta * cs phi)), rn (y + rn (cocotheta * sn phi)), rn (z + sn cotheta))
  | _ => s
  end.
(** 56, 66 *)
Definition add3_r (s t : R * R * R) : R * R * R :=
  let '(x, y, z) := s in let '(x', y', z') := t in (rn (x + x'), rn (y + y'), rn (z + z')).
(** 53-66 *)
Definition bary_loop_r (threads : list (list (option R * option R))) : R * R * R :=
  fold_left (fun s l => add3_r s (fold_left bary_step_r l (0, 0, 0))) threads (0, 0, 0).
(** 68 *)
Definition lon_r (x y : R) : R := modulo_r emin prec (rn (rn (at2 y x * rad) + 360)).
(** 69-70 *)
Definition lat_r (x y z : R) : option R :=
  let h := rn (rn (x * x) + rn (y * y)) in
  let n := rn (h + rn (z * z)) in
  if Req_EM_T n 0 then None
  else let c := rn (sqrt (rn (h / n))) in
       if Rle_dec (Rabs c) 1 then Some (fsign (rn (ac c * rad)) z) else None.
Definition barycenter_r (threads : list (list (option R * option R))) : R * option R :=
  let '(x, y, z) := bary_loop_r threads in (lon_r x y, lat_r x y z).
End Bary.
