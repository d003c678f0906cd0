(** Pixels of detectors with rounded operations: object2xy_minmax (wcsutils.f90 249-260) applies object2ad (RboModel), then ad2xy_gnomonic
    (RgnModel) to each detector for each pointing, and keeps the least and the greatest coordinates, which is not rounded.

    Simplifications: as those of RboModel and RgnModel; the result is [None] as soon as one of the positions is not finite. *)
From Coq Require Import ZArith Reals.
From Verif Require Import Base ConstModel WcsModel RndModel RgnModel RboModel.
Open Scope R_scope.

Section Pixels.
Variables (emin prec : Z) (sn cs : R -> R) (deg rad : R).
(** 251-252; [inv] and [crpix] are those of init_rotation. *)
Definition object2xy_r (crval : R * R) (inv : R * R * (R * R)) (crpix : R * R) (p : R * R * R) (x : R * R) : option (R * R) :=
  let '(ra, dec, pa) := p in
  match object2ad_r emin prec sn cs deg ra dec pa x with
  | None => None
  | Some (a, d) => ad2xy_r emin prec sn cs deg rad crval inv crpix a d
  end.
(** 241-260 *)
Fixpoint minmax_r (l : list (option (R * R))) (s : (num * num) * (num * num)) : option ((num * num) * (num * num)) :=
  match l with [] => Some s | None :: _ => None | Some p :: l => minmax_r l (xy_step s p) end.
Definition object2xy_minmax_r (crval : R * R) (inv : R * R * (R * R)) (crpix : R * R) (coords : list (R * R)) (pointings : list (R * R * R)) : option ((num * num) * (num * num)) :=
  minmax_r (flat_map (fun p => map (object2xy_r crval inv crpix p) coords) pointings) ((Inf false, Inf true), (Inf false, Inf true)).
End Pixels.
