(** Specification of the pixels covered by a detector, with areas of a given precision. *)
From Coq Require Import Reals List ZArith.
From Verif Require Import PmSpec GeoSpec RndSpec SkySpec WcsSpec.
Import ListNotations.
Open Scope R_scope.

(** The nearest of the numbers of a precision (one of the two, between two of them). *)
Definition nearest_to (emin prec : Z) (x y : R) : Prop := representable emin prec y /\ forall z, representable emin prec z -> Rabs (y - x) <= Rabs (z - x).
(** The pixels of the map in their order, with the areas that the polygon has over them, rounded to single precision; those
    whose area rounds to zero are not listed. *)
Definition lists_pixels (nx ny : nat) (xy : list (R * R)) (l : list (Z * R)) : Prop :=
  exists area : nat * nat -> R, (forall p, nearest_to (-149) 24 (Rabs (overlap xy (fst p) (snd p))) (area p)) /\
  l = map (fun p => (Z.of_nat (fst p + snd p * nx), area p)) (filter (fun p => if Req_EM_T (area p) 0 then false else true) (map_pixels nx ny)).
(** The direction of a vertex at the offset (u, v) in arc seconds, seen from the boresight. *)
Definition vertex_direction (ra dec pa u v : R) (w : R * R * R) : Prop :=
  exists ra' dec', let t := pa * PI / 180 in
  dec' = dec + (v * cos t - u * sin t) / 3600 /\ ra' = ra + (u * cos t + v * sin t) / 3600 / cos (dec' * PI / 180) /\ w = direction ra' dec'.
(** Directions in front of the plane that is tangent at (ra, dec). *)
Definition in_front (crval : R * R) (w : R * R * R) : Prop := 0 < scalar (centre (fst crval) (snd crval)) w.
(** The polygon xy, in pixels counted from zero, is where the vertices of a detector are seen. *)
Definition projection (cd : (R * R) * (R * R)) (crpix crval : R * R) (ra dec pa : R) (vertices xy : list (R * R)) : Prop :=
  Forall2 (fun c q => forall w, vertex_direction ra dec pa (fst c) (snd c) w -> in_front crval w -> seen cd crpix crval (fst q + 1) (snd q + 1) w) vertices xy.
