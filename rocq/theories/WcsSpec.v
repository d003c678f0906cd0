(** Directions of the sphere, tangent planes and angles. *)
From Coq Require Import Reals List ZArith Permutation.
From Verif Require Import SkySpec.
Import ListNotations.
Open Scope R_scope.
(** Angles in degrees that differ by full turns. *)
Definition same_angle (a b : R) : Prop := exists k : Z, a = b + 360 * IZR k.
Definition scale3 (k : R) (v : R * R * R) : R * R * R := let '(a, b, c) := v in (k * a, k * b, k * c).
Definition add3 (u v : R * R * R) : R * R * R := let '(a, b, c) := u in let '(x, y, z) := v in (a + x, b + y, c + z).
Definition sum3 (l : list (R * R * R)) : R * R * R := fold_right add3 (0, 0, 0) l.
(** The plane that is tangent to the sphere at the direction (ra, dec): East and North. *)
Definition centre (ra dec : R) : R * R * R := direction ra dec.
Definition east (ra dec : R) : R * R * R := direction (ra + 90) 0.
Definition north (ra dec : R) : R * R * R := direction ra (dec + 90).
Definition tangent (ra dec xsi eta : R) : R * R * R := add3 (centre ra dec) (add3 (scale3 (xsi * PI / 180) (east ra dec)) (scale3 (eta * PI / 180) (north ra dec))).
(** FITS: the intermediate coordinates of a pixel, and the rays that it sees. *)
Definition intermediate (cd : (R * R) * (R * R)) (crpix : R * R) (x y : R) : R * R :=
  let '((cd11, cd12), (cd21, cd22)) := cd in
  (cd11 * (x - fst crpix) + cd12 * (y - snd crpix), cd21 * (x - fst crpix) + cd22 * (y - snd crpix)).
Definition seen (cd : (R * R) * (R * R)) (crpix crval : R * R) (x y : R) (w : R * R * R) : Prop :=
  exists k, 0 < k /\ let '(xsi, eta) := intermediate cd crpix x y in w = scale3 k (tangent (fst crval) (snd crval) xsi eta).
Definition determinant (cd : (R * R) * (R * R)) : R := let '((a, b), (c, d)) := cd in a * d - b * c.
(** The matrix of CDELT1, CDELT2 and CROTA2, in degrees (Calabretta and Greisen 2002). *)
Definition fits_matrix (cdelt1 cdelt2 crota2 : R) : (R * R) * (R * R) :=
  let r := crota2 * PI / 180 in ((cdelt1 * cos r, - cdelt2 * sin r), (cdelt1 * sin r, cdelt2 * cos r)).
(** A list of angles gathered in an arc of less than 90 degrees. *)
Definition gathered (a : R) (v : R) (u : R) : Prop := same_angle v u /\ a <= u < a + 90.
Definition total (l : list R) : R := fold_right Rplus 0 l.
Definition least (m : R) (l : list R) : Prop := In m l /\ forall x, In x l -> m <= x.
Definition greatest (m : R) (l : list R) : Prop := In m l /\ forall x, In x l -> x <= m.
Definition valids {A} (l : list (option A)) : list A := flat_map (fun v => match v with Some x => [x] | None => [] end) l.
