(** C43: celestial frames. *)
From Coq Require Import Reals Lra String Lia.
From Verif Require Import Base SkyModel SkySpec SkyFacts.
Open Scope R_scope.

(** Angles are kept, and each operator undoes the other. *)
Theorem C43_orthogonal : forall jd latitude longitude u v,
  (exists u' v', equatorial2horizontal "NE" jd latitude longitude u = Ok u' /\ equatorial2horizontal "NE" jd latitude longitude v = Ok v' /\ scalar u' v' = scalar u v /\
                 horizontal2equatorial "NE" jd latitude longitude u' = Ok u) /\
  (exists u' v', horizontal2equatorial "NE" jd latitude longitude u = Ok u' /\ horizontal2equatorial "NE" jd latitude longitude v = Ok v' /\ scalar u' v' = scalar u v /\
                 equatorial2horizontal "NE" jd latitude longitude u' = Ok u).
Proof.
  intros jd lat lon u v. unfold equatorial2horizontal, horizontal2equatorial, equatorial_horizontal. cbn [String.eqb Ascii.eqb Bool.eqb negb bind].
  set (m := horizontal lat (gst2lst (jd2gst jd) lon)). assert (H : rows_ok m) by apply horizontal_rows.
  split; do 2 eexists; (split; [reflexivity|]); (split; [reflexivity|]); split.
  - now apply angles.
  - now rewrite apply_inverse_l.
  - apply angles. now apply rows_swap.
  - now rewrite apply_inverse.
Qed.
Print Assumptions C43_orthogonal.
(** The frame is that of the observer: the direction whose right ascension is the local
    sidereal time and whose declination is the latitude is the zenith; the celestial pole is
    in the north, at the elevation of the latitude; what rises six hours later on the equator
    is in the east, on the horizon. *)
Theorem C43_observer : forall jd latitude longitude, let lst := gst2lst (jd2gst jd) longitude in
  equatorial2horizontal "NE" jd latitude longitude (direction (15 * lst) latitude) = Ok (0, 0, 1) /\
  equatorial2horizontal "NE" jd latitude longitude (0, 0, 1) = Ok (direction 0 latitude) /\
  equatorial2horizontal "NE" jd latitude longitude (direction (15 * (lst + 6)) 0) = Ok (direction 90 0).
Proof.
  intros jd lat lon. cbv zeta. unfold equatorial2horizontal, equatorial_horizontal. cbn [String.eqb Ascii.eqb Bool.eqb negb bind]. set (lst := gst2lst (jd2gst jd) lon).
  unfold horizontal, direction, radians. cbn [apply_mat dot3].
  replace (lat * PI / 180) with (lat * (PI / 180)) by field. replace (15 * lst * PI / 180) with (lst * 15 * (PI / 180)) by field.
  replace (15 * (lst + 6) * PI / 180) with (lst * 15 * (PI / 180) + PI / 2) by field. replace (90 * PI / 180) with (PI / 2) by field. replace (0 * PI / 180) with 0 by field.
  set (s := sin (lat * (PI / 180))). set (c := cos (lat * (PI / 180))). set (s' := sin (lst * 15 * (PI / 180))). set (c' := cos (lst * 15 * (PI / 180))).
  assert (A : s * s + c * c = 1) by apply trig. assert (B : s' * s' + c' * c' = 1) by apply trig.
  rewrite cos_plus, sin_plus, cos_PI2, sin_PI2, cos_0, sin_0. fold s' c'.
  split; [|split]; apply f_equal; repeat apply (f_equal2 pair); try ring.
  - transitivity (s * c * (1 - (s' * s' + c' * c'))); [ring | rewrite B; ring].
  - transitivity (c * c * (s' * s' + c' * c') + s * s); [ring | rewrite B; lra].
  - transitivity (s' * s' + c' * c'); [ring | rewrite B; ring].
Qed.
Print Assumptions C43_observer.
(** Sidereal times stay in one day; 15 degrees of longitude are one hour; inside of a day
    of universal time the sidereal time advances by 1.002737909 hours an hour. *)
Theorem C43_sidereal : forall jd longitude,
  0 <= jd2gst jd < 24 /\ 0 <= gst2lst (jd2gst jd) longitude < 24 /\
  (exists k : Z, gst2lst (jd2gst jd) longitude = jd2gst jd + longitude / 15 + 24 * IZR k) /\
  (forall k : Z, gst2lst (jd2gst jd) (longitude + 360 * IZR k) = gst2lst (jd2gst jd) longitude) /\
  (forall h d, (IZR d - / 2 <= jd < IZR d + / 2) -> IZR d - / 2 <= jd + h / 24 < IZR d + / 2 ->
     exists k : Z, jd2gst (jd + h / 24) = jd2gst jd + 1002737909 / 1000000000 * h + 24 * IZR k).
Proof.
  intros jd lon. split; [apply modulo_bounds; lra|]. split; [apply modulo_bounds; lra|]. split; [apply modulo_equiv|]. split.
  - intros k. unfold gst2lst at 1. destruct (modulo_equiv (jd2gst jd + lon / 15) 24) as [j E]. apply (modulo_unique _ _ _ (k - j)); [lra | apply modulo_bounds; lra|].
    unfold gst2lst. rewrite E, minus_IZR. field.
  - intros h d H H'. assert (F : forall x, IZR d - / 2 <= x < IZR d + / 2 -> npfloor (x - / 2) = IZR d - 1).
    { intros x Hx. unfold npfloor, Int_part. rewrite <- (tech_up (x - / 2) d) by lra. now rewrite minus_IZR. }
    unfold jd2gst. rewrite !F by assumption. cbv zeta.
    match goal with |- exists k, modulo (modulo ?x 24 + ?y) 24 = modulo (modulo ?x 24 + ?z) 24 + _ + _ =>
      set (T0 := modulo x 24); destruct (modulo_equiv (T0 + y) 24) as [k E]; destruct (modulo_equiv (T0 + z) 24) as [k' E'] end.
    rewrite E, E'. exists (k - k')%Z. rewrite minus_IZR. field.
Qed.
Print Assumptions C43_sidereal.
(** At midnight (universal time) of every day, the sidereal time of Greenwich in hours is the polynomial of the centuries since
    the first of January 2000 at noon. *)
Theorem C43_midnight : forall (day : Z) c, c = (IZR day - / 2 - 2451545) / 36525 ->
  exists k : Z, jd2gst (IZR day - / 2) = 6697374558 / 1000000000 + 2400051336 / 1000000 * c + 25862 / 1000000000 * (c * c) + 24 * IZR k.
Proof.
  intros day c C. unfold jd2gst. replace (npfloor (IZR day - / 2 - / 2) + / 2) with (IZR day - / 2).
  2:{ unfold npfloor. replace (IZR day - / 2 - / 2) with (IZR (day - 1)) by (rewrite minus_IZR; lra). replace (Int_part (IZR (day - 1))) with (day - 1)%Z; [rewrite minus_IZR; lra|].
      destruct (base_Int_part (IZR (day - 1))) as [H1 H2]. apply le_IZR in H1. rewrite <- minus_IZR in H2. replace (-1) with (IZR (-1)) in H2 by reflexivity. apply Rgt_lt, lt_IZR in H2. lia. }
  rewrite <- C. replace ((IZR day - / 2 - (IZR day - / 2)) * 24) with 0 by ring. cbv zeta. rewrite Rmult_0_l, Rplus_0_r.
  set (t := _ + 25862 / 1000000000 * (c * c)). destruct (modulo_equiv t 24) as [a A]. destruct (modulo_equiv (modulo t 24) 24) as [b B]. exists (a + b)%Z. rewrite B, A, plus_IZR. ring.
Qed.
Print Assumptions C43_midnight.
Example C43_midnight_case : (IZR 2451545 - / 2 - 2451545) / 36525 = - / 73050.
Proof. field. Qed.
(** J2000: noon of 2000 January 1 at Greenwich. *)
Example C43_example : IZR 2451545 - / 2 <= 2451545 < IZR 2451545 + / 2 /\ exists k : Z, jd2gst 2451545 = 6697374558 / 1000000000 + 2400051336 / 1000000 * (- / 2 / 36525) + 25862 / 1000000000 * ((/ 2 / 36525) * (/ 2 / 36525)) + 12 * (1002737909 / 1000000000) + 24 * IZR k.
Proof.
  split; [lra|]. unfold jd2gst. assert (npfloor (2451545 - / 2) = 2451544) as -> by (unfold npfloor, Int_part; rewrite <- (tech_up (2451545 - / 2) 2451545) by lra; reflexivity).
  match goal with |- exists k, modulo (modulo ?x 24 + ?y) 24 = _ => destruct (modulo_equiv (modulo x 24 + y) 24) as [k E]; destruct (modulo_equiv x 24) as [k' E'] end.
  exists (k + k')%Z. rewrite E, E', plus_IZR. field.
Qed.
(** Galactic coordinates, for any orthogonal matrix. *)
Theorem C43_galactic : forall g2e u v, rows_ok g2e ->
  scalar (equatorial2galactic g2e u) (equatorial2galactic g2e v) = scalar u v /\ scalar (galactic2equatorial g2e u) (galactic2equatorial g2e v) = scalar u v /\
  galactic2equatorial g2e (equatorial2galactic g2e u) = u /\ equatorial2galactic g2e (galactic2equatorial g2e u) = u /\
  scalar (equatorial2galactic g2e u) v = scalar u (galactic2equatorial g2e v).
Proof.
  intros m u v H. unfold equatorial2galactic, galactic2equatorial. split; [apply angles; now apply rows_swap|]. split; [now apply angles|]. split; [now apply apply_inverse|]. split; [now apply apply_inverse_l|].
  rewrite adjoint3, swap_swap. reflexivity.
Qed.
Print Assumptions C43_galactic.
Example C43_galactic_example : rows_ok ((0, 1, 0), (-1, 0, 0), (0, 0, 1)).
Proof. unfold rows_ok, orthonormal, scalar; cbn. repeat split; ring. Qed.
(** Other conventions are refused. *)
Theorem C43_convention : forall convention jd latitude longitude v, convention <> "NE"%string ->
  equatorial2horizontal convention jd latitude longitude v = Err ValueError /\ horizontal2equatorial convention jd latitude longitude v = Err ValueError.
Proof. intros c jd lat lon v H. apply String.eqb_neq in H. unfold equatorial2horizontal, horizontal2equatorial, equatorial_horizontal. now rewrite H. Qed.
Print Assumptions C43_convention.
