(** C65: FITS headers.  C66: gnomonic projection.  C67: angles.  C68: combined headers. *)
From Coq Require Import Reals Lra Lia Ascii String Permutation.
From Coquelicot Require Import Coquelicot.
From Verif Require Import Base BaseFacts ConstModel ConstProps SkyModel SkySpec SkyFacts WcsModel WcsSpec WcsFacts WcsFacts2 WcsFacts3 WcsFacts4 WcsFacts5.
Open Scope R_scope.

(** ** C65 *)
(** The shape of a header is that it was made for, whatever the other arguments. *)
Theorem C65_shape : forall naxes t e crval crpix cunit ctype cd cdelt pa rs eq h, create_fitsheader naxes t e crval crpix cunit ctype cd cdelt pa rs eq = Ok h ->
  fitsheader2shape h = Ok (rev naxes).
Proof.
  intros * H. apply create_cards in H. destruct H as [h0 [B [K _]]]. apply base_shape in B. destruct B as [_ [N [A _]]]. apply shape_of_header; [rewrite (K _ (or_introl eq_refl)); exact N | intros i Hi; rewrite K by (right; eauto); now apply A].
Qed.
Print Assumptions C65_shape.
Theorem C65_shape_for : forall shape t size e crval crpix ctype cunit cd cdelt pa rs eq h, shape <> [] -> create_fitsheader_for (Some (shape, t, size)) e crval crpix ctype cunit cd cdelt pa rs eq = Ok h ->
  fitsheader2shape h = Ok shape.
Proof. intros * N H. unfold create_fitsheader_for in H. apply C65_shape in H. rewrite H. destruct shape; [contradiction|]. now rewrite rev_involutive. Qed.
Print Assumptions C65_shape_for.
(** A scalar is written as one element. *)
Theorem C65_shape_scalar : forall t size e crval crpix ctype cunit cd cdelt pa rs eq h, create_fitsheader_for (Some ([], t, size)) e crval crpix ctype cunit cd cdelt pa rs eq = Ok h ->
  fitsheader2shape h = Ok [1%Z].
Proof. intros * H. unfold create_fitsheader_for in H. apply C65_shape in H. exact H. Qed.
Print Assumptions C65_shape_scalar.
(** A header has an astrometry if and only if a scale was given. *)
Theorem C65_has_wcs : forall naxes t e crval crpix cunit ctype cd cdelt pa rs eq h, create_fitsheader naxes t e crval crpix cunit ctype cd cdelt pa rs eq = Ok h -> length naxes = 2%nat ->
  has_wcs h = Ok (match cdelt with Some _ => true | None => false end).
Proof.
  intros * H L. apply create_cards in H. destruct H as [h0 [B [K C]]]. pose proof (base_shape _ _ _ _ B) as [_ [N [_ X]]]. unfold has_wcs, hint. rewrite (K _ (or_introl eq_refl)). rewrite N. cbn [bind]. unfold zlen. rewrite L. cbn [Z.of_nat Pos.of_succ_nat Z.leb Z.compare].
  change (Z.to_nat (Z.pos (Pos.succ 1))) with 2%nat. cbn [seq flat_map app forallb]. change (key "CRPIX" 1) with "CRPIX1"%string. change (key "CRVAL" 1) with "CRVAL1"%string. change (key "CTYPE" 1) with "CTYPE1"%string. change (key "CRPIX" 2) with "CRPIX2"%string. change (key "CRVAL" 2) with "CRVAL2"%string. change (key "CTYPE" 2) with "CTYPE2"%string.
  destruct C as [[_ [-> ->]] | (c & m & v1 & v2 & p1 & p2 & t1 & t2 & _ & -> & _ & _ & _ & _ & _ & _ & _ & _ & V1 & V2 & P1 & P2 & T1 & T2)].
  - unfold defined. destruct (X 1%nat) as [E _]. change (key "CRPIX" 1) with "CRPIX1"%string in E. rewrite E. reflexivity.
  - unfold defined. rewrite V1, V2, P1, P2, T1, T2. reflexivity.
Qed.
Print Assumptions C65_has_wcs.
(** The scales and the position angle that are read are those that were written; a negative
    second scale is read as the same matrix with opposite scales and half a turn. *)
Theorem C65_roundtrip : forall naxes t e crval crpix cunit ctype cd c1 c2 pa rs eq h, c1 <> 0 -> c2 <> 0 ->
  create_fitsheader naxes t e crval crpix cunit ctype cd (Some (Many [c1; c2])) (Some pa) rs eq = Ok h ->
  exists pa', get_cdelt_pa h = Ok (if Rlt_dec 0 c2 then (c1, c2, pa') else (- c1, - c2, pa')) /\ same_angle pa' (if Rlt_dec 0 c2 then pa else pa + 180) /\ -180 <= pa' < 180.
Proof.
  intros * H1 H2 H. apply create_cards in H. destruct H as [h0 [B [K C]]]. destruct C as [[_ [? _]] | (c & m & v1 & v2 & p1 & p2 & t1 & t2 & _ & Ec & M & _ & _ & _ & D1 & D2 & D3 & D4 & _)]; [discriminate|].
  injection Ec as <-. destruct (cd_of_cdelt_pa ctype c1 c2 pa m H1 H2 M) as [pa' [E S]]. exists pa'.
  assert (G : get_cdelt_pa h = cdelt_pa m).
  { unfold get_cdelt_pa, forallb, defined. unfold hnum in D1, D2, D3, D4 |- *. destruct (hget h "CD1_1"); [|discriminate]. destruct (hget h "CD1_2"); [|discriminate]. destruct (hget h "CD2_1"); [|discriminate]. destruct (hget h "CD2_2"); [|discriminate].
    cbn [andb]. rewrite D1, D2, D3, D4. destruct m as [[? ?] [? ?]]. reflexivity. }
  rewrite G. split; [exact E|]. split; [exact S|]. destruct (Rlt_dec 0 c2); apply cdelt_pa_row in E; tauto.
Qed.
Print Assumptions C65_roundtrip.
(** The scales and the angle that are read from a matrix describe it if and only if its rows
    are orthogonal. *)
Theorem C65_matrix : forall cd c1 c2 pa ctype, cdelt_pa cd = Ok (c1, c2, pa) ->
  (cd_of ctype (Many [c1; c2]) (Some pa) = Ok cd <-> fst (fst cd) * fst (snd cd) + snd (fst cd) * snd (snd cd) = 0).
Proof. exact (fun cd c1 c2 pa ctype => cdelt_pa_same cd c1 c2 pa ctype). Qed.
Print Assumptions C65_matrix.
(** One scale: that of the celestial axes increases to the left; CROTA2 is the opposite of the
    position angle as in the FITS standard. *)
Theorem C65_fits : forall c pa, cd_of (Some ["RA---TAN"; "DEC--TAN"]%string) (One c) (Some pa) = Ok (fits_matrix (- c) c (- pa)).
Proof.
  intros c pa. transitivity (cd_of None (Many [- c; c]) (Some pa)); [reflexivity|]. rewrite cd_of_ok. reflexivity.
Qed.
Print Assumptions C65_fits.
(** The other cards: those of extensions and those of the units, the reference point and the types of the axes, in their order. *)
Theorem C65_cards : forall naxes t e crval crpix cunit ctype cd cdelt pa rs eq h, create_fitsheader naxes t e crval crpix cunit ctype cd cdelt pa rs eq = Ok h ->
  match e with
  | Some name => hget h "XTENSION" = Some (HS "IMAGE") /\ hget h "PCOUNT" = Some (HI 0) /\ hget h "GCOUNT" = Some (HI 1) /\ hget h "EXTNAME" = Some (HS name) /\ hget h "SIMPLE" = None
  | None => hget h "SIMPLE" = Some (HB true) /\ hget h "EXTEND" = Some (HB true) /\ hget h "XTENSION" = None
  end /\
  (cdelt <> None -> exists v1 v2 p1 p2 t1 t2 u1 u2,
    crval = [v1; v2] /\ match crpix with Some l => l = [p1; p2] | None => exists n1 n2, naxes = [n1; n2] /\ p1 = (IZR n1 + 1) / 2 /\ p2 = (IZR n2 + 1) / 2 end /\ ctype = Some [t1; t2] /\ (cunit = One u1 /\ u2 = u1 \/ cunit = Many [u1; u2]) /\
    hget h "CRVAL1" = Some (HF v1) /\ hget h "CRVAL2" = Some (HF v2) /\ hget h "CRPIX1" = Some (HF p1) /\ hget h "CRPIX2" = Some (HF p2) /\
    hget h "CTYPE1" = Some (HS t1) /\ hget h "CTYPE2" = Some (HS t2) /\ hget h "CUNIT1" = Some (HS u1) /\ hget h "CUNIT2" = Some (HS u2)).
Proof.
  intros * H. unfold create_fitsheader in H. destruct (base_cards naxes t e) as [h0|] eqn:E0; [|discriminate]. cbn [bind] in H.
  assert (B : match e with
    | Some name => hget h0 "XTENSION" = Some (HS "IMAGE") /\ hget h0 "PCOUNT" = Some (HI 0) /\ hget h0 "GCOUNT" = Some (HI 1) /\ hget h0 "EXTNAME" = Some (HS name) /\ hget h0 "SIMPLE" = None
    | None => hget h0 "SIMPLE" = Some (HB true) /\ hget h0 "EXTEND" = Some (HB true) /\ hget h0 "XTENSION" = None end).
  { unfold base_cards in E0. destruct (8 <? zlen naxes)%Z eqn:L; [discriminate|]. destruct (dtype2bitpix t) as [b|]; [|discriminate]. cbn [bind] in E0. assert (L' : (length naxes <= 8)%nat) by (unfold zlen in L; lia). clear L H.
    destruct naxes as [|n1 [|n2 [|n3 [|n4 [|n5 [|n6 [|n7 [|n8 [|n9 naxes]]]]]]]]]; [..| cbn in L'; lia]; (destruct e as [e|]; injection E0 as <-; repeat split; reflexivity). }
  destruct cd as [cd|].
  { exfalso. destruct cdelt as [[c|l]|]; discriminate. }
  destruct cdelt as [c|].
  2:{ injection H as <-. split; [exact B|]. intros N. contradiction. }
  destruct (cd_of ctype c pa) as [m|] eqn:Em; [|discriminate]. cbn [bind] in H.
  destruct crval as [|v1 [|v2 [|? ?]]]; try discriminate. destruct (match crpix with Some l => l | None => _ end) as [|p1 [|p2 [|? ?]]] eqn:Ep; try discriminate. destruct ctype as [[|t1 [|t2 [|? ?]]]|]; try discriminate.
  destruct (match cunit with One u => Ok (u, u) | Many [u1; u2] => Ok (u1, u2) | Many _ => Err ValueError end) as [[u1 u2]|] eqn:Eu; [|discriminate]. cbn [bind] in H. injection H as <-.
  split.
  - destruct e as [e|]; destruct (_ && _)%bool; destruct eq; repeat (rewrite hget_hset_other by reflexivity); exact B.
  - intros _. exists v1, v2, p1, p2, t1, t2, u1, u2. split; [reflexivity|]. split.
    { destruct crpix as [l|]; [exact Ep|]. destruct naxes as [|n1 [|n2 [|? ?]]]; try discriminate. injection Ep as <- <-. eauto. }
    split; [reflexivity|]. split.
    { destruct cunit as [u|[|a [|b [|? ?]]]]; try discriminate; injection Eu as <- <-; auto. }
    cbn [fst snd]. destruct (_ && _)%bool; destruct eq; repeat split; repeat (rewrite hget_hset_other by reflexivity); rewrite hget_hset_same; reflexivity.
Qed.
Print Assumptions C65_cards.
(** The size of the numbers, the system of the coordinates in capitals when they are equatorial,
    and the equinox. *)
Definition capitals : list (ascii * ascii) := combine (list_ascii_of_string "abcdefghijklmnopqrstuvwxyz") (list_ascii_of_string "ABCDEFGHIJKLMNOPQRSTUVWXYZ").
Definition capital_of (c d : ascii) : Prop := In (c, d) capitals \/ (d = c /\ ~ In c (map fst capitals)).
Definition bits_of (name : string) (b : Z) : Prop :=
  In (name, b) [("int8", 8); ("uint8", 8); ("int16", 16); ("uint16", 16); ("int32", 32); ("uint32", 32); ("int64", 64); ("uint64", 64); ("float32", -32); ("float64", -64)]%string%Z.
Lemma upper_capitals s : Forall2 capital_of (list_ascii_of_string s) (list_ascii_of_string (upper s)).
Proof.
  induction s as [|c s IH]; cbn [upper list_ascii_of_string]; constructor; [|exact IH]. unfold capital_of.
  destruct c as [[|] [|] [|] [|] [|] [|] [|] [|]]; vm_compute; first [left; tauto | right; split; [reflexivity|intuition discriminate]].
Qed.
Theorem C65_system : forall naxes t e crval crpix cunit ctype cd cdelt pa rs eq h, create_fitsheader naxes t e crval crpix cunit ctype cd cdelt pa rs eq = Ok h ->
  (exists b, bits_of t b /\ hget h "BITPIX" = Some (HI b)) /\
  (cdelt <> None -> exists t1 t2, ctype = Some [t1; t2] /\
    (prefix "RA-" t1 = true /\ prefix "DEC" t2 = true -> exists s, hget h "RADESYS" = Some (HS s) /\ Forall2 capital_of (list_ascii_of_string rs) (list_ascii_of_string s)) /\
    (~ (prefix "RA-" t1 = true /\ prefix "DEC" t2 = true) -> hget h "RADESYS" = None) /\
    hget h "EQUINOX" = option_map HF eq).
Proof.
  intros * H. unfold create_fitsheader in H. destruct (base_cards naxes t e) as [h0|] eqn:E0; [|discriminate]. cbn [bind] in H.
  assert (B : (exists b, bits_of t b /\ hget h0 "BITPIX" = Some (HI b)) /\ hget h0 "RADESYS" = None /\ hget h0 "EQUINOX" = None).
  { unfold base_cards in E0. destruct (8 <? zlen naxes)%Z eqn:L; [discriminate|]. destruct (dtype2bitpix t) as [b|] eqn:Eb; [|discriminate]. cbn [bind] in E0. assert (L' : (length naxes <= 8)%nat) by (unfold zlen in L; lia). clear L H.
    assert (Hb : bits_of t b).
    { unfold dtype2bitpix in Eb. destruct (find _ _) as [[n b']|] eqn:F; [|discriminate]. injection Eb as ->. apply find_some in F as [F1 F2]. apply String.eqb_eq in F2. cbn in F2. subst n. exact F1. }
    destruct naxes as [|n1 [|n2 [|n3 [|n4 [|n5 [|n6 [|n7 [|n8 [|n9 naxes]]]]]]]]]; [..| cbn in L'; lia]; (destruct e as [e|]; injection E0 as <-; (split; [exists b; split; [exact Hb|reflexivity]|]; split; reflexivity)). }
  destruct B as ((b & Hb & B1) & B2 & B3).
  destruct cd as [cd|].
  { exfalso. destruct cdelt as [[c|l]|]; discriminate. }
  destruct cdelt as [c|].
  2:{ injection H as <-. split; [now exists b|]. intros N. contradiction. }
  destruct (cd_of ctype c pa) as [m|] eqn:Em; [|discriminate]. cbn [bind] in H.
  destruct crval as [|v1 [|v2 [|? ?]]]; try discriminate. destruct (match crpix with Some l => l | None => _ end) as [|p1 [|p2 [|? ?]]] eqn:Ep; try discriminate. destruct ctype as [[|t1 [|t2 [|? ?]]]|]; try discriminate.
  destruct (match cunit with One u => Ok (u, u) | Many [u1; u2] => Ok (u1, u2) | Many _ => Err ValueError end) as [[u1 u2]|] eqn:Eu; [|discriminate]. cbn [bind] in H. injection H as <-.
  assert (P3 : forall s q, String.length q = 3%nat -> String.eqb (prefix3 s) q = prefix q s).
  { intros s q. destruct q as [|a [|b' [|c' [|? ?]]]]; cbn; try discriminate. intros _. destruct s as [|x [|y [|z s]]]; cbn.
    - reflexivity.
    - destruct (Ascii.eqb_spec x a), (ascii_dec a x); congruence || reflexivity.
    - destruct (Ascii.eqb_spec x a), (ascii_dec a x); try congruence; try reflexivity. destruct (Ascii.eqb_spec y b'), (ascii_dec b' y); congruence || reflexivity.
    - replace (substring 0 0 s) with EmptyString by (destruct s; reflexivity). destruct (Ascii.eqb_spec x a), (ascii_dec a x); try congruence; try reflexivity. destruct (Ascii.eqb_spec y b'), (ascii_dec b' y); try congruence; try reflexivity. destruct (Ascii.eqb_spec z c'), (ascii_dec c' z); try congruence; try reflexivity. destruct s; reflexivity. }
  rewrite !P3 by reflexivity. split.
  - exists b. split; [exact Hb|]. destruct (_ && _)%bool; destruct eq; repeat (rewrite hget_hset_other by reflexivity); exact B1.
  - intros _. exists t1, t2. split; [reflexivity|]. destruct (prefix "RA-" t1), (prefix "DEC" t2); cbn [andb]; (split; [intros [X1 X2]; first [discriminate|exists (upper rs); split; [destruct eq; repeat (rewrite hget_hset_other by reflexivity); apply hget_hset_same|apply upper_capitals]]|]); (split; [intros X; first [exfalso; apply X; split; reflexivity|destruct eq; repeat (rewrite hget_hset_other by reflexivity); exact B2]|]);
      destruct eq; cbn [option_map]; first [apply hget_hset_same|repeat (rewrite hget_hset_other by reflexivity); exact B3].
Qed.
Print Assumptions C65_system.
Example C65_example : exists h, create_fitsheader [3; 2]%Z "float64" None [0; 0] None (One "deg"%string) (Some ["RA---TAN"; "DEC--TAN"]%string) None (Some (Many [-1; 2])) (Some 30) "icrs" None = Ok h /\ fitsheader2shape h = Ok [2; 3]%Z /\ has_wcs h = Ok true /\ hget h "CRPIX1" = Some (HF 2).
Proof.
  eexists. split; [reflexivity|]. split; [reflexivity|]. split; [reflexivity|]. cbn. repeat f_equal. lra.
Qed.
(** Refuted: with the matrix itself, no header can be made. *)
Theorem C65_cd_refuted : forall naxes t e crval crpix cunit ctype cd cdelt pa rs eq, exists err, create_fitsheader naxes t e crval crpix cunit ctype (Some cd) cdelt pa rs eq = Err err.
Proof. intros. unfold create_fitsheader. destruct (base_cards naxes t e); [|eexists; reflexivity]. destruct cdelt as [[c|l]|]; eexists; reflexivity. Qed.
Print Assumptions C65_cd_refuted.
(** Refuted: a header without axes has no answer. *)
Theorem C65_no_axis_refuted : forall e rs, exists h, create_fitsheader_for None e [0; 0] None None (One "deg"%string) None None None rs None = Ok h /\ has_wcs h = Err ValueError.
Proof. intros [e|] rs; (eexists; split; [reflexivity|]; reflexivity). Qed.
Print Assumptions C65_no_axis_refuted.
(** Refuted: with two scales of the same sign, the rotation is in the other direction than
    that of the FITS standard. *)
Theorem C65_direction_refuted : exists m, cd_of None (Many [1; 1]) (Some 90) = Ok m /\ m <> fits_matrix 1 1 (-90).
Proof.
  eexists. split; [apply cd_of_ok|]. unfold fits_matrix. replace (-90 * PI / 180) with (- (PI / 2)) by field. replace (- (90) * PI / 180) with (- (PI / 2)) by field. rewrite sin_neg, sin_PI2. intros H. apply (f_equal (fun m : matrix => snd (fst m))) in H. cbn in H. lra.
Qed.
Print Assumptions C65_direction_refuted.
(** Refuted: the Fortran code reads CROTA2 with the opposite sign. *)
Theorem C65_crota2_refuted : (forall c1 c2 crota2, cd_crota2 c1 c2 crota2 = fits_matrix c1 c2 (- crota2)) /\ cd_crota2 (-1) 1 90 <> fits_matrix (-1) 1 90.
Proof.
  split.
  - intros. unfold cd_crota2, fits_matrix. rewrite deg. replace (- crota2 * PI / 180) with (- (crota2 * PI / 180)) by field. rewrite cos_neg, sin_neg. repeat apply (f_equal2 pair); ring.
  - unfold cd_crota2, fits_matrix. rewrite deg. replace (90 * PI / 180) with (PI / 2) by field. rewrite sin_PI2, cos_PI2. intros H. apply (f_equal (fun m : matrix => snd (fst m))) in H. cbn in H. lra.
Qed.
Print Assumptions C65_crota2_refuted.

(** ** C66 *)
(** The pixel of a direction sees it: FITS pixels counted from one, here from zero. *)
Theorem C66_projection : forall a ra dec, determinant (cdm a) <> 0 -> 0 < scalar (centre (fst (crval a)) (snd (crval a))) (direction ra dec) ->
  let '(x, y) := ad2xy_gnomonic a ra dec in seen (cdm a) (crpix a) (crval a) (x + 1) (y + 1) (direction ra dec).
Proof.
  intros a ra dec D P. rewrite <- cosc_scalar in P. pose proof (gnomonic_ray a ra dec ltac:(lra)) as G. unfold ad2xy_gnomonic. destruct (xsi_eta a ra dec) as [xsi eta]. pose proof (rotation_inverse a xsi eta D) as I. destruct (xy2xy_rotation a xsi eta) as [x y].
  exists (cosc a ra dec). split; [exact P|]. rewrite I. exact G.
Qed.
Print Assumptions C66_projection.
(** Conversely a pixel sees one direction. *)
Theorem C66_unique : forall a ra dec ra' dec', determinant (cdm a) <> 0 -> 0 < scalar (centre (fst (crval a)) (snd (crval a))) (direction ra dec) -> 0 < scalar (centre (fst (crval a)) (snd (crval a))) (direction ra' dec') ->
  ad2xy_gnomonic a ra dec = ad2xy_gnomonic a ra' dec' -> direction ra dec = direction ra' dec'.
Proof.
  intros a ra dec ra' dec' D P P' E. pose proof (C66_projection a ra dec D P) as H. pose proof (C66_projection a ra' dec' D P') as H'. rewrite <- E in H'. destruct (ad2xy_gnomonic a ra dec) as [x y]. destruct H as [k [K H]], H' as [k' [K' H']].
  destruct (intermediate _ _ _ _) as [xsi eta]. set (t := tangent _ _ _ _) in *. pose proof (direction_unit ra dec) as U. pose proof (direction_unit ra' dec') as U'. rewrite H in U. rewrite H' in U'. rewrite H, H'.
  assert (k = k'); [|congruence]. destruct t as [[t0 t1] t2]. unfold scalar in U, U'. cbn [scale3 fst snd] in U, U'. set (n := t0 * t0 + t1 * t1 + t2 * t2). assert (V : k * k * n = 1) by (unfold n; rewrite <- U; ring). assert (V' : k' * k' * n = 1) by (unfold n; rewrite <- U'; ring).
  assert (Z : (k - k') * (k + k') * n = 0) by (transitivity (k * k * n - k' * k' * n); [ring | rewrite V, V'; ring]). apply Rmult_integral in Z. destruct Z as [Z|Z]; [apply Rmult_integral in Z; destruct Z; lra | rewrite Z in V; lra].
Qed.
Print Assumptions C66_unique.
(** The reference is at the reference pixel; the scale is the inverse of the cube of the
    cosine of the separation to it, which is that of plane areas and solid angles. *)
Theorem C66_scale : forall a ra dec, 0 < scalar (centre (fst (crval a)) (snd (crval a))) (direction ra dec) ->
  ad2xy_gnomonic a (fst (crval a)) (snd (crval a)) = (fst (crpix a) - 1, snd (crpix a) - 1) /\
  (let c := angle_lonlat1 (fst (crval a)) (snd (crval a)) ra dec * PI / 180 in
   ad2xys_gnomonic a ra dec = (ad2xy_gnomonic a ra dec, / (cos c * cos c * cos c)) /\
   (0 < c < PI / 2 -> is_derive (fun c => PI * (tan c * tan c)) c (snd (ad2xys_gnomonic a ra dec) * Derive (fun c => 2 * PI * (1 - cos c)) c))).
Proof.
  intros a ra dec P. split.
  - unfold ad2xy_gnomonic, xsi_eta. set (D := cosc _ _ _). replace (fst (crval a) * DEG2RAD - fst (crval a) * DEG2RAD) with 0 by ring. rewrite sin_0, cos_0. rewrite !Rmult_1_r, Rmult_0_r.
    replace (cos (snd (crval a) * DEG2RAD) * sin (snd (crval a) * DEG2RAD) - sin (snd (crval a) * DEG2RAD) * cos (snd (crval a) * DEG2RAD)) with 0 by ring. rewrite Rmult_0_r. unfold xy2xy_rotation. destruct (cdinv (cdm a)) as [[i11 i12] [i21 i22]]. f_equal; ring.
  - cbv zeta. destruct (angle_ok (fst (crval a)) (snd (crval a)) ra dec) as [_ E]. rewrite <- cosc_scalar in P. assert (Q : cos (angle_lonlat1 (fst (crval a)) (snd (crval a)) ra dec * PI / 180) = cosc a ra dec) by (rewrite E; symmetry; apply cosc_scalar).
    rewrite ad2xys_ok by lra. rewrite Q. split; [reflexivity|]. intros H. cbn [snd]. rewrite <- Q. now apply area_scale.
Qed.
Print Assumptions C66_scale.
Theorem C66_area : forall a, determinant (cdm a) <> 0 -> refpix_area a = Rabs (determinant (cdm a)) * (3600 * 3600).
Proof. exact refpix_area_ok. Qed.
Print Assumptions C66_area.
(** The direction of the instrument: the offset is turned by the position angle, its length
    on the sphere is kept with the declination of the result; Python and Fortran agree. *)
Theorem C66_boresight : forall ra dec pa x y, boresight ra dec pa (x, y) = object2ad ra dec pa (x, y) /\
  (let '(ra', dec') := boresight ra dec pa (x, y) in cos (dec' * PI / 180) <> 0 ->
   let da := (ra' - ra) * cos (dec' * PI / 180) in let dd := dec' - dec in let t := pa * PI / 180 in
   x / 3600 = da * cos t - dd * sin t /\ y / 3600 = da * sin t + dd * cos t).
Proof.
  intros ra dec pa x y. split.
  - unfold boresight, object2ad, radians, DEG2RAD. cbn [fst snd]. set (c := cos (pa * (PI / 180))). set (s := sin (pa * (PI / 180))).
    replace (dec + (- x * (s / 3600) + y * (c / 3600))) with (dec + (- (x / 3600) * s + y / 3600 * c)) by field. f_equal. f_equal. f_equal. field.
  - unfold boresight, radians. cbn [fst snd]. set (t := pa * PI / 180). replace (pa * (PI / 180)) with t by (unfold t; field). set (dec' := dec + _). intros N. replace (dec' * (PI / 180)) with (dec' * PI / 180) by field. pose proof (trig t) as T.
    split.
    + transitivity (x / 3600 * (sin t * sin t + cos t * cos t)); [rewrite T; ring|]. unfold dec' at 3. field. exact N.
    + transitivity (y / 3600 * (sin t * sin t + cos t * cos t)); [rewrite T; ring|]. unfold dec' at 3. field. exact N.
Qed.
Print Assumptions C66_boresight.
(** Refuted: without rotation the first coordinate is documented (wcsutils.py 556-562) to go
    along the decreasing right ascensions. *)
Theorem C66_east_refuted : forall ra dec x, 0 < x -> 0 < cos (dec * PI / 180) -> ra < fst (boresight ra dec 0 (x, 0)) /\ snd (boresight ra dec 0 (x, 0)) = dec.
Proof.
  intros ra dec x Hx Hc. unfold boresight, radians. cbn [fst snd]. replace (0 * (PI / 180)) with 0 by ring. rewrite cos_0, sin_0.
  replace (dec + (- x * (0 / 3600) + 0 * (1 / 3600))) with dec by field. split; [|reflexivity]. replace (dec * (PI / 180)) with (dec * PI / 180) by field.
  assert (0 < (x * (1 / 3600) + 0 * (0 / 3600)) / cos (dec * PI / 180)); [|lra]. apply Rdiv_lt_0_compat; lra.
Qed.
Print Assumptions C66_east_refuted.
Example C66_east_example : 0 < 3600 /\ 0 < cos (60 * PI / 180) /\ boresight 10 60 0 (3600, 0) = (12, 60).
Proof.
  assert (C : cos (60 * PI / 180) = / 2) by (replace (60 * PI / 180) with (PI / 3) by field; rewrite cos_PI3; field). split; [lra|]. split; [rewrite C; lra|].
  unfold boresight, radians. cbn [fst snd]. replace (0 * (PI / 180)) with 0 by ring. rewrite cos_0, sin_0. replace (60 + (- (3600) * (0 / 3600) + 0 * (1 / 3600))) with 60 by field. replace (60 * (PI / 180)) with (60 * PI / 180) by field. rewrite C. f_equal. field.
Qed.
Example C66_example : let a := Astrometry (1, 1) (0, 0) ((-1, 0), (0, 1)) in determinant (cdm a) <> 0 /\ 0 < scalar (centre 0 0) (direction 45 0) /\ ad2xys_gnomonic a 45 0 = ((- (180 / PI), 0), 2 * sqrt 2).
Proof.
  cbv zeta. split; [cbn; lra|]. pose proof pi_pos. assert (S : 0 < sqrt 2) by (apply sqrt_lt_R0; lra). assert (SS : sqrt 2 * sqrt 2 = 2) by (apply sqrt_sqrt; lra).
  split.
  - unfold centre, direction, scalar. cbn [fst snd]. replace (45 * PI / 180) with (PI / 4) by field. replace (0 * PI / 180) with 0 by field. rewrite cos_0, sin_0, cos_PI4. assert (0 < 1 / sqrt 2) by (apply Rmult_lt_0_compat; [lra | now apply Rinv_0_lt_compat]). lra.
  - unfold ad2xys_gnomonic, xy2xy_rotation, cosc. cbn [crval crpix cdm cdinv fst snd]. unfold RAD2DEG. replace (45 * DEG2RAD - 0 * DEG2RAD) with (PI / 4) by (unfold DEG2RAD; field). replace (0 * DEG2RAD) with 0 by ring. rewrite cos_0, sin_0, cos_PI4, sin_PI4.
    repeat apply (f_equal2 pair); [field; lra | field; lra |]. field_simplify; [|lra..]. rewrite <- SS at 2. ring.
Qed.
(** Refuted: the opposite of a direction, behind the plane, is projected on the same pixel. *)
Theorem C66_antipode_refuted : forall a ra dec, cosc a ra dec <> 0 -> ad2xy_gnomonic a (ra + 180) (- dec) = ad2xy_gnomonic a ra dec /\ direction (ra + 180) (- dec) = scale3 (-1) (direction ra dec).
Proof.
  intros a ra dec N. split.
  - unfold ad2xy_gnomonic. replace (xsi_eta a (ra + 180) (- dec)) with (xsi_eta a ra dec); [reflexivity|]. unfold xsi_eta. assert (E : cosc a (ra + 180) (- dec) = - cosc a ra dec).
    { unfold cosc. replace (- dec * DEG2RAD) with (- (dec * DEG2RAD)) by ring. replace ((ra + 180) * DEG2RAD - fst (crval a) * DEG2RAD) with (ra * DEG2RAD - fst (crval a) * DEG2RAD + PI) by (unfold DEG2RAD; field). rewrite sin_neg, cos_neg, neg_cos. ring. }
    rewrite E. replace (- dec * DEG2RAD) with (- (dec * DEG2RAD)) by ring. replace ((ra + 180) * DEG2RAD - fst (crval a) * DEG2RAD) with (ra * DEG2RAD - fst (crval a) * DEG2RAD + PI) by (unfold DEG2RAD; field). rewrite sin_neg, cos_neg, neg_cos, neg_sin. f_equal; field; exact N.
  - unfold direction, scale3. replace ((ra + 180) * PI / 180) with (ra * PI / 180 + PI) by field. replace (- dec * PI / 180) with (- (dec * PI / 180)) by field. rewrite sin_neg, cos_neg, neg_cos, neg_sin. repeat apply (f_equal2 pair); ring.
Qed.
Print Assumptions C66_antipode_refuted.
(** What the scale of a pixel is: the cube of the cosine of the angle between the centre and the
    point of the tangent plane whose coordinates are the tangents of the resolutions times the
    numbers of pixels from the reference. *)
Theorem C66_pixel_scale : forall x y crv cd11 cd12 cd21 cd22 i j,
  let p := tan (sqrt (cd11 ^ 2 + cd12 ^ 2) * PI / 180) * (IZR i + 1 - x) in
  let q := tan (sqrt (cd21 ^ 2 + cd22 ^ 2) * PI / 180) * (IZR j + 1 - y) in
  let s := projection_scale (Astrometry (x, y) crv ((cd11, cd12), (cd21, cd22))) i j in
  0 < s /\ s ^ 2 * (1 + p ^ 2 + q ^ 2) ^ 3 = 1.
Proof.
  intros x y crv cd11 cd12 cd21 cd22 i j p q s. subst s. unfold projection_scale. cbn [cdm cd_info crpix fst snd].
  set (w := sqrt (cd11 * cd11 + cd12 * cd12)). set (dt := cd11 * cd22 - cd21 * cd12).
  assert (Ew : sqrt (cd11 ^ 2 + cd12 ^ 2) = w) by (unfold w; f_equal; ring).
  assert (Ez : sqrt (cd21 ^ 2 + cd22 ^ 2) = sqrt (cd22 * cd22 + cd21 * cd21)) by (f_equal; ring).
  set (z := sqrt (cd22 * cd22 + cd21 * cd21)) in *.
  match goal with |- context [atan (sqrt ?v)] => set (D := v) end.
  assert (T2 : tan (fsign w dt * DEG2RAD) * tan (fsign w dt * DEG2RAD) = tan (w * PI / 180) * tan (w * PI / 180)).
  { replace (w * PI / 180) with (w * DEG2RAD) by (unfold DEG2RAD; field). assert (W : 0 <= w) by apply sqrt_pos. unfold fsign.
    destruct (Rle_dec 0 dt); rewrite (Rabs_pos_eq w) by exact W; [reflexivity|].
    replace (- w * DEG2RAD) with (- (w * DEG2RAD)) by ring. rewrite tan_neg. ring. }
  assert (ED : D = p ^ 2 + q ^ 2).
  { unfold D, p, q. rewrite Ew, Ez. replace (z * DEG2RAD) with (z * PI / 180) by (unfold DEG2RAD; field).
    transitivity (tan (fsign w dt * DEG2RAD) * tan (fsign w dt * DEG2RAD) * (IZR i - (x - 1)) ^ 2 + (tan (z * PI / 180) * (IZR j - (y - 1))) ^ 2); [ring|].
    rewrite T2. ring. }
  assert (D0 : 0 <= D) by (rewrite ED; nra).
  pose proof (cos_atan (sqrt D)) as C. unfold Rsqr in C. rewrite sqrt_sqrt in C by exact D0.
  assert (S : 0 < sqrt (1 + D)) by (apply sqrt_lt_R0; lra).
  assert (C0 : 0 < cos (atan (sqrt D))) by (rewrite C; apply Rdiv_lt_0_compat; lra).
  set (c := cos (atan (sqrt D))) in *.
  assert (CC : c * c * (1 + D) = 1).
  { rewrite C. rewrite <- (sqrt_sqrt (1 + D)) at 3 by lra. field. lra. }
  split; [repeat apply Rmult_lt_0_compat; exact C0|].
  replace (1 + p ^ 2 + q ^ 2) with (1 + D) by (rewrite ED; ring).
  transitivity ((c * c * (1 + D)) ^ 3); [ring|]. rewrite CC. ring.
Qed.
Print Assumptions C66_pixel_scale.
Example C66_pixel_scale_example : projection_scale (Astrometry (1, 1) (0, 0) ((45, 0), (0, 45))) 1 1 ^ 2 = / 27.
Proof.
  destruct (C66_pixel_scale 1 1 (0, 0) 45 0 0 45 1 1) as [_ H].
  replace (45 ^ 2 + 0 ^ 2) with (45 * 45) in H by ring. replace (0 ^ 2 + 45 ^ 2) with (45 * 45) in H by ring. rewrite sqrt_square in H by lra.
  replace (45 * PI / 180) with (PI / 4) in H by field. rewrite tan_PI4 in H. set (s := projection_scale _ _ _) in *. lra.
Qed.
(** Refuted: the scale of a pixel has the tangent of the resolution instead of the resolution:
    it is not the inverse of the scale of the direction that the pixel sees. *)
Theorem C66_pixel_scale_refuted : exists a i j ra dec, ad2xy_gnomonic a ra dec = (IZR i, IZR j) /\ 0 < scalar (centre (fst (crval a)) (snd (crval a))) (direction ra dec) /\ projection_scale a i j * snd (ad2xys_gnomonic a ra dec) <> 1.
Proof.
  (* a resolution of 45 degrees, the second pixel *)
  exists (Astrometry (1, 1) (0, 0) ((45, 0), (0, 45))), 1%Z, 0%Z, (atan (PI / 4) * RAD2DEG), 0. pose proof pi_pos. set (t := atan (PI / 4)).
  assert (Ct : cos t = 1 / sqrt (1 + (PI / 4)²)) by apply cos_atan. assert (St : sin t = PI / 4 / sqrt (1 + (PI / 4)²)) by apply sin_atan. pose proof (sqrt1_pos (PI / 4)) as S1. assert (Pc : 0 < cos t) by (rewrite Ct; apply Rmult_lt_0_compat; [lra | now apply Rinv_0_lt_compat]).
  assert (C : cosc (Astrometry (1, 1) (0, 0) ((45, 0), (0, 45))) (t * RAD2DEG) 0 = cos t).
  { unfold cosc. cbn [crval fst snd]. replace (t * RAD2DEG * DEG2RAD - 0 * DEG2RAD) with t by (rewrite Rmult_assoc, rad_deg; ring). replace (0 * DEG2RAD) with 0 by ring. rewrite cos_0, sin_0. ring. }
  split; [|split].
  - unfold ad2xy_gnomonic, xsi_eta. rewrite C. cbn [crval fst snd]. replace (t * RAD2DEG * DEG2RAD - 0 * DEG2RAD) with t by (rewrite Rmult_assoc, rad_deg; ring). replace (0 * DEG2RAD) with 0 by ring. rewrite cos_0, sin_0. unfold xy2xy_rotation. cbn [cdm crpix cdinv fst snd]. f_equal.
    + replace (RAD2DEG / cos t * 1 * sin t) with (RAD2DEG * (sin t / cos t)) by (field; lra). replace (sin t / cos t) with (PI / 4) by (rewrite Ct, St; field; lra). unfold RAD2DEG. field. lra.
    + field. lra.
  - rewrite <- cosc_scalar, C. exact Pc.
  - rewrite ad2xys_ok by (rewrite C; lra). rewrite C. cbn [snd]. unfold projection_scale. cbn [cdm cd_info crpix fst snd]. replace (45 * 45 + 0 * 0) with (45 * 45) by ring. rewrite sqrt_square by lra.
    unfold fsign. destruct (Rle_dec 0 (45 * 45 - 0 * 0)) as [_|N]; [|lra]. rewrite Rabs_right by lra. replace (45 * DEG2RAD) with (PI / 4) by (unfold DEG2RAD; field). rewrite tan_PI4.
    match goal with |- context [sqrt ?v] => replace (sqrt v) with 1 by (replace v with 1 by ring; symmetry; apply sqrt_1) end. rewrite atan_1, cos_PI4.
    (* cos(45 degrees)^3 = cos(t)^3 only if pi/4 = 1 *)
    intros E. set (k := 1 / sqrt 2) in *. assert (K3 : k * k * k = cos t * cos t * cos t) by (apply (Rmult_eq_reg_r (/ (cos t * cos t * cos t))); [rewrite E; field; lra | apply Rinv_neq_0_compat; repeat apply Rmult_integral_contrapositive_currified; lra]).
    assert (S2 : 0 < sqrt 2) by (apply sqrt_lt_R0; lra). assert (Pk : 0 < k) by (unfold k; apply Rmult_lt_0_compat; [lra | now apply Rinv_0_lt_compat]). assert (Ek : k = cos t).
    { assert (Z : (k - cos t) * (k * k + k * cos t + cos t * cos t) = 0) by (transitivity (k * k * k - cos t * cos t * cos t); [ring | lra]). apply Rmult_integral in Z. destruct Z; [lra | nra]. }
    assert (KK : k * k = / 2) by (unfold k; replace (1 / sqrt 2 * (1 / sqrt 2)) with (/ (sqrt 2 * sqrt 2)) by (field; lra); rewrite sqrt_sqrt by lra; reflexivity).
    assert (TT : cos t * cos t * (1 + PI / 4 * (PI / 4)) = 1). { rewrite Ct. pose proof (sqrt_sqrt (1 + (PI / 4)²)) as Q. unfold Rsqr in *. set (w := sqrt _) in *. replace (1 + PI / 4 * (PI / 4)) with (w * w) by (apply Q; nra). field. lra. }
    rewrite <- Ek, KK in TT. pose proof PI_4. assert (PI < 4 \/ PI = 4) as [L|L] by lra; [nra|]. pose proof (PI2_3_2). pose proof PI_ineq 1 as [_ PU]. unfold PI_tg, tg_alt in PU. cbn in PU. lra.
Qed.
Print Assumptions C66_pixel_scale_refuted.
(** Extrema of the coordinates of the detectors, were the constants infinities. *)
Definition projected (a : astrometry) (coords : list (R * R)) (pointings : list (R * R * R)) : list (R * R) :=
  flat_map (fun pt => map (fun c => let '(x, y) := object2ad (fst (fst pt)) (snd (fst pt)) (snd pt) c in ad2xy_gnomonic a x y) coords) pointings.
Theorem C66_minmax_partial : forall a coords pointings, projected a coords pointings <> [] -> exists x0 x1 y0 y1,
  object2xy_minmax (Inf false) (Inf true) a coords pointings = ((Fin x0, Fin x1), (Fin y0, Fin y1)) /\
  least x0 (map fst (projected a coords pointings)) /\ greatest x1 (map fst (projected a coords pointings)) /\ least y0 (map snd (projected a coords pointings)) /\ greatest y1 (map snd (projected a coords pointings)).
Proof.
  intros a coords pointings N. assert (E : forall s, fold_left (fun s pt => let '(ra, dec, pa) := pt in fold_left (fun s c => let '(x, y) := object2ad ra dec pa c in xy_step s (ad2xy_gnomonic a x y)) coords s) pointings s = fold_left xy_step (projected a coords pointings) s).
  { clear N. unfold projected. induction pointings as [|[[ra dec] pa] pts IH]; intros s; [reflexivity|]. cbn [fold_left flat_map fst snd]. rewrite fold_left_app, IH. f_equal. clear IH. revert s. induction coords as [|c cs IH]; intros s; [reflexivity|]. cbn [fold_left map]. destruct (object2ad ra dec pa c) as [x y]. apply IH. }
  unfold object2xy_minmax. rewrite E. destruct (projected a coords pointings) as [|p l]; [contradiction|]. clear. cbn [fold_left]. unfold xy_step at 2. cbn [num_min num_max].
  assert (G : forall l x0 x1 y0 y1, exists x0' x1' y0' y1', fold_left xy_step l ((Fin x0, Fin x1), (Fin y0, Fin y1)) = ((Fin x0', Fin x1'), (Fin y0', Fin y1')) /\
    least x0' (x0 :: map fst l) /\ greatest x1' (x1 :: map fst l) /\ least y0' (y0 :: map snd l) /\ greatest y1' (y1 :: map snd l)).
  { clear. induction l as [|q l IH]; intros x0 x1 y0 y1.
    - do 4 eexists. split; [reflexivity|]. repeat split; try (now left); intros x [<-|[]]; lra.
    - cbn [fold_left map xy_step num_min num_max]. destruct (IH (Rmin x0 (fst q)) (Rmax x1 (fst q)) (Rmin y0 (snd q)) (Rmax y1 (snd q))) as [a0 [a1 [b0 [b1 [E [[A1 A2] [[B1 B2] [[C1 C2] [D1 D2]]]]]]]]].
      exists a0, a1, b0, b1. split; [exact E|]. pose proof (Rmin_l x0 (fst q)). pose proof (Rmin_r x0 (fst q)). pose proof (Rmax_l x1 (fst q)). pose proof (Rmax_r x1 (fst q)). pose proof (Rmin_l y0 (snd q)). pose proof (Rmin_r y0 (snd q)). pose proof (Rmax_l y1 (snd q)). pose proof (Rmax_r y1 (snd q)).
      pose proof (A2 _ (or_introl eq_refl)). pose proof (B2 _ (or_introl eq_refl)). pose proof (C2 _ (or_introl eq_refl)). pose proof (D2 _ (or_introl eq_refl)).
      repeat split.
      + destruct A1 as [<-|A1]; [unfold Rmin; destruct (Rle_dec x0 (fst q)); [now left | right; now left] | right; now right].
      + intros x [<-|[<-|Hx]]; [lra | lra | apply A2; now right].
      + destruct B1 as [<-|B1]; [unfold Rmax; destruct (Rle_dec x1 (fst q)); [right; now left | now left] | right; now right].
      + intros x [<-|[<-|Hx]]; [lra | lra | apply B2; now right].
      + destruct C1 as [<-|C1]; [unfold Rmin; destruct (Rle_dec y0 (snd q)); [now left | right; now left] | right; now right].
      + intros x [<-|[<-|Hx]]; [lra | lra | apply C2; now right].
      + destruct D1 as [<-|D1]; [unfold Rmax; destruct (Rle_dec y1 (snd q)); [right; now left | now left] | right; now right].
      + intros x [<-|[<-|Hx]]; [lra | lra | apply D2; now right]. }
  destruct (G l (fst p) (fst p) (snd p) (snd p)) as [x0 [x1 [y0 [y1 H]]]]. exists x0, x1, y0, y1. exact H.
Qed.
Print Assumptions C66_minmax_partial.
Lemma old_pInf_small : exists z, old_pInf = Fin z /\ 0 < z < 1.
Proof.
  destruct C62_module_math_old_refuted as [_ [_ [z [E [P L]]]]]. exists z. split; [exact E|]. split; [exact P|]. apply Rlt_trans with (1 := L). change (-1042)%Z with (- Z.of_nat 1042)%Z. rewrite powerRZ_neg', <- pow_powerRZ. rewrite <- Rinv_1. apply Rinv_lt_contravar; [|apply Rlt_pow_R1; [lra | lia]]. rewrite Rmult_1_l. apply pow_lt. lra.
Qed.
(** Refuted: they are not. *)
Theorem C66_minmax_refuted : exists a x0 x1 y, object2xy_minmax old_pInf old_mInf a [(0, 0)] [(0, 0, 0)] = ((Fin x0, x1), y) /\ projected a [(0, 0)] [(0, 0, 0)] = [(1, 1)] /\ x0 < 1.
Proof.
  exists (Astrometry (2, 2) (0, 0) ((1, 0), (0, 1))). assert (P : projected (Astrometry (2, 2) (0, 0) ((1, 0), (0, 1))) [(0, 0)] [(0, 0, 0)] = [(1, 1)]).
  { unfold projected. cbn [flat_map map app fst snd]. unfold object2ad. cbn [fst snd]. replace (0 + (- (0 / 3600) * sin (0 * DEG2RAD) + 0 / 3600 * cos (0 * DEG2RAD))) with 0 by field. replace (0 / 3600 * cos (0 * DEG2RAD) + 0 / 3600 * sin (0 * DEG2RAD)) with 0 by field. replace (0 * DEG2RAD) with 0 by ring. rewrite cos_0. replace (0 + 0 / 1) with 0 by field.
    assert (Q : 0 < scalar (centre 0 0) (direction 0 0)) by (unfold centre; rewrite direction_unit; lra). destruct (C66_scale (Astrometry (2, 2) (0, 0) ((1, 0), (0, 1))) 0 0 Q) as [R _]. cbn [crval crpix fst snd] in R. rewrite R. do 2 f_equal; ring. }
  destruct old_pInf_small as [z [Z Lz]]. rewrite Z.
  assert (E : object2xy_minmax (Fin z) old_mInf (Astrometry (2, 2) (0, 0) ((1, 0), (0, 1))) [(0, 0)] [(0, 0, 0)] = xy_step ((Fin z, old_mInf), (Fin z, old_mInf)) (1, 1)).
  { unfold projected in P. cbn [flat_map map app fst snd] in P. unfold object2xy_minmax. cbn [fold_left]. destruct (object2ad 0 0 0 (0, 0)) as [x y]. apply (f_equal (hd (0, 0))) in P. cbn [hd] in P. rewrite P. reflexivity. }
  rewrite E. do 3 eexists. split; [reflexivity|]. split; [exact P|]. cbn [fst]. pose proof (Rmin_l z 1). lra.
Qed.
Print Assumptions C66_minmax_refuted.
(** Widths of the samples: one thread finds the maximum, two may lose it. *)
Theorem C66_width_partial : forall choice ws start r, sharp_edges_width choice start [(None, ws)] = (r, [(None, [])]) -> r = fold_right Z.max start ws.
Proof.
  assert (G : forall choice s v ws r, (v = None \/ v = Some s) -> sharp_edges_width choice s [(v, ws)] = (r, [(None, [])]) -> r = fold_right Z.max s ws).
  { induction choice as [|k c IH]; intros s v ws r Hv H.
    - cbn in H. injection H as <- -> ->. reflexivity.
    - cbn [sharp_edges_width] in H. destruct k as [|k]; [|destruct k; cbn in H; apply (IH s v ws r Hv H)]. cbn [nth_error set_nth] in H. unfold max_action in H. destruct ws as [|w ws].
      + destruct v; cbn in H; apply (IH _ _ _ _ Hv H).
      + destruct Hv as [-> | ->]; cbn in H.
        * apply (IH _ _ _ _ (or_intror eq_refl) H).
        * apply (IH _ _ _ _ (or_introl eq_refl)) in H. rewrite H. cbn [fold_right]. clear. induction ws as [|x ws IH]; cbn [fold_right]; lia. }
  intros. apply (G choice start None ws r); auto.
Qed.
Print Assumptions C66_width_partial.
Theorem C66_width_refuted : sharp_edges_width [0; 1; 1; 0]%nat 0 [(None, [3%Z]); (None, [5%Z])] = (3%Z, [(None, []); (None, [])]).
Proof. reflexivity. Qed.
Print Assumptions C66_width_refuted.
Example C66_width_example : sharp_edges_width [0; 0; 0; 0]%nat 0 [(None, [3; 5]%Z)] = (5%Z, [(None, [])]).
Proof. reflexivity. Qed.

(** ** C67 *)
(** Means: angles that are gathered in less than 90 degrees, wherever zero is. *)
Theorem C67_mean : forall nan array a us, Forall2 (gathered a) (valids array) us -> us <> [] ->
  exists m, mean_degrees nan array = Fin m /\ 0 <= m < 360 /\ same_angle m (total us / INR (length us)).
Proof. exact mean_gathered. Qed.
Print Assumptions C67_mean.
(** Refuted: with 90 degrees between them. *)
Theorem C67_mean_refuted : forall nan, mean_degrees nan [Some 270; Some 0] = Fin 135.
Proof.
  intros nan. unfold mean_degrees. rewrite mean_fold. cbn [d_mean d_zero_minus d_zero_plus d_n180 d_nvalids valids flat_map app map existsb total fold_right zlen length]. unfold mod360.
  assert (E1 : modulo 270 360 = 270) by (apply (modulo_unique _ _ _ 0); lra). assert (E2 : modulo 0 360 = 0) by (apply (modulo_unique _ _ _ 0); lra). rewrite E1, E2. unfold Rltb, Rleb.
  destruct (Rlt_dec 270 270); [lra|]. destruct (Rlt_dec 270 0); [lra|]. cbn. f_equal. apply (modulo_unique _ _ _ 0); lra.
Qed.
Print Assumptions C67_mean_refuted.
(** Extrema, were the constants infinities. *)
Theorem C67_minmax_partial : forall nan array a us, Forall2 (gathered a) (valids array) us -> us <> [] ->
  exists lo hi lo' hi', minmax_degrees nan (Inf false) (Inf true) array = (Fin lo, Fin hi) /\ 0 <= lo < 360 /\ 0 <= hi < 360 /\ least lo' us /\ greatest hi' us /\ same_angle lo lo' /\ same_angle hi hi'.
Proof. exact minmax_gathered. Qed.
Print Assumptions C67_minmax_partial.
Example C67_example : Forall2 (gathered (-1)) (valids [Some 359; None; Some 1]) [-1; 1] /\ forall nan, exists m, mean_degrees nan [Some 359; None; Some 1] = Fin m /\ same_angle m 0.
Proof.
  assert (F : Forall2 (gathered (-1)) (valids [Some 359; None; Some 1]) [-1; 1]). { constructor; [split; [exists 1%Z; lra | lra]|]. constructor; [split; [exists 0%Z; lra | lra]|]. constructor. }
  split; [exact F|]. intros nan. destruct (C67_mean nan _ _ _ F ltac:(discriminate)) as [m [E [_ S]]]. exists m. split; [exact E|]. replace (total [-1; 1] / INR (length [-1; 1])) with 0 in S; [exact S|]. unfold total. cbn. field.
Qed.
(** Refuted: with the constants of the code the minimum of a single angle is not that angle. *)
Theorem C67_minmax_refuted : exists lo hi, minmax_degrees old_NaN old_pInf old_mInf [Some 10] = (Fin lo, hi) /\ lo < 1.
Proof.
  assert (F : Forall2 (gathered 0) (valids [Some 10]) [10]) by (constructor; [split; [exists 0%Z; lra | lra] | constructor]). destruct (C67_mean old_NaN _ _ _ F ltac:(discriminate)) as [m [E [B [k S]]]]. unfold total in S. cbn in S.
  assert (m = 10). { assert (IZR k < 1) by lra. assert (-1 < IZR k) by lra. assert (k = 0%Z) by (assert (k < 1)%Z by (now apply lt_IZR); assert (-1 < k)%Z by (now apply lt_IZR); lia). subst k. lra. } clear S. subst m.
  unfold minmax_degrees. rewrite E. cbn [fold_left minmax_step fst snd]. rewrite (near_ok 10 10 10) by (try (exists 0%Z); lra).
  destruct old_pInf_small as [z [Z Lz]]. rewrite Z.
  cbn [num_min num_modulo]. do 2 eexists. split; [reflexivity|]. rewrite (modulo_unique _ 360 z 0); [lra | lra | lra |]. rewrite Rmin_left by lra. ring.
Qed.
Print Assumptions C67_minmax_refuted.
(** The barycentre is the direction of the sum of the vectors that are valid. *)
Theorem C67_barycenter : forall nan l x y z, l <> [] -> sum3 (map (fun p => direction (fst p) (snd p)) (positions l)) = (x, y, z) -> (x, y, z) <> (0, 0, 0) ->
  exists lon lat, barycenter_lonlat nan l = (Fin lon, Fin lat) /\ 0 <= lon < 360 /\ -90 <= lat <= 90 /\ scale3 (sqrt (x * x + y * y + z * z)) (direction lon lat) = (x, y, z).
Proof. exact bary_direction. Qed.
Print Assumptions C67_barycenter.
Example C67_barycenter_example : forall nan, exists lon lat, barycenter_lonlat nan [(Some 30, Some 0); (None, Some 1)] = (Fin lon, Fin lat) /\ direction lon lat = direction 30 0.
Proof.
  intros nan. destruct (direction 30 0) as [[x y] z] eqn:E. pose proof (direction_unit 30 0) as U. rewrite E in U. unfold scalar in U. cbn [fst snd] in U.
  destruct (C67_barycenter nan [(Some 30, Some 0); (None, Some 1)] x y z) as [lon [lat [B [_ [_ D]]]]]; [discriminate | cbn [positions flat_map app map fst snd sum3 fold_right]; rewrite E; cbn [add3]; repeat apply (f_equal2 pair); ring | intros H; injection H as -> -> ->; lra |].
  exists lon, lat. split; [exact B|]. rewrite U, sqrt_1 in D. destruct (direction lon lat) as [[a b] c]. cbn [scale3] in D. rewrite !Rmult_1_l in D. exact D.
Qed.
(** Refuted: for an empty list, the result is a number. *)
Theorem C67_empty_refuted : exists x y, barycenter_lonlat old_NaN [] = (Fin x, Fin y).
Proof. do 2 eexists. reflexivity. Qed.
Print Assumptions C67_empty_refuted.
(** Separations are angles between directions. *)
Theorem C67_angle : forall lon1 lat1 lon2 lat2, let t := angle_lonlat1 lon1 lat1 lon2 lat2 in
  0 <= t <= 180 /\ cos (t * PI / 180) = scalar (direction lon1 lat1) (direction lon2 lat2) /\ t = angle_lonlat1 lon2 lat2 lon1 lat1 /\ (t = 0 <-> direction lon1 lat1 = direction lon2 lat2).
Proof.
  intros lon1 lat1 lon2 lat2. cbv zeta. destruct (angle_ok lon1 lat1 lon2 lat2) as [B C]. split; [exact B|]. split; [exact C|]. split.
  - unfold angle_lonlat1. f_equal. f_equal. replace ((lon1 - lon2) * DEG2RAD) with (- ((lon2 - lon1) * DEG2RAD)) by ring. rewrite cos_neg. ring.
  - destruct (scalar_bound _ _ (direction_unit lon1 lat1) (direction_unit lon2 lat2)) as [_ I]. rewrite <- I, <- C. split.
    + intros ->. replace (0 * PI / 180) with 0 by field. apply cos_0.
    + intros E. pose proof pi_pos. destruct (Req_EM_T (angle_lonlat1 lon1 lat1 lon2 lat2) 0) as [|N]; [assumption|]. exfalso. set (t := angle_lonlat1 lon1 lat1 lon2 lat2) in *. assert (P : 0 < t * PI / 180 <= PI) by nra. assert (cos (t * PI / 180) < cos 0) by (apply cos_decreasing_1; lra). rewrite cos_0 in *. lra.
Qed.
Print Assumptions C67_angle.
(** Arrays: by pairs, one position against all. *)
Theorem C67_arrays : forall p q, length p = length q \/ length p = 1%nat \/ length q = 1%nat -> exists r, angle_lonlat p q = Ok r /\
  forall i, (i < length r)%nat -> exists a b, nth_error p (if (length p =? 1)%nat then 0 else i) = Some a /\ nth_error q (if (length q =? 1)%nat then 0 else i) = Some b /\ nth_error r i = Some (angle_lonlat1 (fst a) (snd a) (fst b) (snd b)).
Proof.
  intros p q H. unfold angle_lonlat. destruct p as [|[a1 b1] [|a' p]].
  - destruct q as [|[a2 b2] [|b' q]]; cbn in H |- *; try lia; eexists; (split; [reflexivity|]); intros i Hi; cbn in Hi; lia.
  - eexists. split; [reflexivity|]. intros i Hi. rewrite map_length in Hi. cbn [length Nat.eqb nth_error]. destruct (nth_error q i) as [b|] eqn:E; [|apply nth_error_None in E; lia]. exists (a1, b1), b. split; [reflexivity|]. rewrite nth_error_map, E. split; [|reflexivity].
    destruct (length q =? 1)%nat eqn:L; [|exact E]. apply Nat.eqb_eq in L. assert (i = 0%nat) by lia. now subst i.
  - destruct q as [|[a2 b2] [|b' q]].
    + cbn in H. lia.
    + eexists. split; [reflexivity|]. intros i Hi. rewrite map_length in Hi. change (length ((a1, b1) :: a' :: p) =? 1)%nat with false. cbn [length Nat.eqb]. destruct (nth_error ((a1, b1) :: a' :: p) i) as [a|] eqn:E; [|apply nth_error_None in E; lia]. exists a, (a2, b2). split; [reflexivity|]. split; [reflexivity|]. rewrite nth_error_map, E. reflexivity.
    + assert (L : length ((a1, b1) :: a' :: p) = length ((a2, b2) :: b' :: q)) by (cbn [length] in *; lia). rewrite (proj2 (Nat.eqb_eq _ _) L). eexists. split; [reflexivity|]. intros i Hi. rewrite map_length in Hi. change (length ((a1, b1) :: a' :: p) =? 1)%nat with false. change (length ((a2, b2) :: b' :: q) =? 1)%nat with false.
      set (P := (a1, b1) :: a' :: p) in *. set (Q := (a2, b2) :: b' :: q) in *. rewrite combine_length, L, Nat.min_id in Hi.
      destruct (nth_error P i) as [a|] eqn:EP; [|apply nth_error_None in EP; lia]. destruct (nth_error Q i) as [b|] eqn:EQ; [|apply nth_error_None in EQ; lia]. exists a, b. split; [reflexivity|]. split; [reflexivity|]. rewrite nth_error_map.
      assert (EC : nth_error (combine P Q) i = Some (a, b)). { clearbody P Q. clear - EP EQ. revert Q i EP EQ. induction P as [|x P IH]; intros [|y Q] [|i] EP EQ; try discriminate; cbn in *; [injection EP as ->; injection EQ as ->; reflexivity | now apply IH]. }
      rewrite EC. reflexivity.
Qed.
Print Assumptions C67_arrays.
(** Refuted: arrays of different sizes are not refused. *)
Theorem C67_sizes_refuted : angle_lonlat [(0, 0); (0, 0)] [(0, 0); (0, 0); (0, 0)] = Err RuntimeError.
Proof. reflexivity. Qed.
Print Assumptions C67_sizes_refuted.

(** ** C68 *)
Lemma minimum_in l : l <> [] -> In (minimum l) l.
Proof. induction l as [|x [|y l] IH]; intros N; [contradiction | now left |]. change (minimum (x :: y :: l)) with (Rmin x (minimum (y :: l))). unfold Rmin. destruct (Rle_dec _ _); [now left | right; apply IH; discriminate]. Qed.
Lemma combine_enlarged nan round headers cdelt pa a' nx' ny' : combine_fitsheader nan round headers cdelt pa = Ok (a', nx', ny') ->
  (match cdelt with Some (One c) => c <> 0 | Some (Many l) => ~ In 0 l | None => True end) ->
  (exists h, headers = [h] /\ h = (a', nx', ny')) \/ (exists v cd, determinant cd <> 0 /\ combine_enlarge round (Astrometry (1, 1) v cd) headers = (a', nx', ny') /\ crval a' = v /\ cdm a' = cd).
Proof.
  intros HE HC.
  unfold combine_fitsheader in HE.
    assert (M : (let '(lon, lat) := barycenter_lonlat nan (map (fun h => let '(a, _, _) := h in (Some (fst (crval a)), Some (snd (crval a)))) headers) in
      do lon <- num_value lon; do lat <- num_value lat;
      do cdeltpa <- match cdelt, pa with Some _, Some _ => Ok [] | _, _ => map_res (fun h => let '(a, _, _) := h in cdelt_pa (cdm a)) headers end;
      let cdelt := match cdelt with Some c => c | None => One (minimum (map (fun c => let '(c1, c2, _) := c in Rmin (Rabs c1) (Rabs c2)) cdeltpa)) end in
      do pa <- match pa with Some p => Ok p | None => num_value (mean_degrees nan (map (fun c => Some (snd c)) cdeltpa)) end;
      do cd <- cd_of (Some ["RA---TAN"; "DEC--TAN"]%string) cdelt (Some pa);
      match headers with
      | [] => Err ValueError
      | _ => Ok (combine_enlarge round (Astrometry (1, 1) (lon, lat) cd) headers)
      end) = Ok (a', nx', ny') -> exists v cd, determinant cd <> 0 /\ combine_enlarge round (Astrometry (1, 1) v cd) headers = (a', nx', ny') /\ crval a' = v /\ cdm a' = cd).
    { clear HE. destruct (barycenter_lonlat _ _) as [lon lat]. destruct (num_value lon) as [lon'|]; [|discriminate]. destruct (num_value lat) as [lat'|]; [|discriminate]. cbn [bind].
      set (cp := match cdelt, pa with Some _, Some _ => Ok [] | _, _ => map_res (fun h => let '(a, _, _) := h in cdelt_pa (cdm a)) headers end).
      assert (EP : forall l, cp = Ok l -> cdelt = None -> forall c1 c2 p, In (c1, c2, p) l -> c1 <> 0 /\ c2 <> 0).
      { intros l El -> c1 c2 p Hl. unfold cp in El. assert (El' : map_res (fun h => let '(a, _, _) := h in cdelt_pa (cdm a)) headers = Ok l) by (destruct pa; exact El). clear El. revert l El' Hl. clear. induction headers as [|[[h n1] n2] hs IH]; intros l El Hl.
        - cbn in El. injection El as <-. destruct Hl.
        - cbn [map_res] in El. destruct (cdelt_pa (cdm h)) as [t|] eqn:Et; [|discriminate]. cbn [bind] in El. destruct (map_res _ hs) as [ts|]; [|discriminate]. cbn [bind] in El. injection El as <-. destruct Hl as [->|Hl]; [|now apply (IH ts)].
          apply cdelt_pa_row in Et. destruct Et as [P [_ [_ [_ [Q _]]]]]. split; [intros ->; lra | lra]. }
      destruct cp as [l|] eqn:Ecp; [|discriminate]. unfold cp in Ecp. cbn [bind]. specialize (EP l eq_refl). destruct (match pa with Some p => Ok p | None => _ end) as [p|]; [|discriminate]. cbn [bind].
      set (cc := match cdelt with Some c => c | None => _ end). destruct (cd_of _ cc (Some p)) as [cd|] eqn:Ecd; [|discriminate]. cbn [bind]. intros H.
      assert (HN : headers <> []) by (intros ->; discriminate). assert (HH : combine_enlarge round (Astrometry (1, 1) (lon', lat') cd) headers = (a', nx', ny')) by (destruct headers; [contradiction | exact (f_equal (fun r => match r with Ok v => v | Err _ => (a', nx', ny') end) H)]).
      exists (lon', lat'), cd. split; [|split; [exact HH|]].
      2:{ pose proof (f_equal (fun t => crval (fst (fst t))) HH) as U1. pose proof (f_equal (fun t => cdm (fst (fst t))) HH) as U2. unfold combine_enlarge in U1, U2. cbv zeta in U1, U2. cbn [fst crval cdm] in U1, U2. now rewrite <- U1, <- U2. }
      assert (D2 : forall c1 c2, cc = Many [c1; c2] \/ (cc = One c2 /\ c1 = - c2) -> c1 <> 0 -> c2 <> 0 -> determinant cd <> 0).
      { intros c1 c2 Hcc N1 N2. assert (E : cd_of None (Many [c1; c2]) (Some p) = Ok cd) by (destruct Hcc as [-> | [-> ->]]; exact Ecd). rewrite cd_of_ok in E. injection E as <-. unfold determinant. pose proof (trig (- p * PI / 180)) as T.
        replace (c1 * cos (- p * PI / 180) * (c2 * cos (- p * PI / 180)) - c1 * sin (- p * PI / 180) * (- c2 * sin (- p * PI / 180))) with (c1 * c2) by (transitivity (c1 * c2 * (sin (- p * PI / 180) * sin (- p * PI / 180) + cos (- p * PI / 180) * cos (- p * PI / 180))); [rewrite T; ring | ring]). apply Rmult_integral_contrapositive. auto. }
      destruct cdelt as [[c|l']|].
      - apply (D2 (- c) c); [right; split; reflexivity | lra | exact HC].
      - assert (L2 : exists c1 c2, l' = [c1; c2]). { unfold cd_of, cc, diag in Ecd. destruct l' as [|c1 [|c2 [|? ?]]]; try discriminate. eauto. } destruct L2 as [c1 [c2 ->]]. apply (D2 c1 c2); [now left | |]; intros ->; apply HC; cbn; auto.
      - set (mm := minimum _) in cc. assert (Pm : 0 < mm).
        { specialize (EP eq_refl). unfold mm. assert (HL : l <> []).
          { intros ->. apply HN. assert (Ecp' : map_res (fun h : astrometry * Z * Z => let '(a, _, _) := h in cdelt_pa (cdm a)) headers = Ok []) by (destruct pa; exact Ecp). destruct headers as [|[[h ?] ?] hs]; [reflexivity|]. cbn [map_res] in Ecp'. destruct (cdelt_pa (cdm h)); [|discriminate]. cbn [bind] in Ecp'. destruct (map_res _ hs); discriminate. }
          pose proof (minimum_in (map (fun c : R * R * R => let '(c1, c2, _) := c in Rmin (Rabs c1) (Rabs c2)) l)) as I. apply in_map_iff in I; [|destruct l; [contradiction | discriminate]]. destruct I as [[[c1 c2] q] [<- I]]. destruct (EP _ _ _ I) as [N1 N2]. apply Rmin_glb_lt; now apply Rabs_pos_lt. }
        apply (D2 (- mm) mm); [right; split; reflexivity | lra | lra]. }
    destruct headers as [|h [|h' hs]]; [right; now apply M | | right; now apply M].
    destruct cdelt as [c|]; [right; now apply M|]. destruct pa as [p|]; [right; now apply M|]. left. exists h. split; [reflexivity|]. exact (f_equal (fun r => match r with Ok v => v | Err _ => h end) HE).
Qed.
(** Whatever a pixel of a combined map sees is seen by the combination inside of its bounds,
    if the corners of the map are in front of the centre of the combination. *)
Theorem C68_encompass : forall nan round headers cdelt pa a' nx' ny' a nx ny, nearest round -> combine_fitsheader nan round headers cdelt pa = Ok (a', nx', ny') ->
  (match cdelt with Some (One c) => c <> 0 | Some (Many l) => ~ In 0 l | None => True end) -> In (a, nx, ny) headers -> 
  (forall cx cy w, cx = / 2 \/ cx = IZR nx + / 2 -> cy = / 2 \/ cy = IZR ny + / 2 -> seen (cdm a) (crpix a) (crval a) cx cy w -> 0 < scalar w (centre (fst (crval a')) (snd (crval a')))) ->
  forall x y w, / 2 <= x <= IZR nx + / 2 -> / 2 <= y <= IZR ny + / 2 -> seen (cdm a) (crpix a) (crval a) x y w ->
  exists X Y, / 2 <= X <= IZR nx' + / 2 /\ / 2 <= Y <= IZR ny' + / 2 /\ seen (cdm a') (crpix a') (crval a') X Y w.
Proof.
  intros nan round headers cdelt pa a' nx' ny' a nx ny HR HE HC HI HF x y w Hx Hy HS.
  pose proof (combine_enlarged nan round headers cdelt pa a' nx' ny' HE HC) as C.
  destruct C as [[h [-> ->]] | [v [cd [D [E [V1 V2]]]]]].
  - destruct HI as [HI|[]]. injection HI as -> -> ->. exists x, y. auto.
  - destruct HS as [k [Pk HS]]. rewrite V1 in HF.
    assert (W : w = scale3 k (pix2world a x y)) by (rewrite pix2world_tangent; destruct (intermediate _ _ _ _); exact HS).
    destruct (enlarge_encompasses round v cd headers a nx ny a' nx' ny' HR D E HI) with (x := x) (y := y) as [P B]; auto.
    { intros cx cy Cx Cy. apply (HF cx cy); auto. exists 1. split; [lra|]. rewrite pix2world_tangent. destruct (intermediate (cdm a) (crpix a) cx cy) as [xsi eta]. destruct (tangent _ _ xsi eta) as [[t0 t1] t2]. unfold scale3. repeat apply (f_equal2 pair); ring. }
    pose proof (world2pix_seen a' (pix2world a x y)) as WS. rewrite V1, V2 in WS. specialize (WS D P). destruct (world2pix a' (pix2world a x y)) as [X Y]. exists X, Y. destruct B as [BX BY]. split; [exact BX|]. split; [exact BY|]. rewrite V1, V2.
    destruct WS as [k' [Pk' WS]]. exists (k * k'). split; [nra|]. destruct (intermediate cd _ X Y) as [xsi eta]. rewrite W, WS. destruct (tangent _ _ xsi eta) as [[t0 t1] t2]. unfold scale3. repeat apply (f_equal2 pair); ring.
Qed.
Print Assumptions C68_encompass.
(** The combination is not larger than needed: its first and last columns and rows contain a corner, the middle of a side or the reference point of a
    combined map. *)
Definition mark (a : astrometry) (nx ny : Z) (x y : R) : Prop :=
  (x = / 2 \/ x = fst (crpix a) \/ x = IZR nx + / 2) /\ (y = / 2 \/ y = snd (crpix a) \/ y = IZR ny + / 2).
Lemma maximum_in l : l <> [] -> In (maximum l) l.
Proof. induction l as [|x [|y l] IH]; intros N; [contradiction | now left |]. change (maximum (x :: y :: l)) with (Rmax x (maximum (y :: l))). unfold Rmax. destruct (Rle_dec _ _); [right; apply IH; discriminate | now left]. Qed.
Lemma extremes_in (f : R * R -> R) (ls : list (list (R * R))) : ls <> [] -> (forall l, In l ls -> l <> []) ->
  (exists l p, In l ls /\ In p l /\ f p = minimum (map (fun l => minimum (map f l)) ls)) /\ (exists l p, In l ls /\ In p l /\ f p = maximum (map (fun l => maximum (map f l)) ls)).
Proof.
  intros N NE. split.
  - pose proof (minimum_in (map (fun l => minimum (map f l)) ls)) as I. apply in_map_iff in I; [|destruct ls; [contradiction|discriminate]]. destruct I as (l & <- & Hl). exists l.
    pose proof (minimum_in (map f l)) as I. apply in_map_iff in I; [|specialize (NE l Hl); destruct l; [contradiction|discriminate]]. destruct I as (p & E & Hp). exists p. auto.
  - pose proof (maximum_in (map (fun l => maximum (map f l)) ls)) as I. apply in_map_iff in I; [|destruct ls; [contradiction|discriminate]]. destruct I as (l & <- & Hl). exists l.
    pose proof (maximum_in (map f l)) as I. apply in_map_iff in I; [|specialize (NE l Hl); destruct l; [contradiction|discriminate]]. destruct I as (p & E & Hp). exists p. auto.
Qed.
Lemma edges_mark a nx ny w : In w (edges a nx ny) -> exists x y, mark a nx ny x y /\ w = pix2world a x y.
Proof.
  unfold edges, mark. cbn [combine map fst snd In]. intros H. repeat (destruct H as [<-|H]; [do 2 eexists; split; [|reflexivity]; tauto|]). destruct H.
Qed.
Lemma pix2world_seen a x y : seen (cdm a) (crpix a) (crval a) x y (pix2world a x y).
Proof.
  exists 1. split; [lra|]. rewrite pix2world_tangent. destruct (intermediate (cdm a) (crpix a) x y) as [xsi eta]. destruct (tangent _ _ xsi eta) as [[t0 t1] t2]. unfold scale3. repeat apply (f_equal2 pair); ring.
Qed.
Theorem C68_minimal : forall nan round headers cdelt pa a' nx' ny', nearest round -> combine_fitsheader nan round headers cdelt pa = Ok (a', nx', ny') ->
  (match cdelt with Some (One c) => c <> 0 | Some (Many l) => ~ In 0 l | None => True end) -> headers <> [] ->
  (forall a nx ny x y w, In (a, nx, ny) headers -> mark a nx ny x y -> seen (cdm a) (crpix a) (crval a) x y w -> 0 < scalar w (centre (fst (crval a')) (snd (crval a')))) ->
  let touches (P : R -> R -> Prop) := exists a nx ny x y w X Y, In (a, nx, ny) headers /\ mark a nx ny x y /\ seen (cdm a) (crpix a) (crval a) x y w /\ seen (cdm a') (crpix a') (crval a') X Y w /\ P X Y in
  touches (fun X _ => / 2 <= X <= 3 / 2) /\ touches (fun X _ => IZR nx' - / 2 <= X <= IZR nx' + / 2) /\
  touches (fun _ Y => / 2 <= Y <= 3 / 2) /\ touches (fun _ Y => IZR ny' - / 2 <= Y <= IZR ny' + / 2).
Proof.
  intros nan round headers cdelt pa a' nx' ny' HR HE HC HN HF touches.
  destruct (combine_enlarged nan round headers cdelt pa a' nx' ny' HE HC) as [[h [-> ->]] | [v [cd [D [E [V1 V2]]]]]].
  - assert (T : forall (P : R -> R -> Prop) x y, mark a' nx' ny' x y -> P x y -> touches P).
    { intros P x y M HP. exists a', nx', ny', x, y, (pix2world a' x y), x, y. split; [now left|]. split; [exact M|]. split; [apply pix2world_seen|]. split; [apply pix2world_seen|exact HP]. }
    split; [|split; [|split]].
    + apply (T _ (/ 2) (/ 2)); [unfold mark; tauto|lra].
    + apply (T _ (IZR nx' + / 2) (/ 2)); [unfold mark; tauto|lra].
    + apply (T _ (/ 2) (/ 2)); [unfold mark; tauto|lra].
    + apply (T _ (/ 2) (IZR ny' + / 2)); [unfold mark; tauto|lra].
  - unfold combine_enlarge in E. cbn [crval cdm] in E. set (a0 := Astrometry (1, 1) v cd) in *. set (xy0 := map _ headers) in E.
    assert (N0 : xy0 <> []) by (unfold xy0; destruct headers; [contradiction|discriminate]).
    assert (N1 : forall l, In l xy0 -> l <> []).
    { intros l Hl. unfold xy0 in Hl. apply in_map_iff in Hl as ([[a nx] ny] & <- & _). discriminate. }
    destruct (extremes_in fst xy0 N0 N1) as [X0 X1]. destruct (extremes_in snd xy0 N0 N1) as [Y0 Y1].
    set (x0 := minimum (map (fun l => minimum (map fst l)) xy0)) in *. set (x1 := maximum (map (fun l => maximum (map fst l)) xy0)) in *. set (y0 := minimum (map (fun l => minimum (map snd l)) xy0)) in *. set (y1 := maximum (map (fun l => maximum (map snd l)) xy0)) in *.
    injection E as <- <- <-.
    assert (T : forall (P : R -> R -> Prop), (exists l p, In l xy0 /\ In p l /\ P (fst p + 1 - IZR (round x0)) (snd p + 1 - IZR (round y0))) -> touches P).
    { intros P (l & p & Hl & Hp & HP). unfold xy0 in Hl. apply in_map_iff in Hl as ([[a nx] ny] & <- & Hh). apply in_map_iff in Hp as (w & <- & Hw).
      destruct (edges_mark a nx ny w Hw) as (x & y & M & ->). 
      pose proof (HF a nx ny x y _ Hh M (pix2world_seen a x y)) as Pw. cbn [crval] in Pw.
      pose proof (world2pix_seen (Astrometry (2 - IZR (round x0), 2 - IZR (round y0)) v cd) (pix2world a x y)) as WS. cbn [crval cdm crpix] in WS. specialize (WS D Pw).
      pose proof (world2pix_shift 1 1 (2 - IZR (round x0)) (2 - IZR (round y0)) v cd (pix2world a x y)) as SH. fold a0 in SH. destruct (world2pix a0 (pix2world a x y)) as [X Y]. rewrite SH in WS. cbn [fst snd] in HP.
      exists a, nx, ny, x, y, (pix2world a x y), (X - 1 + (2 - IZR (round x0))), (Y - 1 + (2 - IZR (round y0))). split; [exact Hh|]. split; [exact M|]. split; [apply pix2world_seen|]. split; [exact WS|].
      replace (X - 1 + (2 - IZR (round x0))) with (X + 1 - IZR (round x0)) by ring. replace (Y - 1 + (2 - IZR (round y0))) with (Y + 1 - IZR (round y0)) by ring. exact HP. }
    rewrite !plus_IZR, !minus_IZR. pose proof (HR x0). pose proof (HR x1). pose proof (HR y0). pose proof (HR y1).
    split; [|split; [|split]]; apply T.
    + destruct X0 as (l & p & Hl & Hp & Ep). exists l, p. split; [exact Hl|]. split; [exact Hp|]. lra.
    + destruct X1 as (l & p & Hl & Hp & Ep). exists l, p. split; [exact Hl|]. split; [exact Hp|]. lra.
    + destruct Y0 as (l & p & Hl & Hp & Ep). exists l, p. split; [exact Hl|]. split; [exact Hp|]. lra.
    + destruct Y1 as (l & p & Hl & Hp & Ep). exists l, p. split; [exact Hl|]. split; [exact Hp|]. lra.
Qed.
Print Assumptions C68_minimal.
Example C68_example : let a := Astrometry (1, 1) (0, 0) ((-1, 0), (0, 1)) in let headers := [(a, 1%Z, 1%Z); (a, 3%Z, 2%Z)] in
  nearest (fun x => Int_part (x + / 2)) /\ forall nan, exists a' nx' ny', combine_fitsheader nan (fun x => Int_part (x + / 2)) headers (Some (One 1)) (Some 0) = Ok (a', nx', ny') /\
  forall x y w, seen (cdm a) (crpix a) (crval a) x y w -> 0 < scalar w (centre (fst (crval a')) (snd (crval a'))).
Proof.
  cbv zeta. split.
  - intros x. destruct (base_Int_part (x + / 2)) as [L U]. lra.
  - intros nan. set (a := Astrometry (1, 1) (0, 0) ((-1, 0), (0, 1))).
    assert (C0 : centre 0 0 = (1, 0, 0)). { unfold centre, direction. replace (0 * PI / 180) with 0 by field. rewrite cos_0, sin_0. repeat apply (f_equal2 pair); ring. }
    destruct (bary_direction nan [(Some 0, Some 0); (Some 0, Some 0)] 2 0 0) as [lon [lat [B [_ [_ D]]]]].
    + discriminate.
    + cbn [positions flat_map app map fst snd sum3 fold_right]. change (direction 0 0) with (centre 0 0). rewrite C0. cbn [add3]. repeat apply (f_equal2 pair); ring.
    + intros H. apply (f_equal (fun v : R * R * R => fst (fst v))) in H. cbn in H. lra.
    + replace (2 * 2 + 0 * 0 + 0 * 0) with (2 * 2) in D by ring. rewrite sqrt_square in D by lra.
      unfold combine_fitsheader. cbn [map]. cbn [crval fst snd] in *. unfold a at 1 2 3 4. cbn [crval fst snd]. rewrite B. cbn [num_value bind]. do 3 eexists. split; [unfold combine_enlarge; reflexivity|].
      intros x y w [k [K W]]. cbn [crval fst snd]. assert (E : centre lon lat = centre 0 0).
      { rewrite C0. unfold centre. destruct (direction lon lat) as [[d0 d1] d2]. unfold scale3 in D. pose proof (f_equal (fun v : R * R * R => fst (fst v)) D) as D0. pose proof (f_equal (fun v : R * R * R => snd (fst v)) D) as D1. pose proof (f_equal (fun v : R * R * R => snd v) D) as D2. cbn [fst snd] in D0, D1, D2. repeat apply (f_equal2 pair); lra. }
      rewrite E. destruct (intermediate (cdm a) (crpix a) x y) as [xsi eta]. subst w. destruct (tangent_coordinates 0 0 k xsi eta) as [T _]. cbn [crval a fst snd]. rewrite T. exact K.
Qed.
