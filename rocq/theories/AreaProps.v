(** C95: areas of pixels. *)
From Coq Require Import Reals String Ascii QArith Qcanon Lia Lra.
From Verif Require Import Base BaseFacts TemplateModel UnitModel UnitSpec UnitFacts WcsModel WcsSpec AreaModel AreaSpec.
Open Scope R_scope.

Lemma hget_find h k : hget h k = option_map snd (find (fun kv => if string_dec k (fst kv) then true else false) h).
Proof.
  induction h as [|[k' v] h IH]; [reflexivity|]. cbn [hget find fst]. destruct (String.eqb_spec k k'), (string_dec k k'); try easy.
Qed.
Lemma present_defined h k : present h k <-> defined h k = true.
Proof.
  unfold present, defined. induction h as [|[k' v] h IH]; cbn [hget map fst In]; [split; easy|].
  destruct (String.eqb_spec k k'); [subst; split; [reflexivity|now left]|]. rewrite <- IH. split; [intros [E|E]; [now subst|exact E]|now right].
Qed.
Lemma absent_defined h k : ~ present h k <-> defined h k = false.
Proof. rewrite present_defined. destruct (defined h k); split; easy. Qed.
Lemma number_hnum h k d x : present h k -> number_or h k d x -> hnum h k = Ok x.
Proof.
  intros P N. apply present_defined in P. unfold defined in P. unfold hnum, number_or in *. rewrite hget_find in *.
  destruct (find _ h) as [[k' v]|]; [|discriminate]. cbn [option_map snd] in *. now destruct v; try easy; subst.
Qed.
Lemma number_absent h k d x : ~ present h k -> number_or h k d x -> x = d.
Proof.
  intros P N. apply absent_defined in P. unfold defined in P. unfold number_or in N. rewrite hget_find in P.
  destruct (find _ h) as [[k' v]|]; [discriminate|exact N].
Qed.
Lemma pixel_area m crpix x y : polygon_area (image_of_pixel m crpix x y) = Rabs (determinant m).
Proof.
  destruct m as [[a b] [c d]], crpix as [p q]. unfold polygon_area, image_of_pixel, intermediate, determinant. cbn [map fst snd shoelace].
  match goal with |- Rabs ?u / 2 = Rabs ?v => replace u with (2 * v) by field end. rewrite Rabs_mult, (Rabs_pos_eq 2) by lra. field.
Qed.

(** The unit of an axis: that of the header, degrees by default. *)
Definition unit_text (h : header) (k : string) : option text :=
  match find (fun kv => if string_dec k (fst kv) then true else false) h with Some (_, HS s) => Some (lit s) | Some _ => None | None => Some (lit "deg") end.
Lemma axis_unit_text h k t : unit_text h k = Some t -> axis_unit h k = extract_str t.
Proof.
  unfold unit_text, axis_unit. rewrite hget_find. destruct (find _ h) as [[k' v]|]; [destruct v|]; cbn; intros H; try discriminate; now injection H as <-.
Qed.

(** With the four CDi_j, or without any of them and with CDELT1 and CDELT2 and a matrix PCi_j, present or not, of determinant
    one or minus one (no scale, such as a rotation): the area is that of the image of each pixel, in the product of the units
    of the axes. *)
Theorem C95_area_partial h m tu tv u v :
  transformation h m ->
  (present h "CD1_1" /\ present h "CD1_2" /\ present h "CD2_1" /\ present h "CD2_2") \/
  (present h "CDELT1" /\ present h "CDELT2" /\ ~ present h "CD1_1" /\ ~ present h "CD1_2" /\ ~ present h "CD2_1" /\ ~ present h "CD2_2" /\
   forall a b c d, number_or h "PC1_1" 1 a -> number_or h "PC1_2" 0 b -> number_or h "PC2_1" 0 c -> number_or h "PC2_2" 1 d -> Rabs (a * d - b * c) = 1) ->
  unit_text h "CUNIT1" = Some tu -> unit_text h "CUNIT2" = Some tv -> extract_str tu = Ok u -> extract_str tv = Ok v -> canonical u -> canonical v ->
  exists area w, pixel_reference_to_solid_angle (Some h) = Ok (Some (area, w)) /\
    (forall crpix x y, area = polygon_area (image_of_pixel m crpix x y)) /\
    canonical w /\ forall k, exponent w k = (exponent u k + exponent v k)%Qc.
Proof.
  intros T G Eu Ev Ru Rv Cu Cv. unfold pixel_reference_to_solid_angle. rewrite (axis_unit_text _ _ _ Eu), (axis_unit_text _ _ _ Ev), Ru, Rv.
  assert (U : canonical (multiply_unit u v) /\ forall k, exponent (multiply_unit u v) k = (exponent u k + exponent v k)%Qc).
  { split; [now apply canonical_multiply|]. intros k. apply multiply_exponent, Cu. }
  destruct G as [(P1 & P2 & P3 & P4)|(P1 & P2 & P3 & P4 & P5 & P6 & D)].
  - cbn [forallb]. rewrite (proj1 (present_defined _ _) P1), (proj1 (present_defined _ _) P2), (proj1 (present_defined _ _) P3), (proj1 (present_defined _ _) P4).
    cbn [andb]. inversion T as [a b c d _ N1 N2 N3 N4 E|? ? ? ? ? ? X]; [|easy]. subst m.
    rewrite (number_hnum _ _ _ _ P1 N1), (number_hnum _ _ _ _ P2 N2), (number_hnum _ _ _ _ P3 N3), (number_hnum _ _ _ _ P4 N4). cbn [bind].
    eexists _, _. split; [reflexivity|]. split; [intros; now rewrite pixel_area|exact U].
  - cbn [forallb]. rewrite (proj1 (absent_defined _ _) P3). cbn [andb]. rewrite (proj1 (present_defined _ _) P1), (proj1 (present_defined _ _) P2). cbn [andb].
    inversion T as [a b c d X N1 N2 N3 N4 E|s t a b c d X1 X2 X3 X4 Ns Nt N1 N2 N3 N4 E]; subst m; [tauto|].
    rewrite (number_hnum _ _ _ _ P1 Ns), (number_hnum _ _ _ _ P2 Nt). cbn [bind].
    eexists _, _. split; [reflexivity|]. split; [|exact U]. intros crpix x y. rewrite pixel_area. unfold determinant.
    replace (s * a * (t * d) - s * b * (t * c)) with ((s * t) * (a * d - b * c)) by ring. rewrite (Rabs_mult (s * t)), (D a b c d) by assumption. ring.
Qed.
Print Assumptions C95_area_partial.
Definition header_cd : header := [("NAXIS", HI 2); ("CD1_1", HF (-3)); ("CD1_2", HF 1); ("CD2_1", HF 1); ("CD2_2", HI 2); ("CUNIT1", HS "arcsec"); ("CUNIT2", HS "arcsec")]%string.
Example C95_area_case : exists w, pixel_reference_to_solid_angle (Some header_cd) = Ok (Some (7, w)) /\ exponent w (lit "arcsec") = Q2Qc 2.
Proof.
  destruct (C95_area_partial header_cd ((-3, 1), (1, 2)) (lit "arcsec") (lit "arcsec") [(lit "arcsec", 1%Qc)] [(lit "arcsec", 1%Qc)]) as (area & w & E & A & _ & X); try reflexivity.
  - apply By_cd; try reflexivity. left. right. now left.
  - left. unfold present, header_cd; cbn; tauto.
  - split; [repeat constructor; easy|repeat constructor; easy].
  - split; [repeat constructor; easy|repeat constructor; easy].
  - exists w. rewrite X. split; [|reflexivity]. rewrite E, (A (0, 0) 0 0), pixel_area. unfold determinant. do 3 f_equal. rewrite Rabs_left; lra.
Qed.
(** No header, or neither the four CDi_j nor the two CDELTi: no area. *)
Theorem C95_no_area h : (present h "CD1_1" -> present h "CD1_2" -> present h "CD2_1" -> ~ present h "CD2_2") -> ~ present h "CDELT1" \/ ~ present h "CDELT2" ->
  pixel_reference_to_solid_angle (Some h) = Ok None /\ pixel_reference_to_solid_angle None = Ok None.
Proof.
  intros H G. split; [|reflexivity]. unfold pixel_reference_to_solid_angle. cbn [forallb]. rewrite !present_defined in *.
  destruct (defined h "CD1_1"), (defined h "CD2_1"), (defined h "CD1_2"), (defined h "CD2_2"), (defined h "CDELT1"), (defined h "CDELT2"); cbn; try reflexivity; intuition congruence.
Qed.
Print Assumptions C95_no_area.
(** A matrix PCi_j with a scale is forgotten. *)
Theorem C95_pc_refuted h s t a b c d : ~ present h "CD1_1" -> ~ present h "CD1_2" -> ~ present h "CD2_1" -> ~ present h "CD2_2" ->
  present h "CDELT1" -> present h "CDELT2" -> number_or h "CDELT1" 1 s -> number_or h "CDELT2" 1 t -> s <> 0 -> t <> 0 ->
  number_or h "PC1_1" 1 a -> number_or h "PC1_2" 0 b -> number_or h "PC2_1" 0 c -> number_or h "PC2_2" 1 d -> Rabs (a * d - b * c) <> 1 ->
  transformation h ((s * a, s * b), (t * c, t * d)) /\
  forall area w crpix x y, pixel_reference_to_solid_angle (Some h) = Ok (Some (area, w)) -> area <> polygon_area (image_of_pixel ((s * a, s * b), (t * c, t * d)) crpix x y).
Proof.
  intros A1 A2 A3 A4 P1 P2 Ns Nt Hs Ht N1 N2 N3 N4 D. split; [now apply By_pc|]. intros area w crpix x y. unfold pixel_reference_to_solid_angle. cbn [forallb].
  rewrite (proj1 (absent_defined _ _) A1), (proj1 (present_defined _ _) P1), (proj1 (present_defined _ _) P2), (number_hnum _ _ _ _ P1 Ns), (number_hnum _ _ _ _ P2 Nt). cbn [andb bind].
  destruct (axis_unit h "CUNIT1"); [|discriminate]. destruct (axis_unit h "CUNIT2"); [|discriminate]. cbn [bind]. intros E. injection E as <- _. rewrite pixel_area. unfold determinant.
  replace (s * a * (t * d) - s * b * (t * c)) with ((s * t) * (a * d - b * c)) by ring. rewrite (Rabs_mult (s * t)). intros E. apply D.
  assert (0 < Rabs (s * t)) by (apply Rabs_pos_lt, Rmult_integral_contrapositive_currified; assumption).
  apply Rmult_eq_reg_l with (Rabs (s * t)); lra.
Qed.
Print Assumptions C95_pc_refuted.
Example C95_pc_case : exists w, pixel_reference_to_solid_angle (Some [("CDELT1", HF (-1)); ("CDELT2", HF 1); ("PC1_1", HF 3); ("PC2_2", HF 3)]%string) = Ok (Some (Rabs (-1 * 1), w)).
Proof. eexists. reflexivity. Qed.
(** The elements of CD that are zero can be left out: no area, or that of CDELT, which CD replaces. *)
Theorem C95_cd_refuted a d s t : a <> 0 -> d <> 0 -> Rabs (s * t) <> Rabs (a * d) ->
  let h := [("CD1_1", HF a); ("CD2_2", HF d)]%string in
  let g := ("CDELT1"%string, HF s) :: ("CDELT2"%string, HF t) :: h in
  transformation h ((a, 0), (0, d)) /\ pixel_reference_to_solid_angle (Some h) = Ok None /\
  transformation g ((a, 0), (0, d)) /\ exists area w, pixel_reference_to_solid_angle (Some g) = Ok (Some (area, w)) /\ forall crpix x y, area <> polygon_area (image_of_pixel ((a, 0), (0, d)) crpix x y).
Proof.
  intros Ha Hd Hst h g. split; [apply By_cd; try reflexivity; left; now left|]. split; [reflexivity|]. split; [apply By_cd; try reflexivity; left; right; right; now left|].
  eexists _, _. split; [reflexivity|]. intros crpix x y. rewrite pixel_area. unfold determinant. now rewrite Rmult_0_r, Rminus_0_r.
Qed.
Print Assumptions C95_cd_refuted.
Example C95_cd_case : 2 <> 0 /\ Rabs (1 * 1) <> Rabs (2 * 2).
Proof. split; [lra|]. rewrite !Rabs_pos_eq by lra. lra. Qed.

(** ** Areas in reference pixels *)
Definition reference_unit : unit_ := [(lit "pixel_reference", 1%Qc)].
Definition axis_keys (n : nat) : list string := flat_map (fun i => [key "CRPIX" i; key "CRVAL" i; key "CTYPE" i]) (seq 1 n).
(** Maps whose header describes all the axes: the scale of each pixel, line by line. *)
Theorem C95_reference scale h n n1 n2 l : hint h "NAXIS" = Ok n -> (1 <= n)%Z -> (forall k, In k (axis_keys (Z.to_nat n)) -> present h k) ->
  hint h "NAXIS1" = Ok n1 -> hint h "NAXIS2" = Ok n2 -> (0 <= n1)%Z -> (0 <= n2)%Z -> scale h n1 n2 = Some l ->
  exists r, pixel_to_pixel_reference scale (Some h) = Ok (Areas r, reference_unit) /\ zlen r = n2 /\ Forall (fun x => zlen x = n1) r /\
  forall i j, (Z.of_nat i < n1)%Z -> (Z.of_nat j < n2)%Z -> nth i (nth j r []) 0 = nth j (nth i l []) 0.
Proof.
  intros E0 Hn K E1 E2 H1 H2 S. unfold pixel_to_pixel_reference, has_wcs. rewrite E0. cbn [bind]. destruct (Z.leb_spec n 0); [lia|]. cbn [bind].
  match goal with |- context [forallb ?f ?l] => assert (F : forallb f l = true) by (apply forallb_forall; intros k Hk; apply present_defined, K, Hk); rewrite F end.
  cbn [negb]. rewrite E1, E2. cbn [bind]. rewrite S. eexists. split; [reflexivity|]. unfold transpose, zlen. rewrite map_length, seq_length. split; [lia|]. split.
  - apply Forall_forall. intros x Hx. apply in_map_iff in Hx. destruct Hx as (j & <- & _). rewrite map_length, seq_length. lia.
  - intros i j Hi Hj.
    match goal with |- nth i (nth j (map ?f ?s) []) 0 = _ => rewrite nth_indep with (d' := f 0%nat) by (rewrite map_length, seq_length; lia); rewrite (map_nth f) end.
    rewrite seq_nth by lia. cbn [Nat.add].
    match goal with |- nth i (map ?f ?s) 0 = _ => rewrite nth_indep with (d' := f 0%nat) by (rewrite map_length, seq_length; lia); rewrite (map_nth f) end.
    rewrite seq_nth by lia. reflexivity.
Qed.
Print Assumptions C95_reference.
Definition header_full : header := [("NAXIS", HI 2); ("NAXIS1", HI 2); ("NAXIS2", HI 3); ("CRPIX1", HI 1); ("CRPIX2", HI 1); ("CRVAL1", HI 1); ("CRVAL2", HI 1); ("CTYPE1", HS "RA---TAN"); ("CTYPE2", HS "DEC--TAN")]%string.
Example C95_reference_case : pixel_to_pixel_reference (fun _ _ _ => Some [[1; 2; 3]; [4; 5; 6]]) (Some header_full) = Ok (Areas [[1; 4]; [2; 5]; [3; 6]], reference_unit).
Proof. reflexivity. Qed.
(** Without a header, or when a keyword of an axis is missing: one. *)
Theorem C95_one scale h n : hint h "NAXIS" = Ok n -> (1 <= n)%Z -> (exists k, In k (axis_keys (Z.to_nat n)) /\ ~ present h k) ->
  pixel_to_pixel_reference scale (Some h) = Ok (OneArea 1, reference_unit) /\ pixel_to_pixel_reference scale None = Ok (OneArea 1, reference_unit).
Proof.
  intros E0 Hn (k & Hk & A). split; [|reflexivity]. unfold pixel_to_pixel_reference, has_wcs. rewrite E0. cbn [bind]. destruct (Z.leb_spec n 0); [lia|]. cbn [bind].
  match goal with |- context [forallb ?f ?l] => destruct (forallb f l) eqn:F end; [|reflexivity].
  rewrite forallb_forall in F. elim A. apply present_defined, F, Hk.
Qed.
Print Assumptions C95_one.
Example C95_one_case : pixel_to_pixel_reference (fun _ _ _ => None) (Some (("NAXIS"%string, HI 3) :: tl header_full)) = Ok (OneArea 1, reference_unit).
Proof. reflexivity. Qed.
(** So that a cube of images is given the area one, whatever the projection, unless its third axis has world coordinates too. *)
Theorem C95_cube_refuted scale h : hint h "NAXIS" = Ok 3%Z -> ~ present h "CTYPE3" ->
  pixel_to_pixel_reference scale (Some h) = Ok (OneArea 1, reference_unit).
Proof. intros E A. apply (C95_one scale h 3 E); [lia|]. exists "CTYPE3"%string. split; [|exact A]. do 8 right. left. reflexivity. Qed.
Print Assumptions C95_cube_refuted.
(** Headers of arrays without dimension, and of one dimension with world coordinates, raise. *)
Theorem C95_axes_refuted scale h : (hint h "NAXIS" = Ok 0%Z -> pixel_to_pixel_reference scale (Some h) = Err ValueError) /\
  (hint h "NAXIS" = Ok 1%Z -> (forall k, In k (axis_keys 1) -> present h k) -> present h "NAXIS1" -> hint h "NAXIS2" = Err KeyError -> exists e, pixel_to_pixel_reference scale (Some h) = Err e).
Proof.
  unfold pixel_to_pixel_reference, has_wcs. split; intros E0; rewrite E0; cbn [bind]; [reflexivity|]. intros K P1 E2. change (1 <=? 0)%Z with false. cbn [bind].
  match goal with |- context [forallb ?f ?l] => assert (F : forallb f l = true) by (apply forallb_forall; intros k Hk; apply present_defined, K, Hk); rewrite F end.
  cbn [negb]. rewrite E2. destruct (hint h "NAXIS1"); cbn [bind]; eexists; reflexivity.
Qed.
Print Assumptions C95_axes_refuted.
Example C95_axes_case : pixel_to_pixel_reference (fun _ _ _ => None) (Some [("NAXIS", HI 1); ("NAXIS1", HI 2); ("CRPIX1", HI 1); ("CRVAL1", HI 1); ("CTYPE1", HS "WAVE")]%string) = Err KeyError.
Proof. reflexivity. Qed.
