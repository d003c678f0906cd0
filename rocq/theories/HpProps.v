(** C87, C88, C89: Healpix pixels, laplacian, scenes. *)
From Coq Require Import Reals List ZArith Ascii String Bool Lia Lra.
From Verif Require Import Base BaseFacts TemplateModel StrSpec FhSpec HpModel HpSpec.
Open Scope R_scope.

(** ** C87 *)
Lemma text_eqb_spec a b : text_eqb a b = true <-> a = b.
Proof. unfold text_eqb. destruct (list_eq_dec ascii_dec a b); split; congruence. Qed.
Lemma lower_spec c : (lower_char c = c /\ ~ (65 <= nat_of_ascii c <= 90)%nat) \/ capital_of c (lower_char c).
Proof.
  unfold lower_char, capital_of. destruct ((65 <=? nat_of_ascii c) && (nat_of_ascii c <=? 90))%nat eqn:E.
  - right. apply andb_true_iff in E. rewrite !Nat.leb_le in E. split; [lia|]. apply nat_ascii_embedding. lia.
  - left. split; [reflexivity|]. intros H. apply andb_false_iff in E. rewrite !Nat.leb_gt in E. lia.
Qed.
Lemma capital_lower c d : capital_of c d -> lower_char c = d.
Proof.
  intros [H1 H2]. unfold lower_char. replace ((65 <=? nat_of_ascii c) && (nat_of_ascii c <=? 90))%nat with true by (symmetry; rewrite andb_true_iff, !Nat.leb_le; lia).
  rewrite <- H2. apply ascii_nat_embedding.
Qed.
Lemma small_lower c : ~ (65 <= nat_of_ascii c <= 90)%nat -> lower_char c = c.
Proof. intros H. destruct (lower_spec c) as [[E _]|[E _]]; [exact E|easy]. Qed.
Lemma normalised_spec s t : normalised s = t <-> written s t.
Proof.
  unfold normalised. split.
  - intros <-. induction s as [|c s IH]; cbn [List.filter map]; [constructor|]. destruct (Ascii.eqb_spec c " "%char) as [->|Hb]; cbn [negb]; [now apply written_blank|]. cbn [map].
    destruct (lower_spec c) as [[E H]|H]; [rewrite E; now apply written_same|now apply written_capital].
  - induction 1 as [|s t _ IH|c s t Hb Hc _ IH|c d s t Hc _ IH]; cbn [List.filter map].
    + reflexivity.
    + change (Ascii.eqb blank " ") with true. exact IH.
    + replace (Ascii.eqb c " ") with false by (symmetry; now apply Ascii.eqb_neq). cbn [negb map]. now rewrite IH, small_lower.
    + assert (Ascii.eqb c " " = false) as -> by (apply Ascii.eqb_neq; intros ->; destruct Hc as [Hc _]; cbv in Hc; lia). cbn [negb map]. now rewrite IH, (capital_lower c d).
Qed.
(** The names of conventions are recognised whatever their blanks and capital letters, and no other. *)
Theorem C87_convention s : (forall c, parse s = Ok c <-> written s (name c)) /\ ((forall c, ~ written s (name c)) -> parse s = Err ValueError).
Proof.
  assert (E : forall c, text_eqb (normalised s) (name c) = true <-> written s (name c)) by (intros c; rewrite text_eqb_spec; apply normalised_spec).
  assert (U : forall c c', written s (name c) -> written s (name c') -> c = c').
  { intros c c' H H'. apply normalised_spec in H, H'. rewrite H in H'. destruct c, c'; try reflexivity; discriminate. }
  unfold parse. cbv zeta.
  change (lit "zenith,azimuth") with (name ZenithAzimuth). change (lit "azimuth,zenith") with (name AzimuthZenith).
  change (lit "elevation,azimuth") with (name ElevationAzimuth). change (lit "azimuth,elevation") with (name AzimuthElevation).
  pose proof (E ZenithAzimuth) as E1. pose proof (E AzimuthZenith) as E2. pose proof (E ElevationAzimuth) as E3. pose proof (E AzimuthElevation) as E4.
  assert (K : forall c0, written s (name c0) -> (forall c, Ok c0 = Ok c <-> written s (name c)) /\ ((forall c, ~ written s (name c)) -> Ok c0 = Err ValueError)).
  { intros c0 H. split; [intros c; split; [intros X; injection X as <-; exact H|intros X; now rewrite (U c0 c H X)]|intros X; now elim (X c0)]. }
  destruct (text_eqb (normalised s) (name ZenithAzimuth)); [apply K; now apply E1|].
  destruct (text_eqb (normalised s) (name AzimuthZenith)); [apply K; now apply E2|].
  destruct (text_eqb (normalised s) (name ElevationAzimuth)); [apply K; now apply E3|].
  destruct (text_eqb (normalised s) (name AzimuthElevation)); [apply K; now apply E4|].
  split; [|reflexivity]. intros c. split; [discriminate|]. intros H. destruct c; [apply E1 in H|apply E2 in H|apply E3 in H|apply E4 in H]; discriminate.
Qed.
Print Assumptions C87_convention.

Section H.
Context (pix2ang : Z -> bool -> Z -> R * R) (ang2pix : Z -> bool -> R * R -> Z).
(** Both operators follow the convention. *)
Theorem C87_coordinates o : (forall d, spherical2healpix ang2pix o (coords (conv o) d) = ang2pix (nside o) (nest o) d) /\
  (forall p, healpix2spherical pix2ang o p = coords (conv o) (pix2ang (nside o) (nest o) p)).
Proof.
  split.
  - intros [t f]. unfold spherical2healpix, coords. destruct (conv o); cbn [azimuth_first has_elevation fst snd]; f_equal; f_equal; field.
  - intros p. unfold healpix2spherical, coords. destruct (pix2ang (nside o) (nest o) p) as [t f]. destruct (conv o); cbn [azimuth_first has_elevation fst snd]; f_equal; field.
Qed.
(** Pixels are given back by their centres, and the composition that is replaced by the identity is the identity on them. *)
Theorem C87_pixels o1 o2 p : ang2pix (nside o1) (nest o1) (pix2ang (nside o1) (nest o1) p) = p ->
  compose (ToPixel o1) (ToSphere o2) = None -> spherical2healpix ang2pix o1 (healpix2spherical pix2ang o2 p) = p.
Proof.
  intros H. unfold compose, rule_identity. destruct (nside o1 =? nside o2)%Z eqn:E1; [|discriminate]. destruct (conv_eqb (conv o1) (conv o2)) eqn:E2; [|discriminate]. destruct (Bool.eqb (nest o1) (nest o2)) eqn:E3; [|discriminate].
  intros _. assert (o1 = o2) as <-.
  { destruct o1 as [n1 c1 b1], o2 as [n2 c2 b2]. cbn in *. apply Z.eqb_eq in E1. apply eqb_prop in E3. subst. f_equal. destruct c1, c2; (reflexivity || discriminate). }
  destruct (C87_coordinates o1) as [A B]. now rewrite B, A.
Qed.
(** The other composition is replaced by the identity too: it is not, as it moves directions to the centres of the pixels. *)
Theorem C87_directions_refuted o d d' : d <> d' -> ang2pix (nside o) (nest o) d = ang2pix (nside o) (nest o) d' ->
  compose (ToSphere o) (ToPixel o) = None /\ exists x, healpix2spherical pix2ang o (spherical2healpix ang2pix o x) <> x.
Proof.
  intros Hd He. split.
  - unfold compose, rule_identity. rewrite Z.eqb_refl, eqb_reflx. now destruct (conv o).
  - destruct (C87_coordinates o) as [A B].
    assert (Hc : coords (conv o) d <> coords (conv o) d').
    { intros E. apply Hd. destruct d as [a b], d' as [a' b']. unfold coords in E. destruct (conv o); cbn in E; injection E as E1 E2; f_equal; lra. }
    assert (S : forall x y : R * R, {x = y} + {x <> y}) by (intros [a b] [a' b']; destruct (Req_EM_T a a'), (Req_EM_T b b'); subst; (now left) || (right; congruence)).
    destruct (S (healpix2spherical pix2ang o (spherical2healpix ang2pix o (coords (conv o) d))) (coords (conv o) d)) as [E|E]; [|now exists (coords (conv o) d)].
    exists (coords (conv o) d'). rewrite A, <- He, <- A, E. exact Hc.
Qed.
End H.
Print Assumptions C87_coordinates.
Print Assumptions C87_pixels.
Print Assumptions C87_directions_refuted.
Example C87_case : let o := Spherical 1 AzimuthElevation false in
  spherical2healpix (fun _ _ d => if Rlt_dec (fst d) 1 then 0%Z else 1%Z) o (7, PI / 2) = 0%Z /\ compose (ToPixel o) (ToSphere o) = None /\ compose (ToPixel o) (ToSphere (Spherical 2 AzimuthElevation false)) <> None /\
  parse (lit "Azimuth, ELEVATION") = Ok AzimuthElevation /\ inverse (inverse (ToPixel o)) = ToPixel o.
Proof.
  cbv zeta. split; [|split; [reflexivity|split; [discriminate|split; reflexivity]]].
  unfold spherical2healpix. cbn [conv azimuth_first has_elevation fst snd nside nest]. destruct (Rlt_dec (/ 2 * PI - PI / 2) 1); [reflexivity|exfalso; lra].
Qed.

Lemma ratio_pos : 0 < ratio.
Proof. unfold ratio. apply sqrt_lt_R0. apply Rmult_lt_0_compat; [lra|]. rewrite <- ln_1. apply ln_increasing; lra. Qed.
(** One width, positive, is used; the gaussian of this sigma is half of its maximum at half of fwhm. *)
Theorem C87_width fwhm sigma : match convolution fwhm sigma with
  | Ok (Smooth f s) => 0 < f /\ 0 < s /\ exp (- (f / 2) ^ 2 / (2 * s ^ 2)) = / 2 /\ ((fwhm = Some f /\ sigma = None) \/ (fwhm = None /\ sigma = Some s))
  | Ok Identity => (fwhm = Some 0 /\ sigma = None) \/ (fwhm = None /\ sigma = Some 0)
  | Err _ => (fwhm = None <-> sigma = None) \/ (exists w, w < 0 /\ (fwhm = Some w \/ sigma = Some w))
  end.
Proof.
  pose proof ratio_pos as Hr.
  assert (G : forall s, 0 < s -> exp (- (s * ratio / 2) ^ 2 / (2 * s ^ 2)) = / 2).
  { intros s Hs. replace (- (s * ratio / 2) ^ 2 / (2 * s ^ 2)) with (- ln 2).
    - rewrite exp_Ropp, exp_ln by lra. reflexivity.
    - replace ((s * ratio / 2) ^ 2) with (s ^ 2 * (ratio * ratio) / 4) by field. unfold ratio. rewrite sqrt_sqrt; [field; lra|]. apply Rmult_le_pos; [lra|]. left. rewrite <- ln_1. apply ln_increasing; lra. }
  unfold convolution. destruct fwhm as [f|], sigma as [s|].
  - left. split; discriminate.
  - unfold neg, is0. destruct (Rlt_dec f 0); [right; exists f; auto|]. destruct (Req_EM_T f 0) as [->|Hf]; [auto|].
    assert (0 < f / ratio) by (apply Rdiv_lt_0_compat; lra). split; [lra|]. split; [assumption|]. split; [|auto]. rewrite <- (G (f / ratio)) by assumption. do 3 f_equal. field. lra.
  - unfold neg, is0. destruct (Rlt_dec s 0); [right; exists s; auto|]. destruct (Req_EM_T s 0) as [->|Hs]; [auto|].
    split; [apply Rmult_lt_0_compat; lra|]. split; [lra|]. split; [apply G; lra|auto].
  - left. split; reflexivity.
Qed.
Print Assumptions C87_width.
Example C87_width_case : exists s, convolution (Some 2) None = Ok (Smooth 2 s) /\ convolution None None = Err ValueError /\ convolution (Some 1) (Some 1) = Err ValueError.
Proof. unfold convolution, neg, is0. destruct (Rlt_dec 2 0); [lra|]. destruct (Req_EM_T 2 0); [lra|]. eexists. split; [reflexivity|split; reflexivity]. Qed.

Lemma round_even_IZR n : round_even (IZR n) = n.
Proof.
  unfold round_even. assert (Int_part (IZR n) = n) as ->.
  { unfold Int_part. assert (up (IZR n) = (n + 1)%Z) as ->; [|lia]. symmetry. apply tech_up; rewrite plus_IZR; lra. }
  replace (IZR n - IZR n) with 0 by ring. destruct (Rlt_dec 0 (/ 2)); [reflexivity|lra].
Qed.
(** Arrays are accepted if they have one or two dimensions and the number of pixels of a map, or none. *)
Theorem C87_shape_partial shape : Forall (fun d => (0 <= d)%Z) shape ->
  validatein shape = Ok tt <-> exists n rest, shape = (12 * (n * n))%Z :: rest /\ (0 <= n)%Z /\ (length rest <= 1)%nat.
Proof.
  intros F. assert (A : forall s, (0 <= s)%Z -> (12 * (round_even (sqrt (IZR s / 12)) * round_even (sqrt (IZR s / 12))) =? s)%Z = true <-> exists n, (0 <= n)%Z /\ s = (12 * (n * n))%Z).
  { intros s Hs. split.
    - intros H. apply Z.eqb_eq in H. exists (Z.abs (round_even (sqrt (IZR s / 12)))). split; [apply Z.abs_nonneg|]. rewrite <- H at 1. rewrite <- Z.abs_mul. rewrite Z.abs_eq; [reflexivity|]. apply Z.square_nonneg.
    - intros (n & Hn & ->). replace (IZR (12 * (n * n)) / 12) with (IZR n * IZR n) by (rewrite !mult_IZR; field). rewrite sqrt_square, round_even_IZR by (now apply IZR_le). apply Z.eqb_refl. }
  unfold validatein. split.
  - destruct shape as [|s [|t [|u r]]]; try discriminate; inversion F; subst; cbv zeta; intros H.
    + destruct (12 * (round_even (sqrt (IZR s / 12)) * round_even (sqrt (IZR s / 12))) =? s)%Z eqn:E; [|discriminate]. apply A in E; [|assumption]. destruct E as (n & Hn & ->). exists n, []. auto.
    + destruct (12 * (round_even (sqrt (IZR s / 12)) * round_even (sqrt (IZR s / 12))) =? s)%Z eqn:E; [|discriminate]. apply A in E; [|assumption]. destruct E as (n & Hn & ->). exists n, [t]. auto.
  - intros (n & rest & -> & Hn & Hl). pose proof (Forall_inv F) as H1. cbn beta in H1. assert (E := proj2 (A _ H1) (ex_intro _ n (conj Hn eq_refl))). destruct rest as [|t [|u r]]; [| |cbn in Hl; lia]; cbv zeta; now rewrite E.
Qed.
Print Assumptions C87_shape_partial.
Theorem C87_empty_refuted : validatein [0%Z] = Ok tt /\ validatein [0; 3]%Z = Ok tt /\ forall n, (0 < n)%Z -> (12 * (n * n) <> 0)%Z.
Proof.
  split; [|split].
  - apply C87_shape_partial; [repeat constructor; lia|]. exists 0%Z, []. repeat split; cbn; lia.
  - apply C87_shape_partial; [repeat constructor; lia|]. exists 0%Z, [3%Z]. repeat split; cbn; lia.
  - intros n Hn. nia.
Qed.
Print Assumptions C87_empty_refuted.
Example C87_shape_case : validatein [48; 3]%Z = Ok tt /\ validatein [48; 3; 2]%Z = Err ValueError /\ validatein [] = Err ValueError.
Proof. split; [|split; reflexivity]. apply C87_shape_partial; [repeat constructor; lia|]. exists 2%Z, [3%Z]. repeat split; cbn; lia. Qed.

(** ** C88: laplacian *)
Definition area (ns : Z) : R := 4 * PI / IZR (12 * (ns * ns)).
Lemma area_pos ns : (0 < ns)%Z -> 0 < area ns.
Proof. intros H. unfold area. apply Rdiv_lt_0_compat; [pose proof PI_RGT_0; lra|]. apply IZR_lt. nia. Qed.
Section L.
Context (neighbours : Z -> list Z) (ns : Z) (Hns : (0 < ns)%Z) (H8 : forall i, length (neighbours i) = 8%nat).
(** The value at a pixel that has eight neighbours. *)
Lemma laplacian_full x i : (0 <= i)%Z -> Forall (fun j => (0 <= j)%Z) (neighbours i) ->
  laplacian neighbours ns x i = (- 20 * x i + fold_right Rplus 0 (map (fun e => snd e * x (fst e)) (combine (neighbours i) weights))) / (6 * (area ns)).
Proof using Hns H8.
  intros Hi F. unfold laplacian, row_product, laplacian_row. cbv zeta. fold (area ns). pose proof (area_pos ns Hns) as Hh. specialize (H8 i). destruct (neighbours i) as [|a [|b [|c [|d [|e [|f [|g [|k [|l r]]]]]]]]]; try discriminate.
  cbn [combine map weights fold_right fst snd]. repeat match goal with F : Forall _ (_ :: _) |- _ => inversion F; subst; clear F end.
  repeat (match goal with |- context [(?z <? 0)%Z] => destruct (Z.ltb_spec z 0); [lia|] end). field. lra.
Qed.
Theorem C88_constant x i v : (0 <= i)%Z -> Forall (fun j => (0 <= j)%Z) (neighbours i) -> (forall j, x j = v) -> laplacian neighbours ns x i = 0.
Proof using Hns H8.
  intros Hi F Hx. rewrite laplacian_full by assumption. pose proof (area_pos ns Hns) as Hh. pose proof (H8 i) as H8i. destruct (neighbours i) as [|a [|b [|c [|d [|e [|f [|g [|k [|l r]]]]]]]]]; try discriminate.
  cbn [combine map weights fold_right fst snd]. rewrite !Hx. field. lra.
Qed.
(** A quadratic map has the laplacian 2 (a + c); the operator returns 3 (a + c), for the neighbours that share a side (SW, NW, NE, SE)
    have the weight 1 and those that share a corner the weight 4: the weights of the nine-point stencil are exchanged. *)
Theorem C88_quadratic a b c d e f x i : (0 <= i)%Z -> Forall (fun j => (0 <= j)%Z) (neighbours i) ->
  x i = quadratic a b c d e f 0 0 ->
  map x (neighbours i) = map (fun o => quadratic a b c d e f (sqrt (area ns) * fst o) (sqrt (area ns) * snd o)) offsets ->
  laplacian neighbours ns x i = 3 * (a + c).
Proof using Hns H8.
  intros Hi F Hx Hn. rewrite laplacian_full by assumption. pose proof (area_pos ns Hns) as Hh. pose proof (H8 i) as H8i. destruct (neighbours i) as [|a1 [|a2 [|a3 [|a4 [|a5 [|a6 [|a7 [|a8 [|l r]]]]]]]]]; try discriminate.
  cbn [map offsets fst snd] in Hn. injection Hn as E1 E2 E3 E4 E5 E6 E7 E8. cbn [combine map weights fold_right fst snd]. rewrite Hx, E1, E2, E3, E4, E5, E6, E7, E8. unfold quadratic.
  set (q := sqrt (area ns)). assert (Q : q * q = (area ns)) by (apply sqrt_sqrt; lra). rewrite <- Q. field. intros Z. rewrite Z in Q. lra.
Qed.
(** The matrix is symmetric if the neighbours by a side, and by a corner, are mutual. *)
Definition entry (i j : Z) : R := fold_right Rplus 0 (map snd (List.filter (fun e => (fst e =? j)%Z) (laplacian_row neighbours (12 * (ns * ns)) i))).
Definition times (odd : bool) (i j : Z) : nat := length (List.filter (fun e => (fst e =? j)%Z && Bool.eqb (snd e) odd) (combine (neighbours i) [false; true; false; true; false; true; false; true])).
Theorem C88_symmetric i j : (forall odd, times odd i j = times odd j i) -> entry i j = entry j i.
Proof using Hns H8.
  assert (E : forall i j, entry i j = ((if (i =? j)%Z then - 20 else 0) + INR (times false i j) + 4 * INR (times true i j)) / (6 * (area ns))).
  { clear i j. intros i j. unfold entry, times, laplacian_row. cbv zeta. fold (area ns). pose proof (area_pos ns Hns) as Hh. pose proof (H8 i) as H8i. destruct (neighbours i) as [|a1 [|a2 [|a3 [|a4 [|a5 [|a6 [|a7 [|a8 [|l r]]]]]]]]]; try discriminate.
    cbn [combine map weights List.filter fst snd]. clear H8i.
    assert (SS : forall (l1 : list (Z * R)) (l2 : list (Z * bool)), Forall2 (fun (u : Z * R) (v : Z * bool) => fst u = fst v /\ snd u = (if snd v then 4 else 1) / (6 * (area ns))) l1 l2 ->
      fold_right Rplus 0 (map snd (List.filter (fun e => (fst e =? j)%Z) l1)) =
      (INR (length (List.filter (fun e => (fst e =? j)%Z && Bool.eqb (snd e) false) l2)) + 4 * INR (length (List.filter (fun e => (fst e =? j)%Z && Bool.eqb (snd e) true) l2))) / (6 * (area ns))).
    { induction 1 as [|u [v1 v2] l1 l2 [H1 H2] _ IH]; [cbn; field; lra|]. cbn [fst snd] in H1, H2. cbn [List.filter fst snd]. rewrite <- H1. destruct (fst u =? j)%Z; [|exact IH]. cbn [map fold_right]. rewrite IH, H2.
      destruct v2; cbn [Bool.eqb andb]; [|]; cbn [length]; rewrite ?S_INR; field; lra. }
    match goal with |- context [if (i =? j)%Z then ?u :: ?r else _] => set (rest := r) end.
    assert (A : fold_right Rplus 0 (map snd (if (i =? j)%Z then (i, - 20 / (6 * (area ns))) :: rest else rest)) = (if (i =? j)%Z then - 20 / (6 * (area ns)) else 0) + fold_right Rplus 0 (map snd rest)) by (destruct (i =? j)%Z; cbn [map fold_right snd]; ring).
    rewrite A. unfold rest. clear A rest.
    specialize (SS [(a1, 1 / (6 * (area ns))); (a2, 4 / (6 * (area ns))); (a3, 1 / (6 * (area ns))); (a4, 4 / (6 * (area ns))); (a5, 1 / (6 * (area ns))); (a6, 4 / (6 * (area ns))); (a7, 1 / (6 * (area ns))); (a8, 4 / (6 * (area ns)))]
      [(a1, false); (a2, true); (a3, false); (a4, true); (a5, false); (a6, true); (a7, false); (a8, true)]).
    cbn [List.filter fst snd] in SS. rewrite SS; [|repeat (constructor; [split; reflexivity|]); constructor]. destruct (i =? j)%Z; field; lra. }
  intros H. rewrite !E, !H, (Z.eqb_sym i j). reflexivity.
Qed.
End L.
Print Assumptions C88_constant.
Print Assumptions C88_quadratic.
Print Assumptions C88_symmetric.
(** Pixels of a face as 100 y + x. *)
Definition face (i : Z) : list Z := map (fun o => i + o)%Z [-1; 99; 100; 101; 1; -99; -100; -101]%Z.
Theorem C88_laplacian_refuted : exists x, laplacian face 1 x 505 = 3 /\ x 505%Z = 0 /\
  map x (face 505) = map (fun o => quadratic 1 0 0 0 0 0 (sqrt (area 1) * fst o) (sqrt (area 1) * snd o)) offsets /\ 2 * (1 + 0) <> 3.
Proof.
  set (q := sqrt (area 1)). exists (fun j => quadratic 1 0 0 0 0 0 (q * (IZR (j mod 100) - 5)) (q * (IZR (j / 100) - 5))).
  assert (E : map (fun j => quadratic 1 0 0 0 0 0 (q * (IZR (j mod 100) - 5)) (q * (IZR (j / 100) - 5))) (face 505) = map (fun o => quadratic 1 0 0 0 0 0 (q * fst o) (q * snd o)) offsets).
  { unfold face, offsets. cbn [map]. repeat (apply (f_equal2 cons); [vm_compute (_ mod _)%Z; vm_compute (_ / _)%Z; unfold quadratic; cbn [fst snd]; ring|]). reflexivity. }
  split; [|split; [vm_compute (_ mod _)%Z; vm_compute (_ / _)%Z; unfold quadratic; ring|split; [exact E|lra]]].
  rewrite (C88_quadratic face 1 ltac:(lia) (fun _ => eq_refl) 1 0 0 0 0 0); [ring|lia|repeat constructor; vm_compute; discriminate| |exact E].
  vm_compute (_ mod _)%Z. vm_compute (_ / _)%Z. unfold quadratic. ring.
Qed.
Print Assumptions C88_laplacian_refuted.
(** At a pixel without one of its neighbours (there are 24 of them), the laplacian of a constant map is not zero. *)
Theorem C88_missing_refuted : laplacian (fun i => [-1; 99; 100; 101; 1; 2; 3; 4]%Z) 1 (fun _ => 1) 0 = - 1 / (6 * area 1) /\ - 1 / (6 * area 1) <> 0.
Proof.
  pose proof (area_pos 1 ltac:(lia)) as Hh. split.
  - unfold laplacian, row_product, laplacian_row. cbv zeta. fold (area 1). cbn [combine map weights fold_right fst snd]. cbn [Z.ltb Z.compare Pos.compare Pos.compare_cont]. field. lra.
  - apply Rlt_not_eq. apply Rmult_lt_reg_r with (6 * area 1); [lra|]. unfold Rdiv. rewrite Rmult_assoc, Rinv_l, Rmult_0_l by lra. lra.
Qed.
Print Assumptions C88_missing_refuted.

(** ** C89: scenes *)
Theorem C89_scene ns k : (0 < ns)%Z -> let '(shape, npix, solid_angle) := scene_healpix ns k in
  npix = (12 * ns ^ 2)%Z /\ hd 0%Z shape = npix /\ prodZ (tl shape) = (match k with I_ => 1 | QU => 2 | IQU => 3 end)%Z /\ IZR npix * solid_angle = 4 * PI.
Proof.
  intros H. unfold scene_healpix. cbv zeta. split; [ring|]. split; [reflexivity|]. split; [destruct k; reflexivity|]. field. apply not_0_IZR. nia.
Qed.
Print Assumptions C89_scene.
(** With the background, Planck's law; without it, its derivative at the temperature, for fluctuations in microkelvins. *)
Theorem C89_planck h c k sa nu temperature T : k <> 0 -> T <> 0 -> conversion h c k sa temperature true nu T = planck h c k sa nu T.
Proof. intros Hk HT. unfold conversion, planck. cbv zeta. replace (h * nu / k * / T) with (h * nu / (k * T)) by (field; now split). unfold Rdiv. ring. Qed.
Theorem C89_linear h c k sa nu T : 0 < h -> 0 < k -> 0 < nu -> 0 < T -> c <> 0 ->
  (forall x, conversion h c k sa T false nu x = x * conversion h c k sa T false nu 1) /\
  derivable_pt_lim (conversion h c k sa T true nu) T (10 ^ 6 * conversion h c k sa T false nu 1).
Proof.
  intros Hh Hk Hn HT Hc. split; [intros x; unfold conversion; ring|]. unfold conversion. cbv zeta.
  set (a := 2 * sa * h * nu ^ 3 / c ^ 2). set (b := h * nu / k). assert (Hb : 0 < b) by (unfold b; apply Rdiv_lt_0_compat; [apply Rmult_lt_0_compat; lra|lra]).
  assert (Ex : 1 < exp (b / T)) by (rewrite <- exp_0; apply exp_increasing; now apply Rdiv_lt_0_compat).
  assert (D1 : derivable_pt_lim (fun t => b * / t) T (- b / T ^ 2)).
  { assert (X := derivable_pt_lim_div (fct_cte b) id T 0 1 (derivable_pt_lim_const b T) (derivable_pt_lim_id T)). cbn beta in X. specialize (X ltac:(unfold id; lra)).
    match type of X with derivable_pt_lim _ _ ?u => replace (- b / T ^ 2) with u; [exact X|] end. unfold fct_cte, id, Rsqr. field. lra. }
  assert (D2 : derivable_pt_lim (fun t => exp (b * / t) - 1) T (exp (b / T) * (- b / T ^ 2))).
  { replace (exp (b / T) * (- b / T ^ 2)) with (exp (b / T) * (- b / T ^ 2) - 0) by ring. apply (derivable_pt_lim_minus (fun t => exp (b * / t)) (fct_cte 1) T); [|apply derivable_pt_lim_const].
    apply (derivable_pt_lim_comp (fun t => b * / t) exp T); [exact D1|]. apply derivable_pt_lim_exp. }
  assert (X := derivable_pt_lim_div (fct_cte a) (fun t => exp (b * / t) - 1) T 0 (exp (b / T) * (- b / T ^ 2)) (derivable_pt_lim_const a T) D2). cbn beta in X.
  specialize (X ltac:(cbn beta; unfold Rdiv in Ex; lra)).
  match type of X with derivable_pt_lim _ _ ?u => match goal with |- derivable_pt_lim _ _ ?v => replace v with u; [exact X|] end end.
  unfold fct_cte, Rsqr. replace (h * nu / (k * T)) with (b / T) by (unfold b; field; split; lra). change (b * / T) with (b / T). set (E := exp (b / T)) in *. field. repeat split; lra.
Qed.
(** Q and U take both signs: with the background, opposite values should be given opposite powers; they differ by the constant of Planck's law. *)
Theorem C89_polarisation_refuted h c k sa nu temperature q : 0 < h -> 0 < k -> 0 < nu -> 0 < sa -> c <> 0 -> 0 < q ->
  conversion h c k sa temperature true nu (- q) = - conversion h c k sa temperature true nu q - 2 * sa * h * nu ^ 3 / c ^ 2 /\ 0 < 2 * sa * h * nu ^ 3 / c ^ 2.
Proof.
  intros Hh Hk Hn Hs Hc Hq. unfold conversion. cbv zeta. set (a := 2 * sa * h * nu ^ 3 / c ^ 2). split.
  - assert (Hb : 0 < h * nu / k) by (apply Rdiv_lt_0_compat; [apply Rmult_lt_0_compat; lra|lra]). set (b := h * nu / k) in *.
    replace (b * / - q) with (- (b * / q)) by (field; lra). rewrite exp_Ropp.
    assert (Ex : 1 < exp (b * / q)) by (rewrite <- exp_0; apply exp_increasing; apply Rmult_lt_0_compat; [lra|now apply Rinv_0_lt_compat]). set (E := exp (b * / q)) in *. field. repeat split; lra.
  - unfold a. apply Rdiv_lt_0_compat; [|replace (c ^ 2) with (Rsqr c) by (unfold Rsqr; ring); now apply Rsqr_pos_lt]. apply Rmult_lt_0_compat; [|now apply pow_lt]. apply Rmult_lt_0_compat; lra.
Qed.
Print Assumptions C89_polarisation_refuted.
Print Assumptions C89_planck.
Print Assumptions C89_linear.
(** The kinds I, QU and IQU are recognised whatever the case of their letters, and no other. *)
Definition kind_name (k : kind) : text := lit (match k with I_ => "I" | QU => "QU" | IQU => "IQU" end)%string.
Lemma upper_letter c C : In C (lit "IQU"%string) ->
  (let n := nat_of_ascii c in if ((97 <=? n) && (n <=? 122))%nat then ascii_of_nat (n - 32) else c) = C <-> FhSpec.same_letter c C.
Proof.
  intros HC. split.
  - intros H. destruct HC as [<-|[<-|[<-|[]]]]; destruct c as [[] [] [] [] [] [] [] []]; vm_compute in H; try discriminate H; try (left; reflexivity); right.
    + exists 8%nat. right. split; reflexivity.
    + exists 16%nat. right. split; reflexivity.
    + exists 20%nat. right. split; reflexivity.
  - intros [->|(i & [[H1 H2]|[H1 H2]])].
    + destruct HC as [<-|[<-|[<-|[]]]]; reflexivity.
    + exfalso. destruct HC as [<-|[<-|[<-|[]]]]; do 27 (destruct i as [|i]; [discriminate H2|]); destruct i; discriminate H2.
    + do 26 (destruct i as [|i]; [injection H1 as <-; injection H2 as <-; reflexivity|]). destruct i; discriminate H1.
Qed.
Lemma upper_text s (t : text) : (forall C, In C t -> In C (lit "IQU"%string)) ->
  map (fun c => let n := nat_of_ascii c in if ((97 <=? n) && (n <=? 122))%nat then ascii_of_nat (n - 32) else c) s = t <-> Forall2 FhSpec.same_letter s t.
Proof.
  revert t. induction s as [|c s IH]; intros [|C t] HT; cbn [map]; split; intros H; try discriminate H; try (inversion H; fail); try constructor; try reflexivity.
  - apply upper_letter; [apply HT; left; reflexivity|]. now injection H.
  - apply IH; [intros X HX; apply HT; right; exact HX|]. now injection H.
  - inversion H; subst. f_equal; [apply upper_letter; [apply HT; left; reflexivity|assumption]|]. apply IH; [intros X HX; apply HT; right; exact HX|assumption].
Qed.
Theorem C89_kinds : forall s, (forall k, parse_kind s = Ok k <-> Forall2 FhSpec.same_letter s (kind_name k)) /\
  ((forall k, ~ Forall2 FhSpec.same_letter s (kind_name k)) -> parse_kind s = Err ValueError).
Proof.
  intros s. unfold parse_kind. set (u := map _ s).
  assert (A : forall k, u = kind_name k <-> Forall2 FhSpec.same_letter s (kind_name k)).
  { intros k. apply upper_text. intros C HC. destruct k; cbn in HC |- *; intuition. }
  unfold text_eqb. destruct (list_eq_dec Ascii.ascii_dec u (lit "I")) as [E|N1]; [|destruct (list_eq_dec Ascii.ascii_dec u (lit "QU")) as [E|N2]; [|destruct (list_eq_dec Ascii.ascii_dec u (lit "IQU")) as [E|N3]]].
  1: change (lit "I") with (kind_name I_) in E. 2: change (lit "QU") with (kind_name QU) in E. 3: change (lit "IQU") with (kind_name IQU) in E.
  1-3: (split; [intros k; rewrite <- A; split; [intros H; injection H as <-; exact E|intros H; rewrite E in H; destruct k; try discriminate H; reflexivity]|intros H; exfalso; eapply H; apply A; exact E]).
  split; [|reflexivity]. intros k. rewrite <- A. split; [discriminate|]. intros H. exfalso. destruct k; contradiction.
Qed.
Print Assumptions C89_kinds.
Example C89_case : let '(shape, npix, _) := scene_healpix 2 IQU in shape = [48; 3]%Z /\ npix = 48%Z /\ parse_kind (lit "iQu") = Ok IQU /\ parse_kind (lit "V") = Err ValueError.
Proof. repeat split. Qed.
