(** Lemmas on the FITS files of FitsArray, Map and Tod. *)
From Coq Require Import String Ascii QArith Qcanon Lia.
From Verif Require Import Base BaseFacts TemplateModel TemplateFacts UnitModel UnitSpec UnitFacts UnitPrintFacts StrModel MpiModel MpiHeadFacts FaModel FaSpec.
Open Scope Z_scope.

Section files. Context {V D : Type} (repr : Qc -> text) (default_header : arr V -> header).
Notation hduT := (hdu V D).

Lemma set_axes_other s : forall h i k, (forall j, k <> (kNAXIS ++ str_int j)%list) -> h_get (set_axes h i s) k = h_get h k.
Proof. induction s as [|n s IH]; intros h i k N; cbn [set_axes]; [reflexivity|]. rewrite IH by exact N. apply h_get_set_other. intros E. exact (N i (eq_sym E)). Qed.
Lemma set_axes_below s : forall h i j, j < i -> h_get (set_axes h i s) (kNAXIS ++ str_int j)%list = h_get h (kNAXIS ++ str_int j)%list.
Proof.
  induction s as [|n s IH]; intros h i j L; cbn [set_axes]; [reflexivity|]. rewrite IH by lia. apply h_get_set_other.
  intros E. apply app_inv_head in E. apply str_int_inj in E. lia.
Qed.
Lemma set_axes_last s : forall h i n, h_get (set_axes h i (s ++ [n])) (kNAXIS ++ str_int (i + zlen s))%list = Some (HInt n).
Proof.
  induction s as [|m s IH]; intros h i n; cbn [set_axes app].
  - replace (i + zlen (@nil Z)) with i by (unfold zlen; cbn; lia). apply h_get_set_same.
  - rewrite zlen_cons. replace (i + (1 + zlen s)) with ((i + 1) + zlen s) by lia. apply IH.
Qed.
Lemma structural_other (a : arr V) h k : ~ structure k -> h_get (structural a h) k = h_get h k.
Proof.
  intros N. unfold structural. rewrite set_axes_other.
  - apply h_get_set_other. intros E. apply N. now left.
  - intros j E. apply N. right. now exists j.
Qed.
Lemma structural_naxis (a : arr V) h : h_get (structural a h) kNAXIS = Some (HInt (zlen (a_shape a))).
Proof.
  unfold structural. rewrite set_axes_other; [apply h_get_set_same|]. intros j E. symmetry in E. revert E. apply key_N. apply str_int_nonempty.
Qed.
Lemma structural_last (a : arr V) h n s : a_shape a = n :: s -> h_get (structural a h) (kNAXIS ++ str_int (zlen (a_shape a)))%list = Some (HInt n).
Proof.
  intros E. unfold structural. rewrite E. cbn [rev]. rewrite zlen_cons. assert (L : zlen (rev s) = zlen s) by (unfold zlen; now rewrite rev_length).
  rewrite <- L. apply set_axes_last.
Qed.
Lemma not_structure k : match k with "N"%char :: "A"%char :: _ => False | _ => True end -> ~ structure k.
Proof. intros N [->|[i ->]]; exact N. Qed.
Lemma read_structural (a : arr V) h : a_shape a <> [] -> numeric_wcs h -> read_header (structural a h) 1 0 = Ok (structural a h).
Proof.
  intros N W. destruct (a_shape a) as [|n s] eqn:S; [now destruct N|]. unfold read_header, h_int, h_item.
  assert (LA := structural_last a h n s S). assert (NA := structural_naxis a h). rewrite S in *. rewrite NA. cbn [bind]. rewrite LA. cbn [bind].
  assert (S0 : split_start n 1 0 = 0) by (unfold split_start; rewrite Z.mod_1_r; lia).
  assert (S1 : split_start n 1 (0 + 1) = n) by (unfold split_start; rewrite Z.div_1_r, Z.mod_1_r; lia).
  rewrite S0, S1, Z.sub_0_r. rewrite (h_set_same _ _ _ LA).
  rewrite !(structural_other a h) by (apply not_structure; exact I).
  destruct (h_get h (lit "CTYPE1")) as [[| |x]|]; try reflexivity. destruct (h_get h (lit "CTYPE2")) as [[| |y]|]; try reflexivity.
  destruct (h_get h (lit "CRPIX2")) as [v|] eqn:C; [|reflexivity]. destruct (text_eqb x (lit "RA---TAN") && text_eqb y (lit "DEC--TAN")); [|reflexivity].
  assert (X : h_shift v (-0) = Ok v).
  { unfold numeric_wcs in W. rewrite C in W. destruct v as [m|q|t]; cbn [h_shift Z.opp]; [now rewrite Z.add_0_r| |destruct W].
    do 2 f_equal. replace (Q2Qc (inject_Z 0)) with (Q2Qc 0) by reflexivity. ring. }
  rewrite X. cbn [bind]. f_equal. apply h_set_same. rewrite (structural_other a h) by (apply not_structure; exact I). exact C.
Qed.
Lemma make_ok name (a : arr V) h : writable a = true -> make_hdu (D:=D) name a h = Ok (Hdu name (structural a h) (PArr a)).
Proof. intros W. unfold make_hdu. now rewrite W. Qed.
Lemma read_first (a : arr V) h (r : fits_file V D) : a_shape a <> [] -> numeric_wcs h ->
  read_fits (Hdu None (structural a h) (PArr a) :: r) None = Ok (a, structural a h).
Proof.
  intros N W. unfold read_fits. cbn [first_data h_head]. unfold h_int, h_item. rewrite structural_naxis. cbn [bind].
  destruct (Z.eqb_spec (zlen (a_shape a)) 0) as [E|_].
  { destruct (a_shape a); [now destruct N|]. rewrite zlen_cons in E. assert (X := zlen_nonneg l). lia. }
  cbn [bind h_head]. rewrite read_structural by assumption. reflexivity.
Qed.
Lemma read_ext (f : fits_file V D) name (a : arr V) h : a_shape a <> [] -> numeric_wcs h ->
  find_ext f name = Ok (Hdu (Some name) (structural a h) (PArr a)) -> read_fits f (Some name) = Ok (a, structural a h).
Proof. intros N W E. unfold read_fits. rewrite E. cbn [bind h_head]. rewrite read_structural by assumption. reflexivity. Qed.
Lemma find_app (f g : fits_file V D) name : (forall u, In u f -> h_name u <> Some name) -> find_ext (f ++ g) name = find_ext g name.
Proof.
  induction f as [|u f IH]; intros H; [reflexivity|]. cbn [app find_ext]. destruct (h_name u) as [n|] eqn:E.
  - destruct (text_eqb n name) eqn:T; [|apply IH; intros w W; apply H; now right].
    apply text_eqb_eq in T. subst. destruct (H u (or_introl eq_refl) E).
  - apply IH. intros w W; apply H; now right.
Qed.

Notation save := (save_fits repr default_header).
Section one. Context (f : fits V D) (h : header) (HH : the_header default_header f = Ok h) (HS : saved repr f h).
Let hu := match f_unit f with [] => h | _ => h_set h kBUNIT (HStr (strunit repr (f_unit f))) end.
Let u0 : hduT := Hdu None (structural (f_arr f) hu) (PArr (f_arr f)).
Let body : fits_file V D := match f_du f with [] => [] | d => [Hdu (Some (lit "derived_units")) [] (PPickle d)] end.
Lemma save_file : save f = Ok (u0 :: body).
Proof.
  unfold save_fits. rewrite HH. cbn [bind]. destruct HS as [_ [W _]].
  assert (X : writable (f_arr f) = true) by (unfold writable; destruct W as [-> | ->]; reflexivity).
  fold hu. rewrite make_ok by exact X. cbn [bind]. unfold body. destruct (f_du f); reflexivity.
Qed.
Lemma hu_other k : k <> kBUNIT -> h_get hu k = h_get h k.
Proof. intros N. unfold hu. destruct (f_unit f); [reflexivity|]. apply h_get_set_other. intros E. now apply N. Qed.
Lemma hu_numeric : numeric_wcs hu.
Proof. destruct HS as [_ [_ [W _]]]. unfold numeric_wcs. rewrite hu_other by discriminate. exact W. Qed.
Lemma body_names u : In u body -> h_name u = Some (lit "derived_units").
Proof. unfold body. destruct (f_du f); [intros []|]. intros [<-|[]]. reflexivity. Qed.
(** Whatever follows, if it has no unit named derived_units. *)
Lemma load_file (r : fits_file V D) : (forall u, In u r -> h_name u <> Some (lit "derived_units")) ->
  exists u', load_fits (u0 :: body ++ r) None [] = Ok (Fits (f_arr f) u' (f_du f) (Some (structural (f_arr f) hu))) /\ distinct_names u' /\ dict_eqb (f_unit f) u' = true.
Proof.
  intros R. destruct HS as [NE [K [W [DN [G P]]]]]. 
  assert (RF : read_fits (u0 :: body ++ r) None = Ok (f_arr f, structural (f_arr f) hu)) by exact (read_first (f_arr f) hu (body ++ r) NE hu_numeric).
  assert (DU : match find_ext (u0 :: body ++ r) (lit "derived_units") return dunits D with Ok u => match h_data u return dunits D with PPickle d => d | PArr _ => ([] : dunits D) end | Err _ => ([] : dunits D) end = f_du f).
  { cbn [find_ext]. unfold u0 at 1. cbn [h_name]. unfold body. destruct (f_du f) as [|x d]; [|reflexivity].
    cbn [app]. replace r with (r ++ [])%list by apply app_nil_r. rewrite find_app by exact R. reflexivity. }
  unfold load_fits. rewrite DU, RF. cbn [bind fst snd]. clear DU RF.
  rewrite !(structural_other (f_arr f) hu) by (apply not_structure; exact I).
  assert (Q : quantity_of_file (f_arr f) = Ok (f_arr f)) by (unfold quantity_of_file; destruct K as [-> | ->]; reflexivity).
  unfold hu in *. destruct (f_unit f) as [|kv u] eqn:FU.
  - destruct (G eq_refl) as [G1 G2]. change (h_get h kBUNIT = None) in G1. change (h_get h kQTTY = None) in G2. rewrite G1, G2. cbn [bind]. rewrite Q. cbn [bind]. exists []. split; [reflexivity|]. split; [constructor|reflexivity].
  - rewrite h_get_set_same. cbn [bind]. rewrite Q. cbn [bind]. rewrite <- FU in *. destruct (round_trip repr (f_unit f) DN P) as [u' [X [D' E]]]. rewrite X. cbn [bind].
    exists u'. split; [reflexivity|]. now split.
Qed.
End one.
End files.
