(** Property theorem C75: an array, a map or a Tod saved in a file and read again. *)
From Coq Require Import String Ascii QArith Qcanon Lia.
From Verif Require Import Base BaseFacts TemplateModel TemplateFacts UnitModel UnitSpec UnitFacts UnitPrintFacts StrModel MpiModel MpiHeadFacts FaModel FaSpec FaFacts.
Open Scope Z_scope.

(** ** FitsArray *)
Theorem C75_array : forall V D repr default_header (f : fits V D) h, the_header default_header f = Ok h -> saved repr f h ->
  exists file f' h', save_fits repr default_header f = Ok file /\ load_fits file None [] = Ok f' /\
  f_arr f' = f_arr f /\ dict_eqb (f_unit f) (f_unit f') = true /\ f_du f' = f_du f /\
  f_header f' = Some h' /\ forall k, ~ structure k -> k <> lit "BUNIT" -> h_get h' k = h_get h k.
Proof.
  intros V D repr default_header f h HH HS. assert (S := save_file repr default_header f h HH HS).
  destruct (load_file repr default_header f h HS [] (fun u F => match F with end)) as [u' [L [_ E]]]. rewrite app_nil_r in L.
  eexists. eexists. eexists. split; [exact S|]. split; [exact L|]. split; [reflexivity|]. split; [exact E|]. split; [reflexivity|]. split; [reflexivity|].
  intros k N B. rewrite structural_other by exact N. now apply hu_other.
Qed.
Print Assumptions C75_array.
Definition no_header {V} (a : arr V) : header := [(lit "SIMPLE", HInt 1)].
Definition q1 : Qc := 1%Qc.
Definition metres : unit_ := [(lit "m", q1)].
Definition array3 : fits Z Z := Fits (Arr [3] KFloat [10; 20; 30]) metres [(lit "beam", 4)] (Some [(lit "OBJECT", HStr (lit "M31")); (lit "BUNIT", HStr (lit "km"))]).
Lemma metres_printable repr : Forall (fun kv => good_name (fst kv) /\ printable repr (snd kv) /\ printable repr (- snd kv)%Qc) metres.
Proof.
  constructor; [|constructor]. cbn [fst snd]. split; [split; [discriminate|left; repeat constructor]|].
  split; left; [exists 1%Z|exists (-1)%Z]; apply Qc_is_canon; reflexivity.
Qed.
Example C75_array_case : forall repr, saved repr array3 [(lit "OBJECT", HStr (lit "M31")); (lit "BUNIT", HStr (lit "km"))] /\
  save_fits repr no_header array3 = Ok [Hdu None [(lit "OBJECT", HStr (lit "M31")); (lit "BUNIT", HStr (lit "m")); (lit "NAXIS", HInt 1); (lit "NAXIS1", HInt 3)] (PArr (Arr [3] KFloat [10; 20; 30]));
    Hdu (Some (lit "derived_units")) [] (PPickle [(lit "beam", 4)])].
Proof.
  intros repr. split; [|reflexivity]. split; [discriminate|]. split; [now left|]. split; [exact I|].
  split; [repeat constructor; cbn; intuition discriminate|]. split; [discriminate|]. apply metres_printable.
Qed.
(** An array without unit whose header has one, as when the unit of an array that was read is
    removed: the file has the unit. *)
Theorem C75_unit_refuted : exists (f : fits Z Z) file f', save_fits (fun _ => []) no_header f = Ok file /\ load_fits file None [] = Ok f' /\
  f_unit f = [] /\ dict_eqb (f_unit f') metres = true /\ f_unit f' <> [].
Proof.
  exists (Fits (Arr [3] KFloat [10; 20; 30]) [] [] (Some [(lit "BUNIT", HStr (lit "m"))])). eexists. eexists.
  split; [reflexivity|]. split; [reflexivity|]. split; [reflexivity|]. split; [reflexivity|discriminate].
Qed.
Print Assumptions C75_unit_refuted.
(** An array of integers is saved, but its file is not read. *)
Theorem C75_integers_refuted : exists (f : fits Z Z) file, save_fits (fun _ => []) no_header f = Ok file /\
  forall unit du, load_fits file unit du = Err ValueError.
Proof.
  exists (Fits (Arr [3] KInteger [10; 20; 30]) [] [] None). eexists. split; [reflexivity|]. intros [t|] du; reflexivity.
Qed.
Print Assumptions C75_integers_refuted.
(** The unit: that of the caller, else BUNIT, else the historical keyword where '1' is no unit, else none. *)
Theorem C75_units : forall V D (file : fits_file V D) a header, read_fits file None = Ok (a, header) -> a_kind a <> KInteger ->
  (forall t u du, extract_str t = Ok u -> exists f, load_fits file (Some t) du = Ok f /\ f_unit f = u /\ f_arr f = a) /\
  (forall t u du, h_get header (lit "BUNIT") = Some (HStr t) -> extract_str t = Ok u -> exists f, load_fits file None du = Ok f /\ f_unit f = u /\ f_arr f = a) /\
  (forall t u du, h_get header (lit "BUNIT") = None -> h_get header (lit "QTTY____") = Some (HStr t) -> t <> lit "1" -> extract_str t = Ok u ->
     exists f, load_fits file None du = Ok f /\ f_unit f = u /\ f_arr f = a) /\
  (forall du, h_get header (lit "BUNIT") = None -> h_get header (lit "QTTY____") = Some (HStr (lit "1")) \/ h_get header (lit "QTTY____") = None ->
     exists f, load_fits file None du = Ok f /\ f_unit f = [] /\ f_arr f = a).
Proof.
  intros V D file a header E K.
  assert (Q : quantity_of_file a = Ok a) by (unfold quantity_of_file; destruct (a_kind a); congruence).
  repeat split; intros.
  - unfold load_fits. rewrite E. cbn. rewrite Q. cbn. rewrite H. now eexists.
  - unfold load_fits. rewrite E. cbn -[kBUNIT kQTTY lit h_get extract_str quantity_of_file text_eqb]. change kBUNIT with (lit "BUNIT"). rewrite H. cbn -[extract_str]. rewrite Q. cbn. rewrite H0. now eexists.
  - unfold load_fits. rewrite E. cbn -[kBUNIT kQTTY lit h_get extract_str quantity_of_file text_eqb]. change kBUNIT with (lit "BUNIT"). change kQTTY with (lit "QTTY____"). rewrite H, H0. cbn -[lit text_eqb extract_str].
    destruct (text_eqb t (lit "1")) eqn:T; [exfalso; apply H1; now apply text_eqb_eq|]. rewrite Q. cbn. rewrite H2. now eexists.
  - unfold load_fits. rewrite E. cbn -[kBUNIT kQTTY lit h_get extract_str quantity_of_file text_eqb]. change kBUNIT with (lit "BUNIT"). change kQTTY with (lit "QTTY____"). rewrite H.
    destruct H0 as [ -> | -> ]; cbn; rewrite Q; now eexists.
Qed.
Print Assumptions C75_units.
Example C75_units_case : let file : fits_file Z Z := [Hdu None [(lit "QTTY____", HStr (lit "1")); (lit "NAXIS", HInt 1); (lit "NAXIS1", HInt 3)] (PArr (Arr [3] KFloat [10; 20; 30]))] in
  exists header, read_fits file None = Ok (Arr [3] KFloat [10; 20; 30], header) /\ h_get header (lit "BUNIT") = None /\ h_get header (lit "QTTY____") = Some (HStr (lit "1")) /\
  exists u, extract_str (lit "km") = Ok u /\ u <> [].
Proof. eexists. split; [reflexivity|]. split; [reflexivity|]. split; [reflexivity|]. eexists. split; [reflexivity|discriminate]. Qed.
(** Arrays of booleans and of complex numbers cannot be written. *)
Theorem C75_refused : forall V D repr default_header (f : fits V D), a_kind (f_arr f) = KBool \/ a_kind (f_arr f) = KComplex -> exists e, save_fits repr default_header f = Err e.
Proof.
  intros V D repr dh f H. unfold save_fits. destruct (the_header dh f) as [h|e]; [|eexists; reflexivity]. cbn [bind]. unfold make_hdu, writable. destruct H as [-> | ->]; eexists; reflexivity.
Qed.
Print Assumptions C75_refused.
Theorem C75_refused_map : forall V D repr default_header (m : fmap V D) a, p_coverage m = Some a \/ p_error m = Some a -> a_kind a = KBool \/ a_kind a = KComplex -> exists e, save_map repr default_header m = Err e.
Proof.
  intros V D repr dh m a HA H. unfold save_map. destruct (the_header dh (p_fits m)) as [h|e]; [|eexists; reflexivity]. cbn [bind]. destruct (save_fits repr dh _) as [f|e]; [|eexists; reflexivity]. cbn [bind].
  assert (X : forall (g : fits_file V D) name, append_hdu dh g name a = Err KeyError) by (intros g name; unfold append_hdu, make_hdu, writable; destruct H as [-> | ->]; reflexivity).
  destruct HA as [-> | ->]; [rewrite X; eexists; reflexivity|]. destruct (match p_coverage m with Some c => _ | None => _ end) as [g|e]; [|eexists; reflexivity]. cbn [bind]. rewrite X. eexists. reflexivity.
Qed.
Print Assumptions C75_refused_map.
(** The derived units given by the caller are not used when the file has some. *)
Theorem C75_derived_refuted : exists (f : fits Z Z) file f', save_fits (fun _ => []) no_header f = Ok file /\
  load_fits file None [(lit "beam", 5)] = Ok f' /\ f_du f' = [(lit "beam", 4)].
Proof. exists array3. eexists. eexists. split; [reflexivity|]. split; reflexivity. Qed.
Print Assumptions C75_derived_refuted.

(** ** Map *)
Definition attached {V} (default_header : arr V -> header) (c : option (arr V)) : Prop :=
  match c with Some a => writable a = true /\ a_shape a <> [] /\ numeric_wcs (default_header a) | None => True end.
Theorem C75_map : forall V D repr default_header (m : fmap V D) h, the_header default_header (p_fits m) = Ok h -> saved repr (p_fits m) h ->
  attached default_header (p_coverage m) -> attached default_header (p_error m) -> In (p_origin m) [lit "lower"; lit "upper"] ->
  exists file m1 m' h', save_map repr default_header m = Ok (file, m1) /\ load_map default_header AsStr file None [] None None None = Ok m' /\
  f_arr (p_fits m') = f_arr (p_fits m) /\ dict_eqb (f_unit (p_fits m)) (f_unit (p_fits m')) = true /\ f_du (p_fits m') = f_du (p_fits m) /\
  p_coverage m' = p_coverage m /\ p_error m' = p_error m /\ p_origin m' = p_origin m /\
  f_header (p_fits m') = Some h' /\ forall k, ~ structure k -> k <> lit "BUNIT" -> k <> lit "DISPORIG" -> h_get h' k = h_get h k.
Proof.
  intros V D repr default_header m h HH HS AC AE O. unfold save_map. rewrite HH. cbn [bind].
  set (hd := h_set h kDISPORIG (HStr (p_origin m))). set (fa := Fits (f_arr (p_fits m)) (f_unit (p_fits m)) (f_du (p_fits m)) (Some hd)).
  assert (HH' : the_header default_header fa = Ok hd) by reflexivity.
  assert (OD : forall k, k <> kDISPORIG -> h_get hd k = h_get h k) by (intros k N; apply h_get_set_other; intros X; now apply N).
  assert (HS' : saved repr fa hd).
  { destruct HS as [A [B [C [E [F G]]]]]. split; [exact A|]. split; [exact B|]. split; [unfold numeric_wcs; rewrite OD by discriminate; exact C|].
    split; [exact E|]. split; [|exact G]. intros U. destruct (F U) as [F1 F2]. split; rewrite OD by discriminate; assumption. }
  rewrite (save_file repr default_header fa hd HH' HS'). cbn [bind].
  set (hu := match f_unit fa with [] => hd | _ => h_set hd kBUNIT (HStr (strunit repr (f_unit fa))) end).
  set (body := match f_du fa with [] => [] | d => [Hdu (Some (lit "derived_units")) [] (PPickle d)] end : fits_file V D).
  set (u0 := Hdu None (structural (f_arr fa) hu) (PArr (f_arr fa)) : hdu V D).
  set (ext := fun name (c : option (arr V)) => match c with Some a => [Hdu (Some name) (structural a (default_header a)) (PArr a)] | None => [] end : fits_file V D).
  assert (AP : forall (f : fits_file V D) name c, attached default_header c ->
    match c with Some a => append_hdu default_header f name a | None => Ok f end = Ok (f ++ ext name c)%list).
  { intros f name [a|] A; cbn [ext]; [|now rewrite app_nil_r]. destruct A as [W _]. unfold append_hdu. rewrite make_ok by exact W. reflexivity. }
  rewrite AP by exact AC. cbn [bind]. rewrite AP by exact AE. cbn [bind].
  assert (Names : forall u, In u (ext kCoverage (p_coverage m) ++ ext kError (p_error m))%list -> h_name u <> Some (lit "derived_units")).
  { intros u I. apply in_app_or in I. destruct I as [I|I]; [destruct (p_coverage m)|destruct (p_error m)]; cbn in I; destruct I as [<-|[]] || destruct I; discriminate. }
  destruct (load_file repr default_header fa hd HS' _ Names) as [u' [L [_ E]]]. fold hu body in L. fold u0 in L.
  assert (BN : forall name, name <> lit "derived_units" -> forall u, In u (u0 :: body) -> h_name u <> Some name).
  { intros name N u [<-|I]; [discriminate|]. unfold body in I. destruct (f_du fa); [destruct I|]. destruct I as [<-|[]]. intros X. injection X as X. now apply N. }
  assert (RC : read_or_none (u0 :: body ++ ext kCoverage (p_coverage m) ++ ext kError (p_error m)) kCoverage = Ok (p_coverage m)).
  { unfold read_or_none. change (u0 :: body ++ ext kCoverage (p_coverage m) ++ ext kError (p_error m))%list with ((u0 :: body) ++ (ext kCoverage (p_coverage m) ++ ext kError (p_error m)))%list.
    destruct (p_coverage m) as [c|] eqn:PC.
    - destruct AC as [_ [N W]]. rewrite (read_ext default_header _ kCoverage c (default_header c) N W); [reflexivity|]. rewrite find_app; [reflexivity|]. apply BN. discriminate.
    - unfold read_fits. rewrite find_app by (apply BN; discriminate). cbn [ext app]. destruct (p_error m); reflexivity. }
  assert (RE : read_or_none (u0 :: body ++ ext kCoverage (p_coverage m) ++ ext kError (p_error m)) kError = Ok (p_error m)).
  { unfold read_or_none.
    assert (FE : find_ext (u0 :: body ++ ext kCoverage (p_coverage m) ++ ext kError (p_error m)) kError = find_ext (ext kError (p_error m)) kError).
    { change (u0 :: body ++ ext kCoverage (p_coverage m) ++ ext kError (p_error m))%list with ((u0 :: body) ++ (ext kCoverage (p_coverage m) ++ ext kError (p_error m)))%list.
      rewrite find_app by (apply BN; discriminate). rewrite find_app; [reflexivity|]. intros u I. destruct (p_coverage m); [destruct I as [<-|[]]; discriminate|destruct I]. }
    destruct (p_error m) as [c|] eqn:PE.
    - destruct AE as [_ [N W]]. rewrite (read_ext default_header _ kError c (default_header c) N W); [reflexivity|]. rewrite FE. reflexivity.
    - unfold read_fits. rewrite FE. reflexivity. }
  assert (HO : h_get (structural (f_arr fa) hu) kDISPORIG = Some (HStr (p_origin m))).
  { rewrite structural_other by (apply not_structure; exact I). unfold hu. destruct (f_unit fa); [apply h_get_set_same|].
    rewrite h_get_set_other by discriminate. apply h_get_set_same. }
  eexists. eexists. eexists. eexists. split; [rewrite <- !app_assoc; reflexivity|].
  split; [|split; [|split; [|split; [|split; [|split; [|split; [|split]]]]]]].
  { unfold load_map. cbn [app isstr]. rewrite L. cbn [bind the_header f_header]. rewrite HO. cbn [bind]. rewrite RC. cbn [bind]. rewrite RE. cbn [bind].
    assert (X : strlowcase (strip (p_origin m)) = p_origin m /\ text_eqb (p_origin m) (lit "lower") || text_eqb (p_origin m) (lit "upper") = true).
    { destruct O as [<-|[<-|[]]]; split; reflexivity. }
    rewrite (proj1 X), (proj2 X). cbn [bind]. reflexivity. }
  all: cbn [p_fits f_arr f_unit f_du p_coverage p_error p_origin f_header]; try reflexivity; try exact E.
  intros k N B DO. rewrite structural_other by exact N. unfold hu.
  assert (X : h_get hd k = h_get h k) by (apply OD; exact DO). destruct (f_unit fa); [exact X|]. rewrite h_get_set_other by (intros Y; now apply B). exact X.
Qed.
Print Assumptions C75_map.
Definition map3 : fmap Z Z := FMap array3 (Some (Arr [3] KInteger [0; 2; 2])) None (lit "upper").
Example C75_map_case : forall repr, exists file m1, save_map repr no_header map3 = Ok (file, m1) /\ attached no_header (p_coverage map3) /\
  exists u, load_map no_header AsStr file None [] None None None = Ok (FMap (Fits (f_arr array3) u (f_du array3) (Some [(lit "OBJECT", HStr (lit "M31")); (lit "BUNIT", HStr (lit "m"));
     (lit "DISPORIG", HStr (lit "upper")); (lit "NAXIS", HInt 1); (lit "NAXIS1", HInt 3)])) (p_coverage map3) None (lit "upper")).
Proof.
  intros repr. eexists. eexists. split; [reflexivity|]. split; [split; [reflexivity|split; [discriminate|exact I]]|]. eexists. reflexivity.
Qed.
(** The name of the file given as a Path, which the documentation allows: the coverage, the error and the
    origin are not read. *)
Theorem C75_path_refuted : exists (m : fmap Z Z) file m1 m', save_map (fun _ => []) no_header m = Ok (file, m1) /\
  load_map no_header AsPath file None [] None None None = Ok m' /\ p_coverage m <> None /\ p_coverage m' = None /\ p_origin m = lit "upper" /\ p_origin m' = lit "lower".
Proof. exists map3. eexists. eexists. eexists. split; [reflexivity|]. split; [reflexivity|]. split; [discriminate|]. repeat split. Qed.
Print Assumptions C75_path_refuted.
(** Saving a map writes in its header. *)
Theorem C75_save_refuted : exists (m m1 : fmap Z Z) file, save_map (fun _ => []) no_header m = Ok (file, m1) /\ f_header (p_fits m1) <> f_header (p_fits m).
Proof. exists map3. eexists. eexists. split; [reflexivity|discriminate]. Qed.
Print Assumptions C75_save_refuted.

(** ** Tod *)
Theorem C75_tod : forall V D repr default_header (of_bool : bool -> V) to_bool (t : ftod V D) h, (forall b, to_bool (of_bool b) = b) ->
  the_header default_header (d_fits t) = Ok h -> saved repr (d_fits t) h ->
  match d_mask t with Some (s, l) => s <> [] /\ numeric_wcs (default_header (Arr s KUnsigned (map of_bool l))) | None => True end ->
  exists file t' h', save_tod repr default_header of_bool t = Ok file /\ load_tod to_bool AsStr file None [] None = Ok t' /\
  f_arr (d_fits t') = f_arr (d_fits t) /\ dict_eqb (f_unit (d_fits t)) (f_unit (d_fits t')) = true /\ f_du (d_fits t') = f_du (d_fits t) /\
  d_mask t' = d_mask t /\ f_header (d_fits t') = Some h' /\ forall k, ~ structure k -> k <> lit "BUNIT" -> h_get h' k = h_get h k.
Proof.
  intros V D repr default_header of_bool to_bool t h OB HH HS HM. unfold save_tod. rewrite (save_file repr default_header (d_fits t) h HH HS). cbn [bind].
  set (fa := d_fits t) in *.
  set (hu := match f_unit fa with [] => h | _ => h_set h kBUNIT (HStr (strunit repr (f_unit fa))) end).
  set (body := match f_du fa with [] => [] | d => [Hdu (Some (lit "derived_units")) [] (PPickle d)] end : fits_file V D).
  set (u0 := Hdu None (structural (f_arr fa) hu) (PArr (f_arr fa)) : hdu V D).
  set (ext := match d_mask t with Some (s, l) => [Hdu (Some kMask) (structural (Arr s KUnsigned (map of_bool l)) (default_header (Arr s KUnsigned (map of_bool l)))) (PArr (Arr s KUnsigned (map of_bool l)))] | None => [] end : fits_file V D).
  assert (AP : match d_mask t with Some (s, m) => append_hdu default_header (u0 :: body) kMask (Arr s KUnsigned (map of_bool m)) | None => Ok (u0 :: body) end = Ok (u0 :: body ++ ext)%list).
  { unfold ext. destruct (d_mask t) as [[s l]|]; [|now rewrite app_nil_r]. unfold append_hdu. rewrite make_ok by reflexivity. reflexivity. }
  assert (Names : forall u, In u ext -> h_name u <> Some (lit "derived_units")).
  { intros u I. unfold ext in I. destruct (d_mask t) as [[s l]|]; destruct I as [<-|[]] || destruct I. discriminate. }
  destruct (load_file repr default_header fa h HS ext Names) as [u' [L [_ E]]]. fold hu body in L. fold u0 in L.
  assert (FM : find_ext (u0 :: body ++ ext) kMask = find_ext ext kMask).
  { change (u0 :: body ++ ext)%list with ((u0 :: body) ++ ext)%list. apply find_app. intros u [<-|I]; [discriminate|]. unfold body in I. destruct (f_du fa); [destruct I|]. destruct I as [<-|[]]. discriminate. }
  eexists. eexists. eexists. split; [exact AP|]. split; [unfold load_tod; rewrite L; cbn [bind]; reflexivity|]. cbn [d_fits d_mask f_arr f_unit f_du f_header isstr].
  split; [reflexivity|]. split; [exact E|]. split; [reflexivity|]. split; [|split; [reflexivity|]].
  - unfold ext in FM. destruct (d_mask t) as [[s l]|] eqn:DM.
    + destruct HM as [N W]. rewrite (read_ext default_header _ kMask (Arr s KUnsigned (map of_bool l)) (default_header (Arr s KUnsigned (map of_bool l))) N W); [|exact FM].
      cbn [fst a_shape a_vals]. rewrite map_map. do 2 f_equal. rewrite <- (map_id l) at 2. apply map_ext. exact OB.
    + assert (X : read_fits (u0 :: body ++ []) (Some kMask) = Err KeyError) by (unfold read_fits; rewrite FM; reflexivity).
      unfold ext. rewrite X. reflexivity.
  - intros k N B. rewrite structural_other by exact N. unfold hu. destruct (f_unit fa); [reflexivity|]. apply h_get_set_other. intros Y. now apply B.
Qed.
Print Assumptions C75_tod.
Example C75_tod_case : forall repr, exists file, save_tod repr no_header (fun b : bool => if b then 1 else 0) (FTod array3 (Some ([3], [true; false; true]))) = Ok file /\
  exists r, load_tod (fun x => negb (x =? 0)) AsStr file None [] None = Ok (FTod r (Some ([3], [true; false; true]))).
Proof. intros repr. eexists. split; [reflexivity|]. eexists. reflexivity. Qed.
Theorem C75_mask_path_refuted : exists (t : ftod Z Z) file t', save_tod (fun _ => []) no_header (fun b : bool => if b then 1 else 0) t = Ok file /\
  load_tod (fun x => negb (x =? 0)) AsPath file None [] None = Ok t' /\ d_mask t = Some ([3], [true; false; true]) /\ d_mask t' = None.
Proof. exists (FTod array3 (Some ([3], [true; false; true]))). eexists. eexists. repeat split. Qed.
Print Assumptions C75_mask_path_refuted.
