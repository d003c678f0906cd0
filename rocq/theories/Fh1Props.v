(** C84: astrometry of the headers of FITS files. *)
From Coq Require Import Ascii String Bool.
From Verif Require Import Base BaseFacts TemplateModel UnitModel StrModel StrSpec StrFacts FhModel FhSpec FhFacts FhProps.
Open Scope nat_scope.

(** The header gives an integer, a string. *)
Definition has_int (header : text) (keyword : string) (n : Z) : Prop :=
  exists field v k comment, field_of header (lit keyword) field /\ plain_field field (v ++ repeat " "%char k) comment /\ integer v n /\ length v <= 20 /\ (- 2 ^ 31 <= n < 2 ^ 31)%Z.
Definition has_text (header : text) (keyword : string) (s : text) : Prop :=
  exists field comment, field_of header (lit keyword) field /\ quoted_field field s comment.
Definition lacks (header : text) (keyword : string) : Prop := absent header (lit keyword).
Definition keys : list string := ["naxis1"; "naxis2"; "crpix1"; "crpix2"; "crval1"; "crval2"; "cd1_1"; "cd2_1"; "cd1_2"; "cd2_2"; "ctype1"; "ctype2"; "cunit1"; "cunit2"; "cdelt1"; "cdelt2"; "crota2"]%string.
Lemma keys_ok k : In k keys -> keyword_ok (lit k) /\ no_z (lit k) /\ length (lit k) <= 8.
Proof.
  assert (T : forallb (fun k => (1 <=? length (lit k)) && (length (lit k) <=? 8) && forallb (fun c => negb (Ascii.eqb c " ") && negb (Ascii.eqb c "z") && negb (Ascii.eqb c "Z")) (lit k)) keys = true) by (vm_compute; reflexivity).
  rewrite forallb_forall in T. intros H. specialize (T k H). apply andb_true_iff in T. destruct T as [T1 T2]. rewrite forallb_forall in T2.
  assert (N : forall c, (c = " " \/ c = "z" \/ c = "Z")%char -> ~ In c (lit k)) by (intros c Hc Hi; specialize (T2 c Hi); destruct Hc as [->|[->| ->]]; discriminate).
  split; [split; [lia|apply N; auto]|]. split; [split; apply N; auto|lia].
Qed.
Lemma int_ok header k n : In k keys -> has_int header k n -> read_int4 header (lit k) true = Ok (Some n).
Proof.
  intros Hk (field & v & j & c & F & P & I & L & B). destruct (keys_ok k Hk) as (K1 & K2 & K3). apply (C83_integer (- 2 ^ 31) (2 ^ 31 - 1) header (lit k) true field v j n c K1 K2 F P I L). lia.
Qed.
Lemma text_ok header k me s : In k keys -> has_text header k s -> length s <= 70 -> read_character FLEN_VALUE header (lit k) me = Ok (Some (assign 70 s)).
Proof.
  intros Hk (field & c & F & Q) L. destruct (keys_ok k Hk) as (K1 & K2 & K3). destruct (C83_character 70 header (lit k) me field s c K1 K2 F Q L) as (out & E & P). apply padded_unique in P. now subst.
Qed.
Lemma text_len header k s : has_text header k s -> length s <= 70.
Proof.
  intros (field & c & F & k' & t & E & _). destruct F as (b & card & a & [_ F] & _ & _ & ->). apply Forall_app in F. destruct F as [_ F]. inversion F; subst.
  apply (f_equal (@length ascii)) in E. rewrite skipn_length in E. unfold quoted in E. rewrite !app_length in E. cbn [length] in E. rewrite app_length in E.
  assert (D : length s <= length (doubled s)) by (clear; induction s as [|c s IH]; cbn; [lia|destruct (Ascii.eqb c "'"); cbn; lia]). lia.
Qed.
Lemma text_none header k : In k keys -> header <> [] -> lacks header k -> read_character FLEN_VALUE header (lit k) false = Ok None.
Proof. intros Hk N A. destruct (keys_ok k Hk) as (K1 & K2 & K3). unfold read_character. rewrite (get_keyword_absent header (lit k) false N K3 K2 A). reflexivity. Qed.
Lemma has_header header k s : has_text header k s -> header <> [].
Proof.
  intros (field & c & (b & card & a & [E F] & _) & _) ->. apply Forall_app in F as [_ F]. inversion F; subst. apply (f_equal (@length ascii)) in E. rewrite concat_app, app_length in E. cbn [concat] in E. rewrite app_length in E. cbn in E. lia.
Qed.
Section S.
Context {num : Type}.
Variables (read_real : text -> option num).
(** The header gives a number. *)
Definition has_real (header : text) (keyword : string) (x : num) : Prop :=
  exists field v comment, field_of header (lit keyword) field /\ plain_field field v comment /\ forall t, padded 70 v t -> read_real t = Some x.
(** A keyword or its default. *)
Definition real_or (header : text) (keyword : string) (default x : num) : Prop := has_real header keyword x \/ lacks header keyword /\ x = default.

Lemma num_ok header k me x : In k keys -> has_real header k x -> read_num read_real header (lit k) me = Ok (Some x).
Proof.
  intros Hk (field & v & c & F & P & R). destruct (keys_ok k Hk) as (K1 & K2 & K3). destruct (C83_plain header (lit k) me field v c K1 K2 F P) as (v' & c' & E & Hv & _).
  unfold read_num. rewrite E. cbn [bind]. now rewrite (R v' Hv).
Qed.
Lemma num_none header k : In k keys -> header <> [] -> lacks header k -> read_num read_real header (lit k) false = Ok None.
Proof. intros Hk N A. destruct (keys_ok k Hk) as (K1 & K2 & K3). unfold read_num. rewrite (get_keyword_absent header (lit k) false N K3 K2 A). reflexivity. Qed.
End S.

(** ** C84 *)
Definition common {num} (read_real : text -> option num) (header : text) (n1 n2 : Z) (p1 p2 v1 v2 : num) (t1 t2 : text) : Prop :=
  has_int header "naxis1" n1 /\ has_int header "naxis2" n2 /\ has_real read_real header "crpix1" p1 /\ has_real read_real header "crpix2" p2 /\
  has_real read_real header "crval1" v1 /\ has_real read_real header "crval2" v2 /\ has_text header "ctype1" t1 /\ has_text header "ctype2" t2.
(** Units: in lower case, degrees by default. *)
Definition unit_or (header : text) (keyword : string) (u : text) : Prop :=
  (exists s, has_text header keyword s /\ length s <= 8 /\ ~ In "Z"%char s /\ exists l, is_lowered s l /\ padded 8 l u) \/ lacks header keyword /\ padded 8 (lit "deg") u.
Lemma lowered_unique s l : ~ In "Z"%char s -> is_lowered s l -> l = strlowcase s.
Proof.
  intros Z U. pose proof (strlowcase_ok s Z) as S. unfold is_lowered in *. revert S. generalize (strlowcase s). clear Z. induction U as [|a b l l' H U IH]; intros t S; inversion S as [|a' b' l1 l2 Ha Hl]; subst; [reflexivity|].
  f_equal; [|now apply IH]. destruct H as [(i & H1 & H2)|[N ->]]; destruct Ha as [(i' & H3 & H4)|[N' ->]].
  - assert (i = i'). { assert (ND : NoDup uppers) by (vm_compute; repeat constructor; cbn; intuition discriminate). rewrite NoDup_nth_error in ND. apply ND; [apply nth_error_Some; congruence|congruence]. } subst. congruence.
  - apply nth_error_In in H1. contradiction.
  - apply nth_error_In in H3. contradiction.
  - reflexivity.
Qed.
Lemma uppered_unique s l : ~ In "z"%char s -> is_uppered s l -> l = strupcase s.
Proof.
  intros Z U. pose proof (strupcase_ok s Z) as S. unfold is_uppered in *. revert S. generalize (strupcase s). clear Z. induction U as [|a b l l' H U IH]; intros t S; inversion S as [|a' b' l1 l2 Ha Hl]; subst; [reflexivity|].
  f_equal; [|now apply IH]. destruct H as [(i & H1 & H2)|[N ->]]; destruct Ha as [(i' & H3 & H4)|[N' ->]].
  - assert (i = i'). { assert (ND : NoDup lowers) by (vm_compute; repeat constructor; cbn; intuition discriminate). rewrite NoDup_nth_error in ND. apply ND; [apply nth_error_Some; congruence|congruence]. } subst. congruence.
  - apply nth_error_In in H1. contradiction.
  - apply nth_error_In in H3. contradiction.
  - reflexivity.
Qed.
Lemma unit_ok header k u : In k keys -> header <> [] -> unit_or header k u -> exists o, read_character FLEN_VALUE header (lit k) false = Ok o /\ unit_of o = u.
Proof.
  intros Hk N [(s & T & L & Z & l & Hl & P)|[A P]].
  - exists (Some (assign 70 s)). split; [apply text_ok; [assumption|assumption|now apply text_len in T]|]. unfold unit_of. apply padded_unique in P. subst u. rewrite (lowered_unique s l Z Hl).
    assert (E : firstn 8 (assign 70 s) = assign 8 s).
    { unfold assign. rewrite (firstn_all2 (n := 70) s) by lia. rewrite firstn_app. f_equal. clear - L. replace (70 - length s) with (8 - length s + 62) by lia. rewrite repeat_app, firstn_app, repeat_length, Nat.sub_diag. cbn [firstn]. rewrite app_nil_r. now rewrite firstn_all2 by (rewrite repeat_length; lia). }
    rewrite E, lower_assign. unfold assign at 1. rewrite assign_len. replace (8 - 8) with 0 by lia. cbn [repeat]. rewrite app_nil_r. rewrite firstn_all2 by now rewrite assign_len. reflexivity.
  - exists None. split; [now apply text_none|]. cbn. now apply padded_unique in P.
Qed.
Lemma init_common {num} (read_real : text -> option num) zero rotated header n1 n2 p1 p2 v1 v2 t1 t2 cd11 cd21 cd12 cd22 m u1 u2 :
  common read_real header n1 n2 p1 p2 v1 v2 t1 t2 ->
  read_num read_real header (lit "cd1_1") false = Ok cd11 -> read_num read_real header (lit "cd2_1") false = Ok cd21 -> read_num read_real header (lit "cd1_2") false = Ok cd12 -> read_num read_real header (lit "cd2_2") false = Ok cd22 ->
  unit_or header "cunit1" u1 -> unit_or header "cunit2" u2 ->
  cd_matrix read_real zero rotated header cd11 cd21 cd12 cd22 = m ->
  init_astrometry read_real zero rotated header =
    do m <- m; if feq (strupcase (firstn 8 (assign 70 t1))) (lit "RA---TAN") && feq (strupcase (firstn 8 (assign 70 t2))) (lit "DEC--TAN")
               then Ok (Astro (n1, n2) (p1, p2) (v1, v2) m (strupcase (firstn 8 (assign 70 t1)), strupcase (firstn 8 (assign 70 t2))) (u1, u2)) else Err ValueError.
Proof.
  intros (I1 & I2 & P1 & P2 & V1 & V2 & T1 & T2) C11 C21 C12 C22 U1 U2 M. pose proof (has_header _ _ _ T1) as NH. unfold init_astrometry, needed.
  rewrite (int_ok header "naxis1" n1) by (assumption || (cbn; tauto)). cbn [bind]. rewrite (int_ok header "naxis2" n2) by (assumption || (cbn; tauto)). cbn [bind].
  rewrite (num_ok read_real header "crpix1" true p1) by (assumption || (cbn; tauto)). cbn [bind]. rewrite (num_ok read_real header "crpix2" true p2) by (assumption || (cbn; tauto)). cbn [bind].
  rewrite (num_ok read_real header "crval1" true v1) by (assumption || (cbn; tauto)). cbn [bind]. rewrite (num_ok read_real header "crval2" true v2) by (assumption || (cbn; tauto)). cbn [bind].
  rewrite C11. cbn [bind]. rewrite C21. cbn [bind]. rewrite C12. cbn [bind]. rewrite C22. cbn [bind].
  rewrite (text_ok header "ctype1" true t1) by (assumption || (cbn; tauto) || (now apply text_len in T1)). cbn [bind]. rewrite (text_ok header "ctype2" true t2) by (assumption || (cbn; tauto) || (now apply text_len in T2)). cbn [bind].
  destruct (unit_ok header "cunit1" u1 ltac:(cbn; tauto) NH U1) as (o1 & E1 & <-). destruct (unit_ok header "cunit2" u2 ltac:(cbn; tauto) NH U2) as (o2 & E2 & <-).
  rewrite E1. cbn [bind]. rewrite E2. cbn [bind]. rewrite M. reflexivity.
Qed.
Definition tan_type (t1 t2 : text) : Prop := is_uppered t1 (lit "RA---TAN") /\ is_uppered t2 (lit "DEC--TAN").
Lemma tan_ok t1 t2 : tan_type t1 t2 -> strupcase (firstn 8 (assign 70 t1)) = lit "RA---TAN" /\ strupcase (firstn 8 (assign 70 t2)) = lit "DEC--TAN".
Proof.
  assert (G : forall t w, is_uppered t w -> length w = 8 -> ~ In "Z"%char w -> strupcase (firstn 8 (assign 70 t)) = w).
  { intros t w U L N. assert (Lt : length t = 8) by (rewrite <- L; clear - U; induction U; cbn; lia).
    assert (Z : ~ In "z"%char t).
    { intros Hz. apply In_nth_error in Hz. destruct Hz as [i Hi]. apply N. apply (nth_error_In w i). clear - U Hi. revert i Hi. induction U as [|a b l l' H U IH]; intros [|i] Hi; cbn in *; try discriminate; [|now apply IH]. injection Hi as ->.
      destruct H as [(k & H1 & H2)|[H _]]; [|exfalso; apply H; vm_compute; tauto]. do 26 (destruct k as [|k]; [vm_compute in H1, H2; congruence|]). cbn in H1. destruct k; discriminate. }
    rewrite (uppered_unique t w Z U). f_equal. unfold assign. rewrite (firstn_all2 (n := 70) t) by lia. now apply firstn_exact. }
  intros [U1 U2]. split; apply G; try assumption; try reflexivity; intros H; cbn in H; intuition discriminate.
Qed.
(** A header with a CD matrix. *)
Theorem C84_matrix : forall num (read_real : text -> option num) zero rotated header n1 n2 p1 p2 v1 v2 t1 t2 c11 c12 c21 c22 u1 u2,
  common read_real header n1 n2 p1 p2 v1 v2 t1 t2 -> tan_type t1 t2 -> unit_or header "cunit1" u1 -> unit_or header "cunit2" u2 ->
  has_real read_real header "cd1_1" c11 -> has_real read_real header "cd1_2" c12 -> has_real read_real header "cd2_1" c21 -> has_real read_real header "cd2_2" c22 ->
  init_astrometry read_real zero rotated header = Ok (Astro (n1, n2) (p1, p2) (v1, v2) ((c11, c12), (c21, c22)) (lit "RA---TAN", lit "DEC--TAN") (u1, u2)).
Proof.
  intros num read_real zero rotated header n1 n2 p1 p2 v1 v2 t1 t2 c11 c12 c21 c22 u1 u2 C T U1 U2 C11 C12 C21 C22.
  rewrite (init_common read_real zero rotated header n1 n2 p1 p2 v1 v2 t1 t2 (Some c11) (Some c21) (Some c12) (Some c22) (Ok ((c11, c12), (c21, c22))) u1 u2 C); try (apply num_ok; [cbn; tauto|assumption]); try assumption; [|reflexivity].
  destruct (tan_ok t1 t2 T) as [-> ->]. reflexivity.
Qed.
Print Assumptions C84_matrix.
(** A header with increments and, possibly, a rotation. *)
Theorem C84_rotation : forall num (read_real : text -> option num) zero rotated header n1 n2 p1 p2 v1 v2 t1 t2 d1 d2 r u1 u2,
  common read_real header n1 n2 p1 p2 v1 v2 t1 t2 -> tan_type t1 t2 -> unit_or header "cunit1" u1 -> unit_or header "cunit2" u2 ->
  (forall k, In k ["cd1_1"; "cd1_2"; "cd2_1"; "cd2_2"]%string -> lacks header k) ->
  has_real read_real header "cdelt1" d1 -> has_real read_real header "cdelt2" d2 -> real_or read_real header "crota2" zero r ->
  init_astrometry read_real zero rotated header = Ok (Astro (n1, n2) (p1, p2) (v1, v2) (rotated d1 d2 r) (lit "RA---TAN", lit "DEC--TAN") (u1, u2)).
Proof.
  intros num read_real zero rotated header n1 n2 p1 p2 v1 v2 t1 t2 d1 d2 r u1 u2 C T U1 U2 A D1 D2 R. pose proof C as (_ & _ & _ & _ & _ & _ & T1 & _). pose proof (has_header _ _ _ T1) as NH.
  rewrite (init_common read_real zero rotated header n1 n2 p1 p2 v1 v2 t1 t2 None None None None (Ok (rotated d1 d2 r)) u1 u2 C); try (apply num_none; [cbn; tauto|assumption|apply A; cbn; tauto]); try assumption.
  - destruct (tan_ok t1 t2 T) as [-> ->]. reflexivity.
  - unfold cd_matrix. cbn [is_some filter length Nat.eqb negb andb]. rewrite (num_ok read_real header "cdelt1" false d1) by (assumption || (cbn; tauto)). cbn [bind].
    rewrite (num_ok read_real header "cdelt2" false d2) by (assumption || (cbn; tauto)). cbn [bind]. destruct R as [R|[R ->]].
    + rewrite (num_ok read_real header "crota2" false r) by (assumption || (cbn; tauto)). reflexivity.
    + rewrite (num_none read_real header "crota2") by (assumption || (cbn; tauto)). reflexivity.
Qed.
Print Assumptions C84_rotation.

(** Examples: numbers are integers, the matrix keeps its three arguments. *)
Definition read_z (t : text) : option Z := match read_i20 (-1000) 1000 t with Ok n => Some n | Err _ => None end.
Definition rot_z (a b c : Z) : (Z * Z) * (Z * Z) := ((a, c), (c, b))%Z.
Definition map_cards : list text :=
  [card "SIMPLE" "T"; card "NAXIS1" "10 / columns"; card "NAXIS2" "20"; card "CRPIX1" "5"; card "CRPIX2" "6"; card "CRVAL1" "120"; card "CRVAL2" "-30"; card "CTYPE1" "'RA---TAN'"; card "CTYPE2" "'DEC--TAN'"].
Definition cd_cards : list text := [card "CD1_1" "-1"; card "CD1_2" "2"; card "CD2_1" "3"; card "CD2_2" "4"].
Definition cdelt_cards : list text := [card "CDELT1" "-1"; card "CDELT2" "1"; card "CROTA2" "45"].
Definition at_ (cards : list text) (k : nat) (keyword v : string) : bool :=
  (length (lit keyword) <=? 8) && forallb (fun c => negb (namedb (lit keyword) c)) (firstn k cards) &&
  match skipn k cards with c :: _ => namedb (lit keyword) c && text_eqb (skipn 10 c) (assign 70 (lit v)) | [] => false end.
Lemma at_ok cards k keyword v : Forall (fun c : text => length c = 80) cards -> at_ cards k keyword v = true -> field_of (concat cards) (lit keyword) (assign 70 (lit v)).
Proof.
  intros F H. unfold at_ in H. apply andb_true_iff in H. destruct H as [H H3]. apply andb_true_iff in H. destruct H as [H1 H2]. apply (field_at cards k); [assumption|lia|assumption|].
  destruct (skipn k cards); [discriminate|]. apply andb_true_iff in H3. destruct H3 as [H3 H4]. split; [assumption|]. now apply text_eqb_spec.
Qed.
Definition plainb (v : string) : bool := match lit v with c :: r => negb (Ascii.eqb c " ") && negb (Ascii.eqb c (ascii_of_nat 39)) && forallb (fun c => negb (Ascii.eqb c "/")) (lit v) && (length (lit v) <=? 20) | [] => false end.
Lemma plain_ok v : plainb v = true -> plain_field (assign 70 (lit v)) (lit v ++ repeat " "%char (70 - length (lit v))) [].
Proof.
  unfold plainb. destruct (lit v) as [|c r] eqn:E; [discriminate|]. intros H. apply andb_true_iff in H. destruct H as [H L]. apply andb_true_iff in H. destruct H as [H S]. apply andb_true_iff in H. destruct H as [B Q].
  exists 0, c, (r ++ repeat " "%char (70 - length (c :: r))), []. split; [reflexivity|]. split.
  { rewrite forallb_forall in S. intros Hi. apply in_app_or in Hi. destruct Hi as [Hi|Hi]; [specialize (S _ Hi); discriminate|apply repeat_spec in Hi; discriminate]. }
  split; [intros ->; discriminate|]. split; [intros ->; discriminate|]. split; [|now right]. unfold assign. rewrite firstn_all2 by lia. cbn [app repeat]. now rewrite app_nil_r.
Qed.
Lemma real_ok cards k keyword v n : Forall (fun c : text => length c = 80) cards -> at_ cards k keyword v = true -> plainb v = true -> read_z (assign 70 (lit v)) = Some n -> has_real read_z (concat cards) keyword n.
Proof.
  intros F A P R. exists (assign 70 (lit v)), (lit v ++ repeat " "%char (70 - length (lit v))), []. split; [now apply (at_ok cards k)|]. split; [now apply plain_ok|].
  intros t Ht. apply padded_unique in Ht. subst t. assert (L : length (lit v) <= 70) by (unfold plainb in P; destruct (lit v); [discriminate|]; lia).
  rewrite <- R. f_equal. unfold assign. rewrite !firstn_all2 by (rewrite ?app_length, ?repeat_length; lia). rewrite app_length, repeat_length. replace (70 - (length (lit v) + (70 - length (lit v)))) with 0 by lia. cbn [repeat]. apply app_nil_r.
Qed.
Lemma text_at cards k keyword s : Forall (fun c : text => length c = 80) cards -> at_ cards k keyword s = true ->
  forall u, lit s = quoted u -> length (lit s) <= 70 -> has_text (concat cards) keyword u.
Proof.
  intros F A u E L. exists (assign 70 (lit s)), []. split; [now apply (at_ok cards k)|]. exists 0, (repeat " "%char (70 - length (lit s))). split.
  - unfold assign. rewrite firstn_all2 by lia. cbn [repeat app]. now rewrite E.
  - exists (repeat " "%char (70 - length (lit s))). split; [intros H; apply repeat_spec in H; discriminate|]. split; [destruct (70 - length (lit s)); discriminate|]. now right.
Qed.
Lemma absent_b cards keyword : Forall (fun c : text => length c = 80) cards -> length (lit keyword) <= 8 -> forallb (fun c => negb (namedb (lit keyword) c)) cards = true -> lacks (concat cards) keyword.
Proof.
  intros F L H. exists cards. split; [split; [reflexivity|assumption]|]. apply Forall_forall. intros c Hc N. rewrite forallb_forall in H. specialize (H c Hc). rewrite Forall_forall in F. apply namedb_spec in N; [|assumption|now apply F]. rewrite N in H. discriminate.
Qed.
Lemma all80 l : forallb (fun c : text => length c =? 80) l = true -> Forall (fun c : text => length c = 80) l.
Proof. intros H. apply Forall_forall. intros c Hc. rewrite forallb_forall in H. apply Nat.eqb_eq. now apply H. Qed.
Lemma map_common rest : Forall (fun c : text => length c = 80) rest -> common read_z (concat (map_cards ++ rest)) 10 20 5%Z 6%Z 120%Z (-30)%Z (lit "RA---TAN") (lit "DEC--TAN").
Proof.
  intros F. assert (FF : Forall (fun c : text => length c = 80) (map_cards ++ rest)) by (apply Forall_app; split; [apply all80; vm_compute; reflexivity|assumption]).
  assert (D10 : integer (lit "10") 10).
  { exists (lit "10"), 10%Z. split; [discriminate|]. split; [|now left]. apply (decimal_digit ["1"%char] 1 0 "0"%char); [apply (decimal_digit [] 0 1 "1"%char); [constructor|reflexivity]|reflexivity]. }
  assert (D20 : integer (lit "20") 20).
  { exists (lit "20"), 20%Z. split; [discriminate|]. split; [|now left]. apply (decimal_digit ["2"%char] 2 0 "0"%char); [apply (decimal_digit [] 0 2 "2"%char); [constructor|reflexivity]|reflexivity]. }
  split; [|split].
  - exists (assign 70 (lit "10 / columns")), (lit "10"), 1, (lit " columns" ++ repeat " "%char 58). split; [now apply (at_ok _ 1)|]. split; [|split; [assumption|split; [cbn; lia|lia]]].
    exists 0, "1"%char, (lit "0 "), ("/"%char :: lit " columns" ++ repeat " "%char 58). split; [reflexivity|]. split; [intros H; cbn in H; intuition discriminate|]. split; [discriminate|]. split; [discriminate|]. split; [vm_compute; reflexivity|now left].
  - exists (assign 70 (lit "20")), (lit "20"), 68, []. split; [now apply (at_ok _ 2)|]. split; [apply (plain_ok "20"); reflexivity|]. split; [assumption|split; [cbn; lia|lia]].
  - split; [now apply (real_ok _ 3 _ "5")|]. split; [now apply (real_ok _ 4 _ "6")|]. split; [now apply (real_ok _ 5 _ "120")|]. split; [now apply (real_ok _ 6 _ "-30")|].
    split; [apply (text_at _ 7 _ "'RA---TAN'"); [assumption|reflexivity|reflexivity|cbn; lia]|apply (text_at _ 8 _ "'DEC--TAN'"); [assumption|reflexivity|reflexivity|cbn; lia]].
Qed.
Lemma map_tan : tan_type (lit "RA---TAN") (lit "DEC--TAN").
Proof. split; [apply (strupcase_ok (lit "RA---TAN"))|apply (strupcase_ok (lit "DEC--TAN"))]; intros H; cbn in H; intuition discriminate. Qed.
Example C84_matrix_case : let header := concat (map_cards ++ cd_cards) in
  common read_z header 10 20 5%Z 6%Z 120%Z (-30)%Z (lit "RA---TAN") (lit "DEC--TAN") /\ unit_or header "cunit1" (assign 8 (lit "deg")) /\
  has_real read_z header "cd1_1" (-1)%Z /\ has_real read_z header "cd1_2" 2%Z /\ has_real read_z header "cd2_1" 3%Z /\ has_real read_z header "cd2_2" 4%Z.
Proof.
  cbv zeta. assert (FF : Forall (fun c : text => length c = 80) (map_cards ++ cd_cards)) by (apply all80; vm_compute; reflexivity).
  split; [apply map_common; apply all80; vm_compute; reflexivity|]. split; [right; split; [apply absent_b; [assumption|cbn; lia|vm_compute; reflexivity]|exists 5; split; reflexivity]|].
  split; [now apply (real_ok _ 9 _ "-1")|]. split; [now apply (real_ok _ 10 _ "2")|]. split; [now apply (real_ok _ 11 _ "3")|now apply (real_ok _ 12 _ "4")].
Qed.
Example C84_rotation_case : let header := concat (map_cards ++ cdelt_cards) in
  common read_z header 10 20 5%Z 6%Z 120%Z (-30)%Z (lit "RA---TAN") (lit "DEC--TAN") /\ (forall k, In k ["cd1_1"; "cd1_2"; "cd2_1"; "cd2_2"]%string -> lacks header k) /\
  has_real read_z header "cdelt1" (-1)%Z /\ has_real read_z header "cdelt2" 1%Z /\ real_or read_z header "crota2" 0%Z 45%Z.
Proof.
  cbv zeta. assert (FF : Forall (fun c : text => length c = 80) (map_cards ++ cdelt_cards)) by (apply all80; vm_compute; reflexivity).
  split; [apply map_common; apply all80; vm_compute; reflexivity|]. split.
  { intros k Hk. cbn in Hk. destruct Hk as [<-|[<-|[<-|[<-|[]]]]]; (apply absent_b; [assumption|cbn; lia|vm_compute; reflexivity]). }
  split; [now apply (real_ok _ 9 _ "-1")|]. split; [now apply (real_ok _ 10 _ "1")|]. left. now apply (real_ok _ 11 _ "45").
Qed.
(** An incomplete matrix is refused. *)
Theorem C84_incomplete : forall num (read_real : text -> option num) zero rotated header n1 n2 p1 p2 v1 v2 t1 t2 u1 u2 present missing x,
  common read_real header n1 n2 p1 p2 v1 v2 t1 t2 -> unit_or header "cunit1" u1 -> unit_or header "cunit2" u2 ->
  (forall k, In k ["cd1_1"; "cd1_2"; "cd2_1"; "cd2_2"]%string -> lacks header k \/ exists y, has_real read_real header k y) ->
  In present ["cd1_1"; "cd1_2"; "cd2_1"; "cd2_2"]%string -> In missing ["cd1_1"; "cd1_2"; "cd2_1"; "cd2_2"]%string -> has_real read_real header present x -> lacks header missing ->
  init_astrometry read_real zero rotated header = Err ValueError.
Proof.
  intros num read_real zero rotated header n1 n2 p1 p2 v1 v2 t1 t2 u1 u2 present missing x C U1 U2 A Hp Hm P M. pose proof C as (_ & _ & _ & _ & _ & _ & T1 & _). pose proof (has_header _ _ _ T1) as NH.
  assert (R : forall k, In k ["cd1_1"; "cd1_2"; "cd2_1"; "cd2_2"]%string -> exists o, read_num read_real header (lit k) false = Ok o /\ (k = present -> is_some o = true) /\ (k = missing -> is_some o = false)).
  { intros k Hk. assert (Hk' : In k keys) by (cbn in Hk |- *; tauto).
    assert (N : forall y, has_real read_real header k y -> k <> missing).
    { intros y Hy ->. pose proof (num_ok read_real header missing false y Hk' Hy) as E1. pose proof (num_none read_real header missing Hk' NH M) as E2. congruence. }
    destruct (A k Hk) as [L|[y Hy]].
    - exists None. split; [now apply num_none|]. split; [|reflexivity]. intros ->. pose proof (num_ok read_real header present false x Hk' P) as E1. pose proof (num_none read_real header present Hk' NH L) as E2. congruence.
    - exists (Some y). split; [now apply num_ok|]. split; [reflexivity|]. intros E. now elim (N y Hy). }
  destruct (R "cd1_1"%string ltac:(cbn; tauto)) as (o11 & E11 & P11 & M11). destruct (R "cd1_2"%string ltac:(cbn; tauto)) as (o12 & E12 & P12 & M12).
  destruct (R "cd2_1"%string ltac:(cbn; tauto)) as (o21 & E21 & P21 & M21). destruct (R "cd2_2"%string ltac:(cbn; tauto)) as (o22 & E22 & P22 & M22).
  rewrite (init_common read_real zero rotated header n1 n2 p1 p2 v1 v2 t1 t2 o11 o21 o12 o22 (Err ValueError) u1 u2 C E11 E21 E12 E22 U1 U2); [reflexivity|].
  unfold cd_matrix. cbn in Hp, Hm.
  destruct Hp as [<-|[<-|[<-|[<-|[]]]]]; destruct Hm as [<-|[<-|[<-|[<-|[]]]]];
    try specialize (P11 eq_refl); try specialize (P12 eq_refl); try specialize (P21 eq_refl); try specialize (P22 eq_refl);
    try specialize (M11 eq_refl); try specialize (M12 eq_refl); try specialize (M21 eq_refl); try specialize (M22 eq_refl);
    destruct o11, o12, o21, o22; try discriminate; reflexivity.
Qed.
Print Assumptions C84_incomplete.
Example C84_incomplete_case : init_astrometry read_z 0%Z rot_z (concat (map_cards ++ [card "CD1_1" "-1"; card "CD1_2" "2"; card "CD2_1" "3"])) = Err ValueError.
Proof. vm_compute. reflexivity. Qed.
(** The units of the axes are read but change nothing: angles in radians or in arcseconds are
    taken as degrees. *)
Theorem C84_unit_refuted : forall num (read_real : text -> option num) zero rotated header header' n1 n2 p1 p2 v1 v2 t1 t2 c11 c12 c21 c22 u1 u2 w1 w2,
  common read_real header n1 n2 p1 p2 v1 v2 t1 t2 -> common read_real header' n1 n2 p1 p2 v1 v2 t1 t2 -> tan_type t1 t2 ->
  unit_or header "cunit1" u1 -> unit_or header "cunit2" u2 -> unit_or header' "cunit1" w1 -> unit_or header' "cunit2" w2 ->
  (forall h, h = header \/ h = header' -> has_real read_real h "cd1_1" c11 /\ has_real read_real h "cd1_2" c12 /\ has_real read_real h "cd2_1" c21 /\ has_real read_real h "cd2_2" c22) ->
  exists a b, init_astrometry read_real zero rotated header = Ok a /\ init_astrometry read_real zero rotated header' = Ok b /\
    cunit a = (u1, u2) /\ cunit b = (w1, w2) /\ crpix a = crpix b /\ crval a = crval b /\ cd a = cd b.
Proof.
  intros num read_real zero rotated header header' n1 n2 p1 p2 v1 v2 t1 t2 c11 c12 c21 c22 u1 u2 w1 w2 C C' T U1 U2 W1 W2 H.
  destruct (H header (or_introl eq_refl)) as (H1 & H2 & H3 & H4). destruct (H header' (or_intror eq_refl)) as (K1 & K2 & K3 & K4). eexists. eexists.
  split; [eapply C84_matrix; eassumption|]. split; [eapply C84_matrix; eassumption|]. repeat split.
Qed.
Print Assumptions C84_unit_refuted.
Example C84_unit_case : exists a b, init_astrometry read_z 0%Z rot_z (concat (map_cards ++ cd_cards)) = Ok a /\
  init_astrometry read_z 0%Z rot_z (concat (map_cards ++ cd_cards ++ [card "CUNIT1" "'arcsec'"; card "CUNIT2" "'ARCSEC'"])) = Ok b /\
  cunit a = (lit "deg     ", lit "deg     ") /\ cunit b = (lit "arcsec  ", lit "arcsec  ") /\ crval a = (120, -30)%Z /\ crval b = (120, -30)%Z.
Proof. eexists. eexists. split; [vm_compute; reflexivity|]. split; [vm_compute; reflexivity|]. repeat split. Qed.
(** Only the first card with each of the keywords counts. *)
Lemma find_agree header header' keyword cards cards' : cards_of header cards -> cards_of header' cards' -> cards <> [] -> cards' <> [] -> length keyword <= 8 -> no_z keyword ->
  find (namedb keyword) cards = find (namedb keyword) cards' -> forall me, get_keyword header keyword me = get_keyword header' keyword me.
Proof.
  assert (G : forall h l, cards_of h l -> l <> [] -> length keyword <= 8 -> no_z keyword -> forall me,
    get_keyword h keyword me = match find (namedb keyword) l with Some c => Ok (Some (parse_card (skipn 10 c))) | None => if me then Err KeyError else Ok None end).
  { intros h l [E F] N K Z me. destruct (find (namedb keyword) l) as [c|] eqn:Ef.
    - assert (S : exists k, forallb (fun c => negb (namedb keyword c)) (firstn k l) = true /\ match skipn k l with x :: _ => namedb keyword x = true /\ skipn 10 x = skipn 10 c | [] => False end).
      { clear - Ef. induction l as [|x l IH]; [discriminate|]. cbn in Ef. destruct (namedb keyword x) eqn:Ex.
        - injection Ef as ->. exists 0. split; [reflexivity|]. split; [assumption|reflexivity].
        - destruct (IH Ef) as (k & H1 & H2). exists (S k). cbn. rewrite Ex. split; assumption. }
      destruct S as (k & S1 & S2). subst h. now apply (get_keyword_found (concat l) keyword me (skipn 10 c) K Z), (field_at l k keyword (skipn 10 c)).
    - apply get_keyword_absent; [|assumption|assumption|].
      + intros ->. destruct l as [|c l]; [contradiction|]. inversion F; subst. apply (f_equal (@length ascii)) in E. cbn [concat] in E. rewrite app_length in E. cbn in E. lia.
      + exists l. split; [split; assumption|]. apply Forall_forall. intros c Hc Hn. pose proof (find_none _ _ Ef c Hc) as Hf. rewrite Forall_forall in F. apply namedb_spec in Hn; [congruence|assumption|now apply F]. }
  intros C C' N N' K Z E me. rewrite (G _ _ C N K Z), (G _ _ C' N' K Z), E. reflexivity.
Qed.
Theorem C84_others : forall num (read_real : text -> option num) zero rotated header header' cards cards', cards_of header cards -> cards_of header' cards' -> cards <> [] -> cards' <> [] ->
  (forall k, In k keys -> find (namedb (lit k)) cards = find (namedb (lit k)) cards') -> init_astrometry read_real zero rotated header = init_astrometry read_real zero rotated header'.
Proof.
  intros num rr zero rot header header' cards cards' C C' N N' H.
  assert (G : forall k, In k keys -> forall me, get_keyword header (lit k) me = get_keyword header' (lit k) me).
  { intros k Hk. destruct (keys_ok k Hk) as (K1 & K2 & K3). eapply find_agree; eauto. }
  unfold init_astrometry, cd_matrix, read_num, read_int4, read_int, read_character.
  rewrite !(G "naxis1"%string), !(G "naxis2"%string), !(G "crpix1"%string), !(G "crpix2"%string), !(G "crval1"%string), !(G "crval2"%string), !(G "cd1_1"%string), !(G "cd2_1"%string), !(G "cd1_2"%string), !(G "cd2_2"%string),
    !(G "ctype1"%string), !(G "ctype2"%string), !(G "cunit1"%string), !(G "cunit2"%string) by (cbn; tauto).
  repeat (match goal with |- bind ?e _ = bind ?e _ => destruct e; [cbn [bind]|reflexivity] end).
  rewrite (G "cdelt1"%string), (G "cdelt2"%string), (G "crota2"%string) by (cbn; tauto). reflexivity.
Qed.
Print Assumptions C84_others.
(** The matrix PC of the standard is ignored. *)
Definition pc_cards : list text := [card "PC1_1" "0"; card "PC1_2" "-1"; card "PC2_1" "1"; card "PC2_2" "0"].
Theorem C84_pc_refuted : forall num (read_real : text -> option num) zero rotated,
  init_astrometry read_real zero rotated (concat (map_cards ++ cdelt_cards ++ pc_cards)) = init_astrometry read_real zero rotated (concat (map_cards ++ cdelt_cards)).
Proof.
  intros. apply (C84_others _ _ _ _ _ _ (map_cards ++ cdelt_cards ++ pc_cards) (map_cards ++ cdelt_cards)); try (split; [reflexivity|apply all80; vm_compute; reflexivity]); try discriminate.
  intros k Hk. cbn in Hk. repeat (destruct Hk as [<-|Hk]; [vm_compute; reflexivity|]). destruct Hk.
Qed.
Print Assumptions C84_pc_refuted.
Example C84_pc_case : exists a, init_astrometry read_z 0%Z rot_z (concat (map_cards ++ cdelt_cards ++ pc_cards)) = Ok a /\ cd a = rot_z (-1) 1 45.
Proof. eexists. split; vm_compute; reflexivity. Qed.
(** The axes in the other order are refused. *)
Theorem C84_order_refuted : forall num (read_real : text -> option num) zero rotated header n1 n2 p1 p2 v1 v2 t1 t2 c11 c12 c21 c22 u1 u2,
  common read_real header n1 n2 p1 p2 v1 v2 t1 t2 -> tan_type t2 t1 -> unit_or header "cunit1" u1 -> unit_or header "cunit2" u2 ->
  has_real read_real header "cd1_1" c11 -> has_real read_real header "cd1_2" c12 -> has_real read_real header "cd2_1" c21 -> has_real read_real header "cd2_2" c22 ->
  init_astrometry read_real zero rotated header = Err ValueError.
Proof.
  intros num read_real zero rotated header n1 n2 p1 p2 v1 v2 t1 t2 c11 c12 c21 c22 u1 u2 C T U1 U2 C11 C12 C21 C22.
  rewrite (init_common read_real zero rotated header n1 n2 p1 p2 v1 v2 t1 t2 (Some c11) (Some c21) (Some c12) (Some c22) (Ok ((c11, c12), (c21, c22))) u1 u2 C); try (apply num_ok; [cbn; tauto|assumption]); try assumption; [|reflexivity].
  destruct (tan_ok t2 t1 T) as [-> ->]. reflexivity.
Qed.
Print Assumptions C84_order_refuted.
(** object2xy_minmax: a keyword after the 36th card is missing. *)
Theorem C84_minmax_refuted : forall num (read_real : text -> option num) zero rotated header cards, cards_of header cards -> 36 <= length cards ->
  Forall (fun c => ~ named (lit "naxis1") c) (firstn 36 cards) -> init_astrometry read_real zero rotated (minmax_header header) = Err KeyError.
Proof.
  intros num rr zero rot header cards [E F] L A.
  assert (F36 : Forall (fun c : text => length c = 80) (firstn 36 cards)) by (rewrite <- (firstn_skipn 36 cards) in F; apply Forall_app in F; tauto).
  assert (H : minmax_header header = concat (firstn 36 cards)).
  { unfold minmax_header, assign. subst header. rewrite <- (firstn_skipn 36 cards) at 1. rewrite concat_app. pose proof (concat_len _ F36) as H1. rewrite firstn_length in H1. pose proof (concat_len _ F) as H2. unfold text in *.
    rewrite firstn_exact by lia. replace (2880 - length (concat cards)) with 0 by lia. cbn [repeat]. apply app_nil_r. }
  assert (N : concat (firstn 36 cards) <> []) by (intros E0; pose proof (concat_len _ F36) as H1; unfold text in *; rewrite E0, firstn_length in H1; cbn [length] in H1; lia).
  unfold init_astrometry, needed, read_int4, read_int. rewrite H. rewrite (get_keyword_absent _ (lit "naxis1") true N); [reflexivity|cbn; lia|apply (keys_ok "naxis1"); cbn; tauto|].
  exists (firstn 36 cards). split; [split; [reflexivity|assumption]|assumption].
Qed.
Print Assumptions C84_minmax_refuted.
Example C84_minmax_case : init_astrometry read_z 0%Z rot_z (concat (repeat (card "HISTORY" "") 36 ++ map_cards ++ cd_cards)) <> Err KeyError /\
  init_astrometry read_z 0%Z rot_z (minmax_header (concat (repeat (card "HISTORY" "") 36 ++ map_cards ++ cd_cards))) = Err KeyError.
Proof. split; [vm_compute; discriminate|vm_compute; reflexivity]. Qed.
