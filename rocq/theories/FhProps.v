(** C83: keywords of the headers of FITS files. *)
From Coq Require Import Ascii String Bool.
From Verif Require Import Base BaseFacts TemplateModel UnitModel StrModel StrSpec StrFacts FhModel FhSpec FhFacts.
Open Scope nat_scope.

(** A card for the examples. *)
Definition card (name value : string) : text := assign 8 (lit name) ++ lit "= " ++ assign 70 (lit value).
Lemma card_len name value : length (card name value) = 80.
Proof. unfold card. rewrite !app_length, !assign_len. reflexivity. Qed.
Lemma card_field name value : skipn 10 (card name value) = assign 70 (lit value).
Proof. unfold card. rewrite app_assoc. apply skipn_exact. rewrite app_length, assign_len. reflexivity. Qed.
Lemma card_name name value : firstn 8 (card name value) = assign 8 (lit name).
Proof. unfold card. apply firstn_exact. now rewrite assign_len. Qed.
Definition namedb (keyword c : text) : bool := (length keyword <=? 8) && forallb (fun p => same_letterb (fst p) (snd p)) (combine (assign 8 keyword) (firstn 8 c)) && (8 <=? length c).
Lemma namedb_spec keyword c : length keyword <= 8 -> length c = 80 -> (namedb keyword c = true <-> named keyword c).
Proof.
  intros L LC. unfold namedb. rewrite (proj2 (Nat.leb_le _ _) L), (proj2 (Nat.leb_le 8 (length c))) by lia. rewrite andb_true_r. cbn [andb].
  assert (G : forall p q, length p = length q -> (forallb (fun p => same_letterb (fst p) (snd p)) (combine p q) = true <-> Forall2 same_letter p q)).
  { induction p as [|a p IH]; intros [|b q] E; try discriminate; cbn; [split; [constructor|reflexivity]|]. rewrite andb_true_iff, same_letterb_spec, IH by (cbn in E; lia).
    split; [intros [H1 H2]; now constructor|intros H; inversion H; auto]. }
  rewrite G by (rewrite assign_len, firstn_length; lia). split.
  - intros H. exists (assign 8 keyword). split; [now apply assign_fits|assumption].
  - intros (p & Hp & F). apply padded_unique in Hp. now subst.
Qed.
Definition sample : list text :=
  [card "SIMPLE" "                   T / conforms"; card "OBJECT" "'it''s a / map'      / the / object"; card "NAXIS1" "                 -12 / size"; card "OBSERVER" "none"; card "NAXIS1" "7"].
Lemma sample_cards : Forall (fun c : text => length c = 80) sample.
Proof. repeat constructor. Qed.
Lemma field_at (cards : list text) k keyword f : Forall (fun c : text => length c = 80) cards -> length keyword <= 8 ->
  (forallb (fun c => negb (namedb keyword c)) (firstn k cards)) = true -> match skipn k cards with c :: _ => namedb keyword c = true /\ skipn 10 c = f | [] => False end ->
  field_of (concat cards) keyword f.
Proof.
  intros F L A H. destruct (skipn k cards) as [|c after] eqn:E; [destruct H|]. destruct H as [N Ef]. exists (firstn k cards), c, after.
  rewrite <- E, firstn_skipn. split; [split; [reflexivity|assumption]|]. assert (Fa : Forall (fun c : text => length c = 80) (firstn k cards ++ c :: after)) by (rewrite <- E, firstn_skipn; assumption).
  apply Forall_app in Fa. destruct Fa as [Fb Fc]. inversion Fc; subst. split; [|split; [now apply namedb_spec|reflexivity]].
  rewrite forallb_forall in A. apply Forall_forall. intros b Hb N'. specialize (A b Hb). rewrite Forall_forall in Fb. apply namedb_spec in N'; [|assumption|now apply Fb]. rewrite N' in A. discriminate.
Qed.

(** ** C83 *)
(** Values written as they are: value and comment of the first card with the keyword. *)
Theorem C83_plain : forall header keyword must_exist field v comment, keyword_ok keyword -> no_z keyword -> field_of header keyword field -> plain_field field v comment ->
  exists v' c', get_keyword header keyword must_exist = Ok (Some (v', c')) /\ padded 70 v v' /\ padded 72 comment c'.
Proof.
  intros header keyword me field v comment [K _] Z F P. destruct (get_keyword_found header keyword me field ltac:(lia) Z F) as [E L].
  rewrite E, (parse_plain field v comment L P). eexists. eexists. split; [reflexivity|]. destruct P as (k & c & r & t & -> & _ & _ & _ & -> & Ht). rewrite !app_length in L.
  split; apply assign_fits; [lia|]. destruct Ht as [->|[_ ->]]; cbn [length] in *; lia.
Qed.
Print Assumptions C83_plain.
Example C83_plain_case : keyword_ok (lit "naxis1") /\ no_z (lit "naxis1") /\ field_of (concat sample) (lit "naxis1") (assign 70 (lit "                 -12 / size")) /\
  plain_field (assign 70 (lit "                 -12 / size")) (lit "-12 ") (lit " size" ++ repeat " "%char 43).
Proof.
  split; [split; [cbn; lia|intros H; cbn in H; intuition discriminate]|]. split; [split; intros H; cbn in H; intuition discriminate|]. split.
  - apply (field_at sample 2); [apply sample_cards|cbn; lia|vm_compute; reflexivity|cbn [skipn sample]; split; [vm_compute; reflexivity|apply card_field]].
  - exists 17, "-"%char, (lit "12 "), ("/"%char :: lit " size" ++ repeat " "%char 43). split; [reflexivity|]. split; [intros H; cbn in H; intuition discriminate|]. split; [discriminate|]. split; [discriminate|]. split; [vm_compute; reflexivity|now left].
Qed.
(** Values between quotes. *)
Theorem C83_comment : forall header keyword must_exist field s comment, keyword_ok keyword -> no_z keyword -> field_of header keyword field -> quoted_field field s comment ->
  exists v' c', get_keyword header keyword must_exist = Ok (Some (v', c')) /\ padded 72 comment c'.
Proof.
  intros header keyword me field s comment [K _] Z F Q. destruct (get_keyword_found header keyword me field ltac:(lia) Z F) as [E L].
  destruct (parse_quoted field s comment L Q) as (m & _ & P & _). rewrite E, P. eexists. eexists. split; [reflexivity|]. apply assign_fits.
  destruct Q as (k & t & Ef & m' & _ & _ & Ht). apply (f_equal (@length ascii)) in Ef. rewrite !app_length in Ef. destruct Ht as [->|[_ ->]]; [rewrite app_length in Ef|]; cbn [length] in *; lia.
Qed.
Print Assumptions C83_comment.
(** A string between quotes is read with its quotes, slashes and blanks, when there is room. *)
Theorem C83_character : forall n header keyword must_exist field s comment, keyword_ok keyword -> no_z keyword -> field_of header keyword field -> quoted_field field s comment ->
  length s <= n -> exists out, read_character n header keyword must_exist = Ok (Some out) /\ padded n s out.
Proof.
  intros n header keyword me field s comment [K _] Z F Q Hn. destruct (get_keyword_found header keyword me field ltac:(lia) Z F) as [E L].
  destruct (parse_quoted field s comment L Q) as (m & Hm & P & Lm). unfold read_character. rewrite E, P. cbn [bind].
  destruct (read_character_quoted _ s m Hm Lm eq_refl) as (Hq & u & Hu & Eu). rewrite Hq. cbn [negb]. rewrite Ascii.eqb_refl. cbn [negb]. rewrite Eu.
  assert (U := unquote_ok s u Hu [] n Hn). cbn [app length] in U. rewrite U. eexists. split; [reflexivity|]. exists (n - length s). split; [reflexivity|]. rewrite app_length, repeat_length. lia.
Qed.
Print Assumptions C83_character.
Example C83_character_case : keyword_ok (lit "object") /\ no_z (lit "object") /\ field_of (concat sample) (lit "object") (assign 70 (lit "'it''s a / map'      / the / object")) /\
  quoted_field (assign 70 (lit "'it''s a / map'      / the / object")) (lit "it's a / map") (lit " the / object" ++ repeat " "%char 35) /\ length (lit "it's a / map") <= 20 /\
  read_character 20 (concat sample) (lit "object") true = Ok (Some (lit "it's a / map        ")).
Proof.
  split; [split; [cbn; lia|intros H; cbn in H; intuition discriminate]|]. split; [split; intros H; cbn in H; intuition discriminate|]. split.
  - apply (field_at sample 1); [apply sample_cards|cbn; lia|vm_compute; reflexivity|cbn [skipn sample]; split; [vm_compute; reflexivity|apply card_field]].
  - split; [|split; [cbn; lia|vm_compute; reflexivity]]. exists 0, (lit "      /" ++ lit " the / object" ++ repeat " "%char 35). split; [vm_compute; reflexivity|].
    exists (lit "      "). split; [intros H; cbn in H; intuition discriminate|]. split; [discriminate|]. left. reflexivity.
Qed.
(** Strings without quotes are read as they are written. *)
Theorem C83_unquoted : forall n header keyword must_exist field v comment, keyword_ok keyword -> no_z keyword -> field_of header keyword field -> plain_field field v comment ->
  exists out, read_character n header keyword must_exist = Ok (Some out) /\ stored n v out.
Proof.
  intros n header keyword me field v comment K Z F P. destruct (get_keyword_found header keyword me field ltac:(destruct K; lia) Z F) as [E L].
  unfold read_character. rewrite E, (parse_plain field v comment L P). cbn [bind]. assert (Lv : length v <= 70) by (destruct P as (k & c & r & t & -> & _ & _ & _ & -> & _); rewrite !app_length in L; lia).
  assert (H0 : nth 0 (assign 70 v) blank <> quote).
  { destruct P as (k & c & r & t & -> & _ & _ & Hq & _). unfold assign. cbn. exact Hq. }
  destruct (Ascii.eqb_spec (nth 0 (assign 70 v) blank) quote); [contradiction|]. cbn [negb]. eexists. split; [reflexivity|].
  replace (assign n (assign 70 v)) with (assign n v); [apply assign_stored|]. unfold assign at 3. rewrite (firstn_all2 v Lv).
  destruct (Nat.le_gt_cases (length v) n); [now rewrite assign_blanks|]. unfold assign. rewrite firstn_app, app_length.
  replace (n - length v) with 0 by lia. replace (n - (length v + length (repeat blank (70 - length v)))) with 0 by lia. cbn [repeat firstn]. now rewrite !app_nil_r.
Qed.
Print Assumptions C83_unquoted.
Example C83_unquoted_case : field_of (concat sample) (lit "OBSERVER") (assign 70 (lit "none")) /\ plain_field (assign 70 (lit "none")) (assign 70 (lit "none")) [] /\
  read_character 3 (concat sample) (lit "OBSERVER") true = Ok (Some (lit "non")).
Proof.
  split; [apply (field_at sample 3); [apply sample_cards|cbn; lia|vm_compute; reflexivity|cbn [skipn sample]; split; [vm_compute; reflexivity|apply card_field]]|]. split; [|vm_compute; reflexivity].
  exists 0, "n"%char, (skipn 1 (assign 70 (lit "none"))), []. split; [reflexivity|]. split; [intros H; apply in_app_or in H; destruct H as [H|H]; [cbn in H; intuition discriminate|apply repeat_spec in H; discriminate]|].
  split; [discriminate|]. split; [discriminate|]. split; [reflexivity|]. now right.
Qed.
(** Integers of at most 20 characters; those that do not fit are refused. *)
Theorem C83_integer : forall lo hi header keyword must_exist field v k n comment, keyword_ok keyword -> no_z keyword -> field_of header keyword field ->
  plain_field field (v ++ repeat " "%char k) comment -> integer v n -> length v <= 20 ->
  ((lo <= n <= hi)%Z -> read_int lo hi header keyword must_exist = Ok (Some n)) /\ (~ (lo <= n <= hi)%Z -> read_int lo hi header keyword must_exist = Err ValueError).
Proof.
  intros lo hi header keyword me field v k n comment K Z F P I L20. destruct (get_keyword_found header keyword me field ltac:(destruct K; lia) Z F) as [E L].
  unfold read_int. rewrite E, (parse_plain field _ comment L P). cbn [bind].
  assert (Lv : length (v ++ repeat " "%char k) <= 70) by (destruct P as (k' & c & r & t & _ & _ & _ & _ & -> & _); rewrite !app_length in *; lia).
  assert (Ea : exists j, assign 70 (v ++ repeat " "%char k) = v ++ repeat blank j).
  { exists (k + (70 - length (v ++ repeat " "%char k))). unfold assign. rewrite firstn_all2 by assumption. rewrite <- app_assoc. f_equal. symmetry. apply repeat_app. }
  destruct Ea as [j ->]. rewrite (read_i20_ok lo hi v n j I L20). split; intros H.
  - replace ((lo <=? n) && (n <=? hi))%Z with true by lia. reflexivity.
  - replace ((lo <=? n) && (n <=? hi))%Z with false by lia. reflexivity.
Qed.
Print Assumptions C83_integer.
(** The bounds are those of integers of 32 and 64 bits. *)
Theorem C83_bounds : forall header keyword must_exist field v k n comment, keyword_ok keyword -> no_z keyword -> field_of header keyword field ->
  plain_field field (v ++ repeat " "%char k) comment -> integer v n -> length v <= 20 ->
  ((- 2147483648 <= n <= 2147483647)%Z -> read_int4 header keyword must_exist = Ok (Some n)) /\ (~ (- 2147483648 <= n <= 2147483647)%Z -> read_int4 header keyword must_exist = Err ValueError) /\
  ((- 9223372036854775808 <= n <= 9223372036854775807)%Z -> read_int8 header keyword must_exist = Ok (Some n)) /\ (~ (- 9223372036854775808 <= n <= 9223372036854775807)%Z -> read_int8 header keyword must_exist = Err ValueError).
Proof.
  intros header keyword me field v k n comment K Z F P I L.
  destruct (C83_integer (- 2147483648) 2147483647 header keyword me field v k n comment K Z F P I L) as [A B].
  destruct (C83_integer (- 9223372036854775808) 9223372036854775807 header keyword me field v k n comment K Z F P I L) as [A' B'].
  change (read_int (- 2147483648) 2147483647) with read_int4 in A, B. change (read_int (- 9223372036854775808) 9223372036854775807) with read_int8 in A', B'. auto.
Qed.
Print Assumptions C83_bounds.
Example C83_integer_case : field_of (concat sample) (lit "NAXIS1") (assign 70 (lit "                 -12 / size")) /\ integer (lit "-12") (-12) /\
  read_int4 (concat sample) (lit "naxis1") true = Ok (Some (-12)%Z).
Proof.
  split; [apply (field_at sample 2); [apply sample_cards|cbn; lia|vm_compute; reflexivity|cbn [skipn sample]; split; [vm_compute; reflexivity|apply card_field]]|]. split; [|vm_compute; reflexivity].
  exists (lit "12"), 12%Z. split; [discriminate|]. split; [|right; right; split; reflexivity].
  change (lit "12") with ([] ++ ["1"%char] ++ ["2"%char]). rewrite app_assoc. change 12%Z with (10 * (10 * 0 + Z.of_nat 1) + Z.of_nat 2)%Z. repeat constructor.
Qed.
(** Any other character than figures and blanks is refused, except one sign at the beginning. *)
Lemma digit_figures c d : digit c = Some d -> In c figures.
Proof. destruct c as [[] [] [] [] [] [] [] []]; vm_compute; intros H; try discriminate H; tauto. Qed.
Lemma read_digits_bad s c m : In c s -> ~ In c figures -> c <> " "%char -> read_digits s m = Err ValueError.
Proof.
  revert m. induction s as [|x s IH]; intros m H NF NB; [destruct H|]. cbn [read_digits]. destruct H as [->|H].
  - destruct (Ascii.eqb_spec c blank) as [E|_]; [contradiction|]. destruct (digit c) as [d|] eqn:E; [apply digit_figures in E; contradiction|reflexivity].
  - destruct (Ascii.eqb x blank); [now apply IH|]. destruct (digit x); [now apply IH|reflexivity].
Qed.
Theorem C83_not_integer : forall lo hi header keyword must_exist field v comment i c, keyword_ok keyword -> no_z keyword -> field_of header keyword field -> plain_field field v comment ->
  nth_error v i = Some c -> i < 20 -> ~ In c figures -> c <> " "%char -> (i = 0 -> c <> "+"%char /\ c <> "-"%char) -> read_int lo hi header keyword must_exist = Err ValueError.
Proof.
  intros lo hi header keyword me field v comment i c K Z F P Hi L20 NF NB NS. destruct (get_keyword_found header keyword me field ltac:(destruct K; lia) Z F) as [E L].
  unfold read_int. rewrite E, (parse_plain field v comment L P). cbn [bind].
  assert (Lv : length v <= 70) by (destruct P as (k' & c' & r & t & _ & _ & _ & _ & -> & _); rewrite !app_length in *; lia).
  destruct P as (k & c0 & r & t & -> & _ & B0 & _). unfold assign. rewrite firstn_all2 by exact Lv. change ((c0 :: r) ++ repeat blank (70 - length (c0 :: r))) with (c0 :: (r ++ repeat blank (70 - length (c0 :: r)))).
  set (s := r ++ repeat blank (70 - length (c0 :: r))). unfold read_i20. change (firstn 20 (c0 :: s)) with (c0 :: firstn 19 s). cbn [drop_blanks]. destruct (Ascii.eqb_spec c0 blank) as [X|_]; [contradiction|].
  assert (In0 : forall j, i = S j -> In c (firstn 19 s)).
  { intros j ->. cbn [nth_error] in Hi. apply (nth_error_In (firstn 19 s) j). unfold s. rewrite <- Hi.
    assert (Lj : j < length r) by (apply nth_error_Some; congruence).
    assert (G : forall n (u w : text) j, j < length w -> j < n -> nth_error (firstn n (w ++ u)) j = nth_error w j).
    { clear. induction n as [|n IH]; intros u w j Lj H; [lia|]. destruct w as [|x w]; [cbn in Lj; lia|]. destruct j as [|j]; [reflexivity|]. cbn [app firstn nth_error]. apply IH; cbn in Lj; lia. }
    apply G; lia. }
  destruct i as [|j].
  - injection Hi as ->. destruct (NS eq_refl) as [N1 N2]. destruct (Ascii.eqb_spec c "-"%char); [contradiction|]. destruct (Ascii.eqb_spec c "+"%char); [contradiction|].
    rewrite (read_digits_bad _ c) by (cbn [In]; auto). reflexivity.
  - specialize (In0 j eq_refl). destruct (Ascii.eqb_spec c0 "-"%char) as [->|_]; [|destruct (Ascii.eqb_spec c0 "+"%char) as [->|_]].
    + destruct (firstn 19 s) eqn:Es; [reflexivity|]. rewrite <- Es in *. rewrite (read_digits_bad _ c) by assumption. reflexivity.
    + destruct (firstn 19 s) eqn:Es; [reflexivity|]. rewrite <- Es in *. rewrite (read_digits_bad _ c) by assumption. reflexivity.
    + rewrite (read_digits_bad _ c) by (cbn [In]; auto). reflexivity.
Qed.
Print Assumptions C83_not_integer.
Example C83_not_integer_case : plain_field (assign 70 (lit "  1:2 / size")) (lit "1:2 ") (lit " size" ++ repeat " "%char 58) /\ nth_error (lit "1:2 ") 1 = Some ":"%char /\ ~ In ":"%char figures.
Proof.
  split; [|split; [reflexivity|cbn; intuition discriminate]]. exists 2, "1"%char, (lit ":2 "), (lit "/ size" ++ repeat " "%char 58). split; [reflexivity|]. split; [cbn; intuition discriminate|]. split; [discriminate|]. split; [discriminate|].
  split; [vm_compute; reflexivity|]. left. reflexivity.
Qed.
(** Logical values: a part of TRUE or FALSE from its first letter, in any case; anything else is refused. *)
Definition begins (u full : text) : Prop := u <> [] /\ exists r, full = u ++ r.
Theorem C83_logical : forall header keyword must_exist field v k u comment, keyword_ok keyword -> no_z keyword -> field_of header keyword field ->
  plain_field field (v ++ repeat " "%char k) comment -> trimmed (v ++ repeat " "%char k) v -> is_uppered v u ->
  (begins u (lit "TRUE") -> read_logical header keyword must_exist = Ok (Some true)) /\ (begins u (lit "FALSE") -> read_logical header keyword must_exist = Ok (Some false)) /\
  (~ begins u (lit "TRUE") -> ~ begins u (lit "FALSE") -> read_logical header keyword must_exist = Err ValueError).
Proof.
  intros header keyword me field v k u comment K Z F P T U. destruct (get_keyword_found header keyword me field ltac:(destruct K; lia) Z F) as [E L].
  unfold read_logical. rewrite E, (parse_plain field _ comment L P). cbn [bind].
  assert (Lv : length (v ++ repeat " "%char k) <= 70) by (destruct P as (k' & c & r & t & _ & _ & _ & _ & -> & _); rewrite !app_length in *; lia).
  assert (Ea : exists j, assign 70 (v ++ repeat " "%char k) = v ++ repeat blank j).
  { exists (k + (70 - length (v ++ repeat " "%char k))). unfold assign. rewrite firstn_all2 by assumption. rewrite <- app_assoc. f_equal. symmetry. apply repeat_app. }
  destruct Ea as [j ->]. clear E F L Lv Z K.
  assert (Hv : v <> []).
  { intros ->. destruct P as (k' & c & r & t & Ev & _ & Hb & _). destruct k; cbn in Ev; [discriminate|]. injection Ev as <- _. now apply Hb. }
  assert (Hne : forall q, v <> q ++ [" "%char]).
  { destruct T as (k2 & _ & H). exact H. }
  assert (Ej : strupcase (v ++ repeat blank j) = strupcase v ++ repeat blank j) by (unfold strupcase; rewrite map_app; f_equal; clear; induction j; cbn; [reflexivity|now f_equal]).
  rewrite Ej. assert (Hup : forall q, strupcase v <> q ++ [" "%char]).
  { intros q Eq. destruct (rev v) as [|c r] eqn:R; [apply (f_equal (@rev ascii)) in R; rewrite rev_involutive in R; contradiction|]. apply (f_equal (@rev ascii)) in R. rewrite rev_involutive in R. cbn in R.
    assert (c <> " "%char) by (intros ->; now apply (Hne (rev r))). rewrite R in Eq. unfold strupcase in Eq. rewrite map_app in Eq. apply app_inj_tail in Eq. destruct Eq as [_ Eq].
    clear - Eq H. revert Eq H. destruct c as [[|] [|] [|] [|] [|] [|] [|] [|]]; vm_compute; intros; congruence || (now apply H). }
  assert (Et : trim (strupcase v ++ repeat blank j) = strupcase v) by (rewrite trim_repeat; now apply trim_noblank).
  assert (Lu : length (strupcase v) = length v) by (unfold strupcase; apply map_length).
  assert (Fe : forall w, In w [lit "FALSE"; lit "TRUE"] -> forall m, m = length w -> feq (strupcase v ++ repeat blank j) (firstn (Nat.min m (length (strupcase v))) w) = true <-> exists r, w = strupcase v ++ r).
  { intros w Hw m ->. rewrite feq_spec, Et. assert (Tw : trim (firstn (Nat.min (length w) (length (strupcase v))) w) = firstn (length (strupcase v)) w).
    { replace (firstn (Nat.min (length w) (length (strupcase v))) w) with (firstn (length (strupcase v)) w).
      - cbn in Hw. generalize (length (strupcase v)). intros x. destruct Hw as [<-|[<-|[]]]; (destruct x as [|[|[|[|[|x]]]]]; cbn [firstn lit list_ascii_of_string]; rewrite ?firstn_nil; reflexivity).
      - destruct (Nat.min_spec (length w) (length (strupcase v))) as [[H ->]|[H ->]]; [|reflexivity]. now rewrite firstn_all, firstn_all2 by lia. }
    rewrite Tw. split.
    - intros Eq. exists (skipn (length (strupcase v)) w). rewrite Eq at 1. symmetry. apply firstn_skipn.
    - intros [r ->]. now rewrite firstn_exact. }
  rewrite Et. pose proof (Fe (lit "FALSE") (or_introl eq_refl) 5 eq_refl) as FF. pose proof (Fe (lit "TRUE") (or_intror (or_introl eq_refl)) 4 eq_refl) as FT.
  assert (UU : forall w, In w [lit "FALSE"; lit "TRUE"] -> ((exists r, w = strupcase v ++ r) <-> begins u w)).
  { intros w Hw. destruct (in_dec ascii_dec "z"%char v) as [Hz|Hz].
    - split.
      + intros [r Er]. exfalso. assert (Hi : In "z"%char w) by (rewrite Er; apply in_or_app; left; apply in_map_iff; exists "z"%char; split; [reflexivity|assumption]).
        cbn in Hw. destruct Hw as [<-|[<-|[]]]; cbn in Hi; intuition discriminate.
      + intros [_ [r Er]]. exfalso. apply In_nth_error in Hz. destruct Hz as [i Hi]. assert (Hu : nth_error u i = Some "Z"%char).
        { clear - U Hi. revert i Hi. induction U as [|a b l l' H U IH]; intros [|i] Hi; cbn in *; try discriminate; [|now apply IH]. injection Hi as ->. destruct H as [(k & H1 & H2)|[H _]]; [|exfalso; apply H; vm_compute; tauto].
          do 26 (destruct k as [|k]; [vm_compute in H1, H2; congruence|]). cbn in H1. destruct k; discriminate. }
        apply nth_error_In in Hu. assert (Hw2 : In "Z"%char w) by (rewrite Er; apply in_or_app; now left). cbn in Hw. destruct Hw as [<-|[<-|[]]]; cbn in Hw2; intuition discriminate.
    - assert (Eu : strupcase v = u).
      { pose proof (strupcase_ok v Hz) as S. clear - S U. unfold is_uppered in *. revert S. generalize (strupcase v). induction U as [|a b l l' H U IH]; intros t S; inversion S as [|a' b' l1 l2 Ha Hl]; subst; [reflexivity|]. f_equal; [|now apply IH].
        destruct H as [(i & H1 & H2)|[N ->]]; destruct Ha as [(i' & H3 & H4)|[N' ->]].
        - assert (i = i').
          { assert (ND : NoDup lowers) by (vm_compute; repeat constructor; cbn; intuition discriminate). rewrite NoDup_nth_error in ND. apply ND; [apply nth_error_Some; congruence|congruence]. }
          subst. congruence.
        - apply nth_error_In in H1. contradiction.
        - apply nth_error_In in H3. contradiction.
        - reflexivity. }
      rewrite Eu. split; [intros H; split; [|assumption]|intros [_ H]; exact H]. rewrite <- Eu. intros E0. apply Hv. destruct v; [reflexivity|discriminate]. }
  rewrite (UU _ (or_introl eq_refl)) in FF. rewrite (UU _ (or_intror (or_introl eq_refl))) in FT.
  assert (H0 : forall w, In w [lit "FALSE"; lit "TRUE"] -> begins u w -> nth 0 (strupcase v ++ repeat blank j) blank = nth 0 w blank).
  { intros w Hw B. apply UU in B; [|assumption]. destruct B as [r ->]. destruct (strupcase v) eqn:Es; [|reflexivity]. destruct v; [contradiction|discriminate]. }
  split; [|split].
  - intros B. rewrite (proj2 FT B), andb_false_r. rewrite (H0 _ (or_intror (or_introl eq_refl)) B). reflexivity.
  - intros B. rewrite (proj2 FF B). cbn [negb andb]. rewrite (H0 _ (or_introl eq_refl) B). reflexivity.
  - intros NT NF. rewrite (not_true_is_false _ (fun H => NF (proj1 FF H))), (not_true_is_false _ (fun H => NT (proj1 FT H))). reflexivity.
Qed.
Print Assumptions C83_logical.
Example C83_logical_case : field_of (concat sample) (lit "Simple") (assign 70 (lit "                   T / conforms")) /\ begins (lit "T") (lit "TRUE") /\
  read_logical (concat sample) (lit "simple") true = Ok (Some true) /\ read_logical (concat [card "FLAG" "fals"]) (lit "flag") true = Ok (Some false) /\ read_logical (concat [card "FLAG" "no"]) (lit "flag") true = Err ValueError.
Proof.
  split; [apply (field_at sample 0); [apply sample_cards|cbn; lia|vm_compute; reflexivity|cbn [skipn sample]; split; [vm_compute; reflexivity|apply card_field]]|].
  split; [split; [discriminate|]; exists (lit "RUE"); reflexivity|]. repeat split; vm_compute; reflexivity.
Qed.
(** A keyword that is absent: refused or not found. *)
Theorem C83_absent : forall header keyword, header <> [] -> keyword_ok keyword -> no_z keyword -> absent header keyword ->
  get_keyword header keyword true = Err KeyError /\ get_keyword header keyword false = Ok None.
Proof. intros header keyword N [K _] Z A. split; apply get_keyword_absent; (assumption || lia). Qed.
Print Assumptions C83_absent.
Example C83_absent_case : concat sample <> [] /\ keyword_ok (lit "naxis") /\ absent (concat sample) (lit "naxis").
Proof.
  split; [vm_compute; discriminate|]. split; [split; [cbn; lia|intros H; cbn in H; intuition discriminate]|]. exists sample. split; [split; [reflexivity|apply sample_cards]|].
  apply Forall_forall. intros c Hc H. pose proof sample_cards as F. rewrite Forall_forall in F. apply namedb_spec in H; [|cbn; lia|now apply F].
  cbn in Hc. destruct Hc as [<-|[<-|[<-|[<-|[<-|[]]]]]]; vm_compute in H; discriminate.
Qed.
(** Keywords with the letter z: not found in the other case. *)
Theorem C83_z_refuted : forall k1 k2 value must_exist, length (k1 ++ "z"%char :: k2) <= 8 ->
  get_keyword (card (string_of_list_ascii (k1 ++ "Z"%char :: k2)) value) (k1 ++ "z"%char :: k2) must_exist = if must_exist then Err KeyError else Ok None.
Proof.
  intros k1 k2 value me L. unfold get_keyword. rewrite card_len. change (Z.to_nat _) with 1. cbn [find_card]. rewrite card_len. change (80 * 0 + 8 <=? 80) with true. cbn iota.
  assert (Es : section_ (card (string_of_list_ascii (k1 ++ "Z"%char :: k2)) value) (80 * 0) (80 * 0 + 8) = assign 8 (k1 ++ "Z"%char :: k2)).
  { unfold section_. cbn [Nat.mul Nat.add Nat.sub skipn]. rewrite card_name. unfold lit. now rewrite list_ascii_of_string_of_list_ascii. }
  rewrite Es. assert (N : feq (strlowcase (assign 8 (k1 ++ "Z"%char :: k2))) (assign FLEN_KEYWORD (strlowcase (k1 ++ "z"%char :: k2))) = false).
  { apply not_true_is_false. rewrite feq_spec. intros E. rewrite lower_assign in E. unfold FLEN_KEYWORD, assign in E.
    rewrite app_length in L. cbn [length] in L.
    assert (Lx : forall c, length (strlowcase (k1 ++ c :: k2)) <= 8) by (intros; unfold strlowcase; rewrite map_length, app_length; cbn [length]; lia).
    rewrite !firstn_all2 in E by (pose proof (Lx "Z"%char); pose proof (Lx "z"%char); lia). rewrite !trim_repeat in E.
    apply trim_same in E; [|unfold strlowcase; rewrite !map_length, !app_length; reflexivity]. unfold strlowcase in E. rewrite !map_app in E. apply app_inv_head in E. discriminate. }
  rewrite N. destruct me; reflexivity.
Qed.
Print Assumptions C83_z_refuted.
Example C83_z_case : get_keyword (card "BZERO" "32768.") (lit "bzero") true = Err KeyError /\ named (lit "bzero") (card "BZERO" "32768.").
Proof. split; [vm_compute; reflexivity|]. apply namedb_spec; [cbn; lia|apply card_len|vm_compute; reflexivity]. Qed.
(** A header with one more character, for which the code makes room: a keyword that is absent
    is read outside of the header; so is any keyword of an empty header. *)
Theorem C83_terminator_refuted : forall cards keyword must_exist, Forall (fun c : text => length c = 80) cards -> Forall (fun c => ~ named keyword c) cards -> keyword_ok keyword -> no_z keyword ->
  forall c, get_keyword (concat cards ++ [c]) keyword must_exist = Err IndexError.
Proof.
  intros cards keyword me F A [K _] Z c. unfold get_keyword. pose proof (concat_len _ F) as Hl.
  assert (Hn : Z.to_nat (Z.quot (Z.of_nat (length (concat cards ++ [c])) - 1) 80 + 1) = length cards + 1).
  { rewrite app_length, Hl. cbn [length]. rewrite Z.quot_div_nonneg by lia. lia. }
  rewrite Hn. clear Hn Hl.
  assert (G : forall card0 rest, concat cards ++ [c] = concat card0 ++ concat rest ++ [c] -> Forall (fun x : text => length x = 80) card0 -> Forall (fun x : text => length x = 80) rest -> Forall (fun c => ~ named keyword c) rest ->
    find_card (concat cards ++ [c]) (assign FLEN_KEYWORD (strlowcase keyword)) (length rest + 1) (length card0) = Err IndexError).
  { intros card0 rest. revert card0. induction rest as [|x rest IH]; intros card0 E F0 F1 A1.
    - assert (Hle : 80 * length card0 + 8 <=? length (concat cards ++ [c]) = false) by (apply Nat.leb_gt; rewrite E; cbn [concat app]; rewrite app_length, (concat_len _ F0); cbn [length]; unfold text; lia).
      cbn [length Nat.add find_card]. now rewrite Hle.
    - cbn [length Nat.add find_card]. inversion F1; subst. inversion A1; subst. rewrite (proj2 (Nat.leb_le _ _)).
      2:{ rewrite E. cbn [concat]. rewrite !app_length, (concat_len _ F0). unfold text in *. lia. }
      assert (Es : section_ (concat cards ++ [c]) (80 * length card0) (80 * length card0 + 8) = firstn 8 x).
      { rewrite E. cbn [concat]. unfold section_. pose proof (concat_len _ F0) as H0. unfold text in *. rewrite <- H0, skipn_exact by reflexivity. replace (length (concat card0) + 8 - length (concat card0)) with 8 by lia.
        rewrite <- app_assoc, firstn_app. replace (8 - length x) with 0 by lia. cbn [firstn]. apply app_nil_r. }
      rewrite Es. destruct (feq _ _) eqn:Ef; [apply named_spec in Ef; [contradiction|lia|assumption|lia]|].
      specialize (IH (card0 ++ [x])). rewrite app_length in IH. cbn [length] in IH. replace (S (length card0)) with (length card0 + 1) by lia. apply IH; try assumption.
      + rewrite E. cbn [concat]. rewrite concat_app. cbn [concat]. rewrite app_nil_r, <- !app_assoc. reflexivity.
      + apply Forall_app. split; [assumption|]. constructor; [assumption|constructor]. }
  assert (G0 := G [] cards eq_refl (Forall_nil _) F A). cbn [length] in G0. unfold text in *. rewrite G0. reflexivity.
Qed.
Print Assumptions C83_terminator_refuted.
Example C83_terminator_case : get_keyword (concat sample ++ [ascii_of_nat 0]) (lit "naxis") false = Err IndexError /\ get_keyword [] (lit "naxis") false = Err IndexError.
Proof. split; vm_compute; reflexivity. Qed.
(** Strings longer than the variable are written outside of it instead of being truncated. *)
Theorem C83_short_refuted : forall n header keyword must_exist field s comment, keyword_ok keyword -> no_z keyword -> field_of header keyword field -> quoted_field field s comment ->
  n < length s -> read_character n header keyword must_exist = Err IndexError.
Proof.
  intros n header keyword me field s comment [K _] Z F Q Hn. destruct (get_keyword_found header keyword me field ltac:(lia) Z F) as [E L].
  destruct (parse_quoted field s comment L Q) as (m & Hm & P & Lm). unfold read_character. rewrite E, P. cbn [bind].
  destruct (read_character_quoted _ s m Hm Lm eq_refl) as (Hq & u & Hu & Eu). rewrite Hq, Ascii.eqb_refl. cbn [negb]. rewrite Eu.
  assert (U := unquote_long s u [] n Hn). cbn [app length] in U. rewrite U. reflexivity.
Qed.
Print Assumptions C83_short_refuted.
Example C83_short_case : read_character 8 (concat sample) (lit "object") true = Err IndexError.
Proof. vm_compute. reflexivity. Qed.
(** Values that are not numbers or logical values but are accepted: no value at all, two numbers,
    a number of more than 20 characters. *)
Theorem C83_values_refuted :
  read_int4 (card "KEY" "") (lit "key") true = Ok (Some 0%Z) /\ read_logical (card "KEY" "") (lit "key") true = Ok (Some false) /\
  read_int4 (card "KEY" "12 34") (lit "key") true = Ok (Some 1234%Z) /\ read_int4 (card "KEY" "000000000000000000012") (lit "key") true = Ok (Some 1%Z).
Proof. repeat split; vm_compute; reflexivity. Qed.
Print Assumptions C83_values_refuted.
