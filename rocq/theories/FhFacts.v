(** Lemmas on the headers of FITS files. *)
From Coq Require Import Ascii String Bool.
From Verif Require Import Base BaseFacts TemplateModel UnitModel StrModel StrSpec StrFacts FhModel FhSpec.
Open Scope nat_scope.
Arguments quote : simpl never.
Arguments blank : simpl never.
Arguments slash : simpl never.

Lemma text_eqb_spec a b : text_eqb a b = true <-> a = b.
Proof. unfold text_eqb. destruct (list_eq_dec ascii_dec a b); split; congruence. Qed.
Lemma feq_spec a b : feq a b = true <-> trim a = trim b.
Proof. apply text_eqb_spec. Qed.
Lemma trim_repeat p k : trim (p ++ repeat blank k) = trim p.
Proof.
  unfold trim. rewrite rev_app_distr, repeat_rev. f_equal. induction k as [|k IH]; [reflexivity|]. cbn. exact IH.
Qed.
Lemma trim_same a b : length a = length b -> trim a = trim b -> a = b.
Proof.
  intros L E. destruct (trim_spec a) as [k Ha]. destruct (trim_spec b) as [l Hb].
  assert (H : length (trim a) + k = length (trim b) + l).
  { pose proof (f_equal (@length ascii) Ha) as H1. pose proof (f_equal (@length ascii) Hb) as H2. rewrite app_length, repeat_length in H1, H2. lia. }
  assert (k = l) by (rewrite E in H; lia). subst l. rewrite Ha, Hb, E at 1. reflexivity.
Qed.
Lemma trim_noblank p : (forall q, p <> q ++ [" "%char]) -> trim p = p.
Proof. intros H. rewrite <- (trim_pad p 0 H) at 2. cbn. now rewrite app_nil_r. Qed.
Lemma trim_end p c : c <> blank -> trim (p ++ [c]) = p ++ [c].
Proof. intros H. apply trim_noblank. intros q E. apply app_inj_tail in E. destruct E as [_ E]. now apply H. Qed.

(** ** Names *)
Definition all_chars : list ascii := map ascii_of_nat (seq 0 256).
Lemma all_chars_in c : In c all_chars.
Proof. apply in_map_iff. exists (nat_of_ascii c). split; [apply ascii_nat_embedding|]. apply in_seq. pose proof (nat_ascii_bounded c). lia. Qed.
Definition pairs : list (ascii * ascii) := combine uppers lowers.
Definition same_letterb (a b : ascii) : bool :=
  Ascii.eqb a b || existsb (fun p => Ascii.eqb (fst p) a && Ascii.eqb (snd p) b || Ascii.eqb (snd p) a && Ascii.eqb (fst p) b) pairs.
Lemma pairs_nth i u l : nth_error uppers i = Some u -> nth_error lowers i = Some l -> In (u, l) pairs.
Proof.
  intros H1 H2. unfold pairs. revert H1 H2. generalize uppers, lowers. clear. induction i; intros [|a l1] [|b l2] H1 H2; cbn in *; try discriminate.
  - left. congruence. - right. eapply IHi; eauto.
Qed.
Lemma pairs_in u l : In (u, l) pairs -> exists i, nth_error uppers i = Some u /\ nth_error lowers i = Some l.
Proof.
  unfold pairs. generalize uppers, lowers. intros l1. induction l1 as [|a l1 IH]; intros [|b l2] H; cbn in H; try contradiction. destruct H as [H|H].
  - injection H as -> ->. exists 0. split; reflexivity. - destruct (IH _ H) as (i & H1 & H2). exists (S i). split; assumption.
Qed.
Lemma same_letterb_spec a b : same_letterb a b = true <-> same_letter a b.
Proof.
  unfold same_letterb, same_letter. rewrite orb_true_iff, existsb_exists. split.
  - intros [E|((u, l) & Hp & E)]; [left; now apply Ascii.eqb_eq|]. right. destruct (pairs_in _ _ Hp) as (i & H1 & H2). exists i. cbn in E.
    apply orb_true_iff in E. destruct E as [E|E]; apply andb_true_iff in E; destruct E as [E1 E2]; apply Ascii.eqb_eq in E1, E2; subst; auto.
  - intros [->|(i & [[H1 H2]|[H1 H2]])]; [left; apply Ascii.eqb_refl| |].
    + right. exists (a, b). split; [eapply pairs_nth; eauto|]. cbn. now rewrite !Ascii.eqb_refl.
    + right. exists (b, a). split; [eapply pairs_nth; eauto|]. cbn. rewrite !Ascii.eqb_refl. apply orb_true_r.
Qed.
Lemma same_lower a b : a <> "Z"%char -> a <> "z"%char -> (lower_char a = lower_char b <-> same_letter a b).
Proof.
  intros H1 H2. rewrite <- same_letterb_spec.
  assert (T : forallb (fun a => forallb (fun b => (Ascii.eqb a "Z" || Ascii.eqb a "z") || Bool.eqb (Ascii.eqb (lower_char a) (lower_char b)) (same_letterb a b)) all_chars) all_chars = true) by (vm_compute; reflexivity).
  rewrite forallb_forall in T. specialize (T a (all_chars_in a)). rewrite forallb_forall in T. specialize (T b (all_chars_in b)). cbn beta in T.
  apply Ascii.eqb_neq in H1, H2. rewrite H1, H2 in T. cbn [orb] in T. apply Bool.eqb_prop in T. rewrite <- T. symmetry. apply Ascii.eqb_eq.
Qed.
Lemma same_lower_all p q : ~ In "Z"%char p -> ~ In "z"%char p -> (strlowcase p = strlowcase q <-> Forall2 same_letter p q).
Proof.
  revert q. induction p as [|a p IH]; intros [|b q] H1 H2; cbn; (split; [intros E|intros E]); try discriminate; try (now inversion E); try constructor.
  - injection E as E1 E2. apply same_lower; [intros ->; apply H1; now left|intros ->; apply H2; now left|assumption].
  - injection E as E1 E2. apply IH; [intros ?; apply H1; now right|intros ?; apply H2; now right|assumption].
  - inversion E; subst. f_equal; [apply same_lower; [intros ->; apply H1; now left|intros ->; apply H2; now left|assumption]|].
    apply IH; [intros ?; apply H1; now right|intros ?; apply H2; now right|assumption].
Qed.
Lemma lower_assign n s : strlowcase (assign n s) = assign n (strlowcase s).
Proof. unfold assign, strlowcase. rewrite map_app, map_length, firstn_map. f_equal. induction (n - length s); cbn; [reflexivity|now f_equal]. Qed.
(** Letters that the code compares whatever their case. *)
Definition no_z (s : text) : Prop := ~ In "Z"%char s /\ ~ In "z"%char s.
Lemma padded_unique n s t : padded n s t -> t = assign n s.
Proof.
  intros (k & -> & L). rewrite app_length, repeat_length in L. unfold assign. rewrite firstn_all2 by lia. do 2 f_equal. lia.
Qed.
Lemma named_spec keyword card : length keyword <= 8 -> no_z keyword -> 8 <= length card ->
  feq (strlowcase (firstn 8 card)) (assign FLEN_KEYWORD (strlowcase keyword)) = true <-> named keyword card.
Proof.
  intros L [Z1 Z2] LC. rewrite feq_spec. unfold FLEN_KEYWORD.
  assert (A : forall n, length keyword <= n -> assign n keyword = keyword ++ repeat blank (n - length keyword)) by (intros n Hn; unfold assign; now rewrite firstn_all2).
  assert (T : trim (assign 71 (strlowcase keyword)) = trim (strlowcase (assign 8 keyword))).
  { rewrite lower_assign. assert (Ll : length (strlowcase keyword) <= 8) by (unfold strlowcase; now rewrite map_length). unfold assign. rewrite !(firstn_all2 (strlowcase keyword)) by lia. now rewrite !trim_repeat. }
  rewrite T. assert (NZ : ~ In "Z"%char (assign 8 keyword) /\ ~ In "z"%char (assign 8 keyword)).
  { rewrite A by assumption. split; intros H; apply in_app_or in H; destruct H as [H|H]; try contradiction; apply repeat_spec in H; discriminate. }
  split.
  - intros E. exists (assign 8 keyword). split; [now apply assign_fits|]. apply same_lower_all; try tauto. symmetry. apply trim_same; [|assumption].
    unfold strlowcase. rewrite !map_length, assign_len, firstn_length. lia.
  - intros (p & Hp & F). apply padded_unique in Hp. subst p. f_equal. symmetry. apply same_lower_all; tauto.
Qed.

(** ** Cards *)
Lemma concat_len cards : Forall (fun c : text => length c = 80) cards -> length (concat cards) = 80 * length cards.
Proof. induction 1 as [|c l Hc _ IH]; cbn [concat length]; [reflexivity|]. rewrite app_length. lia. Qed.
Lemma section_concat before card after a b : Forall (fun c : text => length c = 80) before -> length card = 80 -> b <= 80 ->
  section_ (concat (before ++ card :: after)) (80 * length before + a) (80 * length before + b) = section_ card a b.
Proof.
  intros F L Hb. unfold section_. rewrite concat_app. cbn [concat]. rewrite <- (concat_len before F).
  rewrite skipn_app. rewrite skipn_all2 by lia. cbn [app]. replace (length (concat before) + a - length (concat before)) with a by lia.
  replace (length (concat before) + b - (length (concat before) + a)) with (b - a) by lia.
  rewrite skipn_app, firstn_app, skipn_length. replace (b - a - (length card - a)) with 0 by lia. cbn [firstn]. apply app_nil_r.
Qed.
Lemma find_card_skip header keyword card0 after : forall before n, Forall (fun c : text => length c = 80) (card0 ++ before ++ after) -> header = concat (card0 ++ before ++ after) ->
  length keyword <= 8 -> no_z keyword -> Forall (fun c => ~ named keyword c) before ->
  find_card header (assign FLEN_KEYWORD (strlowcase keyword)) (length before + n) (length card0) =
  find_card header (assign FLEN_KEYWORD (strlowcase keyword)) n (length card0 + length before).
Proof.
  intros before. revert card0. induction before as [|c before IH]; intros card0 n F E L Z A; [cbn; now rewrite Nat.add_0_r|].
  cbn [length Nat.add find_card]. pose proof (concat_len _ F) as Hl. rewrite <- E in Hl. rewrite !app_length in Hl. cbn [length] in Hl.
  rewrite (proj2 (Nat.leb_le _ _)) by lia. apply Forall_app in F. destruct F as [F0 F1]. cbn in F1. inversion F1; subst. inversion A; subst.
  assert (Es : section_ (concat (card0 ++ (c :: before) ++ after)) (80 * length card0) (80 * length card0 + 8) = firstn 8 c).
  { replace (80 * length card0) with (80 * length card0 + 0) at 1 by lia. cbn [app]. rewrite section_concat by (assumption || lia). reflexivity. }
  rewrite Es. destruct (feq _ _) eqn:Ef; [apply named_spec in Ef; [contradiction|assumption|assumption|lia]|].
  specialize (IH (card0 ++ [c]) n). rewrite <- !app_assoc in IH. cbn [app] in IH. rewrite app_length in IH. cbn [length] in IH.
  cbn [app]. replace (S (length card0)) with (length card0 + 1) by lia. rewrite IH; [f_equal; lia| |reflexivity|assumption|assumption|assumption].
  apply Forall_app. split; [assumption|]. constructor; assumption.
Qed.
Lemma ncards_ok (cards : list text) : cards <> [] -> Forall (fun c : text => length c = 80) cards ->
  Z.to_nat (Z.quot (Z.of_nat (length (concat cards)) - 1) 80 + 1) = length cards.
Proof. intros N F. rewrite (concat_len _ F). assert (length cards <> 0) by (destruct cards; [congruence|cbn; lia]). rewrite Z.quot_div_nonneg by lia. lia. Qed.
Lemma get_keyword_found header keyword must_exist field : length keyword <= 8 -> no_z keyword -> field_of header keyword field ->
  get_keyword header keyword must_exist = Ok (Some (parse_card field)) /\ length field = 70.
Proof.
  intros L Z (before & card & after & [E F] & A & N & ->). assert (Hc : length card = 80) by (apply Forall_app in F; destruct F as [_ F]; now inversion F).
  split; [|rewrite skipn_length; lia]. unfold get_keyword. subst header.
  rewrite ncards_ok by (assumption || (destruct before; discriminate)).
  rewrite app_length. cbn [length]. change 0 with (length (@nil text)).
  rewrite (find_card_skip _ keyword [] (card :: after) before) by (assumption || reflexivity).
  cbn [length Nat.add]. cbn [find_card].
  assert (Hb : Forall (fun c : text => length c = 80) before) by (apply Forall_app in F; tauto).
  pose proof (concat_len _ F) as Hl. rewrite app_length in Hl. cbn [length] in Hl. rewrite (proj2 (Nat.leb_le (80 * length before + 8) _)) by lia.
  replace (section_ (concat (before ++ card :: after)) (80 * length before) (80 * length before + 8)) with (firstn 8 card).
  2:{ replace (80 * length before) with (80 * length before + 0) at 1 by lia. rewrite section_concat by (assumption || lia). reflexivity. }
  rewrite (proj2 (named_spec keyword card L Z ltac:(lia)) N). cbn [bind]. rewrite (proj2 (Nat.leb_le (80 * length before + 80) _)) by lia.
  rewrite section_concat by (assumption || lia). unfold section_. rewrite firstn_all2 by (rewrite skipn_length; lia). reflexivity.
Qed.
Lemma get_keyword_absent header keyword must_exist : header <> [] -> length keyword <= 8 -> no_z keyword -> absent header keyword ->
  get_keyword header keyword must_exist = if must_exist then Err KeyError else Ok None.
Proof.
  intros N L Z (cards & [E F] & A). assert (cards <> []) by (intros ->; subst; now apply N). unfold get_keyword. subst header. rewrite ncards_ok by assumption.
  assert (K := find_card_skip (concat cards) keyword [] [] cards 0). cbn [app length] in K. rewrite app_nil_r, Nat.add_0_r in K.
  rewrite (K F eq_refl L Z A). cbn [find_card bind]. destruct must_exist; reflexivity.
Qed.

(** ** Fields *)
Lemma drop_lead k s c r : s = c :: r -> c <> blank -> drop_blanks (repeat blank k ++ s) = s.
Proof. intros -> H. induction k as [|k IH]; cbn; [|exact IH]. destruct (Ascii.eqb_spec c blank); [contradiction|reflexivity]. Qed.
Lemma buffer_ok k s c r : s = c :: r -> c <> blank -> length (repeat blank k ++ s) = 70 ->
  assign FLEN_VALUE (adjustl (repeat blank k ++ s)) = s ++ repeat blank k.
Proof.
  intros E H L. unfold adjustl. rewrite (drop_lead k s c r E H), L. unfold FLEN_VALUE. rewrite app_length, repeat_length in L.
  assert (A : assign 70 s = s ++ repeat blank k) by (unfold assign; rewrite firstn_all2 by lia; do 2 f_equal; lia). rewrite A.
  assert (L2 : length (s ++ repeat blank k) = 70) by (rewrite app_length, repeat_length; lia). rewrite <- L2 at 1. apply assign_same.
Qed.
Lemma find_slash_app m r : ~ In slash m -> find_slash (m ++ slash :: r) = length m.
Proof. induction m as [|c m IH]; cbn; intros H; [reflexivity|]. destruct (Ascii.eqb_spec c slash); [tauto|]. f_equal. tauto. Qed.
Lemma find_slash_none m : ~ In slash m -> find_slash m = length m.
Proof. induction m as [|c m IH]; cbn; intros H; [reflexivity|]. destruct (Ascii.eqb_spec c slash); [tauto|]. f_equal. tauto. Qed.
Lemma to_quote_ok s t : hd_error t <> Some quote -> to_quote (doubled s ++ quote :: t) = length (doubled s) + 1.
Proof.
  intros H. induction s as [|c s IH]; [cbn; destruct t as [|d t]; [reflexivity|]; destruct (Ascii.eqb_spec d quote); [subst; now elim H|reflexivity]|].
  cbn [doubled]. change (ascii_of_nat 39) with quote. destruct (Ascii.eqb c quote) eqn:E.
  - cbn [app to_quote length]. rewrite E. cbn [Nat.add]. rewrite IH. lia.
  - cbn [app to_quote length]. rewrite E. rewrite IH. reflexivity.
Qed.
Lemma no_slash_blank k : ~ In slash (repeat blank k).
Proof. intros H. apply repeat_spec in H. discriminate. Qed.
Lemma firstn_exact {A} (a b : list A) n : n = length a -> firstn n (a ++ b) = a.
Proof. intros ->. rewrite firstn_app, Nat.sub_diag, firstn_all. cbn. apply app_nil_r. Qed.
Lemma skipn_exact {A} (a b : list A) n : n = length a -> skipn n (a ++ b) = b.
Proof. intros ->. rewrite skipn_app, Nat.sub_diag, skipn_all. reflexivity. Qed.
Lemma assign_blanks n s k : length s <= n -> assign n (s ++ repeat blank k) = assign n s.
Proof. intros H. rewrite assign_pad by assumption. unfold assign. now rewrite firstn_all2. Qed.
Lemma parse_plain field v comment : length field = 70 -> plain_field field v comment -> parse_card field = (assign 70 v, assign 72 comment).
Proof.
  intros L (k & c & r & t & Ev & Hs & Hb & Hq & Ef & Ht). change (" "%char) with blank in *. change ("/"%char) with slash in *. subst field. unfold parse_card.
  rewrite (buffer_ok k (v ++ t) c (r ++ t)).
  2:{ now rewrite Ev. } 2:{ exact Hb. } 2:{ exact L. }
  rewrite !app_length, repeat_length in L. unfold FLEN_VALUE, FLEN_COMMENT.
  assert (E : match (v ++ t) ++ repeat blank k with | c0 :: r0 => if Ascii.eqb c0 quote then let k0 := 1 + to_quote r0 in k0 + find_slash (skipn k0 ((v ++ t) ++ repeat blank k)) else find_slash ((v ++ t) ++ repeat blank k) | [] => 0 end = find_slash ((v ++ t) ++ repeat blank k)).
  { rewrite Ev. cbn [app]. destruct (Ascii.eqb_spec c quote); [contradiction|reflexivity]. }
  cbv zeta in E |- *. rewrite E. clear E. rewrite <- app_assoc.
  destruct Ht as [->|[-> ->]].
  - cbn [app]. rewrite find_slash_app by assumption. f_equal.
    + now rewrite firstn_exact.
    + replace (v ++ slash :: comment ++ repeat blank k) with ((v ++ [slash]) ++ comment ++ repeat blank k) by now rewrite <- app_assoc.
      rewrite skipn_exact by (rewrite app_length; reflexivity). apply assign_blanks. cbn [length] in L. lia.
  - cbn [app]. assert (Hn : ~ In slash (v ++ repeat blank k)) by (intros H; apply in_app_or in H; destruct H as [H|H]; [contradiction|now apply no_slash_blank in H]).
    rewrite (find_slash_none _ Hn). rewrite firstn_all. f_equal.
    + apply assign_blanks. cbn [length] in L. lia.
    + rewrite skipn_all2 by lia. reflexivity.
Qed.
Lemma parse_quoted field s comment : length field = 70 -> quoted_field field s comment ->
  exists m, hd_error m <> Some quote /\ parse_card field = (assign 70 (quoted s ++ m), assign 72 comment) /\ length (quoted s ++ m) <= 70.
Proof.
  intros L (k & t & Ef & m & Hs & Hq & Ht). change (" "%char) with blank in *. change ("/"%char) with slash in *. unfold quoted in *. change (ascii_of_nat 39) with quote in *. subst field. unfold parse_card. cbn [app] in *.
  rewrite (buffer_ok k _ quote ((doubled s ++ [quote]) ++ t) eq_refl).
  2:{ discriminate. } 2:{ exact L. }
  cbn [app length] in L. rewrite !app_length, repeat_length in L. cbn [length] in L. rewrite !app_length in L. cbn [length] in L.
  assert (HT : hd_error (t ++ repeat blank k) <> Some quote).
  { destruct Ht as [->|[-> _]]; (destruct m as [|d m]; [destruct k; discriminate|exact Hq]). }
  unfold FLEN_VALUE, FLEN_COMMENT. set (B := (quote :: (doubled s ++ [quote]) ++ t) ++ repeat blank k).
  assert (EB : B = (quote :: doubled s ++ [quote]) ++ t ++ repeat blank k) by (unfold B; cbn [app]; now rewrite <- !app_assoc).
  assert (E : match B with | c0 :: r0 => if Ascii.eqb c0 quote then let k0 := 1 + to_quote r0 in k0 + find_slash (skipn k0 B) else find_slash B | [] => 0 end = length (doubled s) + 2 + find_slash (t ++ repeat blank k)).
  { rewrite EB. cbn [app]. rewrite Ascii.eqb_refl. cbv zeta. replace ((doubled s ++ [quote]) ++ t ++ repeat blank k) with (doubled s ++ quote :: t ++ repeat blank k) by now rewrite <- app_assoc.
    rewrite to_quote_ok by assumption. replace (quote :: doubled s ++ quote :: t ++ repeat blank k) with ((quote :: doubled s ++ [quote]) ++ t ++ repeat blank k) by (cbn [app]; now rewrite <- app_assoc).
    rewrite skipn_exact by (cbn [length]; rewrite app_length; cbn [length]; lia). lia. }
  cbv zeta in E |- *. rewrite E. clear E. rewrite EB. exists m. split; [assumption|].
  destruct Ht as [->|[-> ->]].
  - rewrite app_length in L. cbn [length] in L. rewrite <- app_assoc. cbn [app]. rewrite find_slash_app by assumption.
    replace (quote :: (doubled s ++ [quote]) ++ m ++ slash :: comment ++ repeat blank k) with ((quote :: (doubled s ++ [quote]) ++ m) ++ slash :: comment ++ repeat blank k) by (cbn [app]; now rewrite <- !app_assoc).
    split.
    + f_equal; [rewrite firstn_exact; [reflexivity|cbn [length]; rewrite !app_length; cbn [length]; lia]|].
      replace ((quote :: (doubled s ++ [quote]) ++ m) ++ slash :: comment ++ repeat blank k) with ((quote :: (doubled s ++ [quote]) ++ m ++ [slash]) ++ comment ++ repeat blank k) by (cbn [app]; now rewrite <- !app_assoc).
      rewrite skipn_exact by (cbn [length]; rewrite !app_length; cbn [length]; lia). apply assign_blanks. lia.
    + cbn [length]. rewrite !app_length. cbn [length]. lia.
  - assert (Hn : ~ In slash (m ++ repeat blank k)) by (intros H; apply in_app_or in H; destruct H as [H|H]; [contradiction|now apply no_slash_blank in H]).
    rewrite (find_slash_none _ Hn). split.
    + f_equal.
      * rewrite firstn_all2 by (cbn [app length]; rewrite !app_length; cbn [length]; lia).
        replace ((quote :: doubled s ++ [quote]) ++ m ++ repeat blank k) with ((quote :: (doubled s ++ [quote]) ++ m) ++ repeat blank k) by (cbn [app]; now rewrite <- !app_assoc).
        apply assign_blanks. cbn [length]. rewrite !app_length. cbn [length]. lia.
      * rewrite skipn_all2 by (cbn [app length]; rewrite !app_length; cbn [length]; lia). reflexivity.
    + cbn [app length]. rewrite !app_length. cbn [length]. lia.
Qed.

(** ** Strings *)
Lemma unquote_ok s t : hd_error t <> Some quote -> forall p k, length s <= k ->
  unquote (doubled s ++ quote :: t) (p ++ repeat blank k) (length p) = Ok (p ++ s ++ repeat blank (k - length s)).
Proof.
  intros Ht. induction s as [|c s IH]; intros p k H.
  - cbn [doubled app length]. rewrite Nat.sub_0_r. cbn. destruct t as [|d t]; [reflexivity|]. destruct (Ascii.eqb_spec d quote); [subst; now elim Ht|reflexivity].
  - cbn [length] in H. destruct k as [|k]; [lia|]. specialize (IH (p ++ [c]) k ltac:(lia)). rewrite app_length, <- !app_assoc in IH. cbn [app length] in IH. rewrite Nat.add_1_r in IH.
    assert (E : set_nth (p ++ repeat blank (S k)) (length p) c = p ++ c :: repeat blank k) by (rewrite set_nth_app_r; reflexivity).
    assert (Hl : length p <? length (p ++ repeat blank (S k)) = true) by (apply Nat.ltb_lt; rewrite app_length, repeat_length; lia).
    cbn [doubled length Nat.sub]. change (ascii_of_nat 39) with quote. destruct (Ascii.eqb c quote) eqn:Ec; cbn [app unquote]; rewrite Ec, Hl, E; exact IH.
Qed.
Lemma unquote_long s t : forall p k, k < length s -> unquote (doubled s ++ quote :: t) (p ++ repeat blank k) (length p) = Err IndexError.
Proof.
  induction s as [|c s IH]; intros p k H; [cbn in H; lia|]. cbn [length] in H. destruct k as [|k].
  - assert (Hl : length p <? length (p ++ repeat blank 0) = false) by (apply Nat.ltb_ge; rewrite app_length; cbn; lia).
    cbn [doubled]. change (ascii_of_nat 39) with quote. destruct (Ascii.eqb c quote) eqn:Ec; cbn [app unquote]; rewrite Ec, Hl; reflexivity.
  - specialize (IH (p ++ [c]) k ltac:(lia)). rewrite app_length, <- !app_assoc in IH. cbn [app length] in IH. rewrite Nat.add_1_r in IH.
    assert (E : set_nth (p ++ repeat blank (S k)) (length p) c = p ++ c :: repeat blank k) by (rewrite set_nth_app_r; reflexivity).
    assert (Hl : length p <? length (p ++ repeat blank (S k)) = true) by (apply Nat.ltb_lt; rewrite app_length, repeat_length; lia).
    cbn [doubled]. change (ascii_of_nat 39) with quote. destruct (Ascii.eqb c quote) eqn:Ec; cbn [app unquote]; rewrite Ec, Hl, E; exact IH.
Qed.
(** The part after the ending quote may be cut anywhere. *)
Lemma trim_after p c t : c <> blank -> exists u, trim (p ++ c :: t) = p ++ c :: u /\ (hd_error t <> Some quote -> hd_error u <> Some quote).
Proof.
  intros Hc. destruct (trim_spec t) as [k E]. destruct (list_eq_dec ascii_dec (trim t) []) as [N|N].
  - exists []. split; [|discriminate]. rewrite E, N. cbn [app]. replace (p ++ c :: repeat blank k) with ((p ++ [c]) ++ repeat blank k) by now rewrite <- app_assoc. rewrite trim_repeat. now apply trim_end.
  - exists (trim t). split.
    + rewrite E at 1. replace (p ++ c :: trim t ++ repeat blank k) with ((p ++ c :: trim t) ++ repeat blank k) by now rewrite <- app_assoc. rewrite trim_repeat. apply trim_noblank.
      intros q Eq. destruct (rev (trim t)) as [|d r] eqn:R; [apply (f_equal (@rev ascii)) in R; rewrite rev_involutive in R; contradiction|]. pose proof (trim_last _ _ _ R) as Hd.
      apply (f_equal (@rev ascii)) in R. rewrite rev_involutive in R. cbn in R. rewrite R in Eq. rewrite app_comm_cons, app_assoc in Eq. apply app_inj_tail in Eq. destruct Eq as [_ Eq]. now apply Hd.
    + intros H. destruct (trim t) as [|d r] eqn:Et; [contradiction|]. rewrite E in H. exact H.
Qed.
Lemma read_character_quoted v s m : hd_error m <> Some quote -> length (quoted s ++ m) <= 70 -> v = assign 70 (quoted s ++ m) ->
  nth 0 v blank = quote /\ exists u, hd_error u <> Some quote /\ trim (skipn 1 (trim v)) = doubled s ++ quote :: u.
Proof.
  intros Hm L ->. split.
  { unfold assign, quoted. cbn. reflexivity. }
  unfold assign. rewrite firstn_all2 by assumption. rewrite trim_repeat. unfold quoted. change (ascii_of_nat 39) with quote.
  replace ((quote :: doubled s ++ [quote]) ++ m) with ((quote :: doubled s) ++ quote :: m) by (cbn [app]; now rewrite <- app_assoc).
  destruct (trim_after (quote :: doubled s) quote m ltac:(discriminate)) as (u & E & Hu). rewrite E. cbn [app skipn].
  destruct (trim_after (doubled s) quote u ltac:(discriminate)) as (w & E' & Hw). exists w. split; [auto|exact E'].
Qed.

(** ** Integers *)
Lemma digit_ok (d : nat) (c : ascii) : nth_error figures d = Some c -> digit c = Some (Z.of_nat d) /\ c <> blank /\ c <> "+"%char /\ c <> "-"%char.
Proof. intros H. do 10 (destruct d as [|d]; [injection H as <-; (split; [reflexivity|]; split; [discriminate|]; split; discriminate)|]). cbn in H. destruct d; discriminate. Qed.
Lemma read_digits_app s t n : forall v, read_digits s v = Ok n -> read_digits (s ++ t) v = read_digits t n.
Proof.
  induction s as [|c s IH]; intros v H; [injection H as ->; reflexivity|]. cbn in *. destruct (Ascii.eqb c blank); [now apply IH|]. destruct (digit c); [now apply IH|discriminate].
Qed.
Lemma read_decimal s n : decimal s n -> read_digits s 0 = Ok n.
Proof.
  induction 1 as [|s n d c H IH Hc]; [reflexivity|]. rewrite (read_digits_app _ _ n) by assumption. destruct (digit_ok d c Hc) as (Hd & Hb & _). cbn.
  destruct (Ascii.eqb_spec c blank); [contradiction|]. now rewrite Hd.
Qed.
Lemma read_blanks k n : read_digits (repeat blank k) n = Ok n.
Proof. induction k; [reflexivity|exact IHk]. Qed.
Lemma decimal_head s n c r : decimal s n -> s = c :: r -> exists d, nth_error figures d = Some c.
Proof.
  intros H. revert c r. induction H as [|s n d c' H IH Hc]; intros c r E; [discriminate|]. destruct s as [|a s]; [injection E as -> _; eauto|]. injection E as -> _. eapply IH. reflexivity.
Qed.
Lemma decimal_pos s n : decimal s n -> (0 <= n)%Z.
Proof. induction 1; lia. Qed.
Lemma read_i20_ok lo hi v n k : integer v n -> length v <= 20 -> read_i20 lo hi (v ++ repeat blank k) = if ((lo <=? n) && (n <=? hi))%Z then Ok n else Err ValueError.
Proof.
  intros (s & m & Hs & Hd & Hv) L. unfold read_i20. rewrite firstn_app. rewrite (firstn_all2 v) by assumption.
  assert (Ef : exists j, firstn (20 - length v) (repeat blank k) = repeat blank j).
  { exists (Nat.min (20 - length v) k). clear. revert k. induction (20 - length v) as [|x IH]; intros [|k]; cbn; try reflexivity. now f_equal. }
  destruct Ef as [j ->]. destruct s as [|c r] eqn:Es; [contradiction|]. rewrite <- Es in *. destruct (decimal_head s m c r Hd Es) as [d Hc]. destruct (digit_ok d c Hc) as (_ & Hb & Hp & Hm).
  assert (E : read_digits (s ++ repeat blank j) 0 = Ok m) by (rewrite (read_digits_app _ _ m) by (now apply read_decimal); apply read_blanks).
  destruct Hv as [[-> ->]|[[-> ->]|[-> ->]]].
  - rewrite Es in *. cbn [app drop_blanks]. destruct (Ascii.eqb_spec c blank); [contradiction|]. destruct (Ascii.eqb_spec c "-"); [contradiction|]. destruct (Ascii.eqb_spec c "+"); [contradiction|].
    change (c :: r ++ repeat blank j) with ((c :: r) ++ repeat blank j). rewrite E. reflexivity.
  - cbn [app drop_blanks]. change (Ascii.eqb "+" blank) with false. cbn iota. change (Ascii.eqb "+" "-") with false. change (Ascii.eqb "+" "+") with true. cbn iota.
    rewrite E. rewrite Es. cbn [app bind]. reflexivity.
  - cbn [app drop_blanks]. change (Ascii.eqb "-" blank) with false. cbn iota. change (Ascii.eqb "-" "-") with true. cbn iota.
    rewrite E. rewrite Es. cbn [app bind]. reflexivity.
Qed.
