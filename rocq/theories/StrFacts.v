(** Lemmas for the strings. *)
From Coq Require Import Ascii Lia.
From Verif Require Import Base BaseFacts TemplateModel UnitModel UnitFacts StrModel StrSpec.
Open Scope nat_scope.

(** ** Case *)
Fixpoint pos_in (tab : text) (a : ascii) : option nat :=
  match tab with [] => None | c :: r => if Ascii.eqb c a then Some 0 else option_map S (pos_in r a) end.
Lemma pos_in_some tab a i : pos_in tab a = Some i -> nth_error tab i = Some a.
Proof.
  revert i; induction tab as [|c r IH]; cbn; intros i H; [discriminate|].
  destruct (Ascii.eqb_spec c a) as [->|].
  - inversion H; reflexivity.
  - destruct (pos_in r a); inversion H; subst; cbn. now apply IH.
Qed.
Lemma pos_in_none tab a : pos_in tab a = None -> ~ In a tab.
Proof.
  induction tab as [|c r IH]; cbn; intros H; [tauto|].
  destruct (Ascii.eqb_spec c a) as [->|N]; [discriminate|].
  destruct (pos_in r a); [discriminate|]. intros [->|E]; [now apply N | now apply IH].
Qed.
Definition translatedb (tab tab' : text) (a b : ascii) : bool :=
  match pos_in tab a with
  | Some i => match nth_error tab' i with Some c => Ascii.eqb c b | None => false end
  | None => Ascii.eqb b a
  end.
Lemma translatedb_ok tab tab' a b : translatedb tab tab' a b = true -> translated tab tab' a b.
Proof.
  unfold translatedb, translated. intros H.
  destruct (pos_in tab a) as [i|] eqn:E.
  - destruct (nth_error tab' i) as [c|] eqn:F; [|discriminate].
    apply Ascii.eqb_eq in H; subst c. left; exists i; split; [now apply pos_in_some | exact F].
  - apply Ascii.eqb_eq in H. right; split; [now apply pos_in_none | exact H].
Qed.

Lemma lower_char_ok c : c <> "Z"%char -> translated uppers lowers c (lower_char c).
Proof.
  intros H. apply translatedb_ok.
  destruct c as [[|] [|] [|] [|] [|] [|] [|] [|]]; try (vm_compute; reflexivity); exfalso; apply H; reflexivity.
Qed.
Lemma upper_char_ok c : c <> "z"%char -> translated lowers uppers c (upper_char c).
Proof.
  intros H. apply translatedb_ok.
  destruct c as [[|] [|] [|] [|] [|] [|] [|] [|]]; try (vm_compute; reflexivity); exfalso; apply H; reflexivity.
Qed.
Lemma map_F2 {A B} (P : A -> B -> Prop) (f : A -> B) l : (forall a, In a l -> P a (f a)) -> Forall2 P l (map f l).
Proof. induction l as [|a l IH]; cbn; intros H; constructor; auto. Qed.
Lemma strlowcase_ok s : ~ In "Z"%char s -> is_lowered s (strlowcase s).
Proof. intros H. apply map_F2. intros a Ha. apply lower_char_ok. intros ->. tauto. Qed.
Lemma strupcase_ok s : ~ In "z"%char s -> is_uppered s (strupcase s).
Proof. intros H. apply map_F2. intros a Ha. apply upper_char_ok. intros ->. tauto. Qed.

Lemma lower_lower c : lower_char (lower_char c) = lower_char c.
Proof. destruct c as [[|] [|] [|] [|] [|] [|] [|] [|]]; vm_compute; reflexivity. Qed.
Lemma upper_lower c : upper_char (lower_char c) = upper_char c.
Proof. destruct c as [[|] [|] [|] [|] [|] [|] [|] [|]]; vm_compute; reflexivity. Qed.
Lemma lower_upper c : lower_char (upper_char c) = lower_char c.
Proof. destruct c as [[|] [|] [|] [|] [|] [|] [|] [|]]; vm_compute; reflexivity. Qed.
Lemma upper_upper c : upper_char (upper_char c) = upper_char c.
Proof. destruct c as [[|] [|] [|] [|] [|] [|] [|] [|]]; vm_compute; reflexivity. Qed.
Lemma case_consistent s :
  strupcase (strlowcase s) = strupcase s /\ strlowcase (strupcase s) = strlowcase s /\
  strlowcase (strlowcase s) = strlowcase s /\ strupcase (strupcase s) = strupcase s.
Proof.
  unfold strupcase, strlowcase. rewrite !map_map. repeat split; apply map_ext; intros c.
  - apply upper_lower. - apply lower_upper. - apply lower_lower. - apply upper_upper.
Qed.

(** ** Blanks *)
Lemma assign_len n s : length (assign n s) = n.
Proof. unfold assign. rewrite app_length, repeat_length, firstn_length. lia. Qed.
Lemma assign_fits n s : length s <= n -> padded n s (assign n s).
Proof.
  intros H. exists (n - length s). split; [|apply assign_len].
  unfold assign. now rewrite firstn_all2.
Qed.
Lemma assign_same s : assign (length s) s = s.
Proof. unfold assign. rewrite firstn_all, Nat.sub_diag. cbn. apply app_nil_r. Qed.

Lemma drop_blanks_spec s : exists k, s = repeat blank k ++ drop_blanks s /\
  (forall c r, drop_blanks s = c :: r -> c <> blank).
Proof.
  induction s as [|c s [k [E H]]]; cbn; [exists 0; split; [reflexivity | discriminate]|].
  destruct (Ascii.eqb_spec c blank) as [->|N].
  - exists (S k). split; [cbn; now f_equal | exact H].
  - exists 0. split; [reflexivity|]. intros c' r' E'; inversion E'; now subst.
Qed.
Lemma repeat_rev {A} (a : A) n : rev (repeat a n) = repeat a n.
Proof.
  induction n as [|n IH]; [reflexivity|]. cbn [repeat rev]. rewrite IH.
  clear. induction n; cbn; [reflexivity | now f_equal].
Qed.
Lemma trim_spec s : exists k, s = trim s ++ repeat blank k.
Proof.
  destruct (drop_blanks_spec (rev s)) as [k [E _]]. exists k.
  unfold trim. rewrite <- (repeat_rev blank k), <- rev_app_distr, <- E. symmetry. apply rev_involutive.
Qed.
Lemma trim_last s c r : rev (trim s) = c :: r -> c <> blank.
Proof. unfold trim. rewrite rev_involutive. destruct (drop_blanks_spec (rev s)) as [k [_ H]]. apply H. Qed.

Lemma set_nth_app_r {A} (p q : list A) a : set_nth (p ++ q) (length p) a = p ++ set_nth q 0 a.
Proof. induction p; cbn; [reflexivity | now f_equal]. Qed.

(** ** strcompress *)
Lemma nat32 c : (nat_of_ascii c =? 32) = Ascii.eqb c blank.
Proof. destruct c as [[|] [|] [|] [|] [|] [|] [|] [|]]; vm_compute; reflexivity. Qed.
Lemma compress_loop_ok inp w k : length inp <= k ->
  exists k', compress_loop inp (w ++ repeat blank k) (length w) = w ++ no_blank inp ++ repeat blank k' /\ k' <= k /\ length (no_blank inp) + k' = k.
Proof.
  revert w k; induction inp as [|c r IH]; cbn; intros w k H; [exists k; split; [reflexivity | lia]|].
  rewrite nat32. unfold blank. destruct (Ascii.eqb c " ") eqn:E; cbn [negb].
  - destruct (IH w k) as [k' [E' H']]; [lia|]. exists k'. split; [exact E' | exact H'].
  - destruct k as [|k]; [lia|].
    rewrite set_nth_app_r. cbn.
    destruct (IH (w ++ [c]) k) as [k' [E' H']]; [lia|].
    exists k'. rewrite app_length in E'; cbn in E'. rewrite Nat.add_comm in E'. cbn in E'.
    rewrite <- app_assoc in E'; cbn in E'. unfold blank in E'. rewrite E'. split; [now rewrite <- app_assoc|]. destruct H' as [H1 H2]. unfold no_blank in H2. cbn [length]. lia.
Qed.
Lemma no_blank_repeat k : no_blank (repeat blank k) = [].
Proof. induction k; cbn; auto. Qed.
Lemma no_blank_app a b : no_blank (a ++ b) = no_blank a ++ no_blank b.
Proof. apply filter_app. Qed.
Lemma strcompress_ok s : padded (length s) (no_blank s) (strcompress s).
Proof.
  destruct (trim_spec s) as [k E].
  unfold strcompress.
  assert (L : length (trim s) <= length s) by (rewrite E at 2; rewrite app_length; lia).
  destruct (compress_loop_ok (trim s) [] (length s) L) as [k' [E' [H1 H2]]]. cbn in E'. 
  assert (N : no_blank s = no_blank (trim s)) by (rewrite E at 1; rewrite no_blank_app, no_blank_repeat; apply app_nil_r).
  exists k'. rewrite N. split; [exact E'|]. rewrite E', app_length, repeat_length. exact H2.
Qed.

(** ** strsplit *)
Lemma split_nil d s : split d s <> [].
Proof. destruct s as [|c r]; cbn; [discriminate|]. destruct (Ascii.eqb c d); [discriminate|]. destruct (split d r); discriminate. Qed.
Lemma split_app d cur c rest : ~ In d cur -> c = d -> split d (cur ++ c :: rest) = cur :: split d rest.
Proof.
  intros H ->. induction cur as [|a cur IH]; cbn; [now rewrite Ascii.eqb_refl|].
  destruct (Ascii.eqb_spec a d) as [->|N]; [exfalso; apply H; now left|].
  rewrite IH; [reflexivity | intros X; apply H; now right].
Qed.
Lemma split_none d cur : ~ In d cur -> split d cur = [cur].
Proof.
  intros H; induction cur as [|a cur IH]; cbn; [reflexivity|].
  destruct (Ascii.eqb_spec a d) as [->|N]; [exfalso; apply H; now left|].
  rewrite IH; [reflexivity | intros X; apply H; now right].
Qed.
Lemma split_joined d s : joined d (split d s) = s /\ Forall (fun p => ~ In d p) (split d s).
Proof.
  induction s as [|c r [IH1 IH2]]; cbn; [repeat constructor; tauto|].
  destruct (Ascii.eqb_spec c d) as [->|N].
  - split; [|constructor; [tauto | exact IH2]].
    pose proof (split_nil d r). destruct (split d r); [contradiction|]. cbn in *. now rewrite IH1.
  - pose proof (split_nil d r). destruct (split d r) as [|w ws]; [contradiction|].
    apply Forall_cons_iff in IH2. destruct IH2 as [F1 F2]. split.
    + destruct ws; cbn in *; congruence.
    + constructor; [intros [->|X]; tauto | assumption].
Qed.
Lemma split_count d s : length (split d s) = 1 + count_char d s.
Proof.
  unfold count_char. induction s as [|c r IH]; cbn; [reflexivity|].
  rewrite (Ascii.eqb_sym d c).
  destruct (Ascii.eqb c d); cbn; [now rewrite IH|].
  pose proof (split_nil d r). destruct (split d r); [contradiction|]. exact IH.
Qed.

Lemma section_app a b c : section_ (a ++ b ++ c) (length a) (length a + length b) = b.
Proof.
  unfold section_. rewrite skipn_app, skipn_all, Nat.sub_diag. cbn.
  replace (length a + length b - length a) with (length b) by lia.
  rewrite firstn_app, firstn_all, Nat.sub_diag. cbn. apply app_nil_r.
Qed.
Lemma nth_app_at {A} (a : list A) x b d : nth (length a) (a ++ x :: b) d = x.
Proof. rewrite app_nth2, Nat.sub_diag by lia. reflexivity. Qed.
Lemma firstn_set_nth {A} (l : list A) i a : i < length l -> firstn (S i) (set_nth l i a) = firstn i l ++ [a].
Proof.
  revert i; induction l as [|x l IH]; cbn; intros i H; [lia|].
  destruct i; cbn; [reflexivity|]. f_equal. apply IH. lia.
Qed.

Lemma split_loop_ok len d rest : forall pre cur out io,
  ~ In d cur -> length out = io + 1 + count_char d rest ->
  exists out' io' st,
    split_loop len (pre ++ cur ++ rest) d (seq (length pre + length cur) (length rest)) out io (length pre) = Some (out', io', st) /\
    length out' = length out /\ S io' = length out /\
    set_nth out' io' (assign len (section_ (pre ++ cur ++ rest) st (length (pre ++ cur ++ rest)))) =
      firstn io out ++ map (assign len) (split d (cur ++ rest)).
Proof.
  induction rest as [|c rest IH]; intros pre cur out io Hc Hl.
  - cbn in *. exists out, io, (length pre). split; [reflexivity|]. split; [reflexivity|]. split; [unfold count_char in Hl; cbn in Hl; lia|].
    rewrite !app_nil_r. rewrite split_none by exact Hc. cbn.
    assert (E : section_ (pre ++ cur) (length pre) (length (pre ++ cur)) = cur).
    { pose proof (section_app pre cur []) as E. rewrite app_nil_r in E. rewrite app_length. exact E. }
    rewrite E. unfold count_char in Hl; cbn in Hl.
    rewrite <- (firstn_all (set_nth out io (assign len cur))), set_nth_length.
    replace (length out) with (S io) by lia. apply firstn_set_nth. lia.
  - cbn [length seq split_loop].
    assert (Nc : nth (length pre + length cur) (pre ++ cur ++ c :: rest) blank = c).
    { rewrite <- app_length, app_assoc. apply nth_app_at. }
    rewrite Nc.
    destruct (Ascii.eqb_spec c d) as [E|N].
    + assert (Hio : io <? length out = true) by (apply Nat.ltb_lt; lia). rewrite Hio.
      rewrite section_app.
      unfold count_char in Hl; cbn [filter] in Hl. subst c. rewrite Ascii.eqb_refl in Hl. cbn [length] in Hl.
      destruct (IH (pre ++ cur ++ [d]) [] (set_nth out io (assign len cur)) (S io)) as [out' [io' [st [E1 [E2 [E3 E4]]]]]].
      * tauto.
      * rewrite set_nth_length. unfold count_char. lia.
      * exists out', io', st.
        assert (L : length (pre ++ cur ++ [d]) = S (length pre + length cur)) by (rewrite !app_length; cbn; lia).
        cbn [app] in E1, E4. rewrite L in E1. cbn [length] in E1. rewrite Nat.add_0_r in E1.
        assert (As : (pre ++ cur ++ [d]) ++ rest = pre ++ cur ++ d :: rest) by (rewrite <- !app_assoc; reflexivity).
        rewrite As in E1, E4. rewrite set_nth_length in E2, E3.
        split; [exact E1|]. split; [exact E2|]. split; [exact E3|].
        rewrite E4, split_app by (trivial). rewrite firstn_set_nth by lia. rewrite <- app_assoc. reflexivity.
    + unfold count_char in Hl; cbn [filter] in Hl.
      destruct (Ascii.eqb_spec d c) as [X|_]; [symmetry in X; contradiction|].
      destruct (IH pre (cur ++ [c]) out io) as [out' [io' [st [E1 [E2 [E3 E4]]]]]].
      * rewrite in_app_iff. intros [X|[X|[]]]; [tauto | now apply N].
      * exact Hl.
      * exists out', io', st.
        rewrite app_length in E1; cbn [length] in E1.
        replace (length pre + (length cur + 1)) with (S (length pre + length cur)) in E1 by lia.
        rewrite <- !app_assoc in E1, E4. cbn [app] in E1, E4.
        split; [exact E1|]. split; [exact E2|]. split; [exact E3 | exact E4].
Qed.
Lemma strsplit_ok len s d unset : strsplit len s d unset = Some (map (assign len) (split d s)).
Proof.
  unfold strsplit.
  destruct (split_loop_ok len d s [] [] (repeat unset (1 + count_char d s)) 0) as [out' [io' [st [E1 [E2 [E3 E4]]]]]].
  - tauto.
  - rewrite repeat_length. lia.
  - cbn [app length Nat.add] in E1, E4 |- *. rewrite E1.
    assert (H : io' <? length out' = true) by (apply Nat.ltb_lt; lia). rewrite H, E4. reflexivity.
Qed.

(** ** Integers *)
Lemma str_digits_len fuel : forall n acc k, (1 <= k)%Z -> (0 <= n < 10 ^ k)%Z -> (k = 1 \/ 10 ^ (k - 1) <= n)%Z -> (Z.to_nat k <= fuel) ->
  length (str_digits fuel n acc) = Z.to_nat k + length acc.
Proof.
  induction fuel as [|f IH]; intros n acc k Hk Hn Hl Hf; [lia|].
  cbn [str_digits].
  destruct (Z.eqb_spec (n / 10) 0) as [E|N].
  - assert (k = 1)%Z.
    { destruct (Z.eq_dec k 1) as [->|Nk]; [reflexivity|]. exfalso.
      destruct Hl as [->|Hl]; [lia|].
      assert (10 ^ 1 <= 10 ^ (k - 1))%Z by (apply Z.pow_le_mono_r; lia).
      change (10 ^ 1)%Z with 10%Z in H. assert (1 <= n / 10)%Z by (apply Z.div_le_lower_bound; lia). lia. }
    subst k. reflexivity.
  - assert (2 <= k)%Z.
    { destruct (Z.eq_dec k 1) as [->|Nk]; [|lia]. exfalso. change (10 ^ 1)%Z with 10%Z in Hn. apply N. apply Z.div_small. lia. }
    assert (P : (10 ^ k = 10 * 10 ^ (k - 1))%Z) by (rewrite <- Z.pow_succ_r by lia; f_equal; lia).
    rewrite (IH _ _ (k - 1)%Z).
    + cbn [length]. lia.
    + lia.
    + split; [apply Z.div_pos; lia|]. apply Z.div_lt_upper_bound; lia.
    + destruct Hl as [->|Hl]; [lia|]. destruct (Z.eq_dec k 2) as [->|]; [left; reflexivity | right].
      apply Z.div_le_lower_bound; [lia|].
      replace (10 * 10 ^ (k - 1 - 1))%Z with (10 ^ (k - 1))%Z; [exact Hl|].
      rewrite <- Z.pow_succ_r by lia. f_equal. lia.
    + lia.
Qed.
Lemma str_nonneg_len n k : ndigits n k -> length (str_nonneg n) = Z.to_nat k.
Proof.
  intros [Hk [Hl Hu]]. unfold str_nonneg.
  assert (Hp : (0 < 10 ^ (k - 1))%Z) by (apply Z.pow_pos_nonneg; lia).
  rewrite (str_digits_len _ n [] k).
  - cbn; lia.
  - exact Hk.
  - lia.
  - now right.
  - assert (2 ^ (k - 1) <= n)%Z by (etransitivity; [apply Z.pow_le_mono_l with (b := 10%Z); lia | exact Hl]).
    assert (k - 1 <= Z.log2 n)%Z by (apply Z.log2_le_pow2; lia). lia.
Qed.
Lemma str_int_len n k : ndigits (Z.abs n) k -> length (str_int n) = Z.to_nat k + (if (n <? 0)%Z then 1 else 0).
Proof.
  intros H. unfold str_int. destruct (Z.ltb_spec n 0).
  - cbn [length]. rewrite (str_nonneg_len _ k); [lia|]. now rewrite Z.abs_neq in H by lia.
  - rewrite (str_nonneg_len _ k); [lia|]. now rewrite Z.abs_eq in H by lia.
Qed.

Lemma str_digits_noblank fuel : forall n acc, ~ In blank acc -> ~ In blank (str_digits fuel n acc).
Proof.
  induction fuel as [|f IH]; intros n acc H; cbn [str_digits]; [exact H|].
  assert (D : ~ In blank (digit_char (n mod 10) :: acc)).
  { intros [E|E]; [|tauto]. unfold digit_char in E.
    assert (0 <= n mod 10 < 10)%Z by (apply Z.mod_pos_bound; lia).
    assert (X : nat_of_ascii blank = 48 + Z.to_nat (n mod 10)) by (rewrite <- E; apply nat_ascii_embedding; lia).
    cbn in X. lia. }
  destruct (n / 10 =? 0)%Z; [exact D | now apply IH].
Qed.
Lemma str_int_noblank n : ~ In blank (str_int n).
Proof.
  unfold str_int, str_nonneg. destruct (n <? 0)%Z.
  - intros [E|E]; [discriminate|]. revert E. apply str_digits_noblank. tauto.
  - apply str_digits_noblank. tauto.
Qed.
Lemma drop_repeat k s : ~ In blank s -> drop_blanks (repeat blank k ++ s) = s.
Proof.
  intros H; induction k as [|k IH]; cbn; [|exact IH].
  destruct s as [|c r]; [reflexivity|]. cbn. destruct (Ascii.eqb_spec c blank) as [->|]; [exfalso; apply H; now left | reflexivity].
Qed.
Lemma adjustl_right w n : length (str_int n) <= w ->
  adjustl (write_right w n) = str_int n ++ repeat blank (w - length (str_int n)).
Proof.
  intros H. unfold adjustl, write_right. rewrite drop_repeat by apply str_int_noblank.
  rewrite app_length, repeat_length. unfold assign.
  replace (w - length (str_int n) + length (str_int n)) with w by lia.
  now rewrite firstn_all2 by lia.
Qed.
Lemma assign_pad n s k : length s <= n -> assign n (s ++ repeat blank k) = s ++ repeat blank (n - length s).
Proof.
  intros H. unfold assign. rewrite firstn_app, firstn_all2 by lia. rewrite app_length, repeat_length, <- app_assoc. f_equal.
  destruct (Nat.le_gt_cases (n - length s) k) as [L|L].
  - replace (n - (length s + k)) with 0 by lia. cbn. rewrite app_nil_r.
    replace k with ((n - length s) + (k - (n - length s))) by lia. rewrite repeat_app.
    rewrite firstn_app, repeat_length, Nat.sub_diag. cbn. rewrite app_nil_r. apply firstn_all2. rewrite repeat_length; lia.
  - rewrite firstn_all2 by (rewrite repeat_length; lia). rewrite <- repeat_app. f_equal. lia.
Qed.

Lemma strinteger_len_ok fl n e : length (str_int n) <= 80 ->
  strinteger_len fl n = length (str_int n) + e -> strinteger fl n = str_int n ++ repeat blank e.
Proof.
  intros H E. unfold strinteger. rewrite E, adjustl_right by exact H.
  rewrite assign_pad by lia. f_equal. f_equal. lia.
Qed.
(** [e]: error of the computed logarithm. *)
Lemma strinteger_err fl n e : n <> 0%Z -> (Z.abs n < 10 ^ 79)%Z ->
  ndigits (Z.abs n) (fl (Z.abs n) + 1 - Z.of_nat e) -> strinteger fl n = str_int n ++ repeat blank e.
Proof.
  intros Hn Hb Hd. pose proof (str_int_len n _ Hd) as L.
  assert (K : (fl (Z.abs n) + 1 - Z.of_nat e <= 79)%Z).
  { destruct Hd as [H1 [H2 H3]]. destruct (Z.le_gt_cases (fl (Z.abs n) + 1 - Z.of_nat e) 79) as [|G]; [assumption|].
    exfalso. assert (10 ^ 79 <= 10 ^ (fl (Z.abs n) + 1 - Z.of_nat e - 1))%Z by (apply Z.pow_le_mono_r; lia). lia. }
  apply strinteger_len_ok.
  - rewrite L. destruct (n <? 0)%Z; lia.
  - rewrite L. unfold strinteger_len. destruct (Z.eqb_spec n 0); [contradiction|].
    destruct Hd as [H1 _]. destruct (n <? 0)%Z; lia.
Qed.
Lemma strinteger_0 fl : strinteger fl 0 = str_int 0.
Proof. vm_compute. reflexivity. Qed.
Lemma strinteger_exact fl n : (Z.abs n < 10 ^ 79)%Z ->
  (n = 0%Z \/ ndigits (Z.abs n) (fl (Z.abs n) + 1)) -> strinteger fl n = str_int n.
Proof.
  intros Hb [->|Hd]; [apply strinteger_0|].
  destruct (Z.eq_dec n 0) as [->|Hn]; [apply strinteger_0|].
  rewrite (strinteger_err fl n 0 Hn Hb); [apply app_nil_r|]. now rewrite Z.sub_0_r.
Qed.

Definition section_text (first last : Z) : text :=
  (if (first =? 0)%Z then [] else str_int first) ++ ":"%char :: (if (last =? 0)%Z then [] else str_int last).
Lemma strsection_exact fl first last :
  strinteger fl first = str_int first -> strinteger fl last = str_int last ->
  strsection fl first last = Some (section_text first last).
Proof.
  intros E1 E2. unfold strsection, section_text.
  assert (L : strsection_len fl first last = length (section_text first last)).
  { unfold strsection_len, section_text. rewrite E1, E2, app_length. cbn [length].
    destruct (Z.eqb_spec first 0) as [->|]; destruct (Z.eqb_spec last 0) as [->|]; cbn [length]; try (change (length (str_int 0)) with 1); lia. }
  rewrite L. unfold section_text, write_to.
  destruct (Z.eqb_spec first 0) as [->|]; destruct (Z.eqb_spec last 0) as [->|]; cbn [andb app];
    rewrite ?assign_same, ?Nat.leb_refl; reflexivity.
Qed.

(** ** strjoin *)
Lemma put_app a u v : length v <= length u -> put (a ++ u) (length a) v = a ++ v ++ skipn (length v) u.
Proof.
  intros H. unfold put. rewrite firstn_app, firstn_all, Nat.sub_diag. cbn. rewrite app_nil_r. f_equal. f_equal.
  rewrite skipn_app, skipn_all2 by lia. cbn. f_equal. lia.
Qed.
Lemma join_loop_ok l : forall a u, length u = list_sum (map (fun s => length (trim s)) l) ->
  join_loop l (a ++ u) (length a) = a ++ concat (map trim l).
Proof.
  induction l as [|s r IH]; intros a u H; cbn in H |- *.
  - apply length_zero_iff_nil in H. now subst.
  - rewrite put_app by lia. rewrite app_assoc, <- app_length. rewrite IH.
    + now rewrite app_assoc.
    + rewrite skipn_length. unfold list_sum. lia.
Qed.
Lemma strjoin_ok l unset : strjoin l unset = concat (map trim l).
Proof. unfold strjoin. apply (join_loop_ok l [] _). apply repeat_length. Qed.
Lemma join_raw_ok k l : Forall (fun s => length s = k) l -> forall i a u, length a = i * k -> length u = length l * k ->
  join_raw_loop k l i (a ++ u) = a ++ concat l.
Proof.
  induction 1 as [|s r Hs Hr IH]; intros i a u Ha Hu; cbn [join_raw_loop concat].
  - cbn in Hu. apply length_zero_iff_nil in Hu. now subst.
  - cbn [length] in Hu. rewrite <- Ha, put_app by lia. rewrite app_assoc, (IH (S i)).
    + now rewrite <- app_assoc.
    + rewrite app_length. cbn. lia.
    + rewrite skipn_length. lia.
Qed.
Lemma strjoin_raw_ok k l unset : Forall (fun s => length s = k) l -> strjoin_raw k l unset = concat l.
Proof. intros H. apply (join_raw_ok k l H 0 [] _); [reflexivity | apply repeat_length]. Qed.

(** ** Splitting, in terms of the specification *)
Lemma assign_stored n p : stored n p (assign n p).
Proof.
  split; [apply assign_fits|]. intros H. unfold assign.
  replace (n - length p) with 0 by lia. cbn. apply app_nil_r.
Qed.
Lemma split_pieces len s d unset : exists pieces outs,
  strsplit len s d unset = Some outs /\ Forall2 (stored len) pieces outs /\
  joined d pieces = s /\ pieces <> [] /\ Forall (fun p => ~ In d p) pieces.
Proof.
  exists (split d s), (map (assign len) (split d s)).
  split; [apply strsplit_ok|]. split; [apply map_F2; intros; apply assign_stored|].
  destruct (split_joined d s) as [J F]. split; [exact J|]. split; [apply split_nil | exact F].
Qed.
Lemma split_of_joined d pieces : pieces <> [] -> Forall (fun p => ~ In d p) pieces -> split d (joined d pieces) = pieces.
Proof.
  intros N H; induction H as [|p r Hp Hr IH]; [contradiction|].
  destruct r as [|q r]; cbn [joined]; [now apply split_none|].
  rewrite split_app by trivial. f_equal. apply IH. discriminate.
Qed.
Lemma trim_trimmed o : trimmed o (trim o).
Proof.
  destruct (trim_spec o) as [k E]. exists k. split; [exact E|].
  intros q Eq. apply (trim_last o " "%char (rev q)); [|reflexivity].
  rewrite Eq, rev_app_distr. reflexivity.
Qed.
Lemma trim_pad p k : (forall q, p <> q ++ [" "%char]) -> trim (p ++ repeat " "%char k) = p.
Proof.
  intros H. unfold trim. rewrite rev_app_distr, repeat_rev.
  assert (D : drop_blanks (repeat " "%char k ++ rev p) = rev p).
  { induction k; cbn; [|assumption].
    destruct (rev p) as [|c r] eqn:E; [reflexivity|]. cbn.
    destruct (Ascii.eqb_spec c blank) as [->|]; [|reflexivity].
    exfalso. apply (H (rev r)). rewrite <- (rev_involutive p), E. reflexivity. }
  rewrite D. apply rev_involutive.
Qed.
Lemma split_join len d pieces unset : pieces <> [] -> Forall (fun p => ~ In d p) pieces ->
  Forall (fun p => length p <= len /\ forall q, p <> q ++ [" "%char]) pieces ->
  exists outs ps, strsplit len (joined d pieces) d unset = Some outs /\ Forall2 trimmed outs ps /\ joined d ps = joined d pieces.
Proof.
  intros N H F. rewrite strsplit_ok, split_of_joined by assumption.
  exists (map (assign len) pieces), (map trim (map (assign len) pieces)). split; [reflexivity|].
  split; [apply map_F2; intros; apply trim_trimmed|].
  f_equal. rewrite map_map. rewrite <- (map_id pieces) at 2. apply map_ext_in. intros p Hp.
  rewrite Forall_forall in F. destruct (F p Hp) as [L Q].
  destruct (assign_fits len p L) as [k [E _]]. rewrite E. now apply trim_pad.
Qed.
