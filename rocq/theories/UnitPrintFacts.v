(** Lemmas on printing units: the text of a unit parses to that unit, and equal units
    print alike. *)
From Coq Require Import String Ascii QArith Qcanon Lia Permutation Sorting.Sorted.
From Verif Require Import Base BaseFacts TemplateModel UnitModel UnitSpec UnitFacts UnitParseFacts.
Open Scope nat_scope.

(** ** Digits *)
Lemma digit_char_ok d : (0 <= d < 10)%Z -> is_digit (digit_char d) = true /\ number [digit_char d] = d.
Proof.
  intros H. assert (d = 0 \/ d = 1 \/ d = 2 \/ d = 3 \/ d = 4 \/ d = 5 \/ d = 6 \/ d = 7 \/ d = 8 \/ d = 9)%Z as D by lia.
  repeat (destruct D as [->|D]; [split; reflexivity|]). subst. split; reflexivity.
Qed.
Lemma str_digits_spec fuel n acc : (0 <= n)%Z -> (n < 2 ^ Z.of_nat fuel)%Z -> fuel <> 0 ->
  exists l, str_digits fuel n acc = l ++ acc /\ l <> [] /\ Forall (fun c => is_digit c = true) l /\ number l = n.
Proof.
  revert n acc. induction fuel as [|f IH]; intros n acc P B F; [congruence|].
  cbn [str_digits]. pose proof (digit_char_ok (n mod 10) ltac:(apply Z.mod_pos_bound; lia)) as [D1 D2].
  destruct (Z.eqb_spec (n / 10) 0) as [Z0|Z0].
  - exists [digit_char (n mod 10)]. repeat split; [discriminate|repeat constructor; auto|]. rewrite D2. lia.
  - rewrite Nat2Z.inj_succ, Z.pow_succ_r in B by lia.
    assert (f <> 0). { intros ->. cbn in B. apply Z0. apply Z.div_small. lia. }
    destruct (IH (n / 10)%Z (digit_char (n mod 10) :: acc)) as [l [E [N [Dg V]]]]; [lia|lia|auto|].
    exists (l ++ [digit_char (n mod 10)]). rewrite E, <- app_assoc. repeat split.
    + destruct l; discriminate.
    + apply Forall_app. split; auto.
    + rewrite number_app, D2, V. cbn [length]. change (10 ^ Z.of_nat 1)%Z with 10%Z. lia.
Qed.
Lemma str_nonneg_spec n : (0 <= n)%Z -> str_nonneg n <> [] /\ Forall (fun c => is_digit c = true) (str_nonneg n) /\ number (str_nonneg n) = n.
Proof.
  intros P. unfold str_nonneg. destruct (str_digits_spec (S (Z.to_nat (Z.log2 n))) n []) as [l [E [N [D V]]]]; auto.
  - rewrite Nat2Z.inj_succ, Z2Nat.id by apply Z.log2_nonneg. destruct (Z.eq_dec n 0) as [->|]; [cbn; lia|]. apply Z.log2_spec. lia.
  - rewrite E, app_nil_r. auto.
Qed.

(** ** Exponents *)
Lemma trunc_int n : trunc (Q2Qc (inject_Z n)) = n.
Proof.
  unfold trunc. assert (E : this (Q2Qc (inject_Z n)) = (n # 1)).
  { apply Qred_identity. cbn. apply Z.gcd_1_r. }
  rewrite E. cbn. apply Z.quot_1_r.
Qed.
Lemma Qc_leb_le a b : Qc_leb a b = true <-> (a <= b)%Qc.
Proof. unfold Qc_leb, Qcle. apply Qle_bool_iff. Qed.
Lemma negative_lt v : negative v = true <-> (v < 0)%Qc.
Proof.
  unfold negative. rewrite negb_true_iff. split.
  - intros H. apply Qcnot_le_lt. intros C. apply Qc_leb_le in C. congruence.
  - intros H. destruct (Qc_leb 0 v) eqn:E; [|reflexivity]. apply Qc_leb_le in E. exfalso. exact (Qclt_not_le _ _ H E).
Qed.
Lemma Qc_abs_nonneg v : (0 <= Qc_abs v)%Qc.
Proof.
  unfold Qc_abs. destruct (negative v) eqn:N.
  - apply negative_lt in N. apply Qclt_le_weak in N. apply Qcopp_le_compat in N. exact N.
  - unfold negative in N. apply negb_false_iff, Qc_leb_le in N. exact N.
Qed.
Lemma inject_opp n : Q2Qc (inject_Z (- n)) = (- Q2Qc (inject_Z n))%Qc.
Proof. unfold Qcopp. apply Q2Qc_eq_iff. cbn [this]. rewrite inject_Z_opp. apply Qopp_comp. symmetry. apply Qred_correct. Qed.
Lemma exp_int neg i : exp_value (Some (neg, i, None)) = Q2Qc (inject_Z (if neg then - number i else number i)).
Proof.
  unfold exp_value. cbn [length].
  assert (E : Q2Qc (inject_Z (number i) + inject_Z (number []) / inject_Z (10 ^ Z.of_nat 0)) = Q2Qc (inject_Z (number i))).
  { apply Q2Qc_eq_iff. cbn. unfold Qdiv. rewrite Qmult_0_l, Qplus_0_r. reflexivity. }
  rewrite E. destruct neg; [|reflexivity]. symmetry. apply inject_opp.
Qed.

Section P.
Variable repr : Qc -> text.

Lemma str_exponent_spec v : printable repr v ->
  exists e, good_exp e /\ str_exponent repr v = render_exp e /\ exp_value e = v.
Proof.
  intros P. unfold str_exponent. destruct (Qc_eqb v 1) eqn:O.
  - apply Qc_eqb_eq in O. subst v. exists None. repeat split.
  - destruct P as [[n ->]|[Far [neg [i [f [G [V R]]]]]]].
    + rewrite trunc_int. assert (L : Qc_leb (Qc_abs (Q2Qc (inject_Z n) - Q2Qc (inject_Z n))) (tenth_7 * Qc_abs (Q2Qc (inject_Z n))) = true).
      { apply Qc_leb_le. replace (Q2Qc (inject_Z n) - Q2Qc (inject_Z n))%Qc with 0%Qc by ring. change (Qc_abs 0) with 0%Qc.
        rewrite <- (Qcmult_0_l (Qc_abs (Q2Qc (inject_Z n)))). apply Qcmult_le_compat_r; [discriminate|apply Qc_abs_nonneg]. }
      rewrite L. unfold str_int. destruct (Z.ltb_spec n 0) as [Neg|Pos].
      * destruct (str_nonneg_spec (- n) ltac:(lia)) as [A [B C]]. exists (Some (true, str_nonneg (- n), None)).
        split; [repeat split; auto|]. split; [cbn [render_exp app]; rewrite app_nil_r; reflexivity|].
        rewrite exp_int, C. f_equal. f_equal. lia.
      * destruct (str_nonneg_spec n ltac:(lia)) as [A [B C]]. exists (Some (false, str_nonneg n, None)).
        split; [repeat split; auto|]. split; [cbn [render_exp app]; rewrite app_nil_r; reflexivity|].
        rewrite exp_int, C. reflexivity.
    + destruct (Qc_leb _ _) eqn:L.
      { apply Qc_leb_le in L. exfalso. exact (Qclt_not_le _ _ Far L). }
      exists (Some (neg, i, Some f)). split; [exact G|]. split; [|exact V]. cbn [render_exp]. rewrite R. reflexivity.
Qed.

(** ** Words *)
Definition word := (bool * text * Qc)%type.
Definition word_text (w : word) : text :=
  let '(dv, k, v) := w in (if dv : bool then ["/"%char; " "%char] else []) ++ k ++ str_exponent repr v.
Definition word_value (w : word) : Qc := let '(dv, k, v) := w in if dv : bool then (- v)%Qc else v.
Definition good_word (w : word) : Prop := let '(dv, k, v) := w in good_name k /\ printable repr v.
Definition joined (ws : list word) : text := tl (flat_map (fun w => " "%char :: word_text w) ws).

Lemma joined_cons w ws : joined (w :: ws) = word_text w ++ match ws with [] => [] | _ => " "%char :: joined ws end.
Proof. unfold joined. cbn [flat_map tl app]. f_equal. destruct ws; reflexivity. Qed.

Lemma word_head w : good_word w -> exists c r, word_text w = c :: r /\ c <> " "%char /\ is_space c = false.
Proof.
  destruct w as [[dv k] v]. intros [G _]. unfold word_text. destruct dv; [exists "/"%char; eexists; split; [reflexivity|split; [discriminate|reflexivity]]|].
  destruct (good_name_head k G) as [c [r [-> H]]]. exists c. eexists. split; [reflexivity|]. destruct H as [H| ->].
  - apply name_char in H. split; [|tauto]. intros ->. destruct H as [H _]. discriminate.
  - split; [discriminate|reflexivity].
Qed.
Definition ends_ok (t : text) : Prop := exists s c, t = s ++ [c] /\ is_space c = false.
Lemma ends_app a b : ends_ok b -> ends_ok (a ++ b).
Proof. intros [s [c [-> H]]]. exists (a ++ s), c. rewrite app_assoc. auto. Qed.
Lemma ends_forall t : t <> [] -> Forall (fun c => is_space c = false) t -> ends_ok t.
Proof.
  intros N F. destruct (exists_last N) as [s [c ->]]. exists s, c. split; [reflexivity|]. apply Forall_app in F. destruct F as [_ F]. inversion F; auto.
Qed.
Lemma good_name_nospace k : good_name k -> Forall (fun c => is_space c = false) k.
Proof.
  intros [_ [F|F]]; (eapply Forall_impl; [|exact F]).
  - intros c Hc. apply name_char in Hc. tauto.
  - intros c ->. reflexivity.
Qed.
Lemma word_ends w : good_word w -> ends_ok (word_text w).
Proof.
  destruct w as [[dv k] v]. intros [G P]. unfold word_text. apply ends_app.
  assert (D : forall l, Forall (fun c => is_digit c = true) l -> Forall (fun c => is_space c = false) l).
  { intros l. apply Forall_impl. intros c H. apply digit_char_facts in H. tauto. }
  destruct (str_exponent_spec v P) as [e [Ge [-> _]]]. apply ends_forall.
  - destruct G as [N _]. destruct k; [congruence|discriminate].
  - apply Forall_app. split; [apply good_name_nospace, G|]. destruct e as [[[neg i] fr]|]; cbn [render_exp]; [|constructor].
    destruct Ge as [_ [Gi Gf]]. constructor; [reflexivity|]. apply Forall_app. split; [destruct neg; repeat constructor|].
    apply Forall_app. split; [auto|]. destruct fr; constructor; [reflexivity|auto].
Qed.

Lemma joined_spells ws : Forall good_word ws ->
  exists fs, spells (joined ws) fs /\ Forall2 (fun w f => f_name f = snd (fst w) /\ factor_value f = word_value w) ws fs.
Proof.
  induction 1 as [|w ws Hw F IH].
  - exists []. split; constructor.
  - destruct IH as [fs [Sp F2]]. destruct w as [[dv k] v]. destruct Hw as [Gk P]. destruct (str_exponent_spec v P) as [e [Ge [Re Ve]]].
    set (f := Factor 0 (if dv : bool then Some true else None) (if dv then 1 else 0) k e (match ws with [] => 0 | _ => 1 end)).
    assert (Gf : good_factor f). { unfold good_factor, f. cbn [f_name f_exp f_op f_mid]. split; [auto|]. split; [auto|]. destruct dv; [discriminate|auto]. }
    exists (f :: fs). split.
    + assert (T : joined ((dv, k, v) :: ws) = render f ++ joined ws).
      { rewrite joined_cons. unfold word_text, render, f. cbn [f_lead f_op f_mid f_name f_exp f_trail]. rewrite Re.
        destruct ws as [|w' ws'].
        - unfold joined. cbn [flat_map tl blanks repeat app]. rewrite !app_nil_r. destruct dv; reflexivity.
        - change (blanks 1) with [" "%char]. destruct dv; cbn [blanks repeat app]; rewrite <- ?app_assoc; cbn [app]; reflexivity. }
      apply (eq_ind_r (fun t => spells t (f :: fs)) (x := render f ++ joined ws)); [|exact T]. constructor; [exact Gf| |exact Sp].
      unfold follows. destruct (joined ws) as [|c r] eqn:J; [exact I|]. destruct ws as [|w' ws']; [discriminate|]. split.
      * inversion F as [|? ? Hw' _]; subst. destruct (word_head w' Hw') as [c' [r' [E' [N' _]]]]. rewrite joined_cons, E' in J. cbn in J. congruence.
      * cbn [f_trail f]. discriminate.
    + constructor; [|exact F2]. split; [reflexivity|]. unfold factor_value, f. cbn [f_op f_exp]. rewrite Ve. destruct dv; reflexivity.
Qed.

Lemma strip_ok s : heads (fun c => is_space c = false) s -> (s = [] \/ ends_ok s) -> strip s = s.
Proof.
  intros H E. unfold strip. assert (L : forall t, heads (fun c => is_space c = false) t -> lstrip t = t).
  { intros [|c t] Ht; [reflexivity|]. cbn in *. rewrite Ht. reflexivity. }
  rewrite (L s H). rewrite L; [apply rev_involutive|]. destruct E as [->|[t [c [-> Hc]]]]; [exact I|]. rewrite rev_app_distr. cbn. exact Hc.
Qed.
Lemma strip_joined ws : Forall good_word ws -> strip (joined ws) = joined ws.
Proof.
  intros F. apply strip_ok.
  - destruct F as [|w ws Hw F]; [exact I|]. rewrite joined_cons. destruct (word_head w Hw) as [c [r [-> [_ H]]]]. exact H.
  - induction F as [|w ws Hw F IH]; [left; reflexivity|right]. rewrite joined_cons. destruct ws as [|w' ws].
    + rewrite app_nil_r. apply word_ends, Hw.
    + apply ends_app. destruct IH as [IH|IH]; [|apply (ends_app [" "%char]); exact IH].
      exfalso. inversion F as [|? ? Hw' _]; subst. rewrite joined_cons in IH. destruct (word_head w' Hw') as [c [r [E _]]]. rewrite E in IH. discriminate.
Qed.

(** ** Sorting *)
Lemma insert_perm x l : Permutation (insert_item x l) (x :: l).
Proof.
  induction l as [|y r IH]; cbn; [reflexivity|]. destruct (text_leb (fst x) (fst y)); [reflexivity|].
  rewrite IH. apply perm_swap.
Qed.
Lemma sorted_perm u : Permutation (sorted_items u) u.
Proof. induction u as [|x r IH]; cbn; [reflexivity|]. rewrite insert_perm, IH. reflexivity. Qed.

Lemma code_inj a b : code a = code b -> a = b.
Proof. intros H. unfold code in H. rewrite <- (ascii_N_embedding a), <- (ascii_N_embedding b). unfold nat_of_ascii in H. apply Nnat.N2Nat.inj in H. congruence. Qed.
Lemma text_leb_total a b : text_leb a b = true \/ text_leb b a = true.
Proof.
  revert b. induction a as [|x a IH]; intros [|y b]; cbn; auto. rewrite (Ascii.eqb_sym y x).
  destruct (Ascii.eqb_spec x y) as [E|E]; [apply IH|]. destruct (Nat.lt_trichotomy (code x) (code y)) as [L|[L|L]].
  - left. apply Nat.ltb_lt, L.
  - exfalso. apply E, code_inj, L.
  - right. apply Nat.ltb_lt, L.
Qed.
Lemma text_leb_antisym a b : text_leb a b = true -> text_leb b a = true -> a = b.
Proof.
  revert b. induction a as [|x a IH]; intros [|y b]; cbn; auto; try discriminate. rewrite (Ascii.eqb_sym y x).
  destruct (Ascii.eqb_spec x y) as [E|E]; [intros; f_equal; auto|]. intros A B. apply Nat.ltb_lt in A. apply Nat.ltb_lt in B. lia.
Qed.
Lemma text_leb_trans a b c : text_leb a b = true -> text_leb b c = true -> text_leb a c = true.
Proof.
  revert b c. induction a as [|x a IH]; intros [|y b] [|z c]; cbn; auto; try discriminate.
  destruct (Ascii.eqb_spec x y) as [<-|E]; destruct (Ascii.eqb_spec x z) as [<-|E'].
  - apply IH.
  - intros _ H. exact H.
  - destruct (Ascii.eqb_spec y x) as [->|]; [congruence|]. intros A B. apply Nat.ltb_lt in A. apply Nat.ltb_lt in B. lia.
  - destruct (Ascii.eqb_spec y z) as [->|]; [auto|]. intros A B. apply Nat.ltb_lt in A. apply Nat.ltb_lt in B. apply Nat.ltb_lt. lia.
Qed.
Definition item_le (x y : text * Qc) : Prop := text_leb (fst x) (fst y) = true.
Lemma insert_sorted x l : StronglySorted item_le l -> StronglySorted item_le (insert_item x l).
Proof.
  induction 1 as [|y r Sr IH F]; cbn; [repeat constructor|]. destruct (text_leb (fst x) (fst y)) eqn:E.
  - constructor; [constructor; auto|]. constructor; [exact E|]. eapply Forall_impl; [|exact F]. intros z. unfold item_le. apply text_leb_trans, E.
  - constructor; [exact IH|]. eapply Permutation_Forall; [symmetry; apply insert_perm|]. constructor; [|exact F].
    unfold item_le. destruct (text_leb_total (fst x) (fst y)); congruence.
Qed.
Lemma sorted_sorted u : StronglySorted item_le (sorted_items u).
Proof. induction u; cbn; [constructor|apply insert_sorted; auto]. Qed.
Lemma sorted_unique l m : StronglySorted item_le l -> StronglySorted item_le m -> NoDup (map fst l) -> Permutation l m -> l = m.
Proof.
  intros Sl. revert m. induction Sl as [|x l Sl IH F]; intros m Sm N P.
  - apply Permutation_nil in P. auto.
  - destruct Sm as [|y m Sm G]; [symmetry in P; apply Permutation_nil in P; discriminate|].
    assert (X : x = y).
    { assert (Ix : In x (y :: m)) by (eapply Permutation_in; [exact P|left; reflexivity]).
      assert (Iy : In y (x :: l)) by (eapply Permutation_in; [symmetry; exact P|left; reflexivity]).
      destruct Ix as [->|Ix]; [reflexivity|]. destruct Iy as [->|Iy]; [reflexivity|].
      rewrite Forall_forall in F, G. pose proof (text_leb_antisym _ _ (F y Iy) (G x Ix)) as E.
      exfalso. inversion N as [|? ? Nx _]; subst. apply Nx. rewrite E. apply in_map, Iy. }
    subst y. f_equal. inversion N; subst. apply IH; auto. eapply Permutation_cons_inv. exact P.
Qed.

Lemma NoDup_items (u : unit_) : NoDup (names u) -> NoDup u.
Proof. unfold names. apply NoDup_map_inv. Qed.
Lemma same_perm u v : NoDup (names u) -> NoDup (names v) -> same_items u v -> Permutation u v.
Proof. intros A B S. apply NoDup_Permutation; auto using NoDup_items. Qed.
Lemma existsb_perm {A} (p : A -> bool) l m : Permutation l m -> existsb p l = existsb p m.
Proof. induction 1; cbn; try congruence. destruct (p x), (p y); reflexivity. Qed.

Lemma strunit_same u v : distinct_names u -> distinct_names v -> dict_eqb u v = true -> strunit repr u = strunit repr v.
Proof.
  intros A B D. apply dict_eqb_same in D; auto. pose proof (same_perm u v A B D) as P.
  assert (E : sorted_items u = sorted_items v).
  { apply sorted_unique; auto using sorted_sorted.
    - apply (Permutation_NoDup (l := names u)); [apply Permutation_map; symmetry; apply sorted_perm|exact A].
    - rewrite !sorted_perm. exact P. }
  unfold strunit. rewrite <- E, <- (existsb_perm _ _ _ P). destruct u as [|x u].
  - apply Permutation_nil in P. subst. reflexivity.
  - destruct v as [|y v]; [symmetry in P; apply Permutation_nil in P; discriminate|]. reflexivity.
Qed.

(** ** Round trip *)
Definition words_of (u : unit_) : list word :=
  let has_pos := existsb (fun kv => negb (negative (snd kv))) u in
  map (fun kv => (false, fst kv, snd kv)) (filter (fun kv => negb (negative (snd kv) && has_pos)) (sorted_items u)) ++
  (if has_pos then map (fun kv => (true, fst kv, - snd kv)%Qc) (filter (fun kv => negative (snd kv)) (sorted_items u)) else []).
Lemma strunit_words u : strunit repr u = joined (words_of u).
Proof.
  unfold strunit, joined, words_of. destruct u as [|x u]; [reflexivity|]. set (hp := existsb _ _). set (l := sorted_items _). clearbody hp l. f_equal.
  assert (N : flat_map (fun kv => if negative (snd kv) && hp then [] else " "%char :: fst kv ++ str_exponent repr (snd kv)) l =
     flat_map (fun w => " "%char :: word_text w) (map (fun kv => (false, fst kv, snd kv)) (filter (fun kv => negb (negative (snd kv) && hp)) l))).
  { induction l as [|y l IH]; cbn [flat_map map filter]; [reflexivity|]. unfold text in *; destruct (negative (snd y) && hp); cbn [negb app map flat_map]; [exact IH|]. rewrite IH. reflexivity. }
  destruct hp.
  - rewrite flat_map_app, N. f_equal. clear N. induction l as [|y l IH]; cbn [flat_map map filter]; [reflexivity|].
    unfold text in *; destruct (negative (snd y)); cbn [negb app map flat_map]; [|exact IH]. rewrite IH. cbn [word_text]. rewrite <- app_assoc. reflexivity.
  - rewrite N, app_nil_r. reflexivity.
Qed.

Definition printable_item (kv : text * Qc) : Prop := good_name (fst kv) /\ printable repr (snd kv) /\ printable repr (- snd kv)%Qc.
Lemma words_good u : Forall printable_item u -> Forall good_word (words_of u).
Proof.
  intros F. assert (G : Forall printable_item (sorted_items u)) by (eapply Permutation_Forall; [symmetry; apply sorted_perm|exact F]).
  unfold words_of. set (hp := existsb _ _). clearbody hp. rewrite Forall_forall in G. apply Forall_app. split.
  - apply Forall_map, Forall_forall. intros kv I. apply filter_In in I. destruct (G kv (proj1 I)) as [A [B _]]. split; auto.
  - destruct hp; [|constructor]. apply Forall_map, Forall_forall. intros kv I. apply filter_In in I. destruct (G kv (proj1 I)) as [A [_ B]]. split; auto.
Qed.
Definition word_item (w : word) : text * Qc := (snd (fst w), word_value w).
Lemma filter_split {A} (p : A -> bool) l : Permutation (filter (fun x => negb (p x)) l ++ filter p l) l.
Proof.
  induction l as [|x l IH]; cbn [filter]; [reflexivity|]. destruct (p x); cbn [negb app].
  - rewrite <- Permutation_middle, IH. reflexivity.
  - rewrite IH. reflexivity.
Qed.
Lemma words_items u : Permutation (map word_item (words_of u)) u.
Proof.
  unfold words_of. set (hp := existsb _ _). clearbody hp. rewrite map_app, map_map. cbn [word_item fst snd word_value].
  assert (M : forall l : unit_, map (fun x => word_item (false, fst x, snd x)) l = l) by (intros l; erewrite map_ext; [apply map_id|intros [a x]; reflexivity]).
  rewrite M. transitivity (sorted_items u); [|apply sorted_perm]. destruct hp.
  - rewrite map_map. rewrite (map_ext (fun x => word_item (true, fst x, (- snd x)%Qc)) (fun x => x)).
    + rewrite map_id. rewrite (filter_ext (fun kv => negb (negative (snd kv) && true)) (fun kv => negb (negative (snd kv)))) by (intros; rewrite andb_true_r; reflexivity).
      apply (filter_split (fun kv => negative (snd kv))).
    + intros [a x]. unfold word_item. cbn. rewrite Qcopp_involutive. reflexivity.
  - cbn [map]. rewrite app_nil_r. induction (sorted_items u) as [|x l IH]; cbn [filter]; [reflexivity|]. rewrite andb_false_r. cbn [negb]. rewrite IH. reflexivity.
Qed.

Definition item (f : factor) : text * Qc := (f_name f, factor_value f).
Lemma u_set_new u k v : u_get u k = None -> u_set u k v = u ++ [(k, v)].
Proof. induction u as [|[k' x] r IH]; cbn; [reflexivity|]. destruct (text_eqb k' k); [discriminate|]. intros G. rewrite IH by auto. reflexivity. Qed.
Lemma extract_distinct n s fs : spells s fs -> length s <= n -> forall u, NoDup (names u ++ names (map item fs)) ->
  extract_loop n s u = Ok (u ++ map item fs).
Proof.
  revert s fs. induction n as [|n IH]; intros s fs Sp L u N.
  - destruct Sp as [|f rest fs G Fo Sp]; [cbn; rewrite app_nil_r; reflexivity|].
    exfalso. rewrite app_length in L. pose proof (render_length f G). lia.
  - destruct Sp as [|f rest fs G Fo Sp]; [cbn; rewrite app_nil_r; reflexivity|].
    pose proof (render_length f G) as RL. rewrite app_length in L.
    cbn [extract_loop]. destruct (render f ++ rest) as [|c q] eqn:Q; [destruct (render f); [cbn in RL; lia|discriminate]|]. rewrite <- Q.
    rewrite match_unit_complete; [|auto|auto|apply (spells_terminal _ _ Sp)].
    change (NoDup (names u ++ f_name f :: names (map item fs))) in N.
    assert (A : ~ In (f_name f) (names u)). { apply NoDup_remove_2 in N. intros I. apply N, in_or_app. auto. }
    unfold mul1. rewrite (proj2 (u_get_none u (f_name f)) A). rewrite u_set_new by (apply u_get_none, A).
    rewrite (IH rest fs Sp ltac:(lia)).
    + rewrite <- app_assoc. cbn [map app]. repeat f_equal. unfold item. rewrite total_value. destruct (is_div (f_op f)); reflexivity.
    + unfold names at 1. rewrite map_app. cbn [map fst]. rewrite <- app_assoc. exact N.
Qed.

Lemma round_trip u : distinct_names u -> Forall printable_item u ->
  exists u', extract_str (strunit repr u) = Ok u' /\ distinct_names u' /\ dict_eqb u u' = true.
Proof.
  intros C F. pose proof (words_good u F) as W. rewrite strunit_words. destruct (joined_spells _ W) as [fs [Sp F2]].
  assert (T : map item fs = map word_item (words_of u)).
  { clear - F2. induction F2 as [|w f ws fs [A B] F2 IH]; cbn [map]; [reflexivity|]. rewrite IH. unfold item, word_item. rewrite A, B. reflexivity. }
  assert (D : distinct_names (map item fs)).
  { rewrite T. unfold distinct_names. apply (Permutation_NoDup (l := map fst u)); [apply Permutation_map; symmetry; apply words_items|exact C]. }
  exists (map item fs). unfold extract_str. rewrite strip_joined by exact W. split; [|split; [exact D|]].
  - exact (extract_distinct _ _ fs Sp (le_n _) [] D).
  - apply dict_eqb_same; [exact C|exact D|]. rewrite T. intros kv. split; intros I.
    + eapply Permutation_in; [symmetry; apply words_items|exact I].
    + eapply Permutation_in; [apply words_items|exact I].
Qed.
End P.
