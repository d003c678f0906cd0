(** C115: policies of masks. *)
From Coq Require Import String Ascii Lia.
From Verif Require Import Base BaseFacts TemplateModel TemplateSpec TemplateFacts MpolModel MpolSpec.
Open Scope nat_scope.

(** ** Strings *)
Lemma lstrip_split s : exists a, s = a ++ lstrip s /\ Forall (fun c => is_space c = true) a /\ forall c r, lstrip s = c :: r -> is_space c = false.
Proof.
  induction s as [|c s [a [E [F H]]]]; [exists []; repeat split; [constructor|discriminate]|]. cbn. destruct (is_space c) eqn:S.
  - exists (c :: a). split; [cbn; now rewrite <- E|]. split; [constructor; auto|exact H].
  - exists []. split; [reflexivity|]. split; [constructor|]. intros d r Q. injection Q as <- <-. exact S.
Qed.
Lemma lstrip_skip a x : Forall (fun c => is_space c = true) a -> lstrip (a ++ x) = lstrip x.
Proof. induction 1 as [|c a H _ IH]; [reflexivity|]. cbn. rewrite H. exact IH. Qed.
Lemma lstrip_stop x : (forall c r, x = c :: r -> is_space c = false) -> lstrip x = x.
Proof. destruct x as [|c r]; intros H; [reflexivity|]. cbn. now rewrite (H c r eq_refl). Qed.
Lemma Forall_rev' {A} (P : A -> Prop) l : Forall P l -> Forall P (rev l).
Proof. rewrite !Forall_forall. intros H x Hx. apply H. now apply in_rev. Qed.

Lemma strip_stripped s : stripped s (strip s).
Proof.
  unfold strip. destruct (lstrip_split s) as [a [Ea [Fa Ha]]]. set (x := lstrip s) in *.
  destruct (lstrip_split (rev x)) as [b [Eb [Fb Hb]]]. set (y := lstrip (rev x)) in *.
  assert (X : x = rev y ++ rev b) by (rewrite <- rev_app_distr, <- Eb, rev_involutive; reflexivity).
  exists a, (rev b). split; [rewrite Ea, X; reflexivity|]. split; [apply Forall_app; split; [exact Fa|now apply Forall_rev']|]. split.
  - intros c r E. apply (Ha c (r ++ rev b)). rewrite X, E. reflexivity.
  - intros r c E. apply (Hb c (rev r)). rewrite <- (rev_involutive y), E, rev_app_distr. reflexivity.
Qed.

Lemma stripped_strip s t : stripped s t -> t = strip s.
Proof.
  intros [a [b [E [F [H1 H2]]]]]. apply Forall_app in F. destruct F as [Fa Fb]. unfold strip. subst s.
  rewrite lstrip_skip by auto. destruct t as [|c t].
  - cbn [app]. rewrite <- (app_nil_r b), lstrip_skip by auto. reflexivity.
  - rewrite (lstrip_stop ((c :: t) ++ b)) by (intros d r Q; injection Q as <- <-; apply (H1 c t); reflexivity).
    rewrite rev_app_distr, lstrip_skip by now apply Forall_rev'. rewrite lstrip_stop; [now rewrite rev_involutive|].
    intros d r Q. apply (H2 (rev r) d). rewrite <- (rev_involutive (c :: t)), Q. reflexivity.
Qed.

Lemma split_pieces s : pieces s (split ","%char s).
Proof.
  induction s as [|c s [N [J F]]].
  - repeat split; [discriminate|]. constructor; [intros []|constructor].
  - cbn. destruct (Ascii.eqb_spec c ","%char) as [Q|Q].
    + subst c. split; [discriminate|]. split; [|constructor; [intros []|exact F]].
      destruct (split ","%char s) as [|w ws]; [congruence|]. transitivity (","%char :: join (lit ",") (w :: ws)); [reflexivity|now rewrite J].
    + destruct (split ","%char s) as [|w ws]; [congruence|]. split; [discriminate|]. inversion F as [|? ? F1 F2]; subst. split.
      * destruct ws; reflexivity.
      * constructor; [intros [I|I]; auto|exact F2].
Qed.
Lemma pieces_split s l : pieces s l -> l = split ","%char s.
Proof. intros [N [J F]]. rewrite <- J. symmetry. apply split_join_comma; auto. Qed.

Lemma lowered_lower s t : lowered s t <-> t = lower s.
Proof.
  unfold lowered, lower. split.
  - induction 1 as [|c d s t H _ IH]; [reflexivity|]. cbn. rewrite IH. f_equal. unfold lower_char.
    destruct ((65 <=? nat_of_ascii c) && (nat_of_ascii c <=? 90)); [|exact H]. rewrite <- H. symmetry. apply ascii_nat_embedding.
  - intros ->. induction s as [|c s IH]; [constructor|]. cbn [map]. constructor; [|exact IH]. cbv beta zeta delta [lower_char].
    destruct ((65 <=? nat_of_ascii c) && (nat_of_ascii c <=? 90)) eqn:E; [|reflexivity].
    apply nat_ascii_embedding. lia.
Qed.

Lemma map_res_ok {A B} (f : A -> res B) l r : map_res f l = Ok r <-> Forall2 (fun a b => f a = Ok b) l r.
Proof.
  revert r. induction l as [|a l IH]; intros r; cbn.
  - split; [intros E; injection E as <-; constructor|intros H; inversion H; reflexivity].
  - destruct (f a) as [b|e] eqn:E; cbn.
    + destruct (map_res f l) as [bs|e] eqn:M; cbn.
      * split; [intros Q; injection Q as <-; constructor; [exact E|now apply IH]|].
        intros H; inversion H as [|? x ? xs H1 H2]; subst. rewrite E in H1. injection H1 as <-. apply IH in H2. injection H2 as <-. reflexivity.
      * split; [discriminate|]. intros H; inversion H as [|? x ? xs H1 H2]; subst. apply IH in H2. discriminate.
    + split; [discriminate|]. intros H; inversion H as [|? x ? xs H1 H2]; subst. congruence.
Qed.

Lemma words_ok a l : map_res strip_item (as_list a) = Ok l <-> words a l.
Proof.
  rewrite map_res_ok. destruct a as [[s|]|is_]; cbn [as_list words].
  - split.
    + intros H. exists (split ","%char s). split; [apply split_pieces|].
      revert H. generalize (split ","%char s). intros ps. revert l. induction ps as [|p ps IH]; intros l H; inversion H as [|? x ? xs H1 H2]; subst; [constructor|].
      cbn in H1. injection H1 as <-. constructor; [apply strip_stripped|apply IH, H2].
    + intros [ps [P H]]. apply pieces_split in P. subst ps. induction H as [|p t ps ts H1 _ IH]; [constructor|]. cbn. constructor; [|exact IH].
      cbn. now rewrite <- (stripped_strip p t).
  - split; [|contradiction]. intros H; inversion H as [|? ? ? ? H1 H2]; subst. discriminate.
  - split; intros H.
    + induction H as [|i t is_ ts H1 _ IH]; [constructor|]. constructor; [|exact IH]. destruct i as [s|]; [|discriminate]. cbn in H1. injection H1 as <-.
      exists s. split; [reflexivity|apply strip_stripped].
    + induction H as [|i t is_ ts H1 _ IH]; [constructor|]. constructor; [|exact IH]. destruct H1 as [s [-> S]]. cbn. now rewrite <- (stripped_strip s t).
Qed.
Lemma lower_words_ok a l : map_res (fun i => rmap lower (strip_item i)) (as_list a) = Ok l <-> lower_words a l.
Proof.
  rewrite map_res_ok. unfold lower_words. split.
  - intros H. assert (G : exists ws, Forall2 (fun i w => strip_item i = Ok w) (as_list a) ws /\ Forall2 lowered ws l).
    { induction H as [|i t is_ ts H1 _ [ws [A B]]]; [exists []; split; constructor|]. destruct (strip_item i) as [w|] eqn:E; [|discriminate].
      cbn in H1. injection H1 as <-. exists (w :: ws). split; constructor; auto. now apply lowered_lower. }
    destruct G as [ws [A B]]. exists ws. split; [|exact B]. apply words_ok, map_res_ok, A.
  - intros [ws [A B]]. apply words_ok, map_res_ok in A. revert l B. induction A as [|i w is_ ws H1 _ IH]; intros l B; inversion B as [|? t ? ts B1 B2]; subst; constructor; auto.
    rewrite H1. cbn. apply lowered_lower in B1. now subst t.
Qed.

(** ** The dictionary *)
Lemma dict_get_set {A} (d : list (text * A)) k v f : dict_get (dict_set d k v) f = if text_eqb k f then Some v else dict_get d f.
Proof.
  induction d as [|[k' v'] d IH]; cbn; [reflexivity|]. destruct (text_eqb k' k) eqn:E; cbn.
  - apply text_eqb_spec in E. subst k'. destruct (text_eqb k f); reflexivity.
  - rewrite IH. destruct (text_eqb k' f) eqn:E'; [|reflexivity]. apply text_eqb_spec in E'. subst k'.
    destruct (text_eqb k f) eqn:E2; [|reflexivity]. apply text_eqb_spec in E2. subst k. rewrite text_eqb_refl in E. discriminate.
Qed.

Lemma choices_good v : existsb (text_eqb v) choices = true <-> good_value v.
Proof.
  unfold choices, good_value, code. cbn [map existsb]. rewrite !orb_true_iff, !text_eqb_spec. split.
  - intros [E|[E|[E|E]]]; [exists 0%Z|exists 1%Z|exists 2%Z|discriminate]; tauto.
  - intros [k [[E _]|[[E _]|[E _]]]]; tauto.
Qed.

Definition good_pair (fv : text * text) : Prop := good_flag (fst fv) /\ good_value (snd fv).
Lemma set_all_ok l : forall d, (exists d', set_all l d = Ok d') <-> Forall good_pair l.
Proof.
  induction l as [|[f v] l IH]; intros d; cbn [set_all]; [split; [constructor|eexists; reflexivity]|].
  rewrite Forall_cons_iff. unfold good_pair at 1. cbn [fst snd]. destruct f as [|c f].
  - split; [intros [d' E]; discriminate|]. intros [[[c [r [E _]]] _] _]. discriminate.
  - destruct (Ascii.eqb_spec c "_"%char) as [Q|Q].
    + split; [intros [d' E]; discriminate|]. intros [[[c' [r [E N]]] _] _]. injection E as <- <-. contradiction.
    + rewrite <- choices_good. destruct (existsb (text_eqb v) choices); cbn [negb].
      * rewrite (IH (dict_set d (c :: f) v)). split; [intros H; repeat split; auto; exists c, f; auto|tauto].
      * split; [intros [d' E]; discriminate|]. intros [[_ E] _]. discriminate.
Qed.

Lemma set_all_get fl : forall vl d d', length fl = length vl -> set_all (combine fl vl) d = Ok d' ->
  forall f, (forall v, stated fl vl f v -> dict_get d' f = Some v) /\ (~ In f fl -> dict_get d' f = dict_get d f).
Proof.
  induction fl as [|g fl IH]; intros [|w vl] d d' L E f; cbn in L; try lia.
  - cbn in E. injection E as <-. split; [intros v H; inversion H|reflexivity].
  - cbn [combine set_all] in E. destruct g as [|c g]; [discriminate|]. destruct (Ascii.eqb c "_"%char); [discriminate|].
    destruct (negb (existsb (text_eqb w) choices)); [discriminate|].
    destruct (IH vl _ _ ltac:(lia) E f) as [A B]. split.
    + intros v H. inversion H as [? ? ? ? N|? ? ? ? ? ? H']; subst.
      * rewrite B, dict_get_set, text_eqb_refl by auto. reflexivity.
      * apply A, H'.
    + intros N. rewrite B, dict_get_set by (intros I; apply N; right; exact I).
      destruct (text_eqb (c :: g) f) eqn:T; [|reflexivity]. apply text_eqb_spec in T. subst f. exfalso. apply N. left. reflexivity.
Qed.

Lemma stated_exists fl vl f : length fl = length vl -> In f fl -> exists v, stated fl vl f v /\ In v vl.
Proof.
  revert vl. induction fl as [|g fl IH]; intros [|w vl] L I; cbn in L; try lia; [destruct I|].
  destruct (in_dec (list_eq_dec ascii_dec) f fl) as [J|J].
  - destruct (IH vl ltac:(lia) J) as [v [S V]]. exists v. split; [constructor; auto|right; auto].
  - destruct I as [->|I]; [|contradiction]. exists w. split; [constructor; auto|left; reflexivity].
Qed.

(** ** What is accepted *)
Lemma combine_good fl vl : length fl = length vl -> Forall good_pair (combine fl vl) <-> Forall good_flag fl /\ Forall good_value vl.
Proof.
  revert vl. induction fl as [|f fl IH]; intros [|v vl] L; cbn in L; try lia; cbn [combine].
  - split; [split; constructor|constructor].
  - rewrite !Forall_cons_iff, IH by lia. unfold good_pair at 1. cbn. tauto.
Qed.

Theorem C115_accepted : forall flags values description,
  (exists p, mask_policy flags values description = Ok p) <->
  (exists fl vl, words flags fl /\ lower_words values vl /\ length fl = length vl /\ Forall good_flag fl /\ Forall good_value vl).
Proof.
  intros flags values description. unfold mask_policy. split.
  - intros [p E]. destruct (map_res strip_item (as_list flags)) as [fl|] eqn:F; [|discriminate].
    destruct (map_res _ (as_list values)) as [vl|] eqn:V; [|discriminate]. cbn [bind] in E.
    destruct (Nat.eqb_spec (length fl) (length vl)) as [L|L]; [|discriminate]. cbn [negb] in E.
    destruct (set_all (combine fl vl) []) as [d|] eqn:S; [|discriminate].
    exists fl, vl. split; [now apply words_ok|]. split; [now apply lower_words_ok|]. split; [exact L|].
    apply combine_good; [exact L|]. apply (set_all_ok _ []). eauto.
  - intros [fl [vl [F [V [L G]]]]]. apply words_ok in F. apply lower_words_ok in V. rewrite F, V. cbn [bind].
    rewrite L, Nat.eqb_refl. cbn [negb]. apply combine_good in G; [|exact L]. apply (set_all_ok _ []) in G. destruct G as [d E]. rewrite E. eexists. reflexivity.
Qed.
Print Assumptions C115_accepted.

(** The first wrong pair decides of the exception; different numbers are found before. *)
Theorem C115_refused : forall flags values description fl vl, words flags fl -> lower_words values vl ->
  (length fl <> length vl -> mask_policy flags values description = Err ValueError) /\
  forall fl1 vl1 f v fl2 vl2, length fl1 = length vl1 -> length fl2 = length vl2 -> fl = fl1 ++ f :: fl2 -> vl = vl1 ++ v :: vl2 ->
  Forall good_flag fl1 -> Forall good_value vl1 ->
  (f = [] -> mask_policy flags values description = Err IndexError) /\
  ((exists r, f = "_"%char :: r) -> mask_policy flags values description = Err ValueError) /\
  (good_flag f -> ~ good_value v -> mask_policy flags values description = Err KeyError).
Proof.
  intros flags values description fl vl F V. apply words_ok in F. apply lower_words_ok in V. unfold mask_policy. rewrite F, V. cbn [bind]. split.
  - intros L. destruct (Nat.eqb_spec (length fl) (length vl)); [contradiction|reflexivity].
  - intros fl1 vl1 f v fl2 vl2 L1 L2 -> -> G1 G2.
    assert (Q : negb (length (fl1 ++ f :: fl2) =? length (vl1 ++ v :: vl2)) = false).
    { rewrite !app_length. cbn. rewrite L1, L2, Nat.eqb_refl. reflexivity. }
    rewrite Q. clear F V Q.
    assert (S : forall d, exists d', set_all (combine (fl1 ++ f :: fl2) (vl1 ++ v :: vl2)) d = set_all ((f, v) :: combine fl2 vl2) d').
    { clear L2. revert vl1 L1 G1 G2. induction fl1 as [|g fl1 IH]; intros [|w vl1] L1 G1 G2 d; cbn in L1; try lia; [exists d; reflexivity|].
      inversion G1 as [|? ? A B]; inversion G2 as [|? ? A' B']; subst. destruct A as [c [r [-> N]]]. cbn [app combine set_all].
      destruct (Ascii.eqb_spec c "_"%char); [contradiction|]. apply choices_good in A'. rewrite A'. cbn [negb]. apply IH; auto. }
    destruct (S []) as [d' ->]. cbn [set_all]. repeat split.
    + intros ->. reflexivity.
    + intros [r ->]. reflexivity.
    + intros [c [r [-> N]]] B. destruct (Ascii.eqb_spec c "_"%char); [contradiction|].
      destruct (existsb (text_eqb v) choices) eqn:E; [|reflexivity]. exfalso. apply B. now apply choices_good.
Qed.
Print Assumptions C115_refused.

(** What is not made of strings is refused first. *)
Theorem C115_not_strings : forall flags values description,
  ~ (exists fl vl, words flags fl /\ lower_words values vl) -> mask_policy flags values description = Err AttributeError.
Proof.
  intros flags values description N. unfold mask_policy.
  assert (H : forall A (g : text -> A) l e, map_res (fun i => rmap g (strip_item i)) l = Err e -> e = AttributeError).
  { intros A g. induction l as [|i l IH]; intros e E; cbn in E; [discriminate|]. destruct i as [s|]; cbn in E; [|congruence].
    destruct (map_res (fun i => rmap g (strip_item i)) l); cbn in E; [discriminate|]. apply IH. congruence. }
  assert (H' : forall l e, map_res strip_item l = Err e -> e = AttributeError).
  { induction l as [|i l IH]; intros e E; cbn in E; [discriminate|]. destruct i as [s|]; cbn in E; [|congruence].
    destruct (map_res strip_item l); cbn in E; [discriminate|]. apply IH. congruence. }
  destruct (map_res strip_item (as_list flags)) as [fl|e] eqn:F; [|cbn; f_equal; now apply (H' (as_list flags))]. cbn [bind].
  destruct (map_res _ (as_list values)) as [vl|e] eqn:V; [|cbn; f_equal; now apply (H _ lower (as_list values))].
  exfalso. apply N. exists fl, vl. split; [now apply words_ok|now apply lower_words_ok].
Qed.
Print Assumptions C115_not_strings.

(** ** Attributes, array and string *)
Theorem C115_attributes : forall flags values description p fl vl, mask_policy flags values description = Ok p ->
  words flags fl -> lower_words values vl ->
  p_flags p = fl /\ p_description p = description /\ forall f v, stated fl vl f v -> getattr p f = Ok (AStr v).
Proof.
  intros flags values description p fl vl E F V. apply words_ok in F. apply lower_words_ok in V. unfold mask_policy in E. rewrite F, V in E. cbn [bind] in E.
  destruct (Nat.eqb_spec (length fl) (length vl)) as [L|L]; [|discriminate]. cbn [negb] in E.
  destruct (set_all (combine fl vl) []) as [d|] eqn:S; [|discriminate]. cbn in E. injection E as <-. cbn. repeat split.
  intros f v H. unfold getattr. cbn. destruct (set_all_get fl vl [] d L S f) as [A _]. now rewrite (A v H).
Qed.
Print Assumptions C115_attributes.

(** Everything on an accepted policy. *)
Lemma accepted_facts flags values description p fl vl : mask_policy flags values description = Ok p ->
  words flags fl -> lower_words values vl ->
  length fl = length vl /\ Forall good_value vl /\
  (forall f v, stated fl vl f v -> dict_get (p_dict p) f = Some v) /\ (forall f, ~ In f fl -> dict_get (p_dict p) f = None) /\ p_flags p = fl.
Proof.
  intros E F V. apply words_ok in F. apply lower_words_ok in V. unfold mask_policy in E. rewrite F, V in E. cbn [bind] in E.
  destruct (Nat.eqb_spec (length fl) (length vl)) as [L|L]; [|discriminate]. cbn [negb] in E.
  destruct (set_all (combine fl vl) []) as [d|] eqn:S; [|discriminate]. cbn in E. injection E as <-. cbn.
  split; [exact L|]. split.
  { apply (combine_good fl vl L). apply (set_all_ok _ []). eauto. }
  split; [intros f v H; apply (set_all_get fl vl [] d L S f), H|]. split; [|reflexivity].
  intros f N. destruct (set_all_get fl vl [] d L S f) as [_ B]. rewrite B by auto. reflexivity.
Qed.

Lemma getattr_class p fl n name : (forall f, ~ In f fl -> dict_get (p_dict p) f = None) ->
  (name = lit "KEEP" /\ n = 0%Z) \/ (name = lit "MASK" /\ n = 1%Z) \/ (name = lit "REMOVE" /\ n = 2%Z) -> ~ In name fl -> getattr p name = Ok (AInt n).
Proof. intros H C N. unfold getattr. rewrite H by auto. destruct C as [[-> ->]|[[-> ->]|[-> ->]]]; reflexivity. Qed.
Lemma getattr_reserved p name : name = lit "KEEP" \/ name = lit "MASK" \/ name = lit "REMOVE" -> exists a, getattr p name = Ok a.
Proof.
  intros H. unfold getattr. destruct (dict_get (p_dict p) name); [eexists; reflexivity|].
  destruct H as [->|[->| ->]]; eexists; reflexivity.
Qed.

(** The codes are those of the values stated last, provided that no flag has the name of the
    attribute of the class for a value in use. *)
Theorem C115_array : forall flags values description p fl vl, mask_policy flags values description = Ok p ->
  words flags fl -> lower_words values vl ->
  (forall f v name, stated fl vl f v -> reserved v name -> ~ In name fl) ->
  exists l, as_array p = Ok l /\ Forall2 (fun f k => exists v, stated fl vl f v /\ code v k) fl l.
Proof.
  intros flags values description p fl vl E F V R. destruct (accepted_facts _ _ _ _ _ _ E F V) as [L [G [D [N PF]]]].
  unfold as_array. destruct (getattr_reserved p (lit "KEEP")) as [k0 K0]; [tauto|]. destruct (getattr_reserved p (lit "MASK")) as [k1 K1]; [tauto|].
  destruct (getattr_reserved p (lit "REMOVE")) as [k2 K2]; [tauto|]. rewrite K0, K1, K2. cbn [bind]. rewrite PF.
  set (conv := [(lit "keep", k0); (lit "mask", k1); (lit "remove", k2)]).
  assert (H : forall fs, incl fs fl -> exists l, Forall2 (fun f k => exists v, stated fl vl f v /\ code v k) fs l /\
     map_res (fun f => do a <- getattr p f; match a with AStr v => match dict_get conv v with Some x => Ok x | None => Err KeyError end | AInt _ => Err KeyError end) fs = Ok (map AInt l)).
  { induction fs as [|f fs IH]; intros I; [exists []; split; [constructor|reflexivity]|].
    destruct IH as [l [A B]]; [intros x Hx; apply I; right; exact Hx|].
    destruct (stated_exists fl vl f L) as [v [S Iv]]; [apply I; left; reflexivity|].
    rewrite Forall_forall in G. destruct (G v Iv) as [k C].
    exists (k :: l). split; [constructor; [exists v; auto|exact A]|]. cbn [map_res]. unfold getattr at 1. rewrite (D f v S). cbn [bind].
    assert (Q : dict_get conv v = Some (AInt k)).
    { pose proof (fun name => R f v name S) as R'. destruct C as [[-> ->]|[[-> ->]|[-> ->]]].
      - rewrite (getattr_class p fl 0 _ N) in K0; [|tauto|apply R'; left; auto]. injection K0 as <-. reflexivity.
      - rewrite (getattr_class p fl 1 _ N) in K1; [|tauto|apply R'; right; left; auto]. injection K1 as <-. reflexivity.
      - rewrite (getattr_class p fl 2 _ N) in K2; [|tauto|apply R'; right; right; auto]. injection K2 as <-. reflexivity. }
    rewrite Q. cbn [bind]. rewrite B. reflexivity. }
  destruct (H fl (fun x Hx => Hx)) as [l [A B]]. exists l. split; [|exact A]. fold conv. rewrite B. cbn [bind].
  clear. induction l as [|k l IH]; [reflexivity|]. cbn. rewrite IH. reflexivity.
Qed.
Print Assumptions C115_array.

(** Otherwise the conversion to an array raises. *)
Theorem C115_reserved_refuted : forall flags values description p fl vl f v name, mask_policy flags values description = Ok p ->
  words flags fl -> lower_words values vl -> stated fl vl f v -> reserved v name -> In name fl ->
  as_array p = Err ValueError.
Proof.
  intros flags values description p fl vl f v name E F V S R I. destruct (accepted_facts _ _ _ _ _ _ E F V) as [L [G [D [N PF]]]].
  unfold as_array. destruct (getattr_reserved p (lit "KEEP")) as [k0 K0]; [tauto|]. destruct (getattr_reserved p (lit "MASK")) as [k1 K1]; [tauto|].
  destruct (getattr_reserved p (lit "REMOVE")) as [k2 K2]; [tauto|]. rewrite K0, K1, K2. cbn [bind]. rewrite PF.
  set (conv := [(lit "keep", k0); (lit "mask", k1); (lit "remove", k2)]).
  destruct (stated_exists fl vl name L I) as [w [Sw _]].
  assert (Q : dict_get conv v = Some (AStr w)).
  { destruct R as [[-> ->]|[[-> ->]|[-> ->]]]; unfold getattr in K0, K1, K2; rewrite (D _ w Sw) in *; [injection K0 as <-|injection K1 as <-|injection K2 as <-]; reflexivity. }
  assert (If : In f fl) by (clear - S; induction S; [left; reflexivity|right; auto]).
  set (g := fun f => do a <- getattr p f; match a with AStr v => match dict_get conv v with Some x => Ok x | None => Err KeyError end | AInt _ => Err KeyError end).
  assert (H : forall fs, incl fs fl -> exists l, map_res g fs = Ok l /\ Forall2 (fun f a => g f = Ok a) fs l).
  { intros fs J. assert (X : forall x, In x fs -> exists a, g x = Ok a).
    { intros x Hx. destruct (stated_exists fl vl x L (J x Hx)) as [y [Sy Iy]]. unfold g, getattr. rewrite (D x y Sy). cbn [bind].
      rewrite Forall_forall in G. destruct (G y Iy) as [k [[-> _]|[[-> _]|[-> _]]]]; eexists; reflexivity. }
    clear - X. induction fs as [|x fs IH]; [exists []; split; [reflexivity|constructor]|].
    destruct IH as [l [A B]]; [intros y Hy; apply X; right; exact Hy|]. destruct (X x (or_introl eq_refl)) as [a Ha].
    exists (a :: l). split; [cbn; rewrite Ha; cbn; rewrite A; reflexivity|constructor; auto]. }
  destruct (H fl (fun x Hx => Hx)) as [l [A B]]. rewrite A. cbn [bind].
  assert (Iw : In (AStr w) l).
  { assert (GF : g f = Ok (AStr w)) by (unfold g, getattr; rewrite (D f v S); cbn [bind]; rewrite Q; reflexivity).
    clear - B If GF. induction B as [|x a xs l H1 _ IH]; [destruct If|]. destruct If as [->|If]; [left; congruence|right; auto]. }
  clear - Iw. induction l as [|a l IH]; [destruct Iw|]. cbn. destruct a as [s|n]; [reflexivity|]. destruct Iw as [E|Iw]; [discriminate|].
  rewrite IH by auto. reflexivity.
Qed.
Print Assumptions C115_reserved_refuted.

(** The string lists the flags in order, each with its value. *)
Theorem C115_string : forall flags values description p fl vl, mask_policy flags values description = Ok p ->
  words flags fl -> lower_words values vl ->
  exists ws, Forall2 (fun f w => exists v, stated fl vl f v /\ w = f ++ lit "='" ++ v ++ lit "'") fl ws /\
  to_string p = Ok (match description with Some d => d ++ lit ": " ++ join (lit ", ") ws | None => join (lit ", ") ws end).
Proof.
  intros flags values description p fl vl E F V. destruct (accepted_facts _ _ _ _ _ _ E F V) as [L [G [D [N PF]]]].
  destruct (C115_attributes _ _ _ _ _ _ E F V) as [_ [PD _]]. unfold to_string. rewrite PF, PD.
  assert (H : forall fs, incl fs fl -> exists ws, Forall2 (fun f w => exists v, stated fl vl f v /\ w = f ++ lit "='" ++ v ++ lit "'") fs ws /\
    map_res (fun f => do a <- getattr p f; Ok (f ++ lit "=" ++ show a)) fs = Ok ws).
  { induction fs as [|f fs IH]; intros I; [exists []; split; [constructor|reflexivity]|].
    destruct IH as [l [A B]]; [intros x Hx; apply I; right; exact Hx|].
    destruct (stated_exists fl vl f L) as [v [S Iv]]; [apply I; left; reflexivity|].
    exists ((f ++ lit "='" ++ v ++ lit "'") :: l). split; [constructor; [exists v; auto|exact A]|].
    cbn [map_res]. unfold getattr at 1. rewrite (D f v S). cbn [bind]. rewrite B. reflexivity. }
  destruct (H fl (fun x Hx => Hx)) as [ws [A B]]. exists ws. split; [exact A|]. rewrite B. cbn [bind].
  assert (J : forall l, join_str (lit ", ") l = join (lit ", ") l) by (induction l as [|x [|y l] IH]; [reflexivity|reflexivity|cbn in *; now rewrite IH]).
  rewrite J. destruct description; [rewrite <- app_assoc|]; reflexivity.
Qed.
Print Assumptions C115_string.

(** A flag stated twice is accepted, and the array has the last value at both places: the first
    value stated is lost. *)
Theorem C115_repeated_refuted : forall f v w kw, good_flag f -> good_value v -> code w kw -> strip f = f -> f <> lit "KEEP" -> f <> lit "MASK" -> f <> lit "REMOVE" ->
  exists p, mask_policy (Seq [Str f; Str f]) (Seq [Str v; Str w]) None = Ok p /\ as_array p = Ok [kw; kw].
Proof.
  intros f v w kw Gf Gv Cw Sf N0 N1 N2.
  assert (SV : forall x, good_value x -> lower (strip x) = x).
  { intros x [k [[-> _]|[[-> _]|[-> _]]]]; reflexivity. }
  assert (Gw : good_value w) by (exists kw; exact Cw).
  assert (F : words (Seq [Str f; Str f]) [f; f]) by (apply words_ok; cbn; rewrite Sf; reflexivity).
  assert (V : lower_words (Seq [Str v; Str w]) [v; w]) by (apply lower_words_ok; cbn; rewrite (SV v Gv), (SV w Gw); reflexivity).
  assert (A : exists p, mask_policy (Seq [Str f; Str f]) (Seq [Str v; Str w]) None = Ok p).
  { apply C115_accepted. exists [f; f], [v; w]. split; [exact F|]. split; [exact V|]. split; [reflexivity|]. split; repeat constructor; auto. }
  destruct A as [p E]. exists p. split; [exact E|].
  assert (ST : forall x, stated [f; f] [v; w] f x -> x = w).
  { intros x H. inversion H as [? ? ? ? N|? ? ? ? ? ? H']; subst; [exfalso; apply N; left; reflexivity|].
    inversion H' as [|? ? ? ? ? ? H'']; subst; [reflexivity|inversion H'']. }
  destruct (C115_array _ _ _ _ _ _ E F V) as [l [El H]].
  { intros f' x name H R [I|[I|[]]]; subst name; destruct R as [[_ R]|[[_ R]|[_ R]]]; congruence. }
  rewrite El. inversion H as [|? k1 ? l1 [x [S1 C1]] H1]; subst. inversion H1 as [|? k2 ? l2 [y [S2 C2]] H2]; subst. inversion H2; subst.
  apply ST in S1. apply ST in S2. subst x y.
  assert (U : forall k, code w k -> k = kw).
  { intros k C. destruct C as [[A1 B1]|[[A1 B1]|[A1 B1]]]; destruct Cw as [[A2 B2]|[[A2 B2]|[A2 B2]]]; subst; try reflexivity; discriminate. }
  rewrite (U k1 C1), (U k2 C2). reflexivity.
Qed.
Print Assumptions C115_repeated_refuted.

Example C115_example :
  (exists p, mask_policy (Scalar (Str (lit "bad, u1 ,u2"))) (Seq [Str (lit "kEep"); Str (lit " removE"); Str (lit "MASK")]) None = Ok p /\
     as_array p = Ok [0; 2; 1]%Z /\ to_string p = Ok (lit "bad='keep', u1='remove', u2='mask'")) /\
  (exists p, mask_policy (Scalar (Str (lit "MASK,bad"))) (Scalar (Str (lit "keep,mask"))) (Some (lit "d")) = Ok p /\
     as_array p = Err ValueError /\ to_string p = Ok (lit "d: MASK='keep', bad='mask'")) /\
  mask_policy (Scalar (Str (lit "bad,u1"))) (Scalar (Str (lit "remove,KKeep"))) None = Err KeyError /\
  mask_policy (Scalar (Str (lit "bad,"))) (Scalar (Str (lit "keep,mask"))) None = Err IndexError /\
  mask_policy (Scalar NotStr) (Scalar (Str (lit "keep"))) None = Err AttributeError /\
  (exists p, mask_policy (Scalar (Str (lit "a,a"))) (Scalar (Str (lit "keep,mask"))) None = Ok p /\ as_array p = Ok [1; 1]%Z) /\
  (exists p, mask_policy (Scalar (Str (lit "a"))) (Scalar (Str (lit "keep"))) None = Ok p /\
     as_array (set_attribute p (lit "a") (lit "foo")) = Err KeyError /\ as_array (set_attribute p (lit "a") (lit "remove")) = Ok [2%Z]).
Proof. repeat split; try (eexists; repeat split; vm_compute; reflexivity); vm_compute; reflexivity. Qed.
