(** Lemmas on parsing and printing units. *)
From Coq Require Import String Ascii QArith Qcanon Lia Permutation Sorting.Sorted.
From Verif Require Import Base BaseFacts TemplateModel UnitModel UnitSpec UnitFacts.
Open Scope nat_scope.

(** ** Characters *)
Lemma name_char c : is_name c = true ->
  is_blank c = false /\ c <> "/"%char /\ c <> "*"%char /\ is_mark c = false /\ is_digit c = false /\ c <> "^"%char /\ c <> "."%char /\ is_space c = false.
Proof. destruct c as [[] [] [] [] [] [] [] []]; cbn; intros H; try discriminate H; repeat split; discriminate. Qed.
Lemma digit_char_facts c : is_digit c = true ->
  is_blank c = false /\ is_name c = false /\ is_mark c = false /\ c <> "-"%char /\ c <> "."%char /\ c <> "^"%char /\ is_space c = false.
Proof. destruct c as [[] [] [] [] [] [] [] []]; cbn; intros H; try discriminate H; repeat split; discriminate. Qed.
Lemma mark_char c : is_mark c = true <-> c = "?"%char.
Proof. unfold is_mark. apply Ascii.eqb_eq. Qed.
Lemma blank_char c : is_blank c = true <-> c = " "%char.
Proof. unfold is_blank. apply Ascii.eqb_eq. Qed.

Definition heads (p : ascii -> Prop) (s : text) : Prop := match s with [] => True | c :: _ => p c end.

(** ** Longest prefixes *)
Lemma span_sound p s a b : span p s = (a, b) -> s = a ++ b /\ Forall (fun c => p c = true) a /\ heads (fun c => p c = false) b.
Proof.
  revert a b. induction s as [|c r IH]; cbn; intros a b E.
  - inversion E; subst. repeat split. constructor.
  - destruct (p c) eqn:P.
    + destruct (span p r) as [x y]. inversion E; subst. destruct (IH x b eq_refl) as [A [B C]]. subst r. repeat split; auto.
    + inversion E; subst. repeat split; auto.
Qed.
Lemma span_complete p a b : Forall (fun c => p c = true) a -> heads (fun c => p c = false) b -> span p (a ++ b) = (a, b).
Proof.
  intros F H. induction F as [|c a Hc F IH]; cbn.
  - destruct b as [|c b]; cbn in *; [reflexivity|]. rewrite H. reflexivity.
  - rewrite Hc, IH. reflexivity.
Qed.
Lemma skip_blanks_ok n s : heads (fun c => is_blank c = false) s -> skip_blanks (blanks n ++ s) = s.
Proof.
  intros H. unfold skip_blanks. rewrite span_complete; auto. unfold blanks. clear. induction n; cbn; constructor; auto.
Qed.
Lemma skip_blanks_sound s : exists n, s = blanks n ++ skip_blanks s /\ heads (fun c => is_blank c = false) (skip_blanks s).
Proof.
  unfold skip_blanks. destruct (span is_blank s) as [a b] eqn:E. destruct (span_sound _ _ _ _ E) as [A [B C]]. exists (length a). cbn.
  split; [|exact C]. rewrite A at 1. f_equal. unfold blanks. clear - B. induction B as [|c a Hc F IH]; cbn; [reflexivity|]. apply blank_char in Hc. subst c. f_equal. auto.
Qed.

(** ** Numbers *)
Lemma digits_app a b x : fold_left (fun a c => (10 * a + digit_value c)%Z) (a ++ b) x =
  fold_left (fun a c => (10 * a + digit_value c)%Z) b (fold_left (fun a c => (10 * a + digit_value c)%Z) a x).
Proof. apply fold_left_app. Qed.
Lemma digits_acc l x : fold_left (fun a c => (10 * a + digit_value c)%Z) l x = (x * 10 ^ Z.of_nat (length l) + number l)%Z.
Proof.
  revert x. induction l as [|c r IH]; intros x.
  - cbn. lia.
  - cbn [fold_left number length]. rewrite IH. rewrite Nat2Z.inj_succ, Z.pow_succ_r by lia. unfold digit_value, code. ring.
Qed.
Lemma digits_number l : digits_value l = number l.
Proof. unfold digits_value. rewrite digits_acc. lia. Qed.
Lemma number_app a b : number (a ++ b) = (number a * 10 ^ Z.of_nat (length b) + number b)%Z.
Proof. rewrite <- !digits_number. unfold digits_value. rewrite digits_app, !digits_acc. lia. Qed.

Lemma decimal_value neg i f : decimal neg i f = exp_value (Some (neg, i, Some f)).
Proof.
  unfold decimal, exp_value. rewrite digits_number, number_app.
  set (p := (10 ^ Z.of_nat (length f))%Z). assert (P : (0 < p)%Z) by (apply Z.pow_pos_nonneg; lia).
  assert (E : (number i * p + number f # Z.to_pos p) == inject_Z (number i) + inject_Z (number f) / inject_Z p).
  { transitivity (inject_Z (number i * p + number f) / inject_Z p)%Q.
    - unfold Qeq, Qdiv, Qmult, Qinv, inject_Z. cbn. destruct p as [|p|p]; try lia. cbn. rewrite ?Z.mul_1_r. reflexivity.
    - rewrite inject_Z_plus, inject_Z_mult. field. intros Q. unfold Qeq, inject_Z in Q. cbn in Q. lia. }
  destruct neg.
  - assert (E' : (- (number i * p + number f) # Z.to_pos p) == - Q2Qc (inject_Z (number i) + inject_Z (number f) / inject_Z p)).
    { transitivity (- (number i * p + number f # Z.to_pos p))%Q; [reflexivity|]. rewrite E. apply Qopp_comp. symmetry. apply Qred_correct. }
    unfold Qcopp. apply Q2Qc_eq_iff. exact E'.
  - apply Q2Qc_eq_iff. exact E.
Qed.
Lemma exp_value_nofrac neg i : exp_value (Some (neg, i, None)) = exp_value (Some (neg, i, Some [])).
Proof. reflexivity. Qed.

(** ** Exponents *)
Definition terminal (s : text) : Prop := heads (fun c => is_digit c = false /\ c <> "."%char /\ c <> "^"%char) s.

Lemma match_exponent_complete e rest : good_exp e -> terminal rest ->
  match_exponent (render_exp e ++ rest) = (option_map (fun e => exp_value (Some e)) e, rest).
Proof.
  intros G T. destruct e as [[[neg i] fr]|].
  - destruct G as [Ni [Di Df]].
    assert (Hi : forall q, match_exponent ("^"%char :: (if neg then ["-"%char] else []) ++ i ++ q) =
      let '(j, r2) := span is_digit (i ++ q) in
      match j with
      | [] => (None, "^"%char :: (if neg then ["-"%char] else []) ++ i ++ q)
      | _ => match r2 with
             | "."%char :: q => let '(f, r3) := span is_digit q in (Some (decimal neg j f), r3)
             | _ => (Some (decimal neg j []), r2)
             end
      end).
    { intros q. destruct neg.
      - cbn [app match_exponent]. reflexivity.
      - cbn [app match_exponent]. destruct i as [|c i]; [congruence|]. inversion Di as [|? ? Hc Di']; subst.
        destruct (digit_char_facts c Hc) as [_ [_ [_ [M _]]]].
        assert (X : forall A (a b : A), match (c :: i) ++ q with "-"%char :: q0 => a | _ => b end = b).
        { intros. cbn. destruct c as [[] [] [] [] [] [] [] []]; try reflexivity. congruence. }
        cbn [app]. destruct c as [[] [] [] [] [] [] [] []]; try discriminate Hc;
          (cbn [span]; rewrite Hc; destruct (span is_digit (i ++ q)) as [x y]; reflexivity). }
    destruct fr as [f|]; cbn [render_exp].
    + replace (("^"%char :: (if neg then ["-"%char] else []) ++ i ++ "."%char :: f) ++ rest) with
        ("^"%char :: (if neg then ["-"%char] else []) ++ i ++ ("."%char :: f ++ rest)) by (cbn; rewrite <- !app_assoc; reflexivity).
      rewrite Hi. rewrite span_complete; [|auto|cbn; reflexivity]. destruct i as [|c i]; [congruence|].
      rewrite span_complete; [|auto|]. 2: { destruct rest as [|d rest]; cbn in *; tauto. }
      cbn [option_map]. rewrite decimal_value. reflexivity.
    + replace (("^"%char :: (if neg then ["-"%char] else []) ++ i ++ []) ++ rest) with
        ("^"%char :: (if neg then ["-"%char] else []) ++ i ++ rest) by (cbn; rewrite app_nil_r, <- !app_assoc; reflexivity).
      rewrite Hi. rewrite span_complete; [|auto|]. 2: { destruct rest as [|d rest]; cbn in *; tauto. }
      destruct i as [|c i]; [congruence|]. cbn [option_map]. rewrite exp_value_nofrac, <- decimal_value.
      destruct rest as [|d rest]; [reflexivity|]. cbn in T. destruct T as [_ [T _]].
      destruct d as [[] [] [] [] [] [] [] []]; try reflexivity. congruence.
  - cbn [render_exp app option_map]. destruct rest as [|d rest]; [reflexivity|]. cbn in T. destruct T as [_ [_ T]]. unfold match_exponent.
    destruct d as [[] [] [] [] [] [] [] []]; try reflexivity. congruence.
Qed.

Lemma match_exponent_sound s e rest : match_exponent s = (e, rest) ->
  exists x, good_exp x /\ s = render_exp x ++ rest /\ e = option_map (fun e => exp_value (Some e)) x.
Proof.
  intros E.
  assert (None_case : (None, s) = (e, rest) -> exists x, good_exp x /\ s = render_exp x ++ rest /\ e = option_map (fun e => exp_value (Some e)) x).
  { intros Q. inversion Q; subst. exists None. repeat split. }
  destruct s as [|c s]; [apply None_case; exact E|].
  destruct (ascii_dec c "^"%char) as [->|N].
  2: { apply None_case. rewrite <- E. unfold match_exponent. destruct c as [[] [] [] [] [] [] [] []]; try reflexivity. congruence. }
  cbn [match_exponent] in E.
  set (nr := match s with "-"%char :: q => (true, q) | _ => (false, s) end) in E.
  assert (S : s = (if fst nr then ["-"%char] else []) ++ snd nr).
  { unfold nr. destruct s as [|d s]; [reflexivity|]. destruct d as [[] [] [] [] [] [] [] []]; reflexivity. }
  destruct nr as [neg r1]. cbn in S. destruct (span is_digit r1) as [i r2] eqn:SP. destruct (span_sound _ _ _ _ SP) as [A [B C]].
  destruct i as [|d i]; [apply None_case; exact E|].
  assert (D : forall q, match r2 with "."%char :: q0 => let '(f, r3) := span is_digit q0 in (Some (decimal neg (d :: i) f), r3)
                                | _ => (Some (decimal neg (d :: i) []), r2) end = q ->
            (exists q0, r2 = "."%char :: q0 /\ (let '(f, r3) := span is_digit q0 in (Some (decimal neg (d :: i) f), r3)) = q) \/
            (Some (decimal neg (d :: i) []), r2) = q).
  { intros q Q. destruct r2 as [|x r2]; [right; exact Q|]. destruct (ascii_dec x "."%char) as [->|X]; [left; eexists; split; [reflexivity|exact Q]|].
    right. rewrite <- Q. destruct x as [[] [] [] [] [] [] [] []]; try reflexivity. congruence. }
  destruct (D _ E) as [[q0 [R Q]]|Q].
  - destruct (span is_digit q0) as [f r3] eqn:SF. destruct (span_sound _ _ _ _ SF) as [A' [B' C']]. inversion Q; subst.
    exists (Some (neg, d :: i, Some f)). split; [repeat split; [discriminate|auto|auto]|]. split.
    + cbn [render_exp]; cbn [app]. rewrite <- !app_assoc. cbn [app]. rewrite <- app_assoc. reflexivity.
    + cbn [option_map]. rewrite decimal_value. reflexivity.
  - inversion Q; subst. exists (Some (neg, d :: i, None)). split; [repeat split; [discriminate|auto]|]. split.
    + cbn [render_exp]; cbn [app]. rewrite app_nil_r, <- app_assoc. reflexivity.
    + cbn [option_map]. rewrite exp_value_nofrac, <- decimal_value. reflexivity.
Qed.

(** ** Names *)
Lemma good_name_head t : good_name t -> exists c r, t = c :: r /\ (is_name c = true \/ c = "?"%char).
Proof. intros [N [F|F]]; destruct t as [|c r]; try congruence; inversion F; subst; eauto. Qed.

Lemma match_name_complete t rest : good_name t -> (rest = [] \/ exists c r, rest = c :: r /\ ~ good_name (t ++ [c])) ->
  match_name (t ++ rest) = (t, rest).
Proof.
  intros [N F] R. unfold match_name. destruct F as [F|F].
  - rewrite span_complete; auto.
    + destruct t; [congruence|reflexivity].
    + destruct R as [->|[c [r [-> G]]]]; cbn; [auto|]. destruct (is_name c) eqn:I; [|reflexivity]. exfalso. apply G.
      split; [destruct t; discriminate|]. left. apply Forall_app. auto.
  - destruct t as [|c t]; [congruence|]. assert (c = "?"%char) by (inversion F; auto). subst c.
    replace (span is_name (("?"%char :: t) ++ rest)) with (@nil ascii, ("?"%char :: t) ++ rest) by reflexivity. cbn iota beta.
    rewrite span_complete; [reflexivity| |].
    + eapply Forall_impl; [|exact F]. intros a ->. reflexivity.
    + destruct R as [->|[c [r [-> G]]]]; cbn; [auto|]. destruct (is_mark c) eqn:I; [|reflexivity]. exfalso. apply G. apply mark_char in I.
      split; [discriminate|]. right. apply Forall_app. auto.
Qed.

Lemma match_name_sound s t rest : match_name s = (t, rest) -> t <> [] ->
  s = t ++ rest /\ good_name t /\ heads (fun c => ~ good_name (t ++ [c])) rest.
Proof.
  unfold match_name. intros E N. destruct (span is_name s) as [a b] eqn:SP. destruct (span_sound _ _ _ _ SP) as [A [B C]].
  destruct a as [|c a].
  - destruct (span_sound _ _ _ _ E) as [A' [B' C']]. split; [auto|]. split.
    + split; [auto|]. right. eapply Forall_impl; [|exact B']. intros x. apply mark_char.
    + destruct rest as [|c rest]; cbn in *; [auto|]. intros [_ [G|G]]; apply Forall_app in G; destruct G as [G1 G2].
      * destruct t as [|x t]; [congruence|]. inversion B' as [|? ? Hx _]; subst. inversion G1 as [|? ? Hy _]; subst. apply name_char in Hy. destruct Hy as [_ [_ [_ [Hy _]]]]. congruence.
      * inversion G2 as [|? ? Hc _]; subst. discriminate.
  - inversion E; subst t rest. split; [auto|]. split; [split; [auto|left; auto]|].
    destruct b as [|x b]; cbn in *; [auto|]. intros [_ [G|G]]; rewrite app_comm_cons in G; apply Forall_app in G; destruct G as [G1 G2].
    + inversion G2 as [|? ? Hc _]; subst. congruence.
    + inversion G1 as [|? ? Hc _]; subst. inversion B as [|? ? Hd _]; subst. discriminate.
Qed.

(** ** One factor *)
Definition match_op (s1 : text) : bool * text :=
  match s1 with "/"%char :: r => (true, r) | "*"%char :: r => (false, r) | _ => (false, s1) end.
Definition op_text (op : option bool) : text := match op with None => [] | Some true => ["/"%char] | Some false => ["*"%char] end.
Definition is_div (op : option bool) : bool := match op with Some true => true | _ => false end.
Lemma match_op_none s : heads (fun c => c <> "/"%char /\ c <> "*"%char) s -> match_op s = (false, s).
Proof. destruct s as [|c s]; cbn; [reflexivity|]. intros [A B]. destruct c as [[] [] [] [] [] [] [] []]; try reflexivity; congruence. Qed.
Lemma match_op_sound s : exists op, s = op_text op ++ snd (match_op s) /\ fst (match_op s) = is_div op /\
  (op = None -> heads (fun c => c <> "/"%char /\ c <> "*"%char) s).
Proof.
  destruct s as [|c s]; [exists None; repeat split|].
  destruct (ascii_dec c "/"%char) as [->|A]; [exists (Some true); repeat split; discriminate|].
  destruct (ascii_dec c "*"%char) as [->|B]; [exists (Some false); repeat split; discriminate|].
  exists None. rewrite match_op_none by (cbn; auto). repeat split; auto.
Qed.

Lemma match_unit_unfold s : match_unit s =
  let '(div, s2) := match_op (skip_blanks s) in
  match match_name (skip_blanks s2) with
  | ([], _) => None
  | (name, s3) => let '(e, s4) := match_exponent s3 in Some (div, name, e, skip_blanks s4)
  end.
Proof. reflexivity. Qed.

Definition expo (f : factor) : option Qc := option_map (fun e => exp_value (Some e)) (f_exp f).

Lemma head_app_blank n s : heads (fun c => is_digit c = false /\ c <> "."%char /\ c <> "^"%char) s ->
  heads (fun c => is_digit c = false /\ c <> "."%char /\ c <> "^"%char) (blanks n ++ s).
Proof. destruct n; cbn; auto. intros _. repeat split; discriminate. Qed.

Lemma match_unit_complete f rest : good_factor f -> follows f rest -> terminal rest ->
  match_unit (render f ++ rest) = Some (is_div (f_op f), f_name f, expo f, rest).
Proof.
  intros [Gn [Ge Gm]] Fo T. destruct f as [lead op mid name e trail]. cbn [f_name f_exp f_op f_mid f_trail f_lead] in *.
  destruct (good_name_head name Gn) as [c [r [En Hc]]].
  assert (Hh : heads (fun c => is_blank c = false /\ c <> "/"%char /\ c <> "*"%char) (name ++ render_exp e ++ blanks trail ++ rest)).
  { subst name. cbn. destruct Hc as [Hc| ->]; [apply name_char in Hc; tauto|repeat split; discriminate]. }
  assert (Hb : heads (fun c => is_blank c = false) (name ++ render_exp e ++ blanks trail ++ rest)) by (destruct (name ++ _); cbn in *; tauto).
  unfold render. cbn [f_name f_exp f_op f_mid f_trail f_lead]. rewrite <- !app_assoc. rewrite match_unit_unfold.
  change (match op with None => [] | Some true => ["/"%char] | Some false => ["*"%char] end) with (op_text op). rewrite skip_blanks_ok.
  2: { destruct op as [[|]|]; cbn; auto. rewrite Gm by auto. exact Hb. }
  assert (M : match_op (op_text op ++ blanks mid ++ name ++ render_exp e ++ blanks trail ++ rest) =
     (is_div op, blanks mid ++ name ++ render_exp e ++ blanks trail ++ rest)).
  { destruct op as [[|]|]; [reflexivity|reflexivity|]. cbn [op_text is_div app]. rewrite Gm by auto. apply match_op_none.
    cbn [blanks repeat app]. destruct (name ++ _); cbn in *; tauto. }
  rewrite M. rewrite skip_blanks_ok by exact Hb. rewrite match_name_complete; [|exact Gn|].
  2: { destruct e as [[[neg i] fr]|].
       - right. exists "^"%char. eexists. split; [reflexivity|]. intros [_ [G|G]]; apply Forall_app in G; destruct G as [_ G]; inversion G; discriminate.
       - cbn [render_exp app]. destruct trail as [|trail].
         + cbn [blanks repeat app]. destruct rest as [|d rest]; [left; reflexivity|right]. exists d, rest. split; [reflexivity|]. apply Fo; reflexivity.
         + right. exists " "%char. eexists. split; [reflexivity|]. intros [_ [G|G]]; apply Forall_app in G; destruct G as [_ G]; inversion G; discriminate. }
  rewrite En. cbn iota. rewrite <- En. rewrite match_exponent_complete; [|exact Ge|apply head_app_blank; exact T].
  rewrite skip_blanks_ok; [reflexivity|]. destruct rest as [|d rest]; cbn in *; [auto|]. destruct Fo as [Fo _].
  destruct (is_blank d) eqn:B; [|reflexivity]. apply blank_char in B. congruence.
Qed.

Lemma match_unit_sound s div name e rest : match_unit s = Some (div, name, e, rest) ->
  exists f, good_factor f /\ follows f rest /\ s = render f ++ rest /\ is_div (f_op f) = div /\ f_name f = name /\ expo f = e.
Proof.
  rewrite match_unit_unfold. intros E.
  destruct (skip_blanks_sound s) as [lead [S1 H1]]. set (s1 := skip_blanks s) in *.
  destruct (match_op_sound s1) as [op [S2 [D2 H2]]]. destruct (match_op s1) as [dv s2] eqn:MO. cbn [fst snd] in *.
  destruct (skip_blanks_sound s2) as [mid [S3 H3]]. set (s2' := skip_blanks s2) in *.
  destruct (match_name s2') as [t s3] eqn:MN. destruct t as [|c t]; [discriminate|].
  destruct (match_name_sound _ _ _ MN ltac:(discriminate)) as [S4 [G4 H4]].
  destruct (match_exponent s3) as [x s4] eqn:ME. destruct (match_exponent_sound _ _ _ ME) as [fe [Ge [S5 E5]]].
  destruct (skip_blanks_sound s4) as [trail [S6 H6]]. inversion E; subst div name e rest. clear E.
  assert (MID : op = None -> mid = 0).
  { intros ->. cbn in S2. subst s2. clear MO MN. destruct mid as [|mid]; [reflexivity|]. exfalso. rewrite S3 in H1. cbn in H1. discriminate. }
  exists (Factor lead op mid (c :: t) fe trail). unfold good_factor, follows, expo, render. cbn [f_name f_exp f_op f_mid f_trail f_lead].
  split; [split; [exact G4|split; [exact Ge|exact MID]]|]. split.
  - destruct (skip_blanks s4) as [|d r] eqn:SB; [exact I|]. split.
    + cbn in H6. intros ->. discriminate.
    + intros -> ->. cbn in S5, S6. subst s3. rewrite S6 in H4. cbn in H4. exact H4.
  - split; [|split; [auto|split; [reflexivity|auto]]].
    rewrite S1 at 1. rewrite <- !app_assoc. f_equal. change (match op with None => [] | Some true => ["/"%char] | Some false => ["*"%char] end) with (op_text op). rewrite S2 at 1. f_equal. rewrite S3 at 1. f_equal. rewrite S4. f_equal. rewrite S5. f_equal. exact S6.
Qed.

(** ** Strings *)
Lemma spells_terminal s fs : spells s fs -> terminal s.
Proof.
  intros H. destruct H as [|f rest fs [Gn [Ge Gm]] Fo Sp]; [exact I|]. destruct (good_name_head _ Gn) as [c [r [En Hc]]].
  unfold render. destruct (f_lead f); cbn; [|repeat split; discriminate].
  destruct (f_op f) as [[|]|]; cbn; try (repeat split; discriminate).
  rewrite Gm by auto. cbn. rewrite En. cbn. destruct Hc as [Hc| ->]; [apply name_char in Hc; tauto|repeat split; discriminate].
Qed.

Lemma render_length f : good_factor f -> 1 <= length (render f).
Proof.
  intros [[N _] _]. unfold render. rewrite !app_length. destruct (f_name f); [congruence|]. cbn. lia.
Qed.

Lemma total_value f : factor_value f = (if is_div (f_op f) then - match expo f with None => 1 | Some x => x end else match expo f with None => 1 | Some x => x end)%Qc.
Proof. unfold factor_value, expo. destruct (f_op f) as [[|]|], (f_exp f) as [e|]; reflexivity. Qed.

Lemma extract_complete n s fs : spells s fs -> length s <= n -> forall u, NoDup (names u) ->
  exists u', extract_loop n s u = Ok u' /\ NoDup (names u') /\ (forall k, exponent u' k = (exponent u k + total fs k)%Qc) /\
    (nonzero u -> Forall (fun f => factor_value f <> 0%Qc) fs -> nonzero u').
Proof.
  revert s fs. induction n as [|n IH]; intros s fs Sp L u N.
  - destruct Sp as [|f rest fs G Fo Sp].
    + exists u. split; [reflexivity|]. split; [auto|]. split; [intros; cbn; ring|auto].
    + exfalso. rewrite app_length in L. pose proof (render_length f G). lia.
  - destruct Sp as [|f rest fs G Fo Sp].
    + exists u. split; [reflexivity|]. split; [auto|]. split; [intros; cbn; ring|auto].
    + pose proof (render_length f G) as RL. rewrite app_length in L.
      cbn [extract_loop]. destruct (render f ++ rest) as [|c q] eqn:Q; [destruct (render f); [cbn in RL; lia|discriminate]|]. rewrite <- Q.
      rewrite match_unit_complete; [|auto|auto|apply (spells_terminal _ _ Sp)].
      set (v := match expo f with None => 1%Qc | Some x => x end).
      destruct (IH rest fs Sp ltac:(lia) (mul1 u (f_name f) (if is_div (f_op f) then (- v)%Qc else v)) ltac:(apply mul1_names, N)) as [u' [E [N' [X Z]]]].
      exists u'. split; [exact E|]. split; [exact N'|]. split.
      * intros k. rewrite X, mul1_exponent by auto. cbn [total]. rewrite total_value. fold v. unfold delta.
        destruct (list_eq_dec ascii_dec (f_name f) k); ring.
      * intros Z0 F. inversion F as [|a b F1 F2]; subst. apply Z; auto. apply mul1_nonzero; auto. rewrite total_value in F1. exact F1.
Qed.

Lemma extract_sound n s u u' : extract_loop n s u = Ok u' -> exists fs, spells s fs.
Proof.
  revert s u. induction n as [|n IH]; intros s u E.
  - destruct s; [exists []; constructor|discriminate].
  - destruct s as [|c s]; [exists []; constructor|]. cbn [extract_loop] in E.
    destruct (match_unit (c :: s)) as [[[[dv name] e] rest]|] eqn:M; [|discriminate].
    destruct (match_unit_sound _ _ _ _ _ M) as [f [G [Fo [S [_ [_ _]]]]]]. rewrite S.
    destruct (IH _ _ E) as [fs Sp]. exists (f :: fs). constructor; auto.
Qed.

Lemma extract_never_stuck n s u : length s <= n -> (exists u', extract_loop n s u = Ok u') \/ extract_loop n s u = Err ValueError.
Proof.
  revert s u. induction n as [|n IH]; intros s u L.
  - destruct s; [left; eexists; reflexivity|cbn in L; lia].
  - destruct s as [|c s]; [left; eexists; reflexivity|]. cbn [extract_loop].
    destruct (match_unit (c :: s)) as [[[[dv name] e] rest]|] eqn:M; [|right; reflexivity].
    destruct (match_unit_sound _ _ _ _ _ M) as [f [G [Fo [S [_ [_ _]]]]]]. apply IH. pose proof (render_length f G) as RL.
    assert (Q : length (c :: s) = length (render f) + length rest) by (rewrite S, app_length; reflexivity). lia.
Qed.

Lemma extract_iff s : (forall u, extract_str s = Ok u -> exists fs, spells (strip s) fs) /\
  (forall fs, spells (strip s) fs -> exists u, extract_str s = Ok u /\ distinct_names u /\ forall k, exponent u k = total fs k).
Proof.
  split.
  - intros u E. apply (extract_sound _ _ _ _ E).
  - intros fs Sp. destruct (extract_complete (length (strip s)) (strip s) fs Sp ltac:(lia) [] ltac:(constructor)) as [u [E [N [X _]]]].
    exists u. split; [exact E|]. split; [exact N|]. intros k. rewrite X. cbn. ring.
Qed.
Lemma extract_error s e : extract_str s = Err e -> e = ValueError /\ forall fs, ~ spells (strip s) fs.
Proof.
  intros E. unfold extract_str in E. destruct (extract_never_stuck (length (strip s)) (strip s) [] ltac:(lia)) as [[u U]|U]; rewrite U in E; inversion E.
  split; [reflexivity|]. intros fs Sp. destruct (extract_complete (length (strip s)) (strip s) fs Sp ltac:(lia) [] ltac:(constructor)) as [u [E' _]].
  rewrite U in E'. discriminate.
Qed.
