From Coq Require Import String Ascii QArith Qcanon Permutation.
From Verif Require Import Base BaseFacts TemplateModel UnitModel UnitSpec UnitFacts UnitSIFacts UfModel UfSpec.
Open Scope nat_scope.

Section F.
Context {K : Type} {o : mag_ops K} (L : mag_laws o) {V : Type} {act : K -> V -> V} (A : action o act).
Notation "a ** b" := (mmul o a b) (at level 40, left associativity).
Variable scale : text -> K.
Notation pw := (powers o scale).

Lemma powers_perm (u v : unit_) : Permutation u v -> pw u = pw v.
Proof.
  induction 1 as [|[k e] u v P IH|[k e] [j d] u|u v w P IH1 Q IH2]; cbn [powers]; auto.
  - rewrite IH. reflexivity.
  - rewrite !(ml_assoc _ L). f_equal. apply (ml_comm _ L).
  - congruence.
Qed.
Lemma powers_same (u v : unit_) : NoDup (names u) -> NoDup (names v) -> same_items u v -> pw u = pw v.
Proof. intros N M H. apply powers_perm, NoDup_Permutation; [eapply NoDup_map_inv, N|eapply NoDup_map_inv, M|exact H]. Qed.
Lemma powers_dict (u v : unit_) : NoDup (names u) -> NoDup (names v) -> dict_eqb u v = true -> pw u = pw v.
Proof. intros N M H. apply powers_same; auto. apply dict_eqb_same; auto. Qed.

(** ** Conversions keep the value *)
Lemma q_inv_value (q : @quantity K) : fst (q_inv o q) ** pw (snd (q_inv o q)) = minv o (fst q ** pw (snd q)).
Proof.
  unfold q_inv. cbn [fst snd]. rewrite (powers_divide L scale) by constructor. cbn [powers].
  rewrite !(inv_pow L), (ml_one _ L), (ml_pow_mul _ L). reflexivity.
Qed.
Lemma q_pow_value (q : @quantity K) p : fst (q_pow o q p) ** pw (snd (q_pow o q p)) = mpow o (fst q ** pw (snd q)) p.
Proof. unfold q_pow. cbn [fst snd]. rewrite (powers_power L scale), (ml_pow_mul _ L). reflexivity. Qed.
Lemma check_du_value t k v d : interprets o scale t -> check_du o t k v = Some d -> fst d ** pw (snd d) = mpow o (scale k) v.
Proof.
  intros I. unfold check_du. destruct t as [|e t]; [discriminate|]. set (T := e :: t) in *. unfold interprets in I. rewrite Forall_forall in I.
  destruct (du_find T (k, Some v)) as [r|] eqn:F1.
  { intros ->. apply du_find_In in F1. specialize (I _ F1). cbn in I. destruct d as [m u]. cbn [fst snd]. auto. }
  destruct (du_find T (k, Some (- v)%Qc)) as [[[m u]|]|] eqn:F2; [|discriminate|].
  { intros E. inversion E; subst. apply du_find_In in F2. specialize (I _ F2). cbn in I. rewrite q_inv_value. cbn [fst snd]. rewrite <- I, <- (pow_opp L). f_equal. ring. }
  destruct (du_find T (k, None)) as [[[m u]|]|] eqn:F3; try discriminate.
  apply du_find_In in F3. specialize (I _ F3). cbn in I. destruct (Qc_eqb v 1) eqn:E1; [|destruct (Qc_eqb v (- (1))) eqn:E2]; intros E; inversion E; subst.
  - apply Qc_eqb_eq in E1. subst v. cbn [fst snd]. rewrite (ml_pow_one _ L). auto.
  - apply Qc_eqb_eq in E2. subst v. rewrite q_inv_value. cbn [fst snd]. rewrite <- I, (inv_pow L). reflexivity.
  - rewrite q_pow_value. cbn [fst snd]. rewrite <- I. reflexivity.
Qed.
Lemma si_value loc glob : interprets o scale loc -> interprets o scale glob ->
  forall n q r, si o n loc glob q = Ok r -> fst r ** pw (snd r) = fst q ** pw (snd q).
Proof.
  intros I J. induction n as [|n IH]; intros [m u] r E; [discriminate|]. destruct u as [|kv u].
  { cbn in E. inversion E; subst. reflexivity. }
  rewrite si_unfold in E. destruct (fold_left (si_step (o:=o) n loc glob) (kv :: u) (Ok (m1 o, []))) as [f|] eqn:F; cbn [bind] in E; [|discriminate].
  inversion E; subst. cbn [fst snd]. clear E.
  enough (X : forall l a f, NoDup (names (snd a)) -> fold_left (si_step (o:=o) n loc glob) l (Ok a) = Ok f -> fst f ** pw (snd f) = (fst a ** pw (snd a)) ** pw l).
  { rewrite <- (ml_assoc _ L). rewrite (X (kv :: u) (m1 o, []) f (NoDup_nil _) F). cbn [fst snd powers]. rewrite !(ml_one _ L). reflexivity. }
  clear F f. induction l as [|[k e] l IHl]; intros a f N F.
  { cbn in F. inversion F; subst. cbn [powers]. rewrite (one_r L). reflexivity. }
  cbn [fold_left] in F. destruct (si_step (o:=o) n loc glob (Ok a) (k, e)) as [b|x] eqn:B; [|rewrite si_step_err in F; discriminate].
  assert (NB : NoDup (names (snd b))).
  { apply (si_step_names (o:=o) n loc glob [(k, e)] a b N). cbn [fold_left]. exact B. }
  rewrite (IHl b f NB F). cbn [powers]. rewrite (ml_assoc _ L). f_equal.
  assert (Q : forall d d', si o n loc glob d = Ok d' -> fst d ** pw (snd d) = mpow o (scale k) e -> b = q_mul o a d' -> fst b ** pw (snd b) = (fst a ** pw (snd a)) ** mpow o (scale k) e).
  { intros d d' S D ->. unfold q_mul. cbn [fst snd]. rewrite (powers_multiply L scale) by auto. rewrite (swap4 L). f_equal. rewrite (IH _ _ S). exact D. }
  unfold si_step in B. cbn [bind fst snd] in B. destruct (check_du o loc k e) as [d|] eqn:C1; [|destruct (check_du o glob k e) as [d|] eqn:C2].
  - destruct (si o n loc glob d) as [d'|] eqn:S; cbn [bind] in B; [|discriminate]. inversion B; subst b. apply (Q d d' S); [apply (check_du_value loc k e d I C1)|reflexivity].
  - destruct (si o n loc glob d) as [d'|] eqn:S; cbn [bind] in B; [|discriminate]. inversion B; subst b. apply (Q d d' S); [apply (check_du_value glob k e d J C2)|reflexivity].
  - inversion B; subst. cbn [fst snd]. rewrite (powers_mul1 L scale) by auto. apply (ml_assoc _ L).
Qed.
Lemma convert_value loc glob n x (u : unit_) y (v : unit_) : interprets o scale loc -> interprets o scale glob -> u <> [] -> v <> [] ->
  convert o act n loc glob (x, u) v = Ok y -> snd y = v /\ act (pw v) (fst y) = act (pw u) x.
Proof.
  intros I J Nu Nv E. apply (convert_spec n loc glob x u y v Nu Nv) in E. destruct E as [q1 [q2 [E1 [E2 [S ->]]]]].
  split; [reflexivity|]. cbn [fst]. rewrite (proj2 A). f_equal.
  assert (X1 := si_value loc glob I J _ _ _ E1). assert (X2 := si_value loc glob I J _ _ _ E2). cbn [fst snd] in X1, X2. rewrite (ml_one _ L) in X1, X2.
  rewrite <- X1, <- X2. assert (P : pw (snd q1) = pw (snd q2)) by (apply powers_same; eauto using si_names).
  rewrite P. rewrite (ml_comm _ L (fst q2)), <- !(ml_assoc _ L). rewrite (ml_comm _ L (fst q2)), <- (ml_assoc _ L), (inv_l L), (one_r L). apply (ml_comm _ L).
Qed.

(** ** Common units *)
Lemma nonempty_false u : nonempty u = false -> u = [].
Proof. destruct u; [reflexivity|discriminate]. Qed.
Lemma common_first (l : list (@operand K V)) u : first_unit l u -> common_of (map get_units l) = u.
Proof.
  unfold common_of. induction 1 as [|x u loc r N|a r u N F IH]; [reflexivity| |].
  - cbn. destruct u; [congruence|reflexivity].
  - cbn [map find]. assert (E : nonempty (@get_units K V a) = false) by (destruct a as [x|x [|? ?] loc]; [reflexivity|reflexivity|destruct N]). rewrite E. exact IH.
Qed.
Lemma first_exists l : exists u, @first_unit K V l u.
Proof.
  induction l as [|a l [u IH]]; [eexists; constructor|]. destruct a as [x|x [|kv w] loc].
  - exists u. constructor; [exact I|exact IH].
  - exists u. constructor; [exact I|exact IH].
  - exists (kv :: w). constructor. discriminate.
Qed.
Lemma first_dict l u : @first_unit K V l u -> Forall is_dict l -> distinct_names u.
Proof. induction 1; intros D; [constructor|inversion D; auto|inversion D; auto]. Qed.
Lemma homogenize_value fuel glob common a a' : interprets o scale glob -> tables (interprets o scale) [a] -> is_dict a -> distinct_names common ->
  (has_unit a -> common <> []) -> homogenize o act fuel glob common a = Ok a' -> act (pw common) (magnitude a') = value_in o act scale common a.
Proof.
  intros I T D N H E. destruct a as [x|x u loc]; [cbn in E; inversion E; subst; reflexivity|].
  cbn [homogenize] in E. destruct u as [|kv u]; [cbn in E; inversion E; subst; reflexivity|].
  cbn [nonempty andb] in E. destruct (dict_eqb (kv :: u) common) eqn:Q; cbn [negb] in E.
  - inversion E; subst. cbn [magnitude value_in]. f_equal. symmetry. apply powers_dict; auto.
  - destruct (convert o act fuel loc glob (@pair V unit_ x (kv :: u)) common) as [y|] eqn:C; cbn [bind] in E; [|discriminate]. inversion E; subst. cbn [magnitude value_in].
    inversion T as [|a b T1 T2]; subst. exact (proj2 (convert_value loc glob fuel x (kv :: u) y common T1 I ltac:(discriminate) (H Logic.I) C)).
Qed.
Lemma homogenize_values fuel glob common l l' : interprets o scale glob -> tables (interprets o scale) l -> Forall is_dict l -> distinct_names common ->
  (Exists has_unit l -> common <> []) -> map_res (homogenize o act fuel glob common) l = Ok l' -> map (act (pw common)) (map magnitude l') = map (value_in o act scale common) l.
Proof.
  intros I T D N. revert l'. induction l as [|a l IH]; intros l' H E.
  - cbn in E. inversion E; subst. reflexivity.
  - cbn in E. destruct (homogenize o act fuel glob common a) as [b|] eqn:B; cbn [bind] in E; [|discriminate].
    destruct (map_res (homogenize o act fuel glob common) l) as [r|] eqn:R; cbn [bind] in E; [|discriminate]. inversion E; subst. inversion T; subst. inversion D; subst.
    cbn [map]. f_equal.
    + apply (homogenize_value fuel glob common a b); auto. constructor; auto.
    + apply IH; auto.
Qed.
Lemma first_nonempty l u : @first_unit K V l u -> Exists has_unit l -> u <> [].
Proof.
  induction 1 as [|x u loc r N|a r u N F IH]; intros X; [inversion X|exact N|]. inversion X as [b c Hb|b c Hc]; subst; [|auto].
  destruct a as [x|x [|? ?] loc]; cbn in Hb, N; tauto.
Qed.
(** The conversion succeeds when each unit can be converted. *)
Definition convertible fuel glob (common : unit_) (a : @operand K V) : Prop :=
  match a with
  | Plain _ | Qty _ [] _ => True
  | Qty x u loc => dict_eqb u common = true \/ exists y, convert o act fuel loc glob (x, u) common = Ok y
  end.
Lemma homogenize_ok fuel glob common a : (exists b, homogenize o act fuel glob common a = Ok b) <-> convertible fuel glob common a.
Proof.
  destruct a as [x|x [|kv u] loc]; [split; [cbn; auto|eexists; reflexivity]|split; [cbn; auto|eexists; reflexivity]|].
  unfold convertible. cbn [homogenize nonempty andb]. destruct (dict_eqb (kv :: u) common); cbn [negb]; [split; [auto|eexists; reflexivity]|].
  destruct (convert o act fuel loc glob (@pair V unit_ x (kv :: u)) common) as [y|e]; cbn [bind]; split.
  - intros _. right. eauto.
  - intros _. eauto.
  - intros [b B]. discriminate.
  - intros [B|[y B]]; discriminate.
Qed.
Lemma homogenize_all_ok fuel glob common l : (exists r, map_res (homogenize o act fuel glob common) l = Ok r) <-> Forall (convertible fuel glob common) l.
Proof.
  induction l as [|a l IH]; cbn; [split; [constructor|eexists; reflexivity]|]. split.
  - intros [r E]. destruct (homogenize o act fuel glob common a) as [b|] eqn:B; cbn [bind] in E; [|discriminate].
    destruct (map_res (homogenize o act fuel glob common) l) as [s|] eqn:S; cbn [bind] in E; [|discriminate].
    constructor; [apply homogenize_ok; eauto|apply IH; eauto].
  - intros F. inversion F as [|x y Fa Fl]; subst. apply homogenize_ok in Fa. apply IH in Fl. destruct Fa as [b ->], Fl as [s ->]. cbn [bind]. eauto.
Qed.
Lemma value_in_unit common l : Forall has_unit l -> map (value_in o act scale common) l = map (value o act scale) l.
Proof. intros F. apply map_ext_in. rewrite Forall_forall in F. intros a Ia. specialize (F a Ia). destruct a as [x|x [|? ?] loc]; cbn in F; tauto. Qed.
Lemma value_in_none l : map (value_in o act scale []) l = map (value o act scale) l.
Proof. apply map_ext. intros [x|x [|? ?] loc]; cbn; auto. apply (proj1 A). Qed.
Lemma no_unit_value a : no_unit a -> value o act scale a = magnitude a.
Proof. destruct a as [x|x [|? ?] loc]; cbn; intros H; auto; [apply (proj1 A)|tauto]. Qed.
End F.
