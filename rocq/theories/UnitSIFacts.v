(** Lemmas on conversions: round trips, termination, products of powers. *)
From Coq Require Import String Ascii QArith Qcanon Lia Permutation.
From Verif Require Import Base BaseFacts TemplateModel UnitModel UnitSpec UnitFacts.
Open Scope nat_scope.

Lemma dict_eqb_refl u : NoDup (names u) -> dict_eqb u u = true.
Proof. intros N. apply dict_eqb_same; auto. intros kv. tauto. Qed.
Lemma dict_eqb_sym u v : NoDup (names u) -> NoDup (names v) -> dict_eqb u v = true -> dict_eqb v u = true.
Proof. intros A B H. apply dict_eqb_same; auto. apply dict_eqb_same in H; auto. intros kv. symmetry. apply H. Qed.
Lemma dict_eqb_trans u v w : NoDup (names u) -> NoDup (names v) -> NoDup (names w) -> dict_eqb u v = true -> dict_eqb v w = true -> dict_eqb u w = true.
Proof.
  intros A B C H G. apply dict_eqb_same in H; auto. apply dict_eqb_same in G; auto. apply dict_eqb_same; auto. intros kv. rewrite (H kv). apply G.
Qed.

(** ** Groups with powers *)
Section Mag.
Context {K : Type} {o : mag_ops K} (L : mag_laws o).
Notation "a ** b" := (mmul o a b) (at level 40, left associativity).
Lemma one_r a : a ** m1 o = a. Proof. rewrite (ml_comm _ L). apply (ml_one _ L). Qed.
Lemma inv_l a : minv o a ** a = m1 o. Proof. rewrite (ml_comm _ L). apply (ml_inv _ L). Qed.
Lemma cancel_l a b c : a ** b = a ** c -> b = c.
Proof. intros E. rewrite <- (ml_one _ L b), <- (ml_one _ L c), <- (inv_l a), <- !(ml_assoc _ L), E. reflexivity. Qed.
Lemma pow_0 a : mpow o a 0 = m1 o.
Proof. apply (cancel_l (mpow o a 0)). rewrite <- (ml_pow_add _ L), one_r. f_equal; ring. Qed.
Lemma pow_opp a p : mpow o a (- p)%Qc = minv o (mpow o a p).
Proof. apply (cancel_l (mpow o a p)). rewrite <- (ml_pow_add _ L), (ml_inv _ L), <- (pow_0 a). f_equal; ring. Qed.
Lemma pow_1l p : mpow o (m1 o) p = m1 o.
Proof. apply (cancel_l (mpow o (m1 o) p)). rewrite <- (ml_pow_mul _ L), (ml_one _ L), one_r. reflexivity. Qed.
Lemma inv_pow a : minv o a = mpow o a (- (1))%Qc.
Proof. rewrite pow_opp, (ml_pow_one _ L). reflexivity. Qed.
Lemma swap4 a b c d : (a ** b) ** (c ** d) = (a ** c) ** (b ** d).
Proof.
  rewrite <- !(ml_assoc _ L). f_equal. rewrite !(ml_assoc _ L). f_equal. apply (ml_comm _ L).
Qed.

Variable mag : text -> K.
Notation pw := (powers o mag).
Lemma powers_del u k x : NoDup (names u) -> u_get u k = Some x -> pw u = mpow o (mag k) x ** pw (u_del u k).
Proof.
  induction u as [|[k' v] r IH]; cbn [u_get u_del powers]; [discriminate|]. intros N G. inversion N as [|a b N1 N2]; subst.
  destruct (text_eqb k' k) eqn:E.
  - apply text_eqb_eq in E. inversion G. subst. reflexivity.
  - cbn [powers]. rewrite IH by auto. rewrite !(ml_assoc _ L). f_equal. apply (ml_comm _ L).
Qed.
Lemma powers_set u k x y : NoDup (names u) -> u_get u k = Some x -> pw (u_set u k (x + y)%Qc) = pw u ** mpow o (mag k) y.
Proof.
  induction u as [|[k' v] r IH]; cbn [u_get u_set powers]; [discriminate|]. intros N G. inversion N as [|a b N1 N2]; subst.
  destruct (text_eqb k' k) eqn:E.
  - apply text_eqb_eq in E. inversion G. subst. cbn [powers]. rewrite (ml_pow_add _ L), <- !(ml_assoc _ L). f_equal. apply (ml_comm _ L).
  - cbn [powers]. rewrite IH by auto. apply (ml_assoc _ L).
Qed.
Lemma powers_new u k y : u_get u k = None -> pw (u_set u k y) = pw u ** mpow o (mag k) y.
Proof.
  induction u as [|[k' v] r IH]; cbn [u_get u_set powers]; intros G.
  - apply (ml_comm _ L).
  - destruct (text_eqb k' k) eqn:E; [discriminate|]. cbn [powers]. rewrite IH by auto. apply (ml_assoc _ L).
Qed.
Lemma powers_mul1 u k e : NoDup (names u) -> pw (mul1 u k e) = pw u ** mpow o (mag k) e.
Proof.
  intros N. unfold mul1. destruct (u_get u k) as [x|] eqn:G; [|apply powers_new; auto].
  destruct (Qc_eqb x (- e)) eqn:E; [|apply powers_set; auto].
  apply Qc_eqb_eq in E. rewrite (powers_del u k x) by auto. subst x. rewrite pow_opp, (ml_comm _ L (minv o _)), <- (ml_assoc _ L), inv_l, one_r. reflexivity.
Qed.
Lemma powers_multiply u v : NoDup (names u) -> pw (multiply_unit u v) = pw u ** pw v.
Proof.
  unfold multiply_unit. revert u. induction v as [|[k x] r IH]; intros u N; cbn [fold_left powers fst snd].
  - rewrite one_r. reflexivity.
  - rewrite IH by (apply mul1_names, N). rewrite powers_mul1 by auto. rewrite <- (ml_assoc _ L). reflexivity.
Qed.
Lemma powers_power_map u p : pw (map (fun kv => (fst kv, (snd kv * p)%Qc)) u) = mpow o (pw u) p.
Proof.
  induction u as [|[k x] r IH]; cbn [map powers fst snd]; [symmetry; apply pow_1l|]. rewrite IH, (ml_pow_mul _ L), (ml_pow_pow _ L). reflexivity.
Qed.
Lemma powers_power u p : pw (power_unit u p) = mpow o (pw u) p.
Proof.
  unfold power_unit. destruct (Nat.eqb (length u) 0) eqn:E; cbn [orb].
  - apply Nat.eqb_eq in E. destruct u; [|discriminate]. symmetry. apply pow_1l.
  - destruct (Qc_eqb p 0) eqn:Z; [|apply powers_power_map]. apply Qc_eqb_eq in Z. subst p. rewrite pow_0. reflexivity.
Qed.
Lemma powers_negated u : pw (negated u) = minv o (pw u).
Proof.
  rewrite inv_pow, <- powers_power_map. f_equal. unfold negated. apply map_ext. intros [k x]. cbn. f_equal. ring.
Qed.
Lemma powers_divide u v : NoDup (names u) -> pw (divide_unit u v) = pw u ** minv o (pw v).
Proof. intros N. rewrite divide_multiply, powers_multiply, powers_negated by auto. reflexivity. Qed.
End Mag.

Lemma log_laws : mag_laws log_ops.
Proof. split; cbn; intros; ring. Qed.
Lemma combined_powers un u j : combined un u j = powers log_ops (fun k => exponent (un k) j) u.
Proof. induction u as [|[k e] r IH]; cbn [combined powers]; [reflexivity|]. rewrite IH. cbn. ring. Qed.

(** ** Conversions *)
Section C.
Context {K : Type} {o : mag_ops K} (L : mag_laws o).
Notation "a ** b" := (mmul o a b) (at level 40, left associativity).

Definition si_step n (loc glob : @du_table K) (acc : res (@quantity K)) (kv : text * Qc) : res quantity :=
  do a <- acc;
  match check_du o loc (fst kv) (snd kv) with
  | Some d => do d' <- si o n loc glob d; Ok (q_mul o a d')
  | None =>
      match check_du o glob (fst kv) (snd kv) with
      | Some d => do d' <- si o n loc glob d; Ok (q_mul o a d')
      | None => Ok (fst a, mul1 (snd a) (fst kv) (snd kv))
      end
  end.
Lemma si_unfold n loc glob m kv u : si o (S n) loc glob (m, kv :: u) =
  do f <- fold_left (si_step n loc glob) (kv :: u) (Ok (m1 o, [])); Ok (m ** fst f, snd f).
Proof. reflexivity. Qed.
Lemma si_step_err n loc glob u e : fold_left (si_step n loc glob) u (Err e) = Err e.
Proof. induction u; cbn; auto. Qed.

Lemma si_step_names n loc glob u a r : NoDup (names (snd a)) -> fold_left (si_step n loc glob) u (Ok a) = Ok r -> NoDup (names (snd r)).
Proof.
  revert a. induction u as [|[k e] u IH]; intros a N E; cbn [fold_left] in E; [inversion E; subst; auto|].
  destruct (si_step n loc glob (Ok a) (k, e)) as [b|x] eqn:B; [|rewrite si_step_err in E; discriminate].
  apply (IH b); [|exact E]. unfold si_step in B. cbn [bind fst snd] in B.
  destruct (check_du o loc k e) as [d|]; [|destruct (check_du o glob k e) as [d|]].
  - destruct (si o n loc glob d); cbn in B; inversion B; subst. cbn. apply multiply_names, N.
  - destruct (si o n loc glob d); cbn in B; inversion B; subst. cbn. apply multiply_names, N.
  - inversion B; subst. cbn. apply mul1_names, N.
Qed.
Lemma si_names n loc glob q r : si o n loc glob q = Ok r -> NoDup (names (snd r)).
Proof.
  destruct n as [|n]; [discriminate|]. destruct q as [m [|kv u]].
  - cbn. intros E. inversion E; subst. constructor.
  - rewrite si_unfold. destruct (fold_left _ _ _) as [f|] eqn:F; cbn [bind]; [|discriminate]. intros E. inversion E; subst. cbn.
    apply (si_step_names n loc glob (kv :: u) (m1 o, []) f); [constructor|exact F].
Qed.

Context {V : Type} {act : K -> V -> V} (A : action o act).

Lemma convert_spec fuel loc glob x (u : unit_) y (v : unit_) : u <> [] -> v <> [] ->
  (convert o act fuel loc glob (x, u) v = Ok y <->
   exists q1 q2, si o fuel loc glob (m1 o, u) = Ok q1 /\ si o fuel loc glob (m1 o, v) = Ok q2 /\ same_items (snd q1) (snd q2) /\
     y = (act (fst q1 ** minv o (fst q2)) x, v)).
Proof.
  intros Nu Nv. unfold convert. cbn [fst snd]. destruct u as [|a u]; [congruence|]. destruct v as [|b v]; [congruence|].
  destruct (si o fuel loc glob (@pair K unit_ (m1 o) (a :: u))) as [q1|] eqn:E1; cbn [bind].
  2: { split; [intros Z; discriminate Z|]. intros [q1 [q2 [X _]]]. discriminate. }
  destruct (si o fuel loc glob (@pair K unit_ (m1 o) (b :: v))) as [q2|] eqn:E2; cbn [bind].
  2: { split; [discriminate|]. intros [? [q2 [_ [X _]]]]. discriminate. }
  destruct (dict_eqb (snd q1) (snd q2)) eqn:D.
  - apply dict_eqb_same in D; [|apply (si_names _ _ _ _ _ E1)|apply (si_names _ _ _ _ _ E2)]. split.
    + intros E. inversion E; subst. exists q1, q2. auto.
    + intros [q1' [q2' [X1 [X2 [_ Y]]]]]. inversion X1; inversion X2; subst. reflexivity.
  - split; [discriminate|]. intros [q1' [q2' [X1 [X2 [Y _]]]]]. inversion X1; inversion X2; subst.
    apply dict_eqb_same in Y; [|apply (si_names _ _ _ _ _ E1)|apply (si_names _ _ _ _ _ E2)]. congruence.
Qed.

Lemma convert_back fuel loc glob x y (u v : unit_) : u <> [] -> v <> [] ->
  convert o act fuel loc glob (x, u) v = Ok (y, v) -> convert o act fuel loc glob (y, v) u = Ok (x, u).
Proof.
  intros Nu Nv E. apply (convert_spec fuel loc glob x u (y, v) v Nu Nv) in E. destruct E as [q1 [q2 [E1 [E2 [Sm Y]]]]].
  apply (convert_spec fuel loc glob y v (x, u) u Nv Nu). exists q2, q1. repeat split; auto.
  - intros H. apply Sm, H.
  - intros H. apply Sm, H.
  - inversion Y; subst. rewrite (proj2 A). replace ((fst q2 ** minv o (fst q1)) ** (fst q1 ** minv o (fst q2))) with (m1 o); [rewrite (proj1 A); reflexivity|].
    rewrite <- (ml_assoc _ L), (ml_assoc _ L (minv o (fst q1))), (inv_l L), (ml_one _ L), (ml_inv _ L). reflexivity.
Qed.
Lemma convert_compose fuel loc glob x y z (u v w : unit_) : u <> [] -> v <> [] -> w <> [] ->
  convert o act fuel loc glob (x, u) v = Ok (y, v) -> convert o act fuel loc glob (y, v) w = Ok z -> convert o act fuel loc glob (x, u) w = Ok z.
Proof.
  intros Nu Nv Nw E F. apply (convert_spec fuel loc glob x u (y, v) v Nu Nv) in E. destruct E as [q1 [q2 [E1 [E2 [Sm Y]]]]].
  apply (convert_spec fuel loc glob y v z w Nv Nw) in F. destruct F as [q2' [q3 [F1 [F2 [Sm' Z]]]]].
  rewrite E2 in F1. inversion F1; subst q2'. apply (convert_spec fuel loc glob x u z w Nu Nw). exists q1, q3. repeat split; auto.
  - intros H. apply Sm', Sm, H.
  - intros H. apply Sm, Sm', H.
  - subst z. inversion Y; subst. rewrite (proj2 A). f_equal. f_equal.
    rewrite (ml_comm _ L (fst q2)), <- (ml_assoc _ L), (ml_assoc _ L (fst q2)), (ml_comm _ L (fst q2)), <- (ml_assoc _ L (fst q1)), (ml_inv _ L), (one_r L).
    apply (ml_comm _ L).
Qed.

(** ** Termination *)
Lemma mul1_sub u k e : incl (names (mul1 u k e)) (k :: names u).
Proof.
  intros x I. unfold mul1 in I. destruct (u_get u k) as [y|] eqn:G; [destruct (Qc_eqb y (- e))|].
  - right. eapply names_del, I.
  - rewrite names_set in I. destruct (in_dec _ _ _); [right; auto|]. apply in_app_or in I. destruct I as [I|[I|[]]]; [right; auto|left; auto].
  - rewrite names_set in I. destruct (in_dec _ _ _); [right; auto|]. apply in_app_or in I. destruct I as [I|[I|[]]]; [right; auto|left; auto].
Qed.
Lemma multiply_sub u v : incl (names (multiply_unit u v)) (names u ++ names v).
Proof.
  unfold multiply_unit. revert u. induction v as [|[k e] v IH]; intros u; cbn [fold_left fst snd].
  - rewrite app_nil_r. apply incl_refl.
  - intros x I. apply IH in I. apply in_app_or in I. apply in_or_app. destruct I as [I|I]; [|right; right; auto].
    apply mul1_sub in I. destruct I as [->|I]; [right; left; reflexivity|left; auto].
Qed.
Lemma inv_sub (q : @quantity K) : incl (names (snd (q_inv o q))) (names (snd q)).
Proof.
  unfold q_inv. cbn [snd]. rewrite divide_multiply. intros x I. apply multiply_sub in I. cbn in I. unfold negated, names in I. rewrite map_map in I. exact I.
Qed.
Lemma pow_sub (q : @quantity K) p : incl (names (snd (q_pow o q p))) (names (snd q)).
Proof.
  unfold q_pow, power_unit. cbn [snd]. destruct (_ || _); [intros x []|]. unfold names. rewrite map_map. apply incl_refl.
Qed.
Lemma names_prop (P : text -> Prop) (u v : unit_) : incl (names u) (names v) -> Forall (fun kv => P (fst kv)) v -> Forall (fun kv => P (fst kv)) u.
Proof.
  intros I F. apply Forall_forall. intros kv H. assert (X : In (fst kv) (names v)) by (apply I; unfold names; apply in_map, H).
  unfold names in X. apply in_map_iff in X. destruct X as [kv' [E I']]. rewrite Forall_forall in F. rewrite <- E. auto.
Qed.

Lemma du_key_eqb_eq a b : du_key_eqb a b = true <-> a = b.
Proof.
  unfold du_key_eqb. destruct a as [a x], b as [b y]. cbn. rewrite andb_true_iff, text_eqb_eq. destruct x as [x|], y as [y|].
  - rewrite Qc_eqb_eq. intuition congruence.
  - intuition congruence.
  - intuition congruence.
  - intuition congruence.
Qed.
Lemma du_find_In (t : @du_table K) k r : du_find t k = Some r -> In (k, r) t.
Proof.
  induction t as [|[k' q] t IH]; cbn; [discriminate|]. destruct (du_key_eqb k' k) eqn:E; [|auto].
  apply du_key_eqb_eq in E. intros Q. inversion Q; subst. auto.
Qed.
Lemma check_du_sub (t : @du_table K) k v d : check_du o t k v = Some d -> exists p q, In ((k, p), Some q) t /\ incl (names (snd d)) (names (snd q)).
Proof.
  unfold check_du. destruct t as [|e t]; [discriminate|]. set (T := e :: t).
  destruct (du_find T (k, Some v)) as [r|] eqn:F1.
  - intros ->. exists (Some v), d. split; [apply du_find_In, F1|apply incl_refl].
  - destruct (du_find T (k, Some (- v)%Qc)) as [[q|]|] eqn:F2; [| discriminate |].
    + intros E. inversion E; subst. exists (Some (- v)%Qc), q. split; [apply du_find_In, F2|apply inv_sub].
    + destruct (du_find T (k, None)) as [[q|]|] eqn:F3; [|discriminate|discriminate].
      intros E. exists None, q. split; [apply du_find_In, F3|].
      destruct (Qc_eqb v 1); [inversion E; subst; apply incl_refl|]. destruct (Qc_eqb v (- (1))); inversion E; subst; [apply inv_sub|apply pow_sub].
Qed.
Lemma check_du_rank rank (t : @du_table K) k v d : ranked rank t -> check_du o t k v = Some d -> Forall (fun kv => rank (fst kv) < rank k) (snd d).
Proof.
  intros R E. destruct (check_du_sub t k v d E) as [p [q [I S]]]. apply (names_prop (fun j => rank j < rank k) _ _ S).
  unfold ranked in R. rewrite Forall_forall in R. exact (R _ I).
Qed.
Lemma si_total rank loc glob : ranked rank loc -> ranked rank glob ->
  forall n q, Forall (fun kv => rank (fst kv) < n) (snd q) -> exists r, si o (S n) loc glob q = Ok r.
Proof.
  intros R1 R2. induction n as [|n IH]; intros [m u] F; cbn [snd] in F.
  - destruct F as [|kv u H F]; [eexists; reflexivity|lia].
  - destruct u as [|kv u]; [eexists; reflexivity|]. rewrite si_unfold.
    assert (X : forall l a, Forall (fun kv => rank (fst kv) < S n) l -> exists f, fold_left (si_step (S n) loc glob) l (Ok a) = Ok f).
    { induction l as [|[k e] l IHl]; intros a Fl; [eexists; reflexivity|]. inversion Fl as [|? ? Hk Fl']; subst. cbn [fst] in Hk. cbn [fold_left].
      assert (Y : exists b, si_step (S n) loc glob (Ok a) (k, e) = Ok b).
      { unfold si_step. cbn [bind fst snd].
        assert (Z : forall t d, ranked rank t -> check_du o t k e = Some d -> exists d', si o (S n) loc glob d = Ok d').
        { intros t d Rt Ed. apply IH. eapply Forall_impl; [|exact (check_du_rank rank t k e d Rt Ed)]. intros [j x]. cbn. lia. }
        destruct (check_du o loc k e) as [d|] eqn:C1; [destruct (Z loc d R1 C1) as [d' ->]; eexists; reflexivity|].
        destruct (check_du o glob k e) as [d|] eqn:C2; [destruct (Z glob d R2 C2) as [d' ->]; eexists; reflexivity|]. eexists; reflexivity. }
      destruct Y as [b ->]. apply IHl, Fl'. }
    destruct (X (kv :: u) (m1 o, []) F) as [f Ef]. exists (m ** fst f, snd f). exact (f_equal (fun z => do f <- z; Ok (m ** fst f, snd f)) Ef).
Qed.

Lemma si_mono loc glob n : forall q r, si o n loc glob q = Ok r -> si o (S n) loc glob q = Ok r.
Proof.
  induction n as [|n IH]; intros [m u] r E; [discriminate|]. destruct u as [|kv u]; [exact E|].
  rewrite si_unfold in E |- *.
  assert (X : forall l a f, fold_left (si_step n loc glob) l a = Ok f -> fold_left (si_step (S n) loc glob) l a = Ok f).
  { induction l as [|[k e] l IHl]; intros a f Ef; [exact Ef|]. cbn [fold_left] in *.
    destruct (si_step n loc glob a (k, e)) as [b|x] eqn:B; [|rewrite si_step_err in Ef; discriminate].
    replace (si_step (S n) loc glob a (k, e)) with (Ok b); [apply IHl, Ef|]. symmetry. unfold si_step in B |- *.
    destruct a as [a|]; [|discriminate]. cbn [bind fst snd] in *.
    destruct (check_du o loc k e) as [d|].
    - destruct (si o n loc glob d) as [d'|] eqn:D; [|discriminate]. rewrite (IH _ _ D). exact B.
    - destruct (check_du o glob k e) as [d|]; [|exact B]. destruct (si o n loc glob d) as [d'|] eqn:D; [|discriminate]. rewrite (IH _ _ D). exact B. }
  destruct (fold_left (si_step n loc glob) (kv :: u) (Ok (m1 o, []))) as [f|] eqn:Ef; [|discriminate]. rewrite (X _ _ _ Ef). exact E.
Qed.
Lemma si_mono_le loc glob n m q r : n <= m -> si o n loc glob q = Ok r -> si o m loc glob q = Ok r.
Proof. induction 1; auto using si_mono. Qed.

(** ** Products of powers *)
(** The definition of a name: first the local table. *)
Definition definition (loc glob : @du_table K) (k : text) : option quantity :=
  match du_find loc (k, None) with
  | Some (Some q) => Some q
  | _ => match du_find glob (k, None) with Some r => r | None => None end
  end.
Definition scaled (q : @quantity K) (v : Qc) : quantity :=
  if Qc_eqb v 1 then q else if Qc_eqb v (- (1))%Qc then q_inv o q else q_pow o q v.

Lemma closed_nopower P (t : @du_table K) k v : closed_in P t -> P k -> du_find t (k, Some v) = None.
Proof.
  intros C H. destruct (du_find t (k, Some v)) as [r|] eqn:F; [|reflexivity]. apply du_find_In in F.
  unfold closed_in in C. rewrite Forall_forall in C. destruct (C _ F H) as [X _]. discriminate.
Qed.
Lemma closed_check P (t : @du_table K) k v : closed_in P t -> P k ->
  check_du o t k v = match du_find t (k, None) with Some (Some q) => Some (scaled q v) | _ => None end.
Proof.
  intros C H. unfold check_du. destruct t as [|e t]; [reflexivity|]. set (T := e :: t) in *.
  rewrite (closed_nopower P T k v C H), (closed_nopower P T k _ C H). destruct (du_find T (k, None)) as [[q|]|]; try reflexivity.
  unfold scaled. destruct (Qc_eqb v 1); [reflexivity|]. destruct (Qc_eqb v (- (1))); reflexivity.
Qed.

Section H.
Variable (P : text -> Prop) (rank : text -> nat) (loc glob : @du_table K).
Hypothesis (C1 : closed_in P loc) (C2 : closed_in P glob) (R1 : ranked rank loc) (R2 : ranked rank glob).

Lemma si_step_closed n (a : @quantity K) (k : text) (v : Qc) : P k -> si_step n loc glob (Ok a) (k, v) =
  match definition loc glob k with
  | Some q => do d' <- si o n loc glob (scaled q v); Ok (q_mul o a d')
  | None => Ok (fst a, mul1 (snd a) k v)
  end.
Proof.
  intros Pk. unfold si_step, definition. cbn [bind fst snd]. rewrite (closed_check P loc k v C1 Pk), (closed_check P glob k v C2 Pk).
  destruct (du_find loc (k, None)) as [[q|]|]; [reflexivity| |]; destruct (du_find glob (k, None)) as [[q|]|]; reflexivity.
Qed.
Lemma definition_in k q : definition loc glob k = Some q -> In ((k, None), Some q) loc \/ In ((k, None), Some q) glob.
Proof.
  unfold definition. destruct (du_find loc (k, None)) as [[q'|]|] eqn:F.
  - intros E. inversion E; subst. left. apply du_find_In, F.
  - destruct (du_find glob (k, None)) as [r|] eqn:G; [|discriminate]. intros ->. right. apply du_find_In, G.
  - destruct (du_find glob (k, None)) as [r|] eqn:G; [|discriminate]. intros ->. right. apply du_find_In, G.
Qed.
Lemma definition_closed k q : P k -> definition loc glob k = Some q -> Forall (fun kv => P (fst kv)) (snd q) /\ Forall (fun kv => rank (fst kv) < rank k) (snd q).
Proof.
  intros Pk E. destruct (definition_in k q E) as [I|I].
  - split; [exact (proj2 (proj1 (Forall_forall _ _) C1 _ I Pk))|exact (proj1 (Forall_forall _ _) R1 _ I)].
  - split; [exact (proj2 (proj1 (Forall_forall _ _) C2 _ I Pk))|exact (proj1 (Forall_forall _ _) R2 _ I)].
Qed.
Lemma scaled_sub (q : @quantity K) v : incl (names (snd (scaled q v))) (names (snd q)).
Proof. unfold scaled. destruct (Qc_eqb v 1); [apply incl_refl|]. destruct (Qc_eqb v (- (1))); [apply inv_sub|apply pow_sub]. Qed.

Definition si_of (k : text) : @quantity K := match si o (S (S (rank k))) loc glob (m1 o, [(k, 1%Qc)]) with Ok r => r | Err _ => (m1 o, []) end.
Definition mag k := fst (si_of k).
Definition un k := snd (si_of k).

(** The value of any homomorphism on a scaled definition. *)
Lemma scaled_powers {K'} {o' : mag_ops K'} (L' : mag_laws o') (h : text -> K') (q : @quantity K) v :
  powers o' h (snd (scaled q v)) = mpow o' (powers o' h (snd q)) v.
Proof.
  unfold scaled. destruct (Qc_eqb v 1) eqn:E1.
  - apply Qc_eqb_eq in E1. subst. symmetry. apply (ml_pow_one _ L').
  - destruct (Qc_eqb v (- (1))) eqn:E2.
    + apply Qc_eqb_eq in E2. subst. unfold q_inv. cbn [snd]. rewrite (powers_divide L') by constructor. cbn [powers]. rewrite (ml_one _ L'), (inv_pow L'). reflexivity.
    + unfold q_pow. cbn [snd]. apply (powers_power L').
Qed.
Lemma scaled_mag (q : @quantity K) v : fst (scaled q v) = mpow o (fst q) v.
Proof.
  unfold scaled. destruct (Qc_eqb v 1) eqn:E1.
  - apply Qc_eqb_eq in E1. subst. symmetry. apply (ml_pow_one _ L).
  - destruct (Qc_eqb v (- (1))) eqn:E2; [|reflexivity]. apply Qc_eqb_eq in E2. subst. cbn. apply (inv_pow L).
Qed.

Lemma si_powers n : forall (m : K) (u : unit_), Forall (fun kv => P (fst kv)) u -> Forall (fun kv => rank (fst kv) < n) u ->
  exists r, si o (S n) loc glob (m, u) = Ok r /\ fst r = m ** powers o mag u /\ forall j, exponent (snd r) j = combined un u j.
Proof.
  induction n as [n IH] using (well_founded_induction lt_wf). intros m u Pu Ru.
  destruct u as [|kv0 u0].
  { eexists. split; [reflexivity|]. split; [cbn; rewrite (one_r L); reflexivity|reflexivity]. }
  rewrite si_unfold. set (l := kv0 :: u0) in *. clearbody l. clear kv0 u0.
  assert (X : forall (l : unit_) (a : @quantity K), Forall (fun kv => P (fst kv)) l -> Forall (fun kv => rank (fst kv) < n) l -> NoDup (names (snd a)) ->
    exists f, fold_left (si_step n loc glob) l (Ok a) = Ok f /\ fst f = fst a ** powers o mag l /\
      forall j, exponent (snd f) j = (exponent (snd a) j + combined un l j)%Qc).
  { clear l Pu Ru. induction l as [|[k v] l IHl]; intros a Pl Rl N.
    - exists a. split; [reflexivity|]. split; [cbn; rewrite (one_r L); reflexivity|intros; cbn; ring].
    - inversion Pl as [|? ? Pk Pl']; subst. inversion Rl as [|? ? Rk Rl']; subst. cbn [fst] in Pk, Rk.
      cbn [fold_left]. rewrite (si_step_closed n a k v Pk).
      destruct (definition loc glob k) as [q|] eqn:D.
      + destruct (definition_closed k q Pk D) as [Dp Dr].
        (* the derived unit, scaled *)
        destruct n as [|n']; [lia|].
        assert (Rq : forall w, Forall (fun kv => rank (fst kv) < n') (snd (scaled q w))).
        { intros w. apply (names_prop (fun j => rank j < n') _ (snd q) (scaled_sub q w)). eapply Forall_impl; [|exact Dr]. intros [j y]. cbn. lia. }
        assert (Pq : forall w, Forall (fun kv => P (fst kv)) (snd (scaled q w))).
        { intros w. apply (names_prop P _ (snd q) (scaled_sub q w) Dp). }
        destruct (IH n' ltac:(lia) (fst (scaled q v)) (snd (scaled q v)) (Pq v) (Rq v)) as [d' [Ed [Fd Xd]]].
        rewrite <- surjective_pairing in Ed. rewrite Ed. cbn [bind].
        (* the name alone *)
        assert (Rk' : Forall (fun kv => rank (fst kv) < rank k) (snd q)) by exact Dr.
        destruct (IH (rank k) ltac:(lia) (fst q) (snd q) Dp Rk') as [s [Es [Fs Xs]]]. rewrite <- surjective_pairing in Es.
        assert (M : mag k = fst q ** powers o mag (snd q) /\ forall j, exponent (un k) j = combined un (snd q) j).
        { unfold mag at 1, un at 1. unfold si_of at 1. rewrite si_unfold. cbn [fold_left]. rewrite (si_step_closed _ _ k 1%Qc Pk), D.
          change (scaled q 1%Qc) with q. rewrite Es. cbn [bind]. cbn [q_mul fst snd]. rewrite !(ml_one _ L). split; [exact Fs|].
          intros j. unfold si_of. rewrite si_unfold. cbn [fold_left]. rewrite (si_step_closed _ _ k 1%Qc Pk), D.
          change (scaled q 1%Qc) with q. rewrite Es. cbn [bind q_mul fst snd]. rewrite multiply_exponent by constructor. rewrite Xs. cbn [exponent]. ring. }
        destruct M as [Mk Uk].
        destruct (IHl (q_mul o a d') Pl' Rl') as [f [Ef [Ff Xf]]]; [cbn; apply multiply_names, N|].
        exists f. split; [exact Ef|]. split.
        * rewrite Ff. cbn [q_mul fst powers]. rewrite Fd, scaled_mag, (scaled_powers L), <- (ml_pow_mul _ L), <- Mk, (ml_assoc _ L). reflexivity.
        * intros j. rewrite Xf. cbn [q_mul snd combined]. rewrite multiply_exponent by exact N. rewrite Xd, Uk, !combined_powers, (scaled_powers log_laws). cbn. ring.
      + assert (SO : si_of k = (m1 o, [(k, 1%Qc)])).
        { unfold si_of. rewrite si_unfold. cbn [fold_left]. rewrite (si_step_closed _ _ k 1%Qc Pk), D. cbn [bind fst snd]. rewrite (ml_one _ L). reflexivity. }
        destruct (IHl (fst a, mul1 (snd a) k v) Pl' Rl') as [f [Ef [Ff Xf]]]; [cbn; apply mul1_names, N|].
        exists f. split; [exact Ef|]. split.
        * rewrite Ff. cbn [fst powers]. unfold mag at 2. rewrite SO. cbn [fst]. rewrite (pow_1l L), (ml_one _ L). reflexivity.
        * intros j. rewrite Xf. cbn [snd combined]. rewrite mul1_exponent by exact N. unfold un at 2. rewrite SO. cbn [snd exponent]. unfold delta.
          destruct (list_eq_dec ascii_dec k j); ring. }
  destruct (X l (m1 o, []) Pu Ru ltac:(constructor)) as [f [Ef [Ff Xf]]]. exists (m ** fst f, snd f).
  split; [exact (f_equal (fun z => do f <- z; Ok (m ** fst f, snd f)) Ef)|]. cbn [fst snd]. split.
  - rewrite Ff. cbn [fst]. rewrite (ml_one _ L). reflexivity.
  - intros j. rewrite Xf. cbn. ring.
Qed.
End H.
End C.
