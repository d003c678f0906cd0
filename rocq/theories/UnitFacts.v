(** Lemmas on the arithmetic of units. *)
From Coq Require Import String Ascii QArith Qcanon Lia Permutation.
From Verif Require Import Base BaseFacts TemplateModel UnitModel UnitSpec.
Open Scope nat_scope.

Lemma text_eqb_eq a b : text_eqb a b = true <-> a = b.
Proof. unfold text_eqb. destruct (list_eq_dec ascii_dec a b); intuition congruence. Qed.
Lemma text_eqb_ne a b : text_eqb a b = false <-> a <> b.
Proof. unfold text_eqb. destruct (list_eq_dec ascii_dec a b); intuition congruence. Qed.
Lemma text_eqb_refl a : text_eqb a a = true.
Proof. apply text_eqb_eq. reflexivity. Qed.
Lemma Qc_eqb_eq a b : Qc_eqb a b = true <-> a = b.
Proof. unfold Qc_eqb. destruct (Qc_eq_dec a b); intuition congruence. Qed.
Lemma Qc_eqb_ne a b : Qc_eqb a b = false <-> a <> b.
Proof. unfold Qc_eqb. destruct (Qc_eq_dec a b); intuition congruence. Qed.

(** ** Lookup, update *)
Definition names (u : unit_) : list text := map fst u.

Lemma u_get_none u k : u_get u k = None <-> ~ In k (names u).
Proof.
  induction u as [|[k' v] r IH]; cbn; [tauto|]. destruct (text_eqb k' k) eqn:E.
  - apply text_eqb_eq in E. split; [discriminate|]. intros H. exfalso; auto.
  - apply text_eqb_ne in E. rewrite IH. tauto.
Qed.
Lemma u_get_In u k v : u_get u k = Some v -> In (k, v) u.
Proof.
  induction u as [|[k' x] r IH]; cbn; [discriminate|]. destruct (text_eqb k' k) eqn:E; [|auto].
  apply text_eqb_eq in E. intros Q. inversion Q. subst. auto.
Qed.
Lemma u_get_of_In u k v : NoDup (names u) -> In (k, v) u -> u_get u k = Some v.
Proof.
  induction u as [|[k' x] r IH]; cbn; [tauto|]. intros N [Q|Q]; inversion N as [|a b N1 N2]; subst.
  - inversion Q; subst. rewrite text_eqb_refl. reflexivity.
  - destruct (text_eqb k' k) eqn:E; [|auto]. apply text_eqb_eq in E. subst k'. exfalso. apply N1.
    change k with (fst (k, v)). apply in_map. auto.
Qed.
Lemma exponent_absent u k : ~ In k (names u) -> exponent u k = 0%Qc.
Proof.
  induction u as [|[k' x] r IH]; cbn; [reflexivity|]. intros H. destruct (list_eq_dec ascii_dec k' k); [exfalso; auto|]. apply IH. tauto.
Qed.
Lemma exponent_get u k : NoDup (names u) -> exponent u k = match u_get u k with Some v => v | None => 0%Qc end.
Proof.
  intros N. destruct (u_get u k) as [v|] eqn:G; [|apply exponent_absent, u_get_none, G].
  induction u as [|[k' x] r IH]; cbn in *; [discriminate|]. inversion N as [|a b N1 N2]; subst.
  destruct (text_eqb k' k) eqn:E.
  - inversion G; subst. apply text_eqb_eq in E. subst k'. destruct (list_eq_dec ascii_dec k k); [|congruence].
    rewrite (exponent_absent r k N1). ring.
  - apply text_eqb_ne in E. destruct (list_eq_dec ascii_dec k' k); [congruence|]. auto.
Qed.

Lemma names_set u k v : names (u_set u k v) = if in_dec (list_eq_dec ascii_dec) k (names u) then names u else names u ++ [k].
Proof.
  induction u as [|[k' x] r IH]; cbn [u_set]; [reflexivity|]. destruct (text_eqb k' k) eqn:E.
  - apply text_eqb_eq in E. subst k'. destruct (in_dec (list_eq_dec ascii_dec) k (names ((k, x) :: r))) as [H|H]; [reflexivity|]. exfalso; apply H; left; reflexivity.
  - apply text_eqb_ne in E. change (names ((k', x) :: u_set r k v)) with (k' :: names (u_set r k v)). rewrite IH.
    destruct (in_dec (list_eq_dec ascii_dec) k (names r)) as [H|H]; destruct (in_dec (list_eq_dec ascii_dec) k (names ((k', x) :: r))) as [H'|H']; cbn in *; try reflexivity.
    + exfalso; auto.
    + exfalso. destruct H'; auto.
Qed.
Lemma NoDup_snoc {A} (l : list A) x : NoDup l -> ~ In x l -> NoDup (l ++ [x]).
Proof.
  intros N H. apply (Permutation_NoDup (l := x :: l)); [apply Permutation_cons_append|]. constructor; auto.
Qed.
Lemma NoDup_set u k v : NoDup (names u) -> NoDup (names (u_set u k v)).
Proof. intros N. rewrite names_set. destruct (in_dec (list_eq_dec ascii_dec) k (names u)); auto. apply NoDup_snoc; auto. Qed.
Lemma names_del u k x : In x (names (u_del u k)) -> In x (names u).
Proof. induction u as [|[k' v] r IH]; cbn; [auto|]. destruct (text_eqb k' k); cbn; tauto. Qed.
Lemma NoDup_del u k : NoDup (names u) -> NoDup (names (u_del u k)).
Proof.
  induction u as [|[k' v] r IH]; cbn; [auto|]. intros N. inversion N as [|a b N1 N2]; subst. destruct (text_eqb k' k); [auto|].
  cbn. constructor; [|auto]. intros H. apply N1. apply (names_del _ _ _ H).
Qed.

Lemma exponent_set u k v j : NoDup (names u) ->
  exponent (u_set u k v) j = if list_eq_dec ascii_dec k j then v else exponent u j.
Proof.
  induction u as [|[k' x] r IH]; cbn; intros N.
  - destruct (list_eq_dec ascii_dec k j); ring.
  - inversion N as [|a b N1 N2]; subst. destruct (text_eqb k' k) eqn:E; cbn.
    + apply text_eqb_eq in E. subst k'. destruct (list_eq_dec ascii_dec k j) as [e|e]; [subst j|reflexivity].
      rewrite (exponent_absent r k N1). ring.
    + apply text_eqb_ne in E. rewrite IH by auto. destruct (list_eq_dec ascii_dec k' j), (list_eq_dec ascii_dec k j); try reflexivity. congruence.
Qed.
Lemma exponent_del u k j : NoDup (names u) ->
  exponent (u_del u k) j = if list_eq_dec ascii_dec k j then 0%Qc else exponent u j.
Proof.
  induction u as [|[k' x] r IH]; cbn; intros N.
  - destruct (list_eq_dec ascii_dec k j); ring.
  - inversion N as [|a b N1 N2]; subst. destruct (text_eqb k' k) eqn:E; cbn.
    + apply text_eqb_eq in E. subst k'. destruct (list_eq_dec ascii_dec k j) as [e|e]; [subst j|reflexivity].
      apply exponent_absent; auto.
    + apply text_eqb_ne in E. rewrite IH by auto. destruct (list_eq_dec ascii_dec k' j), (list_eq_dec ascii_dec k j); try reflexivity. congruence.
Qed.

Definition nonzero (u : unit_) : Prop := Forall (fun kv => snd kv <> 0%Qc) u.
Lemma nonzero_set u k v : nonzero u -> v <> 0%Qc -> nonzero (u_set u k v).
Proof.
  intros H V. induction u as [|[k' x] r IH]; cbn; [repeat constructor; auto|]. inversion H; subst.
  destruct (text_eqb k' k); constructor; auto. apply IH; auto.
Qed.
Lemma nonzero_del u k : nonzero u -> nonzero (u_del u k).
Proof. intros H. induction u as [|[k' x] r IH]; cbn; [auto|]. inversion H; subst. destruct (text_eqb k' k); [auto|]. constructor; auto. apply IH; auto. Qed.

(** ** One factor *)
Definition delta (k : text) (v : Qc) (j : text) : Qc := if list_eq_dec ascii_dec k j then v else 0%Qc.

Lemma mul1_names u k v : NoDup (names u) -> NoDup (names (mul1 u k v)).
Proof. intros N. unfold mul1. destruct (u_get u k); [destruct (Qc_eqb _ _)|]; auto using NoDup_set, NoDup_del. Qed.
Lemma mul1_exponent u k v j : NoDup (names u) -> exponent (mul1 u k v) j = (exponent u j + delta k v j)%Qc.
Proof.
  intros N. unfold mul1, delta. destruct (u_get u k) as [x|] eqn:G.
  - destruct (Qc_eqb x (- v)) eqn:E.
    + apply Qc_eqb_eq in E. rewrite exponent_del by auto. destruct (list_eq_dec ascii_dec k j) as [e|e]; [subst j|ring].
      rewrite exponent_get, G, E by auto. ring.
    + rewrite exponent_set by auto. destruct (list_eq_dec ascii_dec k j) as [e|e]; [subst j|ring].
      rewrite exponent_get, G by auto. ring.
  - rewrite exponent_set by auto. destruct (list_eq_dec ascii_dec k j) as [e|e]; [subst j|ring].
    rewrite exponent_get, G by auto. ring.
Qed.
Lemma mul1_nonzero u k v : nonzero u -> v <> 0%Qc -> nonzero (mul1 u k v).
Proof.
  intros H V. unfold mul1. destruct (u_get u k) as [x|] eqn:G; [|apply nonzero_set; auto].
  destruct (Qc_eqb x (- v)) eqn:E; [apply nonzero_del; auto|]. apply nonzero_set; auto.
  apply Qc_eqb_ne in E. intros Q. apply E. rewrite <- (Qcplus_0_l (- v)), <- Q. ring.
Qed.

Lemma div1_mul1 u k v : div1 u k v = mul1 u k (- v).
Proof. unfold div1, mul1. destruct (u_get u k) as [x|]; [|reflexivity]. rewrite Qcopp_involutive. reflexivity. Qed.

(** ** Products *)
Lemma multiply_names u v : NoDup (names u) -> NoDup (names (multiply_unit u v)).
Proof. unfold multiply_unit. revert u. induction v as [|kv r IH]; intros u N; cbn; [auto|]. apply IH, mul1_names, N. Qed.
Lemma multiply_exponent u v j : NoDup (names u) -> exponent (multiply_unit u v) j = (exponent u j + exponent v j)%Qc.
Proof.
  unfold multiply_unit. revert u. induction v as [|[k x] r IH]; intros u N; cbn; [ring|].
  rewrite IH by (apply mul1_names, N). rewrite mul1_exponent by auto. unfold delta. destruct (list_eq_dec ascii_dec k j); ring.
Qed.
Lemma multiply_nonzero u v : nonzero u -> nonzero v -> nonzero (multiply_unit u v).
Proof.
  unfold multiply_unit. revert u. induction v as [|[k x] r IH]; intros u H V; cbn; [auto|]. inversion V; subst. apply IH; auto. apply mul1_nonzero; auto.
Qed.

Definition negated (u : unit_) : unit_ := map (fun kv => (fst kv, (- snd kv)%Qc)) u.
Lemma divide_multiply u v : divide_unit u v = multiply_unit u (negated v).
Proof.
  unfold divide_unit, multiply_unit, negated. revert u. induction v as [|[k x] r IH]; intros u; cbn; [reflexivity|].
  rewrite IH, div1_mul1. reflexivity.
Qed.
Lemma exponent_map u f j : (forall a b, f (a + b)%Qc = (f a + f b)%Qc) -> f 0%Qc = 0%Qc ->
  exponent (map (fun kv => (fst kv, f (snd kv))) u) j = f (exponent u j).
Proof.
  intros A Z. induction u as [|[k x] r IH]; cbn [exponent map fst snd]; [auto|]. destruct (list_eq_dec ascii_dec k j); [|auto]. rewrite A, IH. reflexivity.
Qed.
Lemma names_map u f : names (map (fun kv => (fst kv, f (snd kv))) u) = names u.
Proof. unfold names. rewrite map_map. reflexivity. Qed.
Lemma exponent_negated u j : exponent (negated u) j = (- exponent u j)%Qc.
Proof. apply (exponent_map u Qcopp); [intros; ring|reflexivity]. Qed.
Lemma nonzero_negated u : nonzero u -> nonzero (negated u).
Proof.
  intros H. unfold nonzero, negated. apply Forall_map. eapply Forall_impl; [|exact H]. intros [k x] Hx. cbn in *. intros Q. apply Hx.
  rewrite <- (Qcopp_involutive x), Q. reflexivity.
Qed.
Lemma divide_exponent u v j : NoDup (names u) -> exponent (divide_unit u v) j = (exponent u j - exponent v j)%Qc.
Proof. intros N. rewrite divide_multiply, multiply_exponent, exponent_negated by auto. ring. Qed.

Lemma power_exponent u p j : exponent (power_unit u p) j = (p * exponent u j)%Qc.
Proof.
  unfold power_unit. destruct (Nat.eqb (length u) 0) eqn:L; cbn.
  - apply Nat.eqb_eq in L. destruct u; [cbn; ring|discriminate].
  - destruct (Qc_eqb p 0) eqn:E; cbn [exponent].
    + apply Qc_eqb_eq in E. subst p. ring.
    + rewrite (exponent_map u (fun e => (e * p)%Qc)); [ring|intros; ring|ring].
Qed.
Lemma power_names u p : NoDup (names u) -> NoDup (names (power_unit u p)).
Proof.
  intros N. unfold power_unit. destruct (_ || _); [constructor|]. rewrite (names_map u (fun e => (e * p)%Qc)). auto.
Qed.
Lemma power_nonzero u p : nonzero u -> nonzero (power_unit u p).
Proof.
  intros H. unfold power_unit. destruct (Nat.eqb (length u) 0); cbn; [constructor|]. destruct (Qc_eqb p 0) eqn:E; [constructor|].
  apply Qc_eqb_ne in E. unfold nonzero. apply Forall_map. eapply Forall_impl; [|exact H]. intros [k x] Hx. cbn in *. intros Q.
  apply Qcmult_integral in Q. tauto.
Qed.

Lemma canonical_multiply u v : canonical u -> canonical v -> canonical (multiply_unit u v).
Proof. intros [a b] [c d]. split; [apply multiply_names; auto|apply multiply_nonzero; auto]. Qed.
Lemma canonical_divide u v : canonical u -> canonical v -> canonical (divide_unit u v).
Proof.
  intros [a b] [c d]. rewrite divide_multiply. split; [apply multiply_names; auto|apply multiply_nonzero; auto]. apply nonzero_negated; auto.
Qed.
Lemma canonical_power u p : canonical u -> canonical (power_unit u p).
Proof. intros [a b]. split; [apply power_names; auto|apply power_nonzero; auto]. Qed.

(** ** Equality *)
Lemma dict_eqb_same u v : NoDup (names u) -> NoDup (names v) -> (dict_eqb u v = true <-> same_items u v).
Proof.
  intros Nu Nv. unfold dict_eqb. rewrite andb_true_iff, Nat.eqb_eq, forallb_forall. split.
  - intros [L F].
    assert (I : incl u v).
    { intros [k x] H. specialize (F _ H). cbn in F. destruct (u_get v k) as [y|] eqn:G; [|discriminate]. apply Qc_eqb_eq in F. subst y. apply u_get_In; auto. }
    intros kv. split; [apply I|].
    apply (NoDup_length_incl (NoDup_map_inv fst u Nu)); [lia|exact I].
  - intros S. split.
    + apply Permutation_length. apply NoDup_Permutation; [apply (NoDup_map_inv fst), Nu|apply (NoDup_map_inv fst), Nv|exact S].
    + intros [k x] H. cbn. rewrite (u_get_of_In v k x Nv); [|apply S; auto]. apply Qc_eqb_eq. reflexivity.
Qed.

Lemma same_items_exponent u v : NoDup (names u) -> NoDup (names v) -> same_items u v -> forall k, exponent u k = exponent v k.
Proof.
  intros Nu Nv S k. rewrite !exponent_get by auto.
  destruct (u_get u k) as [x|] eqn:G.
  - apply u_get_In in G. apply S in G. rewrite (u_get_of_In v k x Nv G). reflexivity.
  - destruct (u_get v k) as [y|] eqn:G'; [|reflexivity]. apply u_get_In in G'. apply S in G'.
    rewrite (u_get_of_In u k y Nu G') in G. discriminate.
Qed.

Lemma canonical_same u v : canonical u -> canonical v -> (forall k, exponent u k = exponent v k) -> same_items u v.
Proof.
  assert (H : forall u v, canonical u -> canonical v -> (forall k, exponent u k = exponent v k) -> forall kv, In kv u -> In kv v).
  { clear. intros u v [Nu Zu] [Nv Zv] E [k x] I. specialize (E k). rewrite !exponent_get in E by auto.
    rewrite (u_get_of_In u k x Nu I) in E. unfold nonzero in Zu. rewrite Forall_forall in Zu. specialize (Zu _ I). cbn in Zu.
    destruct (u_get v k) as [y|] eqn:G; [|congruence]. subst y. apply u_get_In; auto. }
  intros Cu Cv E kv. split; [apply H; auto|apply H; auto].
Qed.

Lemma canonical_eqb u v : canonical u -> canonical v -> ((forall k, exponent u k = exponent v k) <-> dict_eqb u v = true).
Proof.
  intros Cu Cv. rewrite dict_eqb_same by (apply Cu || apply Cv). split.
  - apply canonical_same; auto.
  - apply same_items_exponent; [apply Cu|apply Cv].
Qed.
