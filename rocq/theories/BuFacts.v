(** Lemmas on broadcasting and on conversions with derived units that are arrays. *)
From Coq Require Import String Ascii QArith Qcanon Lia.
From Verif Require Import Base BaseFacts TemplateModel UnitModel UnitSpec UnitFacts UnitSIFacts BuModel.
Open Scope nat_scope.

(** *** Specification: indices, alignment of a derived unit with an array *)
Definition inside (sh idx : list Z) : Prop := Forall2 (fun n i => (0 <= i < n)%Z) sh idx.
(** Leftward: the shape of the derived unit ends that of the array; rightward: it starts it. *)
Definition fits (d : dir) (s sh : list Z) : Prop :=
  match d with Leftward => exists r, sh = r ++ s | Rightward => exists r, sh = s ++ r end.
(** The index of the derived unit that belongs to an index of the array. *)
Definition part (d : dir) (s idx : list Z) : list Z :=
  match d with Leftward => skipn (length idx - length s) idx | Rightward => firstn (length s) idx end.
Definition entry_at {K} (idx : list Z) (e : du_key * dir * option (nquantity K)) : du_key * option (@quantity K) :=
  (fst (fst e), match snd e with
                | None => None
                | Some (x, u) => Some (nval x (part (snd (fst e)) (nsh x) idx), u)
                end).
(** The table of the scalar derived units of one element. *)
Definition table_at {K} (idx : list Z) (t : nd_table K) : @du_table K := map (entry_at idx) t.

(** *** Lists *)
Lemma inside_length sh idx : inside sh idx -> length idx = length sh.
Proof. induction 1; cbn; congruence. Qed.
Lemma inside_firstn n : forall sh idx, inside sh idx -> inside (firstn n sh) (firstn n idx).
Proof. induction n; intros sh idx H; [constructor|]. destruct H; cbn; constructor; auto. now apply IHn. Qed.
Lemma inside_rev sh idx : inside sh idx -> inside (rev sh) (rev idx).
Proof.
  induction 1 as [|n i sh idx H HF IH]; [constructor|]. cbn. apply Forall2_app; [exact IH|]. repeat constructor; lia.
Qed.
Lemma inside_app a b i : inside (a ++ b) i -> inside a (firstn (length a) i) /\ inside b (skipn (length a) i).
Proof.
  revert i. induction a as [|x a IH]; intros i H; cbn in *; [split; [constructor|exact H]|].
  inversion H; subst. destruct (IH _ H4). cbn. split; [constructor|]; auto.
Qed.
Lemma clamp_inside s : forall i, inside s i -> clamp s i = i.
Proof.
  induction s as [|d s IH]; intros i H; inversion H; subst; [reflexivity|]. cbn [clamp].
  rewrite IH by auto. destruct (Z.eqb_spec d 1); [|reflexivity]. f_equal. lia.
Qed.
Lemma clamp_firstn m : forall s i, length s <= m -> clamp s (firstn m i) = clamp s i.
Proof.
  induction m; intros s i H; [destruct s; [reflexivity|cbn in H; lia]|].
  destruct s as [|d s]; [destruct (firstn (S m) i), i; reflexivity|]. destruct i as [|x i]; [reflexivity|].
  cbn. rewrite IHm by (cbn in H; lia). reflexivity.
Qed.
Lemma clamp_prefix n sh i : inside sh i -> clamp (firstn n sh) i = firstn n i.
Proof.
  intros H. rewrite <- (clamp_firstn n) by (rewrite firstn_length; lia). apply clamp_inside, inside_firstn, H.
Qed.
Lemma bcast_prefix : forall l i j, bcast (firstn i l) (firstn j l) = Ok (firstn (Nat.max i j) l).
Proof.
  induction l as [|x l IH]; intros i j; [now rewrite !firstn_nil|].
  destruct i as [|i]; [reflexivity|]. destruct j as [|j]; [reflexivity|].
  cbn [firstn bcast Nat.max]. rewrite IH. cbn. now rewrite Z.eqb_refl.
Qed.

(** The last [i] axes. *)
Definition sfx (i : nat) (sh : list Z) : list Z := rev (firstn i (rev sh)).
Lemma bshape_sfx sh i j : bshape (sfx i sh) (sfx j sh) = Ok (sfx (Nat.max i j) sh).
Proof. unfold bshape, sfx. rewrite !rev_involutive, bcast_prefix. reflexivity. Qed.
Lemma sfx_rev i sh : sfx i (rev sh) = rev (firstn i sh).
Proof. unfold sfx. now rewrite rev_involutive. Qed.
Lemma sfx_all sh i : length sh <= i -> sfx i sh = sh.
Proof. intros H. unfold sfx. rewrite firstn_all2 by (rewrite rev_length; lia). apply rev_involutive. Qed.
Lemma sfx_skipn i sh : sfx i sh = skipn (length sh - i) sh.
Proof.
  unfold sfx. rewrite firstn_rev, rev_involutive. reflexivity.
Qed.
Lemma fits_left s sh : fits Leftward s sh -> s = sfx (length s) sh.
Proof.
  intros [r ->]. unfold sfx. rewrite rev_app_distr, <- (rev_length s), firstn_app, Nat.sub_diag, firstn_all.
  cbn. rewrite app_nil_r. symmetry. apply rev_involutive.
Qed.
Lemma fits_right s sh : fits Rightward s sh -> s = firstn (length s) sh.
Proof. intros [r ->]. rewrite firstn_app, Nat.sub_diag, firstn_all. cbn. now rewrite app_nil_r. Qed.
Lemma fits_nil d sh : fits d [] sh.
Proof. destruct d; [exists sh; now rewrite app_nil_r|exists sh; reflexivity]. Qed.
Lemma part_nil d idx : part d [] idx = [].
Proof. destruct d; cbn; [rewrite Nat.sub_0_r; apply skipn_all|reflexivity]. Qed.
Lemma inside_part d s sh idx : fits d s sh -> inside sh idx -> inside s (part d s idx).
Proof.
  destruct d; intros [r ->] H; apply inside_app in H as H'; apply inside_length in H; rewrite app_length in H.
  - cbn. replace (length idx - length s) with (length r) by lia. apply H'.
  - apply H'.
Qed.

Section Facts.
Context {K : Type} {o : mag_ops K} (L : mag_laws o).
Notation "a ** b" := (mmul o a b) (at level 40).

Definition elemT (x : nd K) (idx : list Z) : K := elem (transpose x) (rev idx).
Lemma elem_TT (x : nd K) idx : elem (transpose (transpose x)) idx = elem x idx.
Proof. unfold elem, transpose. cbn. now rewrite !rev_involutive. Qed.
Lemma elemT_prefix (x : nd K) sh i idx : nsh x = firstn i sh -> inside sh idx -> elemT x idx = nval x (firstn i idx).
Proof.
  intros E H. unfold elemT, elem, transpose. cbn. rewrite !rev_involutive, E, (clamp_prefix i sh idx H). reflexivity.
Qed.
Lemma elem_sfx (x : nd K) sh i idx : nsh x = sfx i sh -> inside sh idx -> elem x idx = nval x (sfx i idx).
Proof.
  intros E H. unfold elem. rewrite E. unfold sfx. rewrite rev_involutive, clamp_prefix by apply inside_rev, H. reflexivity.
Qed.
Lemma elem_full (x : nd K) idx : inside (nsh x) idx -> elem x idx = nval x idx.
Proof.
  intros H. rewrite (elem_sfx x (nsh x) (length (nsh x))); auto; [|symmetry; apply sfx_all; lia].
  rewrite sfx_all; [reflexivity|]. rewrite (inside_length _ _ H). lia.
Qed.
Lemma elemT_full (x : nd K) idx : inside (nsh x) idx -> elemT x idx = nval x idx.
Proof.
  intros H. rewrite (elemT_prefix x (nsh x) (length (nsh x))); auto; [|symmetry; apply firstn_all].
  rewrite firstn_all2; [reflexivity|]. rewrite (inside_length _ _ H). lia.
Qed.
Lemma elem_left (x : nd K) sh idx : fits Leftward (nsh x) sh -> inside sh idx -> elem x idx = nval x (part Leftward (nsh x) idx).
Proof.
  intros F H. rewrite (elem_sfx x sh (length (nsh x))); auto using fits_left. cbn [part].
  now rewrite sfx_skipn.
Qed.
Lemma elemT_right (x : nd K) sh idx : fits Rightward (nsh x) sh -> inside sh idx -> elemT x idx = nval x (part Rightward (nsh x) idx).
Proof. intros F H. rewrite (elemT_prefix x sh (length (nsh x))); auto using fits_right. Qed.

Lemma nmul_sfx sh idx (x y : nd K) i j : inside sh idx -> nsh x = sfx i sh -> nsh y = sfx j sh ->
  exists z, nmul o x y = Ok z /\ nsh z = sfx (Nat.max i j) sh /\ elem z idx = elem x idx ** elem y idx.
Proof.
  intros H Ex Ey. unfold nmul. rewrite Ex, Ey, bshape_sfx. cbn. eexists. split; [reflexivity|]. split; [reflexivity|].
  unfold elem at 1. cbn [nsh nval]. unfold sfx. rewrite rev_involutive, clamp_prefix by apply inside_rev, H.
  assert (forall w : nd K, forall k, nsh w = sfx k sh -> k <= Nat.max i j -> elem w (rev (firstn (Nat.max i j) (rev idx))) = elem w idx) as A.
  { intros w k E Hk. unfold elem. rewrite E. unfold sfx. rewrite !rev_involutive.
    rewrite clamp_firstn; [reflexivity|]. rewrite firstn_length. lia. }
  rewrite (A x i), (A y j); auto; lia.
Qed.
Lemma tmul_prefix sh idx (x y : nd K) i j : inside sh idx -> nsh x = firstn i sh -> nsh y = firstn j sh ->
  exists z, tmul o x y = Ok z /\ nsh z = firstn (Nat.max i j) sh /\ elemT z idx = elemT x idx ** elemT y idx.
Proof.
  intros H Ex Ey. destruct (nmul_sfx (rev sh) (rev idx) (transpose x) (transpose y) i j) as (z & Ez & Sz & Vz).
  - apply inside_rev, H.
  - cbn. now rewrite Ex, sfx_rev.
  - cbn. now rewrite Ey, sfx_rev.
  - exists (transpose z). unfold tmul. rewrite Ez. split; [reflexivity|]. split.
    + cbn. rewrite Sz, sfx_rev. apply rev_involutive.
    + unfold elemT at 1. rewrite elem_TT. exact Vz.
Qed.

(** *** Tables *)
Lemma find_at idx (t : nd_table K) k : du_find (table_at idx t) k =
  match nd_find t k with
  | None => None
  | Some None => Some None
  | Some (Some (x, u, d)) => Some (Some (nval x (part d (nsh x) idx), u))
  end.
Proof.
  induction t as [|[[k' d] q] t IH]; [reflexivity|]. cbn [table_at map entry_at fst snd du_find nd_find].
  destruct (du_key_eqb k' k); [|exact IH]. destruct q as [[x u]|]; reflexivity.
Qed.
Definition at_index (idx : list Z) (f : option (nquantity K * dir)) : option (@quantity K) :=
  match f with None => None | Some (x, u, d) => Some (nval x (part d (nsh x) idx), u) end.
Lemma check_at idx (t : nd_table K) k v : check_du o (table_at idx t) k v = at_index idx (ncheck_du o t k v).
Proof.
  unfold check_du, ncheck_du. destruct t as [|e t]; [reflexivity|]. cbn [table_at map]. change (entry_at idx e :: map (entry_at idx) t) with (table_at idx (e :: t)).
  rewrite !find_at. destruct (nd_find (e :: t) (k, Some v)) as [[[[x u] d]|]|]; [reflexivity|reflexivity|].
  destruct (nd_find (e :: t) (k, Some (- v)%Qc)) as [[[[x u] d]|]|]; [reflexivity|reflexivity|].
  destruct (nd_find (e :: t) (k, None)) as [[[[x u] d]|]|]; [|reflexivity|reflexivity].
  destruct (Qc_eqb v 1); [reflexivity|]. destruct (Qc_eqb v (- (1))); reflexivity.
Qed.
Lemma nd_find_In (t : nd_table K) k x d : nd_find t k = Some (Some (x, d)) -> In (k, d, Some x) t.
Proof.
  induction t as [|[[k' d'] q] t IH]; [discriminate|]. cbn. destruct (du_key_eqb k' k) eqn:E.
  - apply du_key_eqb_eq in E. subst. destruct q as [y|]; [|discriminate]. intros H; inversion H; subst. now left.
  - intros H. right. auto.
Qed.
Lemma ncheck_In (t : nd_table K) k v x u d : ncheck_du o t k v = Some (x, u, d) ->
  exists p y w, In ((k, p), d, Some (y, w)) t /\ nsh x = nsh y /\ incl (names u) (names w) /\ (canonical w -> canonical u).
Proof.
  unfold ncheck_du. destruct t as [|e t]; [discriminate|]. set (T := e :: t).
  assert (C0 : canonical []) by (split; constructor).
  destruct (nd_find T (k, Some v)) as [r|] eqn:F1.
  { intros ->. apply nd_find_In in F1. exists (Some v), x, u. repeat split; auto using incl_refl; apply H. }
  destruct (nd_find T (k, Some (- v)%Qc)) as [[[[y w] d']|]|] eqn:F2; [|discriminate|].
  { intros H; inversion H; subst. apply nd_find_In in F2. exists (Some (- v)%Qc), y, w. split; [exact F2|]. split; [reflexivity|].
    split; [exact (inv_sub (o := o) (m1 o, w))|]. apply canonical_divide, C0. }
  destruct (nd_find T (k, None)) as [[[[y w] d']|]|] eqn:F3; [|discriminate|discriminate].
  apply nd_find_In in F3. destruct (Qc_eqb v 1).
  { intros H; inversion H; subst. exists None, x, u. repeat split; auto using incl_refl; apply H0. }
  destruct (Qc_eqb v (- (1))); intros H; inversion H; subst; exists None, y, w; (split; [exact F3|]); (split; [reflexivity|]).
  - split; [exact (inv_sub (o := o) (m1 o, w))|]. apply canonical_divide, C0.
  - split; [exact (pow_sub (o := o) (m1 o, w) v)|]. apply canonical_power.
Qed.

(** *** SI *)
Definition scalar_factor (l g : @du_table K) k v : option (@quantity K) :=
  match check_du o l k v with Some x => Some x | None => check_du o g k v end.
Lemma si_step_factor n l g a k v : si_step (o := o) n l g (Ok a) (k, v) =
  match scalar_factor l g k v with
  | Some d => do d' <- si o n l g d; Ok (q_mul o a d')
  | None => Ok (fst a, mul1 (snd a) k v)
  end.
Proof.
  unfold si_step, scalar_factor. cbn. destruct (check_du o l k v); [reflexivity|]. destruct (check_du o g k v); reflexivity.
Qed.
Lemma step_err f loc glob u e : fold_left (step o f loc glob) u (Err e) = Err e.
Proof. induction u; [reflexivity|]. cbn. exact IHu. Qed.

Variables (loc glob : nd_table K) (l g : @du_table K) (Sc : text -> Prop).
(** Names of [P]: same scalars at the index [idx] of arrays of shape [sh]. *)
Definition agree (P : text -> Prop) (sh idx : list Z) : Prop := forall k v, P k ->
  scalar_factor l g k v = at_index idx (new_factor o loc glob k v) /\
  forall x u d, new_factor o loc glob k v = Some (x, u, d) -> fits d (nsh x) sh /\ Forall (fun kv => Sc (fst kv)) u.
Hypothesis scalars : forall k v, Sc k -> scalar_factor l g k v = at_index [] (new_factor o loc glob k v) /\
  forall x u d, new_factor o loc glob k v = Some (x, u, d) -> nsh x = [] /\ Forall (fun kv => Sc (fst kv)) u.

Lemma agree_scalars sh idx : agree Sc sh idx.
Proof.
  intros k v HS. destruct (scalars k v HS) as [E F]. split.
  - rewrite E. destruct (new_factor o loc glob k v) as [[[x u] d]|]; [|reflexivity].
    destruct (F x u d eq_refl) as [N _]. cbn. now rewrite N, !part_nil.
  - intros x u d H. destruct (F x u d H) as [N FS]. rewrite N. split; [apply fits_nil|exact FS].
Qed.

(** Derived units of [P] without axes, or those that are leftward. *)
Definition left_scalar (P : text -> Prop) : Prop := forall k v x u, P k -> new_factor o loc glob k v = Some (x, u, Leftward) -> nsh x = [].
Definition all_or_none (P : text -> Prop) (sh : list Z) : Prop := forall k v x u d, P k -> new_factor o loc glob k v = Some (x, u, d) -> nsh x = [] \/ nsh x = sh.

Lemma swap_l a b c : (a ** b) ** c = (a ** c) ** b.
Proof. rewrite <- !(ml_assoc _ L). f_equal. apply (ml_comm _ L). Qed.

Lemma nsi_at n : forall P sh idx, inside sh idx -> agree P sh idx -> forall x (u : unit_),
  Forall (fun kv => P (fst kv)) u -> nsh x = sh \/ (nsh x = [] /\ left_scalar P) ->
  match nsi o n loc glob (x, u) with
  | Ok (r, w) => (exists i, nsh r = firstn i sh) /\ (nsh x = sh -> nsh r = sh) /\
      (all_or_none P sh -> nsh r = [] \/ nsh r = sh) /\
      exists w', si o n l g (elemT x idx, u) = Ok (elemT r idx, w') /\ forall j, exponent w j = exponent w' j
  | Err e => si o n l g (elemT x idx, u) = Err e
  end.
Proof.
  induction n as [|n IH]; intros P sh idx Hi HA x u HP Hx; [reflexivity|].
  destruct u as [|kv0 u0].
  { cbn. split; [|split; [auto|split; [intros _; destruct Hx as [->|[-> _]]; auto|eexists; split; reflexivity]]].
    destruct Hx as [->|[-> _]]; [exists (length sh); symmetry; apply firstn_all|now exists 0]. }
  set (u := kv0 :: u0 : unit_). change (kv0 :: u0) with u in HP. change (match nsi o (S n) loc glob (x, u) with | Ok (r, w) => (exists i, nsh r = firstn i sh) /\ (nsh x = sh -> nsh r = sh) /\ (all_or_none P sh -> nsh r = [] \/ nsh r = sh) /\ exists w', si o (S n) l g (elemT x idx, u) = Ok (elemT r idx, w') /\ forall j, exponent w j = exponent w' j | Err e => si o (S n) l g (elemT x idx, u) = Err e end).
  set (b0 := (m1 o, []) : @quantity K).
  assert (SU : si o (S n) l g (elemT x idx, u) =
    do f <- fold_left (si_step (o := o) n l g) u (Ok b0); Ok (elemT x idx ** fst f, snd f)) by apply si_unfold.
  rewrite SU. cbn [nsi snd fst]. unfold u at 1. change (match kv0 :: u0 with [] => _ | _ => ?b end) with b.
  cbv iota. fold u.
  (* the two loops *)
  set (inv := fun (a : nquantity K * nquantity K) (b : @quantity K) =>
    exists i j, nsh (fst (fst a)) = sfx i sh /\ nsh (fst (snd a)) = firstn j sh /\
      (left_scalar P -> nsh (fst (fst a)) = []) /\
      (all_or_none P sh -> (nsh (fst (fst a)) = [] \/ nsh (fst (fst a)) = sh) /\ (nsh (fst (snd a)) = [] \/ nsh (fst (snd a)) = sh)) /\
      elem (fst (fst a)) idx ** elemT (fst (snd a)) idx = fst b /\
      NoDup (names (snd (fst a))) /\ NoDup (names (snd (snd a))) /\ NoDup (names (snd b)) /\
      forall j, (exponent (snd (fst a)) j + exponent (snd (snd a)) j)%Qc = exponent (snd b) j).
  assert (Loop : forall v, Forall (fun kv => P (fst kv)) v -> forall a b, inv a b ->
     match fold_left (step o (nsi o n loc glob) loc glob) v (Ok a) with
     | Ok a' => exists b', fold_left (si_step (o := o) n l g) v (Ok b) = Ok b' /\ inv a' b'
     | Err e => fold_left (si_step (o := o) n l g) v (Ok b) = Err e
     end).
  { clear HP SU u x Hx kv0 u0. induction v as [|[k e] v IHv]; intros HP a b I; [exists b; split; [reflexivity|exact I]|].
    inversion HP as [|? ? Pk HPv]; subst. cbn [fst] in Pk. cbn [fold_left]. rewrite si_step_factor.
    destruct (HA k e Pk) as [Ef Hf]. rewrite Ef. clear Ef.
    destruct a as [[sx su] [fx fu]]. destruct I as (i & j & S1 & S2 & S3 & S4 & V & N1 & N2 & N3 & E). cbn [fst snd] in *.
    unfold step at 2. cbn [bind fst snd].
    destruct (new_factor o loc glob k e) as [[[d du] dr]|] eqn:EF.
    - destruct (Hf d du dr eq_refl) as [Fd Sd]. cbn [at_index].
      pose proof (inside_part dr (nsh d) sh idx Fd Hi) as Hp.
      pose proof (IH Sc (nsh d) _ Hp (agree_scalars _ _) d du Sd (or_introl eq_refl)) as IHd.
      rewrite (elemT_full d _ Hp) in IHd.
      revert IHd. destruct (nsi o n loc glob (d, du)) as [[r w]|e']; intros IHd.
      + destruct IHd as (_ & Sr & _ & w' & ES & EX). specialize (Sr eq_refl). rewrite ES. cbn [bind fst snd].
        rewrite (elemT_full r) in * by (rewrite Sr; exact Hp).
        destruct dr.
        * (* leftward *)
          cbn [bind fst snd].
          destruct (nmul_sfx sh idx sx r i (length (nsh d)) Hi S1) as (z & Ez & Sz & Vz); [rewrite Sr; now apply fits_left|].
          rewrite Ez. cbn [bind]. apply IHv; [exact HPv|]. exists (Nat.max i (length (nsh d))), j. cbn [fst snd].
          split; [exact Sz|]. split; [exact S2|]. split.
          { intros LS. specialize (LS k e d du Pk EF) as LD. rewrite Sz, LD. cbn [length]. rewrite Nat.max_0_r, <- S1. apply S3, LS. }
          split.
          { intros AN. destruct (S4 AN) as [A1 A2]. split; [|exact A2]. rewrite Sz.
            destruct (Nat.max_spec i (length (nsh d))) as [[_ ->]|[_ ->]]; [|now rewrite <- S1].
            rewrite <- (fits_left _ _ Fd). exact (AN k e d du _ Pk EF). }
          unfold q_mul. cbn [fst snd]. split.
          { rewrite Vz. rewrite (elem_left r sh idx) by (rewrite ?Sr; auto). rewrite Sr, <- V. apply swap_l. }
          split; [now apply multiply_names|]. split; [exact N2|]. split; [now apply multiply_names|].
          intros m. rewrite !multiply_exponent, <- E, <- EX by auto. ring.
        * (* rightward *)
          cbn [bind fst snd].
          destruct (tmul_prefix sh idx fx r j (length (nsh d)) Hi S2) as (z & Ez & Sz & Vz); [rewrite Sr; now apply fits_right|].
          rewrite Ez. cbn [bind]. apply IHv; [exact HPv|]. exists i, (Nat.max j (length (nsh d))). cbn [fst snd].
          split; [exact S1|]. split; [exact Sz|]. split; [exact S3|]. split.
          { intros AN. destruct (S4 AN) as [A1 A2]. split; [exact A1|]. rewrite Sz.
            destruct (Nat.max_spec j (length (nsh d))) as [[_ ->]|[_ ->]]; [|now rewrite <- S2].
            rewrite <- (fits_right _ _ Fd). exact (AN k e d du _ Pk EF). }
          unfold q_mul. cbn [fst snd]. split.
          { rewrite Vz. rewrite (elemT_right r sh idx) by (rewrite ?Sr; auto). rewrite Sr, <- V. now rewrite (ml_assoc _ L). }
          split; [exact N1|]. split; [now apply multiply_names|]. split; [now apply multiply_names|].
          intros m. rewrite !multiply_exponent, <- E, <- EX by auto. ring.
      + rewrite IHd. cbn [bind]. destruct dr; cbn [bind]; rewrite step_err; apply si_step_err.
    - cbn [at_index]. apply IHv; [exact HPv|]. exists i, j. cbn [fst snd].
      repeat (split; [assumption|]). split; [now apply mul1_names|]. split; [exact N2|]. split; [now apply mul1_names|].
      intros m. rewrite !mul1_exponent, <- E by auto. ring. }
  specialize (Loop u HP ((scalar (m1 o), []), (scalar (m1 o), [])) b0).
  assert (I0 : inv (scalar (m1 o), [], (scalar (m1 o), [])) b0).
  { exists 0, 0. cbn. repeat split; auto using NoDup_nil; try apply (ml_one _ L); try (intros; ring). }
  specialize (Loop I0).
  destruct (fold_left (step o (nsi o n loc glob) loc glob) u _) as [[[sx su] [fx fu]]|e]; [|rewrite Loop; reflexivity].
  destruct Loop as (b & EB & i & j & S1 & S2 & S3 & S4 & V & N1 & N2 & N3 & E). rewrite EB. cbn [bind fst snd] in *.
  assert (A : exists r, nmul o x sx = Ok r /\ (exists k, nsh r = firstn k sh /\ (k = 0 \/ k = length sh)) /\ (nsh x = sh -> nsh r = sh) /\
                elemT r idx = elemT x idx ** elem sx idx).
  { destruct Hx as [Hx|[Hx HL]].
    - destruct (nmul_sfx sh idx x sx (length sh) i Hi) as (r & Er & Sr & Vr); [rewrite Hx; symmetry; apply sfx_all; lia|exact S1|].
      rewrite sfx_all in Sr by lia. exists r. split; [exact Er|]. split; [exists (length sh); rewrite firstn_all; auto|]. split; [auto|].
      rewrite elemT_full by now rewrite Sr. rewrite elem_full in Vr by now rewrite Sr. rewrite Vr.
      rewrite elem_full, elemT_full by now rewrite Hx. reflexivity.
    - destruct (nmul_sfx sh idx x sx 0 0 Hi) as (r & Er & Sr & Vr); [rewrite Hx; reflexivity|rewrite (S3 HL); reflexivity|].
      cbn in Sr. exists r. split; [exact Er|]. split; [exists 0; auto|]. split; [congruence|].
      unfold elem in Vr. rewrite Sr, Hx in Vr. cbn in Vr. unfold elemT, elem. cbn. rewrite Sr, Hx. cbn. rewrite Vr. reflexivity. }
  destruct A as (r & Er & (k & Sr & Hk) & Hsh & Vr). rewrite Er. cbn [bind].
  destruct (tmul_prefix sh idx r fx k j Hi Sr S2) as (z & Ez & Sz & Vz). rewrite Ez. cbn [bind].
  split; [eexists; exact Sz|]. split.
  { intros Hxs. rewrite Sz. specialize (Hsh Hxs). rewrite Sr in Hsh.
    destruct Hk as [->| ->]; [cbn in Hsh; rewrite <- Hsh; apply firstn_nil|]. apply firstn_all2. lia. }
  split.
  { intros AN. destruct (S4 AN) as [_ A2]. rewrite Sz. destruct (Nat.max_spec k j) as [[_ ->]|[_ ->]]; [now rewrite <- S2|].
    destruct Hk as [->| ->]; [now left|right; apply firstn_all]. }
  exists (snd b). split.
  - rewrite Vz, Vr, <- (ml_assoc _ L), V. reflexivity.
  - intros m. rewrite multiply_exponent, <- E by auto. reflexivity.
Qed.
End Facts.
