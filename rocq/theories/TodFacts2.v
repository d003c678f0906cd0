(** Lemmas on NumPy's basic indexing, the setter of the mask and the reductions. *)
From Coq Require Import Lia.
From Verif Require Import Base BaseFacts TodModel TodSpec TodFacts.
Open Scope Z_scope.

Lemma prodZ_nonneg s : good_shape s -> 0 <= prodZ s.
Proof. induction 1; cbn [prodZ fold_right]; [lia|]. fold (prodZ l). nia. Qed.
Lemma zlen_flat_map_const {A B} (f : A -> list B) n l : (forall x, zlen (f x) = n) -> zlen (flat_map f l) = zlen l * n.
Proof.
  intros H. induction l as [|x l IH]; cbn [flat_map]; [reflexivity|]. rewrite zlen_app, zlen_cons, IH, H. lia.
Qed.
Lemma np_wrap_range n i j : np_wrap n i = Ok j -> 0 <= j < n.
Proof.
  unfold np_wrap. destruct ((0 <=? i) && (i <? n)) eqn:A; [intros E; injection E as <-; lia|].
  destruct ((- n <=? i) && (i <? 0)) eqn:B; [intros E; injection E as <-; lia|discriminate].
Qed.
Lemma np_basic_faithful key : forall shape s l, good_shape shape -> np_basic shape key = Ok (s, l) ->
  good_shape s /\ zlen l = prodZ s /\ Forall (fun p => 0 <= p < prodZ shape) l.
Proof.
  induction key as [|k key IH]; intros shape s l G; cbn [np_basic].
  - intros E; injection E as <- <-. split; [exact G|]. split; [apply zlen_iota; now apply prodZ_nonneg|].
    apply Forall_forall. intros p. now rewrite In_iota.
  - destruct k as [i|sl| |]; [destruct shape as [|n shape]; [discriminate|]..| |discriminate].
    + inversion G as [|? ? Gn Gs]; subst. destruct (np_wrap n i) as [j|] eqn:W; [|discriminate]. apply np_wrap_range in W. cbn [bind].
      destruct (np_basic shape key) as [[s' l']|] eqn:B; [|discriminate]. cbn [bind fst snd]. intros E; injection E as <- <-.
      destruct (IH shape s' l' Gs B) as [A1 [A2 A3]]. split; [exact A1|]. split; [now rewrite zlen_map|].
      apply Forall_forall. intros p I. apply in_map_iff in I. destruct I as [q [<- Q]]. rewrite Forall_forall in A3. specialize (A3 q Q). cbn beta in A3.
      cbn [prodZ fold_right]. fold (prodZ shape). nia.
    + inversion G as [|? ? Gn Gs]; subst. destruct (py_slice_positions sl n) as [ps|] eqn:W; [|discriminate]. apply py_slice_positions_range in W; [|exact Gn]. cbn [bind].
      destruct (np_basic shape key) as [[s' l']|] eqn:B; [|discriminate]. cbn [bind fst snd]. intros E; injection E as <- <-.
      destruct (IH shape s' l' Gs B) as [A1 [A2 A3]]. split; [constructor; [apply zlen_nonneg|exact A1]|]. split.
      * rewrite (zlen_flat_map_const _ (prodZ s')); [reflexivity|]. intros x. now rewrite zlen_map.
      * apply Forall_forall. intros p I. apply in_flat_map in I. destruct I as [j [J I]]. apply in_map_iff in I. destruct I as [q [<- Q]].
        rewrite Forall_forall in A3, W. specialize (A3 q Q). specialize (W j J). cbn beta in A3, W.
        cbn [prodZ fold_right]. fold (prodZ shape). nia.
    + destruct (np_basic shape key) as [[s' l']|] eqn:B; [|discriminate]. cbn [bind fst snd]. intros E; injection E as <- <-.
      destruct (IH shape s' l' G B) as [A1 [A2 A3]]. split; [constructor; [lia|exact A1]|]. split; [|exact A3].
      cbn [prodZ fold_right]. fold (prodZ s'). lia.
Qed.
Lemma np_index_faithful : faithful np_index.
Proof.
  intros shape key G. unfold np_index. destruct (1 <? zlen (filter is_ellipsis key)); [exact I|].
  destruct (np_basic shape (expand (length shape) key)) as [[s l]|e] eqn:B; cbn [bind]; [|exact I].
  destruct (np_basic_faithful _ shape s l G B) as [A1 [A2 A3]]. cbn [fst snd].
  destruct s as [|n s]; [|now repeat split]. destruct (existsb is_ellipsis key); [now repeat split|].
  destruct l as [|p [|q l]]; [now repeat split| |now repeat split]. inversion A3; subst. assumption.
Qed.

(** ** The setter *)
Lemma set_all_same_value {A} (l : list A) pos v i : 0 <= i < zlen l -> In i pos -> get (set_all l (map (fun p => (p, v)) pos)) i = Ok v.
Proof.
  revert l. induction pos as [|p pos IH]; intros l R I; [destruct I|]. cbn [map]. rewrite set_all_cons. cbn [fst snd].
  destruct (in_dec Z.eq_dec i pos) as [J|J].
  - apply IH; [now rewrite zlen_set_at|exact J].
  - destruct I as [->|I]; [|now destruct J]. rewrite get_set_all_notin; [now apply get_set_at_same|].
    rewrite map_map, map_id. exact J.
Qed.
Lemma nth_of_get {A} (l : list A) i x : get l i = Ok x -> nth_error l (Z.to_nat i) = Some x.
Proof. intros E. now apply get_ok_some in E. Qed.
Lemma fill_facts h m b : good_mask h m -> exists h', fill h m b = Ok h' /\
  (forall m', good_mask h m' -> good_mask h' m') /\
  (forall m' j p, good_mask h m' -> m_addr m' = m_addr m -> nth_error (m_pos m') j = Some p -> In p (m_pos m) -> masked_at h' m' j = Some b) /\
  (forall m' j, good_mask h m' -> m_addr m' <> m_addr m -> masked_at h' m' j = masked_at h m' j).
Proof.
  intros [P [L [buf [B F]]]]. unfold fill. rewrite (get_some _ _ _ P B). cbn [bind].
  set (nb := set_all buf (map (fun p => (p, b)) (m_pos m))).
  assert (Lh : (Z.to_nat (m_addr m) < length h)%nat) by (apply nth_error_Some; rewrite B; discriminate).
  assert (X : set_at h (m_addr m) nb = set_nth h (Z.to_nat (m_addr m)) nb).
  { unfold set_at. destruct (Z.ltb_spec (m_addr m) 0); [lia|reflexivity]. }
  assert (S : nth_error (set_at h (m_addr m) nb) (Z.to_nat (m_addr m)) = Some nb) by (rewrite X; now apply set_nth_same).
  assert (Lb : zlen nb = zlen buf) by apply zlen_set_all.
  assert (O : forall a, 0 <= a -> a <> m_addr m -> nth_error (set_at h (m_addr m) nb) (Z.to_nat a) = nth_error h (Z.to_nat a)).
  { intros a A N. rewrite X. apply set_nth_other. lia. }
  exists (set_at h (m_addr m) nb). split; [reflexivity|]. split; [|split].
  - intros m' [P' [L' [b' [B' F']]]]. split; [exact P'|]. split; [exact L'|].
    destruct (Z.eq_dec (m_addr m') (m_addr m)) as [E|E].
    + exists nb. rewrite E. split; [exact S|]. rewrite E, B in B'. injection B' as <-. now rewrite Lb.
    + exists b'. rewrite (O _ P' E). now split.
  - intros m' j p [P' [L' [b' [B' F']]]] E J I. unfold masked_at. rewrite J, E, S.
    rewrite E, B in B'. injection B' as <-. rewrite Forall_forall in F'.
    apply nth_of_get. apply set_all_same_value; [|exact I]. apply F'. now apply nth_error_In in J.
  - intros m' j [P' _] N. unfold masked_at. now rewrite (O _ P' N).
Qed.
Lemma masked_at_lt h m j b : masked_at h m j = Some b -> exists p, nth_error (m_pos m) j = Some p.
Proof. unfold masked_at. destruct (nth_error (m_pos m) j) as [p|]; [|discriminate]. now exists p. Qed.

Section setter. Context {E : Type}.
Lemma masked_none h (t : tod E) j : good h t -> (masked h t j = None <-> (length (t_data t) <= j)%nat).
Proof.
  intros [_ [D M]]. unfold masked. destruct (t_mask t) as [| |m].
  - destruct (Nat.ltb_spec j (length (t_data t))); split; try discriminate; try lia; reflexivity.
  - destruct M.
  - destruct M as [G S]. rewrite (masked_at_none h m j G), S, <- D. unfold zlen. lia.
Qed.
(** t.mask = b *)
Lemma set_scalar_facts h (t : tod E) b : good h t -> t_shape t <> [] -> exists h' t', set_mask h t (VValues [] [b]) = Ok (h', t') /\
  t_shape t' = t_shape t /\ t_data t' = t_data t /\ good h' t' /\
  (forall j, (j < length (t_data t))%nat -> masked h' t' j = Some b) /\
  (forall m, good_mask h m -> (forall m0, t_mask t = Mask m0 -> m_addr m0 <> m_addr m) -> good_mask h' m /\ forall j, masked_at h' m j = masked_at h m j).
Proof.
  intros G N. assert (G0 := G). destruct G0 as [GS [GD GM]]. unfold set_mask. destruct (alloc h [] [b]) as [h1 m1] eqn:A.
  destruct (alloc_facts h [] [b] h1 m1 A eq_refl) as [H1 [S1 [A1 [G1 [U1 M1]]]]].
  unfold set_array. rewrite S1. destruct (mread_total h1 m1 G1) as [l [R [Ll Nl]]].
  assert (El : l = [b]).
  { rewrite S1 in Ll. destruct l as [|x [|y l]]; try (unfold zlen in Ll; cbn in Ll; lia). assert (Y := Nl 0%nat). rewrite M1 in Y. cbn in Y. now injection Y as ->. }
  rewrite R, El. cbn [bind]. destruct (t_mask t) as [| |m0] eqn:TM.
  - destruct (alloc h1 (t_shape t) (repeat b (Z.to_nat (prodZ (t_shape t))))) as [h2 m2] eqn:A2.
    assert (P := prodZ_nonneg _ GS).
    destruct (alloc_facts h1 _ _ h2 m2 A2) as [H2 [S2 [Ad2 [G2 [U2 M2]]]]]; [rewrite zlen_repeat; lia|].
    exists h2, (with_mask t (Mask m2)). split; [reflexivity|]. split; [reflexivity|]. split; [reflexivity|]. split; [|split].
    + split; [exact GS|]. split; [exact GD|]. cbn. now split.
    + intros j J. unfold masked. cbn [with_mask t_mask]. rewrite M2. apply nth_error_repeat. unfold zlen in GD. lia.
    + intros m Gm _. apply (unchanged_trans _ _ _ U1 U2). exact Gm.
  - destruct GM.
  - destruct GM as [G2 S2]. rewrite S2. destruct (t_shape t) as [|n s] eqn:TS; [now destruct N|].
    assert (G2' := proj1 (U1 m0 G2)). destruct (fill_facts h1 m0 b G2') as [h2 [F [FG [FS FO]]]]. rewrite F. cbn [bind].
    exists h2, t. split; [reflexivity|]. split; [exact TS|]. split; [reflexivity|]. split; [|split].
    + split; [now rewrite TS|]. split; [now rewrite TS|]. rewrite TM, TS. split; [now apply FG|exact S2].
    + intros j J. unfold masked. rewrite TM. destruct (nth_error (m_pos m0) j) as [p|] eqn:Q.
      * apply (FS m0 j p G2' eq_refl Q). now apply nth_error_In in Q.
      * apply nth_error_None in Q. destruct G2 as [_ [L2 _]]. rewrite S2, <- GD in L2. unfold zlen in L2. lia.
    + intros m Gm D. destruct (U1 m Gm) as [Gm1 E1]. split; [now apply FG|]. intros j. rewrite FO; [apply E1|exact Gm1|].
      intros C. exact (D m0 eq_refl (eq_sym C)).
Qed.
(** t.mask = values of a shape. *)
Lemma set_values_facts h (t : tod E) s l : good h t -> zlen l = prodZ s -> s <> [] ->
  if shape_eqb (t_shape t) s then
    exists h' t', set_mask h t (VValues s l) = Ok (h', t') /\ t_shape t' = t_shape t /\ t_data t' = t_data t /\ good h' t' /\
    (forall j, masked h' t' j = nth_error l j) /\ unchanged h h'
  else set_mask h t (VValues s l) = Err ValueError.
Proof.
  intros [GS [GD GM]] L N. unfold set_mask. destruct (alloc h s l) as [h1 m1] eqn:A.
  destruct (alloc_facts h s l h1 m1 A L) as [H1 [S1 [A1 [G1 [U1 M1]]]]]. unfold set_array. rewrite S1.
  destruct s as [|n s]; [now destruct N|]. destruct (shape_eqb (t_shape t) (n :: s)) eqn:Q; [|reflexivity].
  apply shape_eqb_eq in Q. exists h1, (with_mask t (Mask m1)). split; [reflexivity|]. split; [reflexivity|]. split; [reflexivity|].
  split; [split; [exact GS|split; [exact GD|cbn; split; [exact G1|congruence]]]|]. split; [exact M1|exact U1].
Qed.
(** Tod(t): a new mask array. *)
Lemma construct_facts h (t : tod E) : good h t -> exists h' t', construct h (OfTod t) VNone true = Ok (h', t') /\
  t_shape t' = t_shape t /\ t_data t' = t_data t /\ good h' t' /\ (forall j, masked h' t' j = masked h t j) /\ unchanged h h' /\
  (forall m, t_mask t' = Mask m -> zlen h <= m_addr m).
Proof.
  intros G. assert (G0 := G). destruct G0 as [GS [GD GM]]. unfold construct. cbn [viewed]. destruct (t_mask t) as [| |m] eqn:TM.
  - exists h, t. split; [reflexivity|]. split; [reflexivity|]. split; [reflexivity|]. split; [exact G|]. split; [reflexivity|].
    split; [apply unchanged_refl|]. intros m M. rewrite TM in M. discriminate.
  - destruct GM.
  - destruct GM as [G1 S1]. cbn [bind]. unfold copy_array. destruct (mread_total h m G1) as [l [R [L N]]]. rewrite R. cbn [bind].
    destruct (alloc h (m_shape m) l) as [h1 m1] eqn:A. destruct (alloc_facts h _ l h1 m1 A L) as [H1 [S2 [A1 [G2 [U1 M1]]]]]. cbn [fst snd].
    exists h1, (with_mask t (Mask m1)). split; [reflexivity|]. split; [reflexivity|]. split; [reflexivity|]. split; [|split; [|split; [exact U1|]]].
    + split; [exact GS|]. split; [exact GD|]. cbn. split; [exact G2|congruence].
    + intros j. unfold masked. cbn [with_mask t_mask]. rewrite TM, M1. apply N.
    + intros m0 M0. injection M0 as <-. lia.
Qed.
(** ** Reductions *)
Lemma np_mask_unmasked h (t : tod E) m ms : good h t -> t_mask t = Mask m -> mread h m = Ok ms -> forall g ds bs, map_res (get (t_data t)) g = Ok ds ->
  map_res (get ms) g = Ok bs -> np_mask ds (map negb bs) = unmasked h t g /\ (forall b, forallb (fun b => b) bs = b -> (b = true <-> forall p, In p g -> masked h t (Z.to_nat p) = Some true)).
Proof.
  intros G TM R. assert (Nn : forall j, nth_error ms j = masked h t j).
  { destruct G as [_ [_ GM]]. rewrite TM in GM. destruct GM as [G1 _]. destruct (mread_total h m G1) as [l [R' [_ N]]]. rewrite R in R'. injection R' as <-.
    intros j. unfold masked. rewrite TM. apply N. }
  induction g as [|p g IH]; intros ds bs D B.
  - injection D as <-. injection B as <-. split; [reflexivity|]. intros b <-. split; [intros _ p []|reflexivity].
  - cbn [map_res] in D, B. destruct (get (t_data t) p) as [x|] eqn:X; [|discriminate]. cbn [bind] in D.
    destruct (map_res (get (t_data t)) g) as [ds'|]; [|discriminate]. injection D as <-.
    destruct (get ms p) as [c|] eqn:C; [|discriminate]. cbn [bind] in B.
    destruct (map_res (get ms) g) as [bs'|]; [|discriminate]. injection B as <-.
    destruct (IH ds' bs' eq_refl eq_refl) as [I1 I2]. apply nth_of_get in X. apply nth_of_get in C. rewrite Nn in C.
    split.
    + unfold unmasked. cbn [flat_map]. rewrite C, X. cbn [np_mask map]. destruct c; cbn [negb app]; rewrite I1; reflexivity.
    + intros b <-. cbn [forallb]. destruct c; cbn [andb].
      * rewrite (I2 _ eq_refl). split; [intros H q [<-|Q]; [exact C|now apply H]|intros H q Q; apply H; now right].
      * split; [discriminate|]. intros H. specialize (H p (or_introl eq_refl)). rewrite C in H. discriminate.
Qed.
End setter.
