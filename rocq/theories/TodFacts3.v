(** Lemmas on ravel, reshape, universal functions and reductions of Tod. *)
From Coq Require Import Lia.
From Verif Require Import Base BaseFacts TodModel TodSpec TodFacts TodFacts2.
Open Scope Z_scope.

Section tod. Context {E : Type}.
Lemma rearrange_facts h (t : tod E) v s l : good h t -> good_shape s -> s <> [] -> zlen l = prodZ s ->
  Forall (fun p => 0 <= p < prodZ (t_shape t)) l ->
  exists h' r, rearrange h t v s l = Ok (h', r) /\ t_shape r = s /\ good h' r /\ unchanged h h' /\
  (forall j p, nth_error l j = Some p -> nth_error (t_data r) j = nth_error (t_data t) (Z.to_nat p) /\ masked h' r j = masked h t (Z.to_nat p)).
Proof.
  intros [GS [GD GM]] Gs N L P. unfold rearrange. destruct (map_get_total (t_data t) l) as [d [E2 [Ld Nd]]]; [now rewrite GD|].
  rewrite E2. cbn [bind]. destruct (t_mask t) as [| |m] eqn:M.
  - exists h, (Tod s d NoMask). split; [reflexivity|]. split; [reflexivity|]. split; [|split; [apply unchanged_refl|]].
    + split; [exact Gs|]. split; [cbn [t_data t_shape]; unfold zlen in *; lia|exact Logic.I].
    + intros j p Q. split; [now apply Nd|]. unfold masked. cbn [t_mask t_data]. rewrite M.
      assert (J : (j < length l)%nat) by (apply nth_error_Some; rewrite Q; discriminate).
      rewrite Forall_forall in P. specialize (P p (nth_error_In _ _ Q)).
      assert (A1 : (j <? length d)%nat = true) by (apply Nat.ltb_lt; lia).
      assert (A2 : (Z.to_nat p <? length (t_data t))%nat = true) by (apply Nat.ltb_lt; unfold zlen in GD; lia).
      now rewrite A1, A2.
  - destruct GM.
  - destruct GM as [G S]. rewrite <- S in P. destruct (take_facts h m v s l G L P) as [h' [m' [T [S' [G' [U Q]]]]]].
    rewrite T. cbn [bind fst snd]. rewrite set_array_same; [|now rewrite S'|now rewrite S'].
    exists h', (with_mask (finalize s d t) (Mask m')). split; [reflexivity|]. split; [reflexivity|]. split; [|split; [exact U|]].
    + split; [exact Gs|]. split; [cbn [with_mask finalize t_data t_shape]; unfold zlen in *; lia|]. cbn. now split.
    + intros j p J. split; [now apply Nd|]. unfold masked. cbn [with_mask t_mask]. rewrite M. now apply Q.
Qed.
Lemma map_res_nth {A B} (f : A -> res B) l r : map_res f l = Ok r -> forall j x, nth_error l j = Some x -> exists y, f x = Ok y /\ nth_error r j = Some y.
Proof.
  revert r. induction l as [|a l IH]; intros r; cbn [map_res]; [intros _ [|j] x; discriminate|].
  destruct (f a) as [b|] eqn:F; [|discriminate]. cbn [bind]. destruct (map_res f l) as [r'|]; [|discriminate]. cbn [bind]. intros X; injection X as <-.
  intros [|j] x; cbn [nth_error]; [intros X; injection X as <-; now exists b|]. now apply IH.
Qed.
Lemma map_res_all_ok {A B} (f : A -> res B) l : (forall x, In x l -> exists y, f x = Ok y) -> exists r, map_res f l = Ok r.
Proof.
  induction l as [|a l IH]; intros H; [now exists []|]. destruct (H a (or_introl eq_refl)) as [b F].
  destruct IH as [r R]; [intros x X; apply H; now right|]. exists (b :: r). cbn [map_res]. rewrite F. cbn [bind]. now rewrite R.
Qed.
Lemma group_reads {A} (l : list A) groups : Forall (Forall (fun p => 0 <= p < zlen l)) groups -> forall g, In g groups -> exists r, map_res (get l) g = Ok r.
Proof. intros F g I. rewrite Forall_forall in F. destruct (map_get_total l g (F g I)) as [r [X _]]. now exists r. Qed.
Lemma unmasked_all h (t : tod E) : t_mask t = NoMask -> forall g ds, map_res (get (t_data t)) g = Ok ds -> unmasked h t g = ds.
Proof.
  intros TM. induction g as [|p g IH]; intros ds D; [now injection D as <-|]. cbn [map_res] in D.
  destruct (get (t_data t) p) as [x|] eqn:X; [|discriminate]. cbn [bind] in D. destruct (map_res (get (t_data t)) g) as [ds'|]; [|discriminate]. injection D as <-.
  assert (Y := proj1 (get_ok_some _ _ _ X)). apply nth_of_get in X.
  assert (A : masked h t (Z.to_nat p) = Some false).
  { unfold masked. rewrite TM. destruct (Nat.ltb_spec (Z.to_nat p) (length (t_data t))); [reflexivity|]. unfold zlen in Y. lia. }
  unfold unmasked. cbn [flat_map]. rewrite X, A. cbn [app]. f_equal. exact (IH ds' eq_refl).
Qed.
Lemma reduce_facts nan red groups shape h (t : tod E) : good h t -> good_shape shape -> shape <> [] -> zlen groups = prodZ shape ->
  Forall (Forall (fun p => 0 <= p < prodZ (t_shape t))) groups -> Forall (fun g => g <> []) groups ->
  exists h' r, np_reduce nan red groups shape h t = Ok (h', r) /\ t_shape r = shape /\ good h' r /\ unchanged h h' /\
  forall j g, nth_error groups j = Some g -> nth_error (t_data r) j = Some (red (unmasked h t g)) /\
  (masked h' r j = Some true <-> forall p, In p g -> masked h t (Z.to_nat p) = Some true).
Proof.
  intros G GS N L F NE. assert (G0 := G). destruct G0 as [GT [GD GM]]. assert (Fd : Forall (Forall (fun p => 0 <= p < zlen (t_data t))) groups) by now rewrite GD.
  unfold np_reduce. destruct (t_mask t) as [| |m] eqn:TM; [|destruct GM|].
  - unfold plain_reduce. destruct (map_res_all_ok (fun g => do ds <- map_res (get (t_data t)) g; Ok (red ds)) groups) as [r R].
    { intros g I. destruct (group_reads _ _ Fd g I) as [ds D]. exists (red ds). now rewrite D. }
    rewrite R. cbn [bind]. destruct shape as [|n s]; [now destruct N|]. cbn [bind]. exists h, (Tod (n :: s) r NoMask). split; [reflexivity|]. split; [reflexivity|].
    assert (Lr := map_res_length _ _ _ R). split; [|split; [apply unchanged_refl|]].
    + split; [exact GS|]. split; [cbn [t_data t_shape]; unfold zlen in *; lia|exact Logic.I].
    + intros j g J. destruct (map_res_nth _ _ _ R j g J) as [y [Y1 Y2]]. destruct (map_res (get (t_data t)) g) as [ds|] eqn:D; [|discriminate].
      injection Y1 as <-. cbn [t_data]. rewrite (unmasked_all h t TM g ds D). split; [exact Y2|]. unfold masked at 1. cbn [t_mask t_data].
      assert (Jl : (j < length groups)%nat) by (apply nth_error_Some; rewrite J; discriminate).
      destruct (Nat.ltb_spec j (length r)) as [_|X]; [|lia]. split; [discriminate|]. intros H. exfalso.
      rewrite Forall_forall in NE. specialize (NE g (nth_error_In _ _ J)). destruct g as [|p g]; [now destruct NE|].
      specialize (H p (or_introl eq_refl)). unfold masked in H. rewrite TM in H. destruct (Z.to_nat p <? length (t_data t))%nat; discriminate.
  - destruct GM as [G1 S1]. destruct (mread_total h m G1) as [ms [R [Lm Nm]]]. rewrite R. cbn [bind].
    assert (Fm : Forall (Forall (fun p => 0 <= p < zlen ms)) groups) by now rewrite Lm, S1.
    unfold masked_reduce.
    destruct (map_res_all_ok (fun g => do ds <- map_res (get (t_data t)) g; do ms0 <- map_res (get ms) g; Ok (red (np_mask ds (map negb ms0)), forallb (fun b => b) ms0)) groups) as [r Rr].
    { intros g I. destruct (group_reads _ _ Fd g I) as [ds D]. destruct (group_reads _ _ Fm g I) as [bs B]. rewrite D, B. cbn [bind]. eexists; reflexivity. }
    rewrite Rr. cbn [bind]. destruct shape as [|n s]; [now destruct N|]. cbn [bind convert_output].
    assert (Lr := map_res_length _ _ _ Rr). destruct (alloc h (n :: s) (map snd r)) as [h1 m1] eqn:A.
    destruct (alloc_facts h _ _ h1 m1 A) as [H1 [S2 [A1 [G2 [U1 M1]]]]]; [rewrite zlen_map; unfold zlen in *; lia|].
    cbn [set_mask]. rewrite set_array_same; [|now rewrite S2|now rewrite S2].
    exists h1, (with_mask (finalize (n :: s) (map fst r) t) (Mask m1)). split; [reflexivity|]. split; [reflexivity|]. split; [|split; [exact U1|]].
    + split; [exact GS|]. split; [cbn [with_mask finalize t_data t_shape]; rewrite zlen_map; unfold zlen in *; lia|]. cbn. now split.
    + intros j g J. destruct (map_res_nth _ _ _ Rr j g J) as [y [Y1 Y2]]. destruct (map_res (get (t_data t)) g) as [ds|] eqn:D; [|discriminate]. cbn [bind] in Y1.
      destruct (map_res (get ms) g) as [bs|] eqn:B; [|discriminate]. cbn [bind] in Y1. injection Y1 as <-.
      destruct (np_mask_unmasked h t m ms G TM R g ds bs D B) as [X1 X2]. cbn [with_mask finalize t_data]. rewrite nth_error_map, Y2. cbn [option_map fst]. rewrite X1. split; [reflexivity|].
      unfold masked at 1. cbn [with_mask t_mask]. rewrite M1, nth_error_map, Y2. cbn [option_map snd]. rewrite <- (X2 _ eq_refl).
      split; [intros X; now injection X as ->|intros ->; reflexivity].
Qed.
Lemma reduce_all_facts nan red g h (t : tod E) : good h t -> Forall (fun p => 0 <= p < prodZ (t_shape t)) g ->
  ~ (forall p, In p g -> masked h t (Z.to_nat p) = Some true) ->
  np_reduce nan red [g] [] h t = Ok (h, Tod [] [red (unmasked h t g)] NoMask).
Proof.
  intros G F NM. assert (G0 := G). destruct G0 as [GT [GD GM]]. unfold np_reduce. rewrite <- GD in F.
  destruct (map_get_total (t_data t) g F) as [ds [D _]]. destruct (t_mask t) as [| |m] eqn:TM; [|destruct GM|].
  - unfold plain_reduce. cbn [map_res]. rewrite D. cbn [bind]. rewrite (unmasked_all h t TM g ds D). reflexivity.
  - destruct GM as [G1 S1]. destruct (mread_total h m G1) as [ms [R [Lm Nm]]]. rewrite R. cbn [bind].
    assert (Fm : Forall (fun p => 0 <= p < zlen ms) g) by now rewrite Lm, S1, <- GD.
    destruct (map_get_total ms g Fm) as [bs [B _]]. unfold masked_reduce. cbn [map_res]. rewrite D. cbn [bind]. rewrite B. cbn [bind].
    destruct (np_mask_unmasked h t m ms G TM R g ds bs D B) as [X1 X2]. rewrite X1. destruct (forallb (fun b => b) bs) eqn:Q.
    + exfalso. apply NM. now apply (X2 true).
    + reflexivity.
Qed.
End tod.
