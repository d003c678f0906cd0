(** Lemmas on the masks of Tod. *)
From Coq Require Import Lia.
From Verif Require Import Base BaseFacts TodModel TodSpec.
Open Scope Z_scope.

Lemma get_some {A} (l : list A) i x : 0 <= i -> nth_error l (Z.to_nat i) = Some x -> get l i = Ok x.
Proof. intros P E. unfold get. destruct (Z.ltb_spec i 0); [lia|]. now rewrite E. Qed.
Lemma get_ok_some {A} (l : list A) i x : get l i = Ok x -> 0 <= i < zlen l /\ nth_error l (Z.to_nat i) = Some x.
Proof.
  unfold get. destruct (Z.ltb_spec i 0); [discriminate|]. destruct (nth_error l (Z.to_nat i)) eqn:E; [|discriminate].
  intros F; injection F as <-. split; [|reflexivity]. split; [lia|]. apply nth_error_Some_lt in E || (assert (X : nth_error l (Z.to_nat i) <> None) by (rewrite E; discriminate); apply nth_error_Some in X; unfold zlen; lia).
Qed.
Lemma map_get_total {A} (l : list A) idx : Forall (fun p => 0 <= p < zlen l) idx ->
  exists r, map_res (get l) idx = Ok r /\ length r = length idx /\ forall j p, nth_error idx j = Some p -> nth_error r j = nth_error l (Z.to_nat p).
Proof.
  induction 1 as [|p idx P F [r [E [L N]]]]; [exists []; cbn; repeat split; intros [|j] p; discriminate|].
  destruct (get_total l p P) as [x X]. exists (x :: r). cbn [map_res bind]. rewrite X. cbn [bind]. rewrite E. cbn [bind length].
  split; [reflexivity|]. split; [lia|]. intros [|j] q; cbn [nth_error]; [|apply N].
  intros Q; injection Q as <-. symmetry. now apply get_ok_some.
Qed.
Lemma mread_total h m : good_mask h m -> exists l, mread h m = Ok l /\ zlen l = prodZ (m_shape m) /\ forall j, nth_error l j = masked_at h m j.
Proof.
  intros [P [Z [b [B F]]]]. unfold mread. rewrite (get_some _ _ _ P B). cbn [bind].
  destruct (map_get_total b (m_pos m) F) as [r [E [L N]]]. exists r. split; [exact E|]. split; [unfold zlen in *; lia|].
  intros j. unfold masked_at. rewrite B. destruct (nth_error (m_pos m) j) as [p|] eqn:Q; [now apply N|].
  apply nth_error_None in Q. apply nth_error_None. lia.
Qed.
Lemma masked_at_none h m j : good_mask h m -> (masked_at h m j = None <-> (Z.to_nat (prodZ (m_shape m)) <= j)%nat).
Proof.
  intros G. destruct (mread_total h m G) as [l [_ [L N]]]. rewrite <- N, nth_error_None. unfold zlen in L. lia.
Qed.
Lemma unchanged_refl h : unchanged h h.
Proof. intros m G. split; [exact G|reflexivity]. Qed.
Lemma unchanged_trans h1 h2 h3 : unchanged h1 h2 -> unchanged h2 h3 -> unchanged h1 h3.
Proof. intros A B m G. destruct (A m G) as [G2 E2]. destruct (B m G2) as [G3 E3]. split; [exact G3|]. intros j. now rewrite E3. Qed.
Lemma unchanged_app h l : unchanged h (h ++ l).
Proof.
  intros m [P [Z [b [B F]]]].
  assert (X : nth_error (h ++ l) (Z.to_nat (m_addr m)) = Some b).
  { rewrite nth_error_app1; [exact B|]. apply nth_error_Some. rewrite B. discriminate. }
  split; [split; [exact P|split; [exact Z|exists b; split; [exact X|exact F]]]|]. intros j. unfold masked_at. now rewrite X, B.
Qed.
Lemma alloc_facts h s l h' m : alloc h s l = (h', m) -> zlen l = prodZ s ->
  h' = h ++ [l] /\ m_shape m = s /\ m_addr m = zlen h /\ good_mask h' m /\ unchanged h h' /\ forall j, masked_at h' m j = nth_error l j.
Proof.
  unfold alloc. intros E L. injection E as <- <-. cbn [m_shape m_addr].
  assert (X : nth_error (h ++ [l]) (Z.to_nat (zlen h)) = Some l).
  { rewrite nth_error_app2; rewrite to_nat_zlen; [|lia]. now rewrite Nat.sub_diag. }
  split; [reflexivity|]. split; [reflexivity|]. split; [reflexivity|]. split; [|split; [apply unchanged_app|]].
  - split; [apply zlen_nonneg|]. split; [cbn [m_pos m_shape]; rewrite zlen_iota; [exact L|apply zlen_nonneg]|].
    exists l. split; [exact X|]. apply Forall_forall. intros p. cbn [m_pos]. now rewrite In_iota.
  - intros j. unfold masked_at. cbn [m_pos m_addr]. rewrite X. destruct (nth_error (iota (zlen l)) j) as [p|] eqn:Q.
    + assert (J : (j < Z.to_nat (zlen l))%nat).
      { assert (Y : nth_error (iota (zlen l)) j <> None) by (rewrite Q; discriminate). apply nth_error_Some in Y.
        assert (Z2 := zlen_iota (zlen l) (zlen_nonneg l)). unfold zlen in *. lia. }
      rewrite iota_nth_error in Q by exact J. injection Q as <-. now rewrite Nat2Z.id.
    + apply nth_error_None in Q. symmetry. apply nth_error_None.
      assert (Z2 := zlen_iota (zlen l) (zlen_nonneg l)). unfold zlen in *. lia.
Qed.
Lemma shape_eqb_eq a : forall b, shape_eqb a b = true <-> a = b.
Proof.
  unfold shape_eqb. induction a as [|x a IH]; intros [|y b]; cbn; try (split; [discriminate|intros E; discriminate E] || now split).
  assert (H := IH b). split.
  - intros E. apply andb_prop in E. destruct E as [L E]. apply andb_prop in E. destruct E as [X F]. f_equal; [lia|].
    apply H. now rewrite F, L.
  - intros E. injection E as -> ->. assert (T := proj2 H eq_refl). apply andb_prop in T. destruct T as [L F]. rewrite L, F. now rewrite Z.eqb_refl.
Qed.
Lemma take_facts h m v s l : good_mask h m -> zlen l = prodZ s -> Forall (fun p => 0 <= p < prodZ (m_shape m)) l ->
  exists h' m', take_mask h m (Positions v s l) = Ok (h', m') /\ m_shape m' = s /\ good_mask h' m' /\ unchanged h h' /\
  forall j p, nth_error l j = Some p -> masked_at h' m' j = masked_at h m (Z.to_nat p).
Proof.
  intros G L F. assert (G0 := G). destruct G0 as [P [Z [b [B FB]]]]. destruct v; cbn [take_mask].
  - assert (F' : Forall (fun p => 0 <= p < zlen (m_pos m)) l) by now rewrite Z.
    destruct (map_get_total (m_pos m) l F') as [r [E [Lr N]]]. rewrite E. cbn [bind].
    exists h, (MArr (m_addr m) s r). split; [reflexivity|]. split; [reflexivity|]. split; [|split; [apply unchanged_refl|]].
    + split; [exact P|]. split; [cbn [m_pos m_shape]; unfold zlen in *; lia|]. exists b. split; [exact B|]. cbn [m_pos].
      apply Forall_forall. intros p I. apply In_nth_error in I. destruct I as [j J].
      destruct (nth_error l j) as [q|] eqn:Q.
      * rewrite (N j q Q) in J. apply nth_error_In in J. rewrite Forall_forall in FB. now apply FB.
      * apply nth_error_None in Q. assert (Y : nth_error r j <> None) by (rewrite J; discriminate). apply nth_error_Some in Y. lia.
    + intros j p Q. unfold masked_at. cbn [m_pos m_addr]. now rewrite (N j p Q).
  - destruct (mread_total h m G) as [w [E [W N]]]. rewrite E. cbn [bind].
    assert (F' : Forall (fun p => 0 <= p < zlen w) l) by now rewrite W.
    destruct (map_get_total w l F') as [r [E2 [Lr N2]]]. rewrite E2. cbn [bind].
    destruct (alloc h s r) as [h' m'] eqn:A. destruct (alloc_facts h s r h' m' A) as [H' [S' [_ [G' [U M]]]]]; [unfold zlen in *; lia|].
    exists h', m'. split; [reflexivity|]. split; [exact S'|]. split; [exact G'|]. split; [exact U|].
    intros j p Q. rewrite M, (N2 j p Q). apply N.
Qed.
Lemma set_array_same {E} h (t : tod E) m : m_shape m <> [] -> m_shape m = t_shape t -> set_array h t m = Ok (h, with_mask t (Mask m)).
Proof.
  intros N S. unfold set_array. destruct (m_shape m) eqn:M; [now destruct N|].
  rewrite (proj2 (shape_eqb_eq _ _) (eq_sym S)). reflexivity.
Qed.

Section getitem. Context {E K : Type} (index : list Z -> K -> res item).
Lemma item_facts (h : heap) (t : tod E) (key : K) v s l : faithful index -> good h t ->
  index (t_shape t) key = Ok (Positions v s l) -> s <> [] ->
  exists h' i, getitem index h t key = Ok (h', GTod i) /\ t_shape i = s /\ good h' i /\ unchanged h h' /\
  (forall j p, nth_error l j = Some p -> nth_error (t_data i) j = nth_error (t_data t) (Z.to_nat p) /\ masked h' i j = masked h t (Z.to_nat p)).
Proof.
  intros F [GS [GD GM]] I N. assert (X := F (t_shape t) key GS). rewrite I in X. destruct X as [Gs [L P]].
  unfold getitem. rewrite I. cbn [bind]. destruct (map_get_total (t_data t) l) as [d [E2 [Ld Nd]]]; [now rewrite GD|].
  rewrite E2. cbn [bind]. unfold finalize at 1. cbn [t_mask]. destruct (t_mask t) as [| |m] eqn:M.
  - exists h, (finalize s d t). split; [reflexivity|]. split; [reflexivity|]. split; [|split; [apply unchanged_refl|]].
    + split; [exact Gs|]. split; [cbn [finalize t_data t_shape]; unfold zlen in *; lia|]. cbn [finalize t_mask]. rewrite M. exact Logic.I.
    + intros j p Q. split; [now apply Nd|]. unfold masked. cbn [finalize t_mask t_data]. rewrite M.
      assert (J : (j < length l)%nat) by (apply nth_error_Some; rewrite Q; discriminate).
      rewrite Forall_forall in P. specialize (P p (nth_error_In _ _ Q)).
      assert (A1 : (j <? length d)%nat = true) by (apply Nat.ltb_lt; lia).
      assert (A2 : (Z.to_nat p <? length (t_data t))%nat = true) by (apply Nat.ltb_lt; unfold zlen in GD; lia).
      now rewrite A1, A2.
  - destruct GM.
  - destruct GM as [G S]. rewrite S, I. cbn [bind]. rewrite <- S in P. destruct (take_facts h m v s l G L P) as [h' [m' [T [S' [G' [U Q]]]]]].
    rewrite T. cbn [bind fst snd]. rewrite set_array_same; [|now rewrite S'|now rewrite S']. cbn [bind fst snd].
    exists h', (with_mask (finalize s d t) (Mask m')). split; [reflexivity|]. split; [reflexivity|]. split; [|split; [exact U|]].
    + split; [exact Gs|]. split; [cbn [with_mask finalize t_data t_shape]; unfold zlen in *; lia|]. cbn. now split.
    + intros j p J. split; [now apply Nd|]. unfold masked. cbn [with_mask t_mask]. rewrite M. now apply Q.
Qed.
End getitem.
