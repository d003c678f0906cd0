(** Lemmas on noise spectra. *)
From Coq Require Import Lia QArith Qcanon Sorted Field.
From Verif Require Import Base BaseFacts SparseModel SparseSpec NoiseModel NoiseSpec.
Open Scope nat_scope.

Lemma part_middle {A} (a b : A) m : part_of (a :: m ++ [b]) 1 (length (a :: m ++ [b]) - 1) = m.
Proof.
  unfold part_of. cbn [skipn length]. rewrite app_length. cbn [length]. replace (S (length m + 1) - 1 - 1) with (length m) by lia.
  rewrite firstn_app, firstn_all, Nat.sub_diag. cbn [firstn]. apply app_nil_r.
Qed.
Lemma two_ends {A} (p : list A) : 2 <= length p -> exists a m b, p = a :: m ++ [b].
Proof.
  destruct p as [|a p]; cbn; [lia|]. intros H. destruct p as [|c p] using rev_ind; [cbn in H; lia|]. exists a, p, c. reflexivity.
Qed.

Section N.
Context {K : Type} (o : ops K) (RL : ring_laws o) (half : K) (Hh : kadd o half half = k1 o).
Let RT : ring_theory (k0 o) (k1 o) (kadd o) (kmul o) (fun a b => kadd o a (kopp o b)) (kopp o) eq := RL.
Add Ring Kring : RT.
Notation h_ x := (kmul o x half).

Lemma unfold_eq a m b : unfold_psd o half (a :: m ++ [b]) = Ok (a :: map (fun x => h_ x) m ++ b :: rev (map (fun x => h_ x) m)).
Proof.
  unfold unfold_psd. rewrite part_middle. cbn [length]. rewrite app_length. cbn [length].
  replace (S (length m + 1)) with (S (S (length m))) by lia. cbn [Nat.eqb]. unfold item_at at 1. cbn [nth_error bind].
  unfold item_at. replace (S (S (length m)) - 1) with (S (length m)) by lia. cbn [nth_error]. rewrite nth_error_app2, Nat.sub_diag by lia. reflexivity.
Qed.
Lemma fold_eq a m b c r : length r = length m -> fold_psd o (a :: m ++ b :: c :: r) = Ok (a :: map (fun x => kmul o x (two o)) m ++ [c]).
Proof.
  intros L. unfold fold_psd. cbn [length]. rewrite app_length. cbn [length]. rewrite L.
  replace (S (length m + S (S (length m)))) with (1 + (length m + 1) * 2) by lia. rewrite Nat.div_add by lia. change (1 / 2) with 0. rewrite Nat.add_0_l.
  unfold item_at at 1. cbn [nth_error bind]. unfold item_at.
  replace (length m + 1 + 1) with (S (length m + 1)) by lia. cbn [nth_error]. rewrite nth_error_app2 by lia.
  replace (length m + 1 - length m) with 1 by lia. cbn [nth_error bind]. unfold part_of. cbn [skipn]. replace (S (length m + 1) - 1 - 1) with (length m) by lia.
  rewrite firstn_app, firstn_all, Nat.sub_diag. cbn [firstn]. rewrite app_nil_r. reflexivity.
Qed.
Lemma fold_even_eq a m b r : length r = length m -> r <> [] -> forall c r', r = c :: r' ->
  fold_psd o (a :: m ++ b :: r) = Ok (a :: map (fun x => kmul o x (two o)) m ++ [c]).
Proof.
  intros L N c r' ->. unfold fold_psd. cbn [length] in *. rewrite app_length. cbn [length]. rewrite L.
  replace (S (length m + S (length m))) with ((length m + 1) * 2) by lia. rewrite Nat.div_mul by lia.
  unfold item_at at 1. cbn [nth_error bind]. unfold item_at.
  replace (length m + 1 + 1) with (S (length m + 1)) by lia. cbn [nth_error]. rewrite nth_error_app2 by lia.
  replace (length m + 1 - length m) with 1 by lia. cbn [nth_error bind]. unfold part_of. cbn [skipn]. replace (S (length m + 1) - 1 - 1) with (length m) by lia.
  rewrite firstn_app, firstn_all, Nat.sub_diag. cbn [firstn]. rewrite app_nil_r. reflexivity.
Qed.
Lemma double_half x : kmul o (h_ x) (two o) = x.
Proof. unfold two. transitivity (kmul o x (kadd o half half)); [ring|]. rewrite Hh. ring. Qed.
Lemma halves x : kadd o (h_ x) (h_ x) = x.
Proof. transitivity (kmul o x (kadd o half half)); [ring|]. rewrite Hh. ring. Qed.
Lemma total_cons x l : total o (x :: l) = kadd o x (total o l).
Proof. reflexivity. Qed.
Lemma total_nil : total o [] = k0 o.
Proof. reflexivity. Qed.
Lemma total_app l r : total o (l ++ r) = kadd o (total o l) (total o r).
Proof. induction l as [|x l IH]; cbn [app]; [rewrite total_nil; ring|]. rewrite !total_cons, IH. ring. Qed.
Lemma total_rev l : total o (rev l) = total o l.
Proof. induction l as [|x l IH]; [reflexivity|]. cbn [rev]. rewrite total_app, IH, !total_cons, total_nil. ring. Qed.
Lemma total_half l : kadd o (total o (map (fun x => h_ x) l)) (total o (map (fun x => h_ x) l)) = total o l.
Proof.
  induction l as [|x l IH]; cbn [map]; [rewrite total_nil; ring|]. rewrite !total_cons, <- IH.
  transitivity (kadd o (kadd o (h_ x) (h_ x)) (kadd o (total o (map (fun x => h_ x) l)) (total o (map (fun x => h_ x) l)))); [ring|]. rewrite halves. reflexivity.
Qed.

Lemma unfold_total p u : unfold_psd o half p = Ok u -> total o u = total o p.
Proof.
  intros E. destruct (le_lt_dec 2 (length p)) as [L|L].
  - destruct (two_ends p L) as [a [m [b ->]]]. rewrite unfold_eq in E. injection E as <-. rewrite !total_cons, !total_app, !total_cons, total_nil. rewrite total_rev, <- (total_half m). ring.
  - unfold unfold_psd in E. destruct (length p) as [|[|k]]; [discriminate|discriminate|lia].
Qed.
Lemma unfold_total_fun p : 2 <= length p -> exists u, unfold_psd o half p = Ok u.
Proof. intros L. destruct (two_ends p L) as [a [m [b ->]]]. rewrite unfold_eq. eauto. Qed.

Lemma nth_error_rev' {A} (l : list A) k : k < length l -> nth_error (rev l) k = nth_error l (length l - 1 - k).
Proof.
  induction l as [|x l IH]; cbn [length rev]; intros H; [lia|]. destruct (Nat.eq_dec k (length l)) as [->|D].
  - rewrite nth_error_app2 by (rewrite rev_length; lia). rewrite rev_length, Nat.sub_diag. replace (S (length l) - 1 - length l) with 0 by lia. reflexivity.
  - rewrite nth_error_app1 by (rewrite rev_length; lia). rewrite IH by lia. replace (S (length l) - 1 - k) with (S (length l - 1 - k)) by lia. reflexivity.
Qed.
Lemma mirror_even a m (b : K) : even_spectrum (a :: m ++ b :: rev m).
Proof.
  intros k. cbn [length]. rewrite app_length. cbn [length]. rewrite rev_length. intros H.
  destruct k as [|k]; [lia|]. replace (S (length m + S (length m)) - S k) with (S (length m + length m - k)) by lia. cbn [nth_error].
  destruct (Nat.lt_trichotomy k (length m)) as [C|[C|C]].
  - rewrite nth_error_app1 by exact C. rewrite nth_error_app2 by lia. replace (length m + length m - k - length m) with (S (length m - 1 - k)) by lia. cbn [nth_error].
    rewrite nth_error_rev' by lia. f_equal. lia.
  - subst k. replace (length m + length m - length m) with (length m) by lia. reflexivity.
  - rewrite nth_error_app2 by lia. destruct (k - length m) as [|j] eqn:J; [lia|]. cbn [nth_error]. rewrite nth_error_rev' by lia. rewrite nth_error_app1 by lia. f_equal. lia.
Qed.
Lemma unfold_same p u : unfold_psd o half p = Ok u -> same_signal o p u.
Proof.
  intros E. destruct (le_lt_dec 2 (length p)) as [L|L].
  - destruct (two_ends p L) as [a [m [b ->]]]. rewrite unfold_eq in E. injection E as <-. unfold same_signal. cbn [length]. rewrite !app_length. cbn [length]. rewrite rev_length, map_length.
    split; [lia|]. split; [apply mirror_even|]. split; [reflexivity|]. replace (S (length m + 1) - 1) with (S (length m)) by lia. split.
    + cbn [nth_error]. rewrite !nth_error_app2 by (rewrite ?map_length; lia). rewrite map_length, Nat.sub_diag. reflexivity.
    + intros k x H. destruct k as [|k]; [lia|]. cbn [nth_error]. rewrite !nth_error_app1 by (rewrite ?map_length; lia). rewrite nth_error_map.
      destruct (nth_error m k) as [y|]; cbn [option_map]; [|discriminate]. intros X. injection X as <-. rewrite halves. reflexivity.
  - unfold unfold_psd in E. destruct (length p) as [|[|k]]; [discriminate|discriminate|lia].
Qed.

(** Fold after unfold: the last value is replaced by half of the last but one. *)
Lemma fold_unfold a m y b : fold_psd o (a :: map (fun x => h_ x) (m ++ [y]) ++ b :: rev (map (fun x => h_ x) (m ++ [y]))) = Ok (a :: (m ++ [y]) ++ [h_ y]).
Proof.
  rewrite (fold_even_eq a (map (fun x => h_ x) (m ++ [y])) b (rev (map (fun x => h_ x) (m ++ [y]))) ltac:(rewrite rev_length; reflexivity) ltac:(rewrite map_app, rev_app_distr; discriminate) (h_ y) (rev (map (fun x => h_ x) m))).
  - do 3 f_equal. rewrite map_map. rewrite (map_ext _ (fun x => x)); [apply map_id|]. intros x. apply double_half.
  - rewrite map_app, rev_app_distr. reflexivity.
Qed.
End N.

(** ** FFT size *)
Lemma fft_size_ok nmax : forall fuel k, (nmax < k + fuel)%nat -> 1 <= k -> fuel <> 0 ->
  exists s j, fft_size fuel nmax k = Ok s /\ s = k * 2 ^ j /\ nmax <= s /\ (j = 0 \/ s < 2 * nmax).
Proof.
  induction fuel as [|f IH]; intros k F K N; [congruence|]. cbn [fft_size]. destruct (Nat.ltb_spec k nmax) as [C|C].
  - destruct (IH (k * 2) ltac:(lia) ltac:(lia)) as [s [j [E [Es [Ns J]]]]]; [lia|]. exists s, (S j). split; [exact E|]. split; [rewrite Es; cbn [Nat.pow]; lia|]. split; [exact Ns|]. right.
    destruct J as [->|J]; [rewrite Es; cbn; lia|exact J].
  - exists k, 0. split; [reflexivity|]. cbn. split; [lia|]. auto.
Qed.

(** ** Interpolation *)
Open Scope Qc_scope.
Lemma Qc_ltb_lt a b : Qc_ltb a b = true <-> a < b.
Proof. unfold Qc_ltb. destruct (Qclt_le_dec a b) as [H|H]; split; auto; [discriminate|]. intros C. exfalso. apply (Qclt_not_le _ _ C H). Qed.
Lemma Qc_ltb_le a b : Qc_ltb a b = false <-> b <= a.
Proof. unfold Qc_ltb. destruct (Qclt_le_dec a b) as [H|H]; split; auto; [discriminate|]. intros C. exfalso. apply (Qclt_not_le _ _ H C). Qed.
Lemma item_ok {A} (l : list A) i x : item_at l i = Ok x <-> nth_error l i = Some x.
Proof. unfold item_at. destruct (nth_error l i); split; intros H; congruence. Qed.

Lemma advance_ok x z : forall fuel ix, (length x - ix < fuel)%nat -> (ix < length x)%nat -> (1 <= ix)%nat ->
  (ix = 1%nat \/ exists x1, nth_error x (ix - 1) = Some x1 /\ x1 < z) ->
  exists ix', advance fuel x z ix = Ok ix' /\ (ix <= ix' < length x)%nat /\
    (ix' = 1%nat \/ exists x1, nth_error x (ix' - 1) = Some x1 /\ x1 < z) /\
    (S ix' = length x \/ exists x2, nth_error x ix' = Some x2 /\ z <= x2).
Proof.
  induction fuel as [|f IH]; intros ix F L N H; [lia|]. cbn [advance]. destruct (nth_error x ix) as [x2|] eqn:E; [|apply nth_error_None in E; lia].
  unfold item_at. rewrite E. cbn [bind]. destruct (Qc_ltb x2 z) eqn:C; cbn [andb].
  - apply Qc_ltb_lt in C. destruct (Nat.ltb_spec ix (length x - 1)) as [D|D].
    + destruct (IH (S ix) ltac:(lia) ltac:(lia) ltac:(lia)) as [ix' [E' [B [H1 H2]]]].
      * right. exists x2. split; [replace (S ix - 1)%nat with ix by lia; exact E|exact C].
      * exists ix'. split; [exact E'|]. split; [lia|]. auto.
    + exists ix. split; [reflexivity|]. split; [lia|]. split; [exact H|]. left. lia.
  - apply Qc_ltb_le in C. exists ix. split; [reflexivity|]. split; [lia|]. split; [exact H|]. right. eauto.
Qed.
Lemma increasing_nth l i a b : increasing l -> nth_error l i = Some a -> nth_error l (S i) = Some b -> a < b.
Proof.
  intros H. revert i. induction H as [|c l H IH F]; intros i Ea Eb; [destruct i; discriminate|]. destruct i as [|i]; [|apply (IH i); auto].
  cbn in Ea. injection Ea as <-. rewrite Forall_forall in F. apply F, (nth_error_In l 0 Eb).
Qed.
Lemma value_ok x y z ix : increasing x -> length y = length x -> (1 <= ix < length x)%nat ->
  (ix = 1%nat \/ exists x1, nth_error x (ix - 1) = Some x1 /\ x1 < z) -> (S ix = length x \/ exists x2, nth_error x ix = Some x2 /\ z <= x2) ->
  exists v, value_at x y z ix = Ok v /\ interpolated x y z v.
Proof.
  intros I L B H1 H2. destruct ix as [|i]; [lia|]. replace (S i - 1)%nat with i in * by lia.
  destruct (nth_error x i) as [x1|] eqn:E1; [|apply nth_error_None in E1; lia]. destruct (nth_error x (S i)) as [x2|] eqn:E2; [|apply nth_error_None in E2; lia].
  destruct (nth_error y i) as [y1|] eqn:F1; [|apply nth_error_None in F1; lia]. destruct (nth_error y (S i)) as [y2|] eqn:F2; [|apply nth_error_None in F2; lia].
  exists (((z - x1) * y2 + (x2 - z) * y1) / (x2 - x1)). split.
  - unfold value_at. replace (S i - 1)%nat with i by lia. rewrite (proj2 (item_ok _ _ _) E1), (proj2 (item_ok _ _ _) E2), (proj2 (item_ok _ _ _) F1), (proj2 (item_ok _ _ _) F2). reflexivity.
  - exists i, x1, x2, y1, y2. repeat split; auto.
    + destruct H1 as [H1|[c [Ec Hc]]]; [left; lia|right]. assert (c = x1) by congruence. subst c. apply Qclt_le_weak, Hc.
    + destruct H2 as [H2|[c [Ec Hc]]]; [left; exact H2|right]. congruence.
    + unfold on_line. pose proof (increasing_nth x i x1 x2 I E1 E2) as D. field. intros C. assert (X : x2 = x1) by (rewrite <- (Qcplus_0_l x1), <- C; ring). rewrite X in D. apply (Qclt_not_eq _ _ D eq_refl).
Qed.
Lemma interp_from_ok x y : increasing x -> length y = length x -> forall zs ix, (1 <= ix < length x)%nat -> not_decreasing zs ->
  (ix = 1%nat \/ exists x1, nth_error x (ix - 1) = Some x1 /\ Forall (fun z => x1 < z) zs) ->
  exists vs, interp_from x y ix zs = Ok vs /\ Forall2 (interpolated x y) zs vs.
Proof.
  intros I L. induction zs as [|z zs IH]; intros ix B S H; cbn [interp_from]; [exists []; split; constructor|].
  inversion S as [|? ? S1 S2]; subst. destruct (advance_ok x z (Datatypes.S (length x)) ix ltac:(lia) ltac:(lia) ltac:(lia)) as [ix' [E [B' [H1 H2]]]].
  { destruct H as [H|[x1 [E1 F]]]; [left; exact H|right]. inversion F; subst. eauto. }
  rewrite E. cbn [bind]. destruct (value_ok x y z ix' I L ltac:(lia) H1 H2) as [v [Ev Iv]]. rewrite Ev. cbn [bind].
  destruct (IH ix' ltac:(lia) S1) as [vs [Es Fs]].
  { destruct H1 as [H1|[x1 [E1 L1]]]; [left; exact H1|right]. exists x1. split; [exact E1|]. eapply Forall_impl; [|exact S2]. intros w W. apply (Qclt_le_trans _ z); auto. }
  rewrite Es. cbn [bind]. exists (v :: vs). split; [reflexivity|constructor; auto].
Qed.
