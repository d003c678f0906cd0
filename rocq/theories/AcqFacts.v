(** Lemmas on acquisitions. *)
From Coq Require Import Lia.
From Verif Require Import Base BaseFacts PTFacts AcqModel AcqSpec.
Open Scope nat_scope.

Lemma skipn_firstn_skipn {A} (l : list A) a y : a <= y -> firstn (y - a) (skipn a l) ++ skipn y l = skipn a l.
Proof.
  intros H. rewrite <- (firstn_skipn (y - a) (skipn a l)) at 2. f_equal. revert l y H. induction a as [|a IH]; intros l y H; [cbn [skipn]; rewrite Nat.sub_0_r; reflexivity|].
  destruct y as [|y]; [lia|]. destruct l as [|x l]; [cbn; rewrite !skipn_nil; reflexivity|]. cbn [skipn Nat.sub]. apply IH. lia.
Qed.
Lemma chain_concat {A} (l : list A) a n bs : chain a n bs -> length l <= n -> concat (map (in_block l) bs) = skipn a l.
Proof.
  revert a. induction bs as [|[x y] bs IH]; intros a C L; cbn [chain map concat] in *.
  - subst a. symmetry. apply skipn_all2, L.
  - destruct C as [-> [Y C]]. rewrite (IH y C L). unfold in_block. cbn [fst snd]. apply skipn_firstn_skipn, Y.
Qed.

Section A.
Context {D S P : Type}.
Notation acq := (acq D S P).
Definition sound (a : acq) : Prop := (exists n, chain 0 n (blocks a) /\ length (samps a) <= n) /\ (cache a = None \/ cache a = Some (build a)).

Lemma build_of (a : acq) : (exists n, chain 0 n (blocks a) /\ length (samps a) <= n) -> operator_of (fields a) (build a).
Proof.
  intros [n [C L]]. unfold operator_of, fields, build. split.
  - apply Forall_forall. intros p I. apply in_map_iff in I. destruct I as [b [<- _]]. split; reflexivity.
  - rewrite map_map. cbn [p_samps]. exact (chain_concat (samps a) 0 n _ C L).
Qed.
Lemma get_sound (a : acq) : sound a -> sound (fst (get_operator a)) /\ fields (fst (get_operator a)) = fields a /\ operator_of (fields a) (snd (get_operator a)).
Proof.
  intros [B C]. unfold get_operator. destruct C as [C|C]; rewrite C; cbn [fst snd].
  - split; [split; [exact B|right; reflexivity]|]. split; [reflexivity|apply build_of, B].
  - split; [split; [exact B|right; exact C]|]. split; [reflexivity|apply build_of, B].
Qed.
Lemma pick_chosen {A} (l : list A) s r : pick l s = Ok r <-> chosen l s r.
Proof.
  destruct s as [|is]; cbn [pick chosen]; [split; [intros E; injection E as <-; reflexivity|intros ->; reflexivity]|].
  rewrite map_res_ok. revert r. induction is as [|i is IH]; intros r; split; intros H.
  - inversion H. reflexivity.
  - destruct r; [constructor|discriminate].
  - inversion H as [|? y ? ys E F]; subst. cbn [map]. destruct (nth_error l i); [injection E as ->|discriminate]. f_equal. apply IH, F.
  - destruct r as [|y r]; [discriminate|]. cbn [map] in H. injection H as E H. constructor; [rewrite E; reflexivity|apply IH, H].
Qed.
Lemma parse_asked x : match parse x with Ok t => asked x = Some t | Err _ => asked x = None end.
Proof. destruct x as [|[] [|[] [|? [|]]]]; reflexivity. Qed.

Lemma pick_colon {A} (l : list A) s : is_colon s = true -> pick l s = Ok l.
Proof. destruct s; [reflexivity|discriminate]. Qed.
Lemma getitem_selected (a : acq) x b : getitem a x = Ok b -> fields (fst b) = fields a /\ selected (fields a) x (fields (snd b)) /\
  (fst b = a /\ snd b = a \/ cache (fst b) = None /\ cache (snd b) = cache a /\ blocks (fst b) = blocks a /\ blocks (snd b) = blocks a).
Proof.
  unfold getitem. pose proof (parse_asked x) as Q. destruct (parse x) as [[[s0 s1] s2]|]; [|discriminate]. cbn [bind].
  destruct (is_colon s0 && is_colon s1 && is_colon s2) eqn:E.
  - intros H. injection H as <-. cbn [fst snd]. split; [reflexivity|]. split; [|left; split; reflexivity]. apply andb_prop in E. destruct E as [E E2]. apply andb_prop in E. destruct E as [E0 E1].
    unfold fields, selected. exists s0, s1, s2. split; [exact Q|]. rewrite <- !pick_chosen. auto using pick_colon.
  - intros H. apply bind_ok in H. destruct H as [d [Ed H]]. apply bind_ok in H. destruct H as [s [Es H]]. apply bind_ok in H. destruct H as [p [Ep H]]. injection H as <-. cbn.
    split; [reflexivity|]. split; [|right; repeat split]. exists s0, s1, s2. split; [exact Q|]. rewrite <- !pick_chosen. auto.
Qed.

Lemma map_set_nth {A B} (f : A -> B) l i x y : nth_error l i = Some y -> f x = f y -> map f (set_nth l i x) = map f l.
Proof.
  revert i. induction l as [|z l IH]; intros [|i] E H; cbn in *; try discriminate; [injection E as <-; rewrite H; reflexivity|]. rewrite IH; auto.
Qed.
Lemma Forall_set_nth {A} (Q : A -> Prop) l i x : Forall Q l -> Q x -> Forall Q (set_nth l i x).
Proof. intros F H. revert i. induction F as [|y l Hy F IH]; intros [|i]; cbn; constructor; auto. Qed.

Lemma run_history (es : list event) : forall (h : list acq), Forall sound h -> careful h es -> forall h' os, run h es = Ok (h', os) ->
  exists ps, history (map fields h) es (map fields h') ps /\ Forall2 operator_of ps os.
Proof.
  induction es as [|e es IH]; intros h F C h' os E.
  - cbn [run] in E. injection E as <- <-. exists []. split; constructor.
  - destruct e as [i|i x]; cbn [run careful] in E, C; unfold object in E; destruct (nth_error h i) as [a|] eqn:Ea; try discriminate; cbn [bind] in E.
    + assert (Sa : sound a) by (rewrite Forall_forall in F; apply F, (nth_error_In _ _ Ea)). destruct (get_sound a Sa) as [G1 [G2 G3]].
      destruct (get_operator a) as [a' o]. cbn [fst snd] in *. apply bind_ok in E. destruct E as [[h1 o1] [E1 E2]]. cbn [fst snd] in E2. injection E2 as <- <-.
      destruct (IH _ (Forall_set_nth _ _ _ _ F G1) C _ _ E1) as [ps [Hp Fp]]. rewrite (map_set_nth fields h i a' a Ea G2) in Hp.
      exists (fields a :: ps). split; [|constructor; auto]. apply H_get; [rewrite nth_error_map, Ea; reflexivity|exact Hp].
    + apply bind_ok in E. destruct E as [b [Eb E]]. rewrite Eb in C. destruct C as [C1 [C2 C3]].
      assert (Sa : sound a) by (rewrite Forall_forall in F; apply F, (nth_error_In _ _ Ea)).
      destruct (getitem_selected a x b Eb) as [F1 [F2 F3]].
      assert (Sb : sound (fst b) /\ sound (snd b)).
      { destruct F3 as [[B1 B2]|[B1 [B2 [B3 B4]]]]; [rewrite B1, B2; auto|]. destruct Sa as [[n [S1 S2]] S3]. split.
        - split; [|left; exact B1]. exists n. rewrite B3. split; [exact S1|]. unfold fields in F1. injection F1 as _ Es _. rewrite Es. exact S2.
        - destruct C1 as [C1|C1]; [|rewrite C1; split; [exists n; auto|exact S3]]. split; [|left; rewrite B2; exact C1]. exists n. rewrite B4. split; [exact S1|lia]. }
      destruct (IH _ (proj2 (Forall_app sound _ [snd b]) (conj (Forall_set_nth _ _ i _ F (proj1 Sb)) (Forall_cons _ (proj2 Sb) (Forall_nil _)))) C3 _ _ E) as [ps [Hp Fp]].
      rewrite map_app, (map_set_nth fields h i (fst b) a Ea F1) in Hp. exists ps. split; [|exact Fp].
      eapply H_select; [rewrite nth_error_map, Ea; reflexivity|exact F2|exact Hp].
Qed.
Lemma new_sound (a : acq) : new a -> sound a.
Proof. intros [C N]. split; [exists (length (samps a)); auto|left; exact N]. Qed.

(** Noise: each column once. *)
Lemma noise_once (a : acq) m bs : forall x, chain x m bs -> m = length (samps a) -> concat (map (fun b => seq (fst b) (length (in_block (samps a) b))) bs) = seq x (m - x).
Proof.
  induction bs as [|[u v] bs IH]; intros x C L; cbn [chain map concat] in *; [subst x; rewrite Nat.sub_diag; reflexivity|].
  destruct C as [-> [Y C]]. assert (V : v <= m). { clear -C. revert v C. induction bs as [|[u v'] bs IH]; intros v C; cbn in C; [lia|]. destruct C as [_ [Y C]]. specialize (IH _ C). lia. }
  rewrite (IH v C L). unfold in_block. cbn [fst snd]. rewrite firstn_length, skipn_length. rewrite Nat.min_l by lia.
  replace (m - x) with ((v - x) + (m - v)) by lia. rewrite seq_app. do 2 f_equal. lia.
Qed.
End A.

(** ** Blocks *)
Open Scope Z_scope.
Lemma cdiv_spec a b : 0 < b -> a <= b * cdiv a b < a + b.
Proof. intros B. unfold cdiv. pose proof (Z.div_mod (- a) b ltac:(lia)). pose proof (Z.mod_pos_bound (- a) b B). lia. Qed.
Fixpoint zchain (a n : Z) (bs : list (Z * Z)) : Prop :=
  match bs with [] => a = n | (x, y) :: r => x = a /\ a <= y /\ zchain y n r end.
Lemma zchain_split n m k : 0 <= n -> 0 < m -> forall a, (Z.of_nat (a + k) = m) ->
  zchain (split_start n m (Z.of_nat a)) n (map (fun r => (split_start n m r, split_start n m (r + 1))) (map Z.of_nat (seq a k))).
Proof.
  intros N M. induction k as [|k IH]; intros a E; cbn [seq map zchain].
  - rewrite Nat.add_0_r in E. rewrite E. apply split_start_m, M.
  - split; [reflexivity|]. split; [apply split_start_mono; auto|]. replace (Z.of_nat a + 1) with (Z.of_nat (S a)) by lia. apply IH. lia.
Qed.
Lemma make_blocks_chain n w m : 0 <= n -> 0 <= w -> match m with Some m => 0 < m | None => True end -> zchain 0 n (make_blocks n (w * n) m).
Proof.
  intros N W M. unfold make_blocks. destruct m as [m|]; [|cbn; auto]. destruct (Z.ltb_spec m (w * n)) as [C|C]; [|cbn; auto].
  pose proof (cdiv_spec (w * n) m M). assert (Q : 0 < cdiv (w * n) m) by nia.
  rewrite iota_map_seq. rewrite <- (split_start_0 n (cdiv (w * n) m) Q). apply (zchain_split n (cdiv (w * n) m) _ N Q 0). lia.
Qed.
Lemma make_blocks_size n w m b : 0 <= n -> 0 <= w -> 0 < m -> In b (make_blocks n (w * n) (Some m)) -> w * (snd b - fst b) < m + w \/ w * (snd b - fst b) <= m.
Proof.
  intros N W M I. unfold make_blocks in I. destruct (Z.ltb_spec m (w * n)) as [C|C].
  - left. apply in_map_iff in I. destruct I as [r [<- Ir]]. apply In_iota in Ir. cbn [fst snd]. set (k := cdiv (w * n) m) in *. pose proof (cdiv_spec (w * n) m M) as K. fold k in K.
    assert (Q : 0 < k) by nia. pose proof (split_start_step n k r) as St. pose proof (Z.div_mod n k ltac:(lia)) as Dm. pose proof (Z.mod_pos_bound n k Q) as Mb.
    assert (Hw : 0 < w) by nia. set (q := n / k) in *.
    destruct (Z.ltb_spec r (n mod k)) as [L|L]; rewrite St.
    + assert (w * q < m) by nia. nia.
    + assert (w * q <= m) by nia. nia.
  - right. destruct I as [<-|[]]. cbn [fst snd]. lia.
Qed.
