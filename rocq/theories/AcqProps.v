(** Property theorems C39 (operator of a selection) and C49 (blocks of an acquisition). *)
From Coq Require Import Lia.
From Verif Require Import Base BaseFacts AcqModel AcqSpec AcqFacts.
Open Scope nat_scope.

(** ** C39 *)
(** Every operator computed in a history is the one of its acquisition, when nothing is
    selected in an acquisition that holds an operator. *)
Theorem C39_history_partial : forall D S P (h : list (acq D S P)) es h' os, Forall new h -> careful h es -> run h es = Ok (h', os) ->
  exists ps, history (map fields h) es (map fields h') ps /\ Forall2 operator_of ps os.
Proof.
  intros D S P h es h' os N C E. apply (run_history es h); auto. eapply Forall_impl; [|exact N]. apply new_sound.
Qed.
Print Assumptions C39_history_partial.
Definition acq0 : acq nat nat nat := Acq [1; 2; 3] [10; 20; 30; 40] [5; 6] [(0, 2); (2, 4)] None.
Lemma acq0_new : new acq0.
Proof. split; [cbn; repeat split; lia|reflexivity]. Qed.
Definition some_events := [Select 0 [Item (Pick [0; 2]); Item (Pick [1; 2; 3])]; Get 1; Get 0; Select 0 [Dots]; Get 2].
Example C39_example : Forall new [acq0] /\ careful [acq0] some_events /\
  exists h', run [acq0] some_events = Ok (h', [[Part [1; 3] [20; 30] [5; 6]; Part [1; 3] [40] [5; 6]];
    [Part [1; 2; 3] [10; 20] [5; 6]; Part [1; 2; 3] [30; 40] [5; 6]]; [Part [1; 2; 3] [10; 20] [5; 6]; Part [1; 2; 3] [30; 40] [5; 6]]]).
Proof.
  split; [constructor; [exact acq0_new|constructor]|]. split.
  - cbn. repeat split; auto; lia.
  - eexists. vm_compute. reflexivity.
Qed.
(** Otherwise the selection has the operator of the complete acquisition. *)
Theorem C39_stale_refuted : forall D S P (a : acq D S P) x b, getitem a x = Ok b -> cache a <> None ->
  snd (get_operator (snd b)) = snd (get_operator a).
Proof.
  intros D S P a x b E C. destruct (getitem_selected a x b E) as [_ [_ [[_ ->]|[_ [H _]]]]]; [reflexivity|].
  unfold get_operator. rewrite H. destruct (cache a); [reflexivity|congruence].
Qed.
Print Assumptions C39_stale_refuted.
Theorem C39_selection_refuted : exists (a : acq nat nat nat) x h' o os q, new a /\ run [a] [Get 0; Select 0 x; Get 1] = Ok (h', o :: os) /\
  nth_error (map fields h') 1 = Some q /\ q = ([1], [10; 20; 30; 40], [5; 6]) /\ ~ Forall (operator_of q) os.
Proof.
  exists acq0, [Item (Pick [0])]. do 4 eexists. split; [exact acq0_new|]. split; [vm_compute; reflexivity|]. split; [vm_compute; reflexivity|]. split; [reflexivity|].
  intros F. inversion F as [|? ? [H _] _]; subst. inversion H as [|? ? [X _] _]. discriminate X.
Qed.
Print Assumptions C39_selection_refuted.
(** The blocks are those of the complete acquisition: samplings are lost when there are
    more of them than before. *)
Theorem C39_blocks_refuted : exists (a : acq nat nat nat) x h' os q, new a /\ run [a] [Select 0 x; Get 1] = Ok (h', os) /\
  nth_error (map fields h') 1 = Some q /\ ~ Forall (operator_of q) os.
Proof.
  exists acq0, [Item Colon; Item (Pick [0; 0; 1; 1; 2; 2])]. do 3 eexists. split; [exact acq0_new|]. split; [vm_compute; reflexivity|]. split; [reflexivity|].
  intros F. inversion F as [|? ? [_ H] _]. discriminate H.
Qed.
Print Assumptions C39_blocks_refuted.
(** The size of the operator: exact on new acquisitions, wrong once it has been computed. *)
Theorem C39_nbytes_partial : forall D S P (w : nat) (a : acq D S P), new a -> dets a <> [] -> samps a <> [] ->
  operator_nbytes w a = Ok (w * length (dets a) * length (samps a)).
Proof.
  intros D S P w a [C N] Hd Hs. unfold operator_nbytes, getitem. cbn [parse bind undots is_colon andb]. unfold pick.
  destruct (dets a) as [|d ds] eqn:Ed; [congruence|]. destruct (samps a) as [|s ss] eqn:Es; [congruence|]. cbn [map_res nth_error bind snd]. rewrite N.
  unfold get_operator. cbn [cache snd]. unfold build, op_nbytes. cbn [blocks dets samps pix]. rewrite map_map. cbn [p_dets p_samps].
  assert (E : list_sum (map (fun x => w * length [d] * length (in_block [s] x)) (blocks a)) = w); [|rewrite E; reflexivity].
  assert (L : length (@concat S (map (in_block [s]) (blocks a))) = 1).
  { rewrite (chain_concat [s] 0 (length (s :: ss)) (blocks a)); [reflexivity|exact C|cbn; lia]. }
  clear -L. cbn [length] in *. assert (G : list_sum (map (fun x => w * 1 * length (in_block [s] x)) (blocks a)) = w * length (concat (map (in_block [s]) (blocks a)))); [|rewrite G, L; lia].
  clear L. induction (blocks a) as [|b bs IH]; cbn [map list_sum fold_right concat]; [cbn; lia|]. unfold list_sum in IH. rewrite IH, app_length. lia.
Qed.
Print Assumptions C39_nbytes_partial.
Example C39_nbytes_example : new acq0 /\ operator_nbytes 8 acq0 = Ok 96.
Proof. split; [exact acq0_new|reflexivity]. Qed.
Theorem C39_nbytes_refuted : exists (a : acq nat nat nat), new a /\ operator_nbytes 8 (fst (get_operator a)) = Ok (12 * 96).
Proof. exists acq0. split; [exact acq0_new|reflexivity]. Qed.
Print Assumptions C39_nbytes_refuted.
(** Each sampling receives noise once. *)
Theorem C39_noise : forall D S P (a : acq D S P), new a -> noise_columns a = seq 0 (length (samps a)).
Proof.
  intros D S P a [C _]. unfold noise_columns. rewrite (noise_once a (length (samps a)) (blocks a) 0 C eq_refl), Nat.sub_0_r. reflexivity.
Qed.
Print Assumptions C39_noise.
Example C39_noise_example : noise_columns acq0 = [0; 1; 2; 3].
Proof. reflexivity. Qed.

(** ** C49 *)
Open Scope Z_scope.
(** The blocks are consecutive and cover the samplings. *)
Theorem C49_blocks : forall n w m, 0 <= n -> 0 <= w -> match m with Some m => 0 < m | None => True end ->
  zchain 0 n (make_blocks n (w * n) m).
Proof. exact make_blocks_chain. Qed.
Print Assumptions C49_blocks.
Example C49_example : make_blocks 7 (3 * 7) (Some 9) = [(0, 3); (3, 5); (5, 7)].
Proof. reflexivity. Qed.
(** The memory of a block exceeds the limit by less than the memory of one sampling ... *)
Theorem C49_limit_partial : forall n w m b, 0 <= n -> 0 <= w -> 0 < m -> In b (make_blocks n (w * n) (Some m)) ->
  w * (snd b - fst b) < m + w \/ w * (snd b - fst b) <= m.
Proof. exact make_blocks_size. Qed.
Print Assumptions C49_limit_partial.
Example C49_limit_example : In (0, 3) (make_blocks 7 (3 * 7) (Some 9)).
Proof. left. reflexivity. Qed.
(** ... but may exceed it, even when a finer division would not. *)
Theorem C49_limit_refuted : exists n w m b, 0 < w <= m /\ In b (make_blocks n (w * n) (Some m)) /\ m < w * (snd b - fst b).
Proof. exists 3, 3, 5, (0, 2). split; [lia|]. split; [left; reflexivity|cbn; lia]. Qed.
Print Assumptions C49_limit_refuted.
(** With a limit below the memory of one sampling, some blocks are empty. *)
Theorem C49_empty_refuted : exists n w m b, 0 < n /\ 0 < w /\ 0 < m /\ In b (make_blocks n (w * n) (Some m)) /\ fst b = snd b.
Proof. exists 2, 4, 3, (2, 2). split; [lia|]. split; [lia|]. split; [lia|]. split; [vm_compute; auto 6|reflexivity]. Qed.
Print Assumptions C49_empty_refuted.
