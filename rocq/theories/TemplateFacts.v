From Coq Require Import String Ascii Lia.
From Verif Require Import Base BaseFacts TemplateModel TemplateSpec.
Open Scope nat_scope.

Lemma text_eqb_spec a b : text_eqb a b = true <-> a = b.
Proof. unfold text_eqb. destruct (list_eq_dec ascii_dec a b); split; congruence. Qed.
Lemma text_eqb_refl a : text_eqb a a = true.
Proof. apply text_eqb_spec; reflexivity. Qed.

Definition nospace (t : text) := Forall (fun c => is_space c = false) t.

Lemma lstrip_nospace t r : nospace t -> t <> [] -> lstrip (t ++ r) = t ++ r.
Proof. intros H N. destruct t; [congruence|]. inversion H; subst. cbn. rewrite H2. reflexivity. Qed.

Lemma lstrip_id t : nospace t -> lstrip t = t.
Proof. intros H. destruct t; [reflexivity|]. inversion H; subst. cbn. rewrite H2. reflexivity. Qed.

Lemma strip_id t : nospace t -> strip t = t.
Proof.
  intros H. unfold strip. rewrite (lstrip_id t H), lstrip_id; [apply rev_involutive|].
  unfold nospace in *. rewrite Forall_forall in *. intros c Hc. apply H. apply in_rev; exact Hc.
Qed.

Lemma strip_space t : nospace t -> strip (" "%char :: t) = t.
Proof. intros H. unfold strip. cbn [lstrip is_space]. change (lstrip (" "%char :: t)) with (lstrip t). apply strip_id; exact H. Qed.

Lemma split_none sep t : ~ In sep t -> split sep t = [t].
Proof.
  induction t as [|c r IH]; intros H; cbn; [reflexivity|].
  destruct (Ascii.eqb_spec c sep); [subst; exfalso; apply H; left; reflexivity|].
  rewrite IH by (intros X; apply H; right; exact X). reflexivity.
Qed.

Lemma split_app sep t r : ~ In sep t -> split sep (t ++ sep :: r) = t :: split sep r.
Proof.
  induction t as [|c u IH]; intros H; cbn; [rewrite Ascii.eqb_refl; reflexivity|].
  destruct (Ascii.eqb_spec c sep); [subst; exfalso; apply H; left; reflexivity|].
  rewrite IH by (intros X; apply H; right; exact X). reflexivity.
Qed.

Lemma split_join_comma vs : vs <> [] -> Forall (fun t => ~ In ","%char t) vs -> split ","%char (join (lit ",") vs) = vs.
Proof.
  induction vs as [|v r IH]; intros N H; [congruence|]. inversion H; subst.
  destruct r as [|w r]; [apply split_none; auto|].
  change (join (lit ",") (v :: w :: r)) with (v ++ ","%char :: join (lit ",") (w :: r)).
  rewrite split_app by auto. rewrite IH; [reflexivity|discriminate|auto].
Qed.

Lemma split_once_app t r : ~ In "="%char t -> split_once "="%char (t ++ "="%char :: r) = Some (t, r).
Proof.
  induction t as [|c u IH]; intros H; cbn [app split_once]; [reflexivity|].
  destruct (Ascii.eqb_spec c "="%char); [subst; exfalso; apply H; left; reflexivity|].
  rewrite IH by (intros X; apply H; right; exact X). reflexivity.
Qed.

(** A definition as it is written. *)
Definition def_text (d : text * list text) : text := fst d ++ lit "=" ++ join (lit ",") (snd d).

Definition plain (t : text) := Forall (fun c => is_space c = false /\ c <> ";"%char /\ c <> "#"%char) t.

Lemma clean_plain t : clean t -> plain t.
Proof.
  unfold clean, plain. apply Forall_impl. intros c [H1 H2]. split; [exact H1|].
  split; intros ->; apply H2; cbn; auto.
Qed.

Lemma plain_app a b : plain a -> plain b -> plain (a ++ b).
Proof. unfold plain. intros; apply Forall_app; auto. Qed.

Lemma plain_join vs : Forall clean vs -> plain (join (lit ",") vs).
Proof.
  induction vs as [|v r IH]; intros H; [constructor|]. inversion H; subst. destruct r as [|w r]; [apply clean_plain; auto|].
  change (join (lit ",") (v :: w :: r)) with (v ++ lit "," ++ join (lit ",") (w :: r)).
  apply plain_app; [apply clean_plain; auto|]. apply plain_app; [|auto].
  repeat constructor; discriminate.
Qed.

Lemma plain_def d : clean (fst d) -> Forall clean (snd d) -> plain (def_text d).
Proof.
  intros H1 H2. apply plain_app; [apply clean_plain; auto|]. apply plain_app; [|apply plain_join; auto].
  repeat constructor; discriminate.
Qed.

Lemma plain_nospace t : plain t -> nospace t.
Proof. apply Forall_impl. tauto. Qed.

Lemma def_nonempty d : def_text d <> [].
Proof. unfold def_text. destruct (fst d); discriminate. Qed.

Lemma clean_notin t c : clean t -> In c (lit ";=,#") -> ~ In c t.
Proof. unfold clean. rewrite Forall_forall. intros H Hc Hi. destruct (H c Hi). contradiction. Qed.

Lemma add_def d0 d (pre : text) : pre = [] \/ pre = [" "%char] ->
  clean (fst d) -> snd d <> [] -> Forall clean (snd d) ->
  add_definition d0 (pre ++ def_text d) = dict_set d0 (fst d) (snd d).
Proof.
  intros Hp H1 H2 H3. unfold add_definition.
  assert (E : strip (pre ++ def_text d) = def_text d).
  { pose proof (plain_nospace _ (plain_def d H1 H3)). destruct Hp as [-> | ->]; [apply strip_id|apply strip_space]; auto. }
  rewrite E. unfold def_text. change (lit "=" ++ join (lit ",") (snd d)) with ("="%char :: join (lit ",") (snd d)).
  rewrite split_once_app by (apply clean_notin; [auto|cbn; auto]).
  rewrite strip_id by (apply plain_nospace, clean_plain; auto).
  rewrite split_join_comma; [|auto|eapply Forall_impl; [|exact H3]; intros a Ha; apply clean_notin; [auto|cbn; auto]].
  f_equal. clear H2. induction H3 as [|t r Ht _ IH]; cbn; [reflexivity|].
  rewrite IH, strip_id by (apply plain_nospace, clean_plain; auto). reflexivity.
Qed.

Lemma dict_set_new {A} (d : list (text * A)) k v : ~ In k (map fst d) -> dict_set d k v = d ++ [(k, v)].
Proof.
  induction d as [|[k' v'] r IH]; intros H; cbn in *; [reflexivity|].
  destruct (text_eqb k' k) eqn:E; [apply text_eqb_spec in E; subst; exfalso; auto|].
  rewrite IH; auto.
Qed.

Definition body (v : variables) := join (lit "; ") (map def_text v).

Lemma body_split v : v <> [] -> Forall (fun d => clean (fst d) /\ snd d <> [] /\ Forall clean (snd d)) v ->
  exists first, split ";"%char (body v) = first :: map (fun d => " "%char :: def_text d) (tl v) /\
    first = def_text (hd ([], []) v).
Proof.
  unfold body. induction v as [|d r IH]; intros N H; [congruence|]. inversion H as [|x l [C1 [C2 C3]] H2]; subst.
  assert (NS : ~ In ";"%char (def_text d)).
  { pose proof (plain_def d C1 C3) as P. unfold plain in P. rewrite Forall_forall in P. intros X.
    destruct (P _ X) as [_ [Y _]]. apply Y; reflexivity. }
  destruct r as [|d' r].
  - cbn [map join tl hd]. rewrite split_none by exact NS. eauto.
  - change (join (lit "; ") (map def_text (d :: d' :: r))) with
      (def_text d ++ ";"%char :: " "%char :: join (lit "; ") (map def_text (d' :: r))).
    rewrite split_app by exact NS. destruct IH as [f [E ->]]; [discriminate|auto|].
    cbn [tl hd map]. eexists; split; [|reflexivity]. f_equal.
    transitivity (match split ";"%char (join (lit "; ") (map def_text (d' :: r))) with
                  | w :: ws => (" "%char :: w) :: ws | [] => [[" "%char]] end); [reflexivity|].
    rewrite E. reflexivity.
Qed.

Lemma fold_defs v : forall d0 pre, (forall d, In d v -> pre d = [] \/ pre d = [" "%char]) ->
  NoDup (map fst d0 ++ map fst v) ->
  Forall (fun d => clean (fst d) /\ snd d <> [] /\ Forall clean (snd d)) v ->
  fold_left add_definition (map (fun d => pre d ++ def_text d) v) d0 = d0 ++ v.
Proof.
  induction v as [|d r IH]; intros d0 pre Hp ND H; cbn [map fold_left]; [rewrite app_nil_r; reflexivity|].
  inversion H as [|x l [C1 [C2 C3]] H2]; subst.
  rewrite add_def by (auto; apply Hp; left; reflexivity).
  rewrite dict_set_new.
  - rewrite IH.
    + rewrite <- app_assoc. destruct d; reflexivity.
    + intros; apply Hp; right; auto.
    + rewrite map_app, <- app_assoc. cbn [map app fst]. exact ND.
    + exact H2.
  - cbn [map] in ND. apply NoDup_remove_2 in ND. intros X. apply ND. apply in_or_app; left; exact X.
Qed.

(** The lazy group stops at the closing mark. *)
Definition ends_plain (b : text) := b = [] \/ exists c r, rev b = c :: r /\ is_space c = false.

Lemma prefix_no_hash b rest : b <> [] -> ~ In "#"%char b -> ends_plain b ->
  prefix (lit "#}") (lstrip (b ++ rest)) = None.
Proof.
  intros N H E. destruct E as [E|[c [r [E Hc]]]]; [congruence|].
  assert (X : exists u w, lstrip (b ++ rest) = u :: w /\ u <> "#"%char).
  { clear N. assert (Hin : In c b) by (apply in_rev; rewrite E; left; reflexivity). clear E r.
    induction b as [|a b IH]; [contradiction|]. cbn. destruct (is_space a) eqn:Ea.
    - destruct Hin as [->|Hin]; [congruence|]. apply IH; auto. intros X; apply H; right; exact X.
    - exists a, (b ++ rest). split; [reflexivity|]. intros ->. apply H; left; reflexivity. }
  destruct X as [u [w [-> Hu]]]. cbn [lit list_ascii_of_string prefix].
  destruct (Ascii.eqb_spec "#"%char u); [congruence|reflexivity].
Qed.

Lemma lazy_body b rest : ~ In "#"%char b -> ~ In newline b -> ends_plain b ->
  lazy_group (b ++ lit " #}" ++ rest) = Some b.
Proof.
  induction b as [|c r IH]; intros H1 H2 E.
  - reflexivity.
  - change ((c :: r) ++ lit " #}" ++ rest) with (c :: (r ++ lit " #}" ++ rest)).
    cbn [lazy_group].
    change (c :: (r ++ lit " #}" ++ rest)) with ((c :: r) ++ lit " #}" ++ rest).
    rewrite prefix_no_hash; [|discriminate|exact H1|exact E].
    destruct (Ascii.eqb_spec c newline); [subst; exfalso; apply H2; left; reflexivity|].
    rewrite IH; [reflexivity| | |].
    + intros X; apply H1; right; exact X.
    + intros X; apply H2; right; exact X.
    + destruct E as [E|[a [u [E Ha]]]]; [discriminate|]. destruct r as [|d r]; [left; reflexivity|right].
      cbn [rev] in E |- *. destruct (rev r ++ [d]) as [|x y] eqn:Er.
      * destruct (rev r); discriminate.
      * cbn in E. inversion E; subst. eauto.
Qed.

Lemma body_chars v : Forall (fun d => clean (fst d) /\ snd d <> [] /\ Forall clean (snd d)) v ->
  ~ In "#"%char (body v) /\ ~ In newline (body v) /\ ends_plain (body v) /\
  (v <> [] -> exists c r, body v = c :: r /\ is_space c = false).
Proof.
  unfold body. induction v as [|d r IH]; intros H.
  - repeat split; try (intros []). left; reflexivity. congruence.
  - inversion H as [|x l [C1 [C2 C3]] H2]; subst. specialize (IH H2).
    pose proof (plain_def d C1 C3) as P. unfold plain in P. rewrite Forall_forall in P.
    assert (NH : ~ In "#"%char (def_text d)) by (intros X; destruct (P _ X) as [_ [_ Y]]; apply Y; reflexivity).
    assert (NN : ~ In newline (def_text d)) by (intros X; destruct (P _ X) as [Y _]; discriminate Y).
    assert (FC : exists c u, def_text d = c :: u /\ is_space c = false).
    { pose proof (def_nonempty d). destruct (def_text d) as [|c u]; [congruence|]. exists c, u. split; [reflexivity|].
      apply (P c). left; reflexivity. }
    assert (LC : ends_plain (def_text d)).
    { right. pose proof (def_nonempty d). destruct (rev (def_text d)) as [|c u] eqn:E.
      - apply (f_equal (@rev ascii)) in E. rewrite rev_involutive in E. cbn in E. congruence.
      - exists c, u. split; [reflexivity|]. apply (P c). apply in_rev. rewrite E. left; reflexivity. }
    destruct r as [|d' r]; [cbn [map join]; repeat split; auto|].
    change (join (lit "; ") (map def_text (d :: d' :: r))) with
      (def_text d ++ ";"%char :: " "%char :: join (lit "; ") (map def_text (d' :: r))).
    destruct IH as [I1 [I2 [I3 I4]]]. set (B := join (lit "; ") (map def_text (d' :: r))) in *.
    split; [|split; [|split]].
    + intros X. apply in_app_or in X. destruct X as [X|[X|[X|X]]]; try discriminate; auto.
    + intros X. apply in_app_or in X. destruct X as [X|[X|[X|X]]]; try discriminate; auto.
    + right. destruct I3 as [I3|[c [u [E Hc]]]].
      * destruct I4 as [c [u [E _]]]; [discriminate|]. congruence.
      * exists c. rewrite rev_app_distr. cbn [rev]. rewrite E. cbn [app]. eauto.
    + intros _. destruct FC as [c [u [E Hc]]]. rewrite E. cbn [app]. eauto.
Qed.

Lemma parse_header v rest : clean_variables v -> parse (write_header v ++ rest) = v.
Proof.
  intros [ND H]. destruct (body_chars v H) as [B1 [B2 [B3 B4]]].
  assert (M : match_here (write_header v ++ rest) = Some (body v)).
  { assert (E0 : write_header v ++ rest = lit "{# variables: " ++ body v ++ lit " #}" ++ rest)
      by (unfold write_header, body, def_text; rewrite <- !app_assoc; reflexivity).
    rewrite E0. transitivity (lazy_group (lstrip (body v ++ lit " #}" ++ rest))); [reflexivity|].
    destruct v as [|d r]; [reflexivity|].
    destruct B4 as [c [u [E Hc]]]; [discriminate|].
    assert (E1 : lstrip (body (d :: r) ++ lit " #}" ++ rest) = body (d :: r) ++ lit " #}" ++ rest)
      by (rewrite E; cbn [app lstrip]; rewrite Hc; reflexivity).
    rewrite E1. apply lazy_body; auto. }
  assert (S : search (write_header v ++ rest) = Some (body v)).
  { destruct (write_header v ++ rest) eqn:E; unfold search; rewrite M; reflexivity. }
  unfold parse. rewrite S. destruct v as [|d r]; [reflexivity|].
  destruct (body_split (d :: r)) as [f [E ->]]; [discriminate|exact H|]. rewrite E. cbn [hd tl].
  pose proof (fold_defs (d :: r) [] (fun d' => if text_eqb (fst d') (fst d) then [] else [" "%char])) as F.
  cbn [map fold_left app] in F. rewrite text_eqb_refl in F. cbn [app] in F. cbn [fold_left].
  assert (MX : map (fun d0 : text * list text => " "%char :: def_text d0) r =
               map (fun d0 => (if text_eqb (fst d0) (fst d) then [] else [" "%char]) ++ def_text d0) r).
  { apply map_ext_in. intros d0 Hd. destruct (text_eqb (fst d0) (fst d)) eqn:Q; [|reflexivity].
    apply text_eqb_spec in Q. inversion ND; subst. exfalso. apply H2. rewrite <- Q. apply in_map; exact Hd. }
  rewrite MX. apply F; auto. intros d0 _. destruct (text_eqb (fst d0) (fst d)); auto.
Qed.

(** Combinations *)
Lemma dict_get_map {A} (v : variables) (f : text * list text -> A) k vs :
  NoDup (map fst v) -> In (k, vs) v -> dict_get (map (fun d => (fst d, f d)) v) k = Some (f (k, vs)).
Proof.
  induction v as [|d r IH]; intros ND H; [contradiction|]. cbn. inversion ND; subst.
  destruct H as [->|H].
  - cbn. rewrite text_eqb_refl. reflexivity.
  - destruct (text_eqb (fst d) k) eqn:E; [|auto]. apply text_eqb_spec in E. subst.
    exfalso. apply H2. change (fst d) with (fst d). apply (in_map fst) in H. exact H.
Qed.

Lemma combinations_ok v n : v <> [] -> NoDup (map fst v) -> Forall (fun d => length (snd d) = n) v ->
  exists cs, combinations v = Ok cs /\ length cs = n /\
    forall i k vs, i < n -> In (k, vs) v -> dict_get (nth i cs []) k = Some (nth i vs []) /\ map fst (nth i cs []) = map fst v.
Proof.
  intros N ND H. destruct v as [|[k0 v0] r]; [congruence|]. cbn [combinations].
  inversion H as [|x l H1 H2]; subst. cbn [snd] in *.
  assert (F : forallb (fun d : text * list text => length (snd d) =? length v0) r = true).
  { apply forallb_forall. intros d Hd. rewrite Forall_forall in H2. rewrite (H2 d Hd). apply Nat.eqb_refl. }
  rewrite F. eexists; split; [reflexivity|]. rewrite map_length, seq_length. split; [reflexivity|].
  intros i k vs Hi Hin.
  rewrite nth_indep with (d' := (fun i => map (fun d : text * list text => (fst d, nth i (snd d) [])) ((k0, v0) :: r)) 0)
    by (rewrite map_length, seq_length; exact Hi).
  rewrite map_nth with (f := fun i => map (fun d : text * list text => (fst d, nth i (snd d) [])) ((k0, v0) :: r)).
  rewrite seq_nth by exact Hi. cbn [plus]. split.
  - apply (dict_get_map ((k0, v0) :: r) (fun d => nth i (snd d) []) k vs ND Hin).
  - rewrite map_map. reflexivity.
Qed.

Lemma combinations_unequal v d d' : In d v -> In d' v -> length (snd d) <> length (snd d') ->
  combinations v = Err ValueError.
Proof.
  intros H H' N. destruct v as [|[k0 v0] r]; [contradiction|]. cbn.
  destruct (forallb (fun d : text * list text => length (snd d) =? length v0) r) eqn:F; [|reflexivity].
  rewrite forallb_forall in F.
  assert (X : forall e, In e ((k0, v0) :: r) -> length (snd e) = length v0).
  { intros e [<-|He]; [reflexivity|]. apply Nat.eqb_eq, F, He. }
  rewrite (X d H), (X d' H') in N. congruence.
Qed.

(** A guard comparing a string to integers writes nothing. *)
Lemma guard_false g k l i c : In (InInt k l) g -> eval_guard i c g <> Ok true.
Proof.
  induction g as [|a r IH]; intros H; [contradiction|]. cbn. destruct H as [->|H].
  - cbn. destruct (dict_get c k); cbn; discriminate.
  - destruct (eval_atom i c a) as [[|]|]; cbn; [auto|discriminate|discriminate].
Qed.

Lemma never_written g k l cs : In (InInt k l) g -> forall i r, written g i cs = Ok r -> r = [].
Proof.
  intros H. induction cs as [|c cs IH]; intros i r E; cbn in E; [inversion E; reflexivity|].
  destruct (eval_guard i c g) as [b|] eqn:G; [|discriminate]. cbn in E.
  destruct (written g (S i) cs) as [w|] eqn:W; [|discriminate]. cbn in E. inversion E; subst.
  destruct b; [exfalso; eapply guard_false; eauto|eauto].
Qed.

Lemma matvec_names di ds dv i r v b : numpy_dtype dv -> matvec_name di ds dv = Some (i, r, v, b) ->
  exists cs n, expand sparse_header guard_matvec = Ok cs /\
    nth_error (map suffix_irv cs) n = Some (i, r, v) /\
    forall m, nth_error (map suffix_irv cs) m = Some (i, r, v) -> m = n.
Proof.
  intros Hd H.
  assert (C : In (i, r, v) [(lit "4", lit "4", lit "4"); (lit "4", lit "4", lit "8"); (lit "4", lit "8", lit "8");
                            (lit "8", lit "4", lit "4"); (lit "8", lit "4", lit "8"); (lit "8", lit "8", lit "8")]%string).
  { unfold matvec_name in H. destruct ds as [|ns|ns|ns|ns]; try discriminate H.
    destruct di as [|ni|ni|ni|ni];
      try (cbn in H; destruct (Nat.eqb ns 4), (Nat.eqb ns 8); discriminate H).
    cbn in H. destruct (Nat.eqb_spec ns 4) as [-> | N4]; [|destruct (Nat.eqb_spec ns 8) as [-> | N8]; [|discriminate H]];
      (destruct (Nat.eqb_spec ni 4) as [-> | M4]; [|destruct (Nat.eqb_spec ni 8) as [-> | M8]; [|discriminate H]]).
    all: destruct dv as [|nv|nv|nv|nv]; cbn in H, Hd;
      try (destruct Hd as [<-|[<-|[<-|[<-|[]]]]]; cbn in H);
      inversion H; subst; cbn; tauto. }
  clear Hd H. eexists.
  assert (NE : exists n, nth_error [(lit "4", lit "4", lit "4"); (lit "4", lit "4", lit "8"); (lit "4", lit "8", lit "8");
                            (lit "8", lit "4", lit "4"); (lit "8", lit "4", lit "8"); (lit "8", lit "8", lit "8")]%string n = Some (i, r, v))
    by (apply In_nth_error; exact C).
  destruct NE as [n Hn]. exists n. split; [vm_compute; reflexivity|].
  match goal with |- nth_error (map suffix_irv ?l) _ = _ /\ _ =>
    replace (map suffix_irv l) with
     [(lit "4", lit "4", lit "4"); (lit "4", lit "4", lit "8"); (lit "4", lit "8", lit "8");
      (lit "8", lit "4", lit "4"); (lit "8", lit "4", lit "8"); (lit "8", lit "8", lit "8")]%string
      by (vm_compute; reflexivity) end.
  split; [exact Hn|]. intros m Hm.
  apply (NoDup_nth_error [(lit "4", lit "4", lit "4"); (lit "4", lit "4", lit "8"); (lit "4", lit "8", lit "8");
      (lit "8", lit "4", lit "4"); (lit "8", lit "4", lit "8"); (lit "8", lit "8", lit "8")]%string).
  - repeat constructor; cbn; intuition discriminate.
  - apply nth_error_Some. congruence.
  - congruence.
Qed.
