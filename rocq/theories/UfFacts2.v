From Coq Require Import String Ascii QArith Qcanon Permutation.
From Verif Require Import Base BaseFacts TemplateModel UnitModel UnitSpec UnitFacts UnitSIFacts UfModel UfSpec UfFacts.
Open Scope nat_scope.

Section F.
Context {K : Type} {o : mag_ops K} (L : mag_laws o) {V : Type} {act : K -> V -> V} (A : action o act).
Notation "a ** b" := (mmul o a b) (at level 40, left associativity).
Variable scale : text -> K.
Notation pw := (powers o scale).
Notation farg := (@farg K V).
Notation operand := (@operand K V).

Definition here (p : place_) (n : nat) : bool := match p with At l => existsb (Nat.eqb n) l | Inside m => n =? m end.
Lemma here_false p n : here p n = false <-> match p with At l => ~ In n l | Inside m => n <> m end.
Proof.
  destruct p as [l|m]; cbn [here].
  - rewrite <- not_true_iff_false. rewrite existsb_exists. split.
    + intros H I. apply H. exists n. split; auto. apply Nat.eqb_refl.
    + intros H [x [I E]]. apply Nat.eqb_eq in E. subst x. auto.
  - apply Nat.eqb_neq.
Qed.
Lemma here_true p n : here p n = true <-> match p with At l => In n l | Inside m => n = m end.
Proof.
  destruct p as [l|m]; cbn [here].
  - rewrite existsb_exists. split.
    + intros [x [I E]]. apply Nat.eqb_eq in E. subst x. auto.
    + intros I. exists n. split; auto. apply Nat.eqb_refl.
  - apply Nat.eqb_eq.
Qed.
Definition good (p : place_) (c : unit_) (n : nat) (a a' : farg) : Prop :=
  if here p n
  then match p with
       | At _ => exists q q', a = One q /\ a' = One q' /\ act (pw c) (magnitude q') = value_in o act scale c q
       | Inside _ => exists l l', a = Seq l /\ a' = Seq l' /\ map (act (pw c)) (map magnitude l') = map (value_in o act scale c) l
       end
  else a' = a /\ no_unit_arg a.
Lemma view_value (a : farg) : no_unit_arg a -> farg_value o act scale a = view_arg a.
Proof.
  destruct a as [q|l|]; cbn; intros N; auto.
  - rewrite (no_unit_value A) by auto. reflexivity.
  - f_equal. apply map_ext_in. intros q I. rewrite Forall_forall in N. apply (no_unit_value A), N, I.
Qed.
Lemma times_values p c : forall n args args', Forall2 (fun _ _ => True) args args' ->
  (forall k a a', nth_error args k = Some a -> nth_error args' k = Some a' -> good p c (n + k) a a') ->
  times_at act n p (pw c) (map view_arg args') = values_at o act scale n p c args.
Proof.
  intros n args args' F. revert n. induction F as [|a a' r r' _ F IH]; intros n H; [reflexivity|].
  cbn [map times_at values_at]. f_equal.
  - specialize (H 0 a a' eq_refl eq_refl). rewrite Nat.add_0_r in H. unfold good in H. destruct p as [l|m]; cbn [here] in H.
    + destruct (existsb (Nat.eqb n) l).
      * destruct H as (q & q' & -> & -> & E). cbn. rewrite E. reflexivity.
      * destruct H as [-> N]. rewrite view_value by auto. destruct a; reflexivity.
    + destruct (n =? m).
      * destruct H as (q & q' & -> & -> & E). cbn. rewrite E. reflexivity.
      * destruct H as [-> N]. rewrite view_value by auto. destruct a; reflexivity.
  - apply IH. intros k x x' X X'. specialize (H (S k) x x' X X'). rewrite Nat.add_succ_r in H. exact H.
Qed.
Lemma refl2 (l : list farg) : Forall2 (fun _ _ => True) l l.
Proof. induction l; constructor; auto. Qed.

(** The input selections of the code and the places. *)
Definition selects (i : conv_input) (p : place_) : Prop :=
  match i with
  | FIRST => p = At [0] | SECOND => p = At [1] | FIRST_SEQUENCE => p = Inside 0 | SECOND_SEQUENCE => p = Inside 1
  | FIRST_AND_SECOND => p = At [0; 1] | FIRST_AND_THIRD => p = At [0; 2] | SECOND_AND_THIRD => p = At [1; 2]
  | _ => False
  end.
Lemma selects_here i p n : selects i p -> nested i n = (match p with Inside m => n =? m | At _ => false end) /\ selected i n = (match p with At l => existsb (Nat.eqb n) l | Inside _ => false end).
Proof. destruct i; cbn; intros H; try tauto; subst p; cbn; rewrite ?orb_false_r; auto. Qed.
Lemma units_at i p (args : list farg) : selects i p -> well_placed p args -> input_units i args = Ok (map get_units (operands_at p args)).
Proof.
  intros S [W _]. destruct i; cbn in S; try tauto; subst p; cbn [operands_at input_units flat_map]; unfold nth_units, seq_units.
  - inversion W as [|x y [a Ha] W2]; subst. rewrite Ha. reflexivity.
  - inversion W as [|x y [a Ha] W2]; subst. rewrite Ha. reflexivity.
  - destruct W as [l Hl]. rewrite Hl. reflexivity.
  - destruct W as [l Hl]. rewrite Hl. reflexivity.
  - inversion W as [|x y [a Ha] W2]; subst. inversion W2 as [|x y [b Hb] W3]; subst. rewrite Ha, Hb. reflexivity.
  - inversion W as [|x y [a Ha] W2]; subst. inversion W2 as [|x y [b Hb] W3]; subst. rewrite Ha, Hb. reflexivity.
  - inversion W as [|x y [a Ha] W2]; subst. inversion W2 as [|x y [b Hb] W3]; subst. rewrite Ha, Hb. reflexivity.
Qed.
Lemma operands_in p (args : list farg) n : here p n = true -> well_placed p args ->
  forall a, nth_error args n = Some a ->
  match p with At _ => exists q, a = One q /\ In q (operands_at p args) | Inside _ => a = Seq (operands_at p args) end.
Proof.
  intros H [W _] a E. apply here_true in H. destruct p as [l|m].
  - rewrite Forall_forall in W. destruct (W n H) as [q Q]. rewrite Q in E. inversion E; subst. exists q. split; [reflexivity|].
    cbn. apply in_flat_map. exists n. split; [exact H|]. rewrite Q. left. reflexivity.
  - subst n. destruct W as [l Q]. rewrite Q in E. inversion E; subst. cbn. rewrite Q. reflexivity.
Qed.

Section Common.
Context (fuel : nat) (glob : @du_table K) (IG : interprets o scale glob).
Context (p : place_) (args : list farg) (W : well_placed p args) (u : unit_) (FU : first_unit (operands_at p args) u)
  (T : tables (interprets o scale) (operands_at p args)) (D : Forall is_dict (operands_at p args)).

Lemma convert_args_nth common i : forall l n l', convert_args o act fuel glob common i n l = Ok l' ->
  Forall2 (fun _ _ => True) l l' /\ forall k a a', nth_error l k = Some a -> nth_error l' k = Some a' -> convert_arg o act fuel glob common i (n + k) a = Ok a'.
Proof.
  induction l as [|a l IH]; intros n l' E.
  - cbn in E. inversion E; subst. split; [constructor|]. intros [|k] a a' X; discriminate.
  - cbn [convert_args] in E. destruct (convert_arg o act fuel glob common i n a) as [b|] eqn:B; cbn [bind] in E; [|discriminate].
    destruct (convert_args o act fuel glob common i (S n) l) as [r|] eqn:R; cbn [bind] in E; [|discriminate]. inversion E; subst.
    destruct (IH _ _ R) as [F G]. split; [constructor; auto|]. intros [|k] x x' X X'.
    + cbn in X, X'. inversion X; inversion X'; subst. rewrite Nat.add_0_r. exact B.
    + rewrite Nat.add_succ_r. apply G; auto.
Qed.
Lemma single q : In q (operands_at p args) -> is_dict q /\ tables (interprets o scale) [q].
Proof.
  intros I. split; [rewrite Forall_forall in D; auto|]. unfold tables in *. rewrite Forall_forall in T. constructor; [exact (T q I)|constructor].
Qed.
Lemma others n a : here p n = false -> nth_error args n = Some a -> no_unit_arg a.
Proof. intros H E. apply here_false in H. exact (proj2 W n a E H). Qed.
Lemma common_here q : In q (operands_at p args) -> has_unit q -> u <> [].
Proof. intros I H. apply (first_nonempty _ u FU). apply Exists_exists. eauto. Qed.
Lemma convert_args_good i l' : selects i p -> convert_args o act fuel glob u i 0 args = Ok l' ->
  times_at act 0 p (pw u) (map view_arg l') = values_at o act scale 0 p u args.
Proof.
  assert (Sg := single); assert (Ch := common_here); assert (Ot := others).
  intros S E. destruct (convert_args_nth u i args 0 l' E) as [F G]. apply times_values; [exact F|]. intros k a a' X X'. specialize (G k a a' X X').
  cbn [plus] in *. unfold good. destruct (selects_here i p k S) as [S1 S2]. unfold convert_arg in G. rewrite S1, S2 in G.
  destruct (here p k) eqn:H.
  - assert (O := operands_in p args k H W a X). destruct p as [l|m] eqn:P; cbn [here] in H.
    + rewrite H in G. destruct O as [q [-> I]]. destruct (homogenize o act fuel glob u q) as [q'|] eqn:Q; cbn [bind] in G; [|discriminate]. inversion G; subst.
      exists q, q'. repeat split; auto. destruct (Sg q I) as [D1 T1]. apply (homogenize_value L A scale fuel glob u q q' IG T1 D1); auto.
      * eapply first_dict; eauto.
      * apply (Ch q I).
    + rewrite H in G. subst a. destruct (map_res (homogenize o act fuel glob u) (operands_at (Inside m) args)) as [s|] eqn:Q; cbn [bind] in G; [|discriminate]. inversion G; subst a'.
      eexists; eexists; repeat split. apply (homogenize_values L A scale fuel glob u _ s IG T D); auto.
      * eapply first_dict; eauto.
      * apply (first_nonempty _ u FU).
  - assert (N : no_unit_arg a) by (eapply Ot; eauto). split; [|exact N]. destruct p as [l|m]; cbn [here] in H; rewrite H in G; congruence.
Qed.
(** No conversion: all the operands are in the common unit or have none. *)
Lemma unconverted_good : Forall (fun q => get_units q = u \/ get_units q = []) (operands_at p args) ->
  times_at act 0 p (pw u) (map view_arg args) = values_at o act scale 0 p u args.
Proof.
  assert (Sg := single); assert (Ch := common_here); assert (Ot := others).
  intros Fa. rewrite Forall_forall in Fa. apply times_values; [apply refl2|]. intros k a a' X X'. assert (a' = a) by congruence. subst a'. cbn [plus]. unfold good.
  assert (one : forall q, In q (operands_at p args) -> act (pw u) (magnitude q) = value_in o act scale u q).
  { intros q I. destruct (Fa q I) as [E|E]; destruct q as [x|x [|kv w] loc]; cbn in E |- *; subst; auto; discriminate. }
  destruct (here p k) eqn:H; [|split; [reflexivity|eapply Ot; eauto]].
  assert (O := operands_in p args k H W a X). destruct p as [l|m] eqn:P.
  - destruct O as [q [-> I]]. exists q, q. auto.
  - subst a. eexists; eexists; repeat split. rewrite map_map. apply map_ext_in. exact one.
Qed.
Lemma no_common : u = [] -> Forall (fun q => get_units q = u \/ get_units q = []) (operands_at p args).
Proof.
  assert (Sg := single); assert (Ch := common_here); assert (Ot := others).
  intros E. apply Forall_forall. intros q I. right. destruct q as [x|x [|kv w] loc]; [reflexivity|reflexivity|].
  exfalso. apply (Ch (Qty x (kv :: w) loc) I); [exact Logic.I|exact E].
Qed.
Lemma convert_inputs_good c args' : selects (c_input c) p -> c_action c = SAME -> convert_inputs o act fuel glob c (OneUnit u) args = Ok args' ->
  times_at act 0 p (pw u) (map view_arg args') = values_at o act scale 0 p u args.
Proof.
  assert (Sg := single); assert (Ch := common_here); assert (Ot := others). assert (Ug := unconverted_good); assert (Nc := no_common); assert (Cg := convert_args_good).
  intros S Ac E. unfold convert_inputs in E. rewrite Ac in E.
  assert (one : forall n, p = At [n] -> args' = args -> times_at act 0 p (pw u) (map view_arg args') = values_at o act scale 0 p u args).
  { intros n P ->. apply Ug. assert (FU' := FU). assert (T' := common_first _ u FU). rewrite P in FU', T' |- *. cbn [operands_at flat_map] in *.
    destruct (nth_error args n) as [[q|l|]|]; cbn [app] in *; try constructor; [|constructor]. unfold common_of in T'. cbn [map find] in T'. destruct (get_units q) as [|kv w] eqn:G; cbn in T'; auto. }
  destruct u as [|kv w] eqn:U.
  - assert (args' = args) by (destruct (c_input c); cbn in E; congruence). subst args'. apply Ug. apply Nc. reflexivity.
  - destruct (c_input c) eqn:Ci; cbn [selects] in S; try tauto; try (match type of E with convert_args _ _ _ _ _ ?i _ _ = _ => exact (Cg i args' S E) end).
    + apply (one 0); congruence.
    + apply (one 1); congruence.
Qed.
Lemma convert_inputs_ok c : selects (c_input c) p -> c_action c = SAME ->
  ((exists args', convert_inputs o act fuel glob c (OneUnit u) args = Ok args') <-> Forall (convertible (act:=act) (o:=o) fuel glob u) (operands_at p args)).
Proof.
  assert (Ch := common_here). clear T IG L A.
  intros S Ac. unfold convert_inputs. rewrite Ac.
  assert (one : forall n, p = At [n] -> Forall (convertible (act:=act) (o:=o) fuel glob u) (operands_at p args)).
  { intros n P. assert (T' := common_first _ u FU). assert (D' := D). rewrite P in T', D' |- *. cbn [operands_at flat_map] in *.
    destruct (nth_error args n) as [[q|l|]|]; cbn [app] in *; try constructor; [|constructor]. unfold common_of in T'. cbn [map find] in T'. pose proof (Forall_inv D') as D1.
    destruct q as [x|x [|kv w] loc]; cbn in T' |- *; auto. left. rewrite <- T'. apply dict_eqb_refl. exact D1. }
  assert (none : u = [] -> Forall (convertible (act:=act) (o:=o) fuel glob u) (operands_at p args)).
  { intros E. apply Forall_forall. intros q I. destruct q as [x|x [|kv w] loc]; cbn; auto. exfalso. apply (Ch _ I); [exact Logic.I|exact E]. }
  assert (many : selects (c_input c) p -> ((exists args', convert_args o act fuel glob u (c_input c) 0 args = Ok args') <-> Forall (convertible (act:=act) (o:=o) fuel glob u) (operands_at p args))).
  { intros _. split.
    - intros [l' E]. destruct (convert_args_nth u _ args 0 l' E) as [F G]. apply Forall_forall. intros q I. destruct p as [l|m] eqn:P.
      + cbn [operands_at] in I. apply in_flat_map in I. destruct I as [n [In_ I]]. destruct (nth_error args n) as [[q0|s|]|] eqn:X; try (destruct I; fail). destruct I as [->|[]].
        destruct (nth_error l' n) as [a'|] eqn:X'.
        * specialize (G n _ _ X X'). unfold convert_arg in G. destruct (selects_here _ (At l) n S) as [S1 S2]. cbn [plus] in G. rewrite S1, S2 in G.
          assert (Hh : here (At l) n = true) by (apply here_true; exact In_). cbn [here] in Hh. rewrite Hh in G.
          apply homogenize_ok. destruct (homogenize o act fuel glob u q) as [b|]; [eauto|discriminate].
        * exfalso. apply nth_error_None in X'. assert (n < length args) by (apply nth_error_Some; congruence). 
          assert (length args = length l') by (clear -F; induction F; cbn; auto). lia.
      + destruct W as [[l X] _]. cbn [operands_at] in I. rewrite X in I. destruct (nth_error l' m) as [a'|] eqn:X'.
        * specialize (G m _ _ X X'). unfold convert_arg in G. destruct (selects_here _ (Inside m) m S) as [S1 S2]. cbn [plus] in G. rewrite S1, Nat.eqb_refl in G.
          assert (Q : Forall (convertible (act:=act) (o:=o) fuel glob u) l) by (apply homogenize_all_ok; destruct (map_res (homogenize o act fuel glob u) l) as [b|]; [eauto|discriminate]).
          rewrite Forall_forall in Q. auto.
        * exfalso. apply nth_error_None in X'. assert (m < length args) by (apply nth_error_Some; congruence).
          assert (length args = length l') by (clear -F; induction F; cbn; auto). lia.
    - intros Q. enough (R : forall l n, (forall k a, nth_error l k = Some a -> nth_error args (n + k) = Some a) -> exists l', convert_args o act fuel glob u (c_input c) n l = Ok l') by (apply (R args 0); auto).
      induction l as [|a l IH]; intros n H; [eexists; reflexivity|]. cbn [convert_args].
      assert (X : nth_error args n = Some a) by (specialize (H 0 a eq_refl); rewrite Nat.add_0_r in H; exact H).
      destruct (IH (Datatypes.S n)) as [r R]. { intros k b B. specialize (H (Datatypes.S k) b B). rewrite Nat.add_succ_r in H. exact H. }
      assert (Y : exists b, convert_arg o act fuel glob u (c_input c) n a = Ok b).
      { unfold convert_arg. destruct (selects_here _ p n S) as [S1 S2]. rewrite S1, S2. destruct (here p n) eqn:Hh.
        - assert (O := operands_in p args n Hh W a X). destruct p as [s|m]; cbn [here] in Hh; rewrite Hh.
          + destruct O as [q [-> I]]. rewrite Forall_forall in Q. assert (Z := Q q I). apply homogenize_ok in Z. destruct Z as [b ->]. eexists; reflexivity.
          + subst a. apply homogenize_all_ok in Q. destruct Q as [b ->]. eexists; reflexivity.
        - destruct p as [s|m]; cbn [here] in Hh; rewrite Hh; eexists; reflexivity. }
      destruct Y as [b ->]. rewrite R. eexists; reflexivity. }
  destruct u as [|kv w] eqn:U.
  - split; [intros _; auto|]. intros _. destruct (c_input c); eexists; reflexivity.
  - destruct (c_input c) eqn:Ci; cbn [selects] in S; try tauto; try (apply many; exact S).
    + split; [intros _; apply (one 0 S)|eexists; reflexivity].
    + split; [intros _; apply (one 1 S)|eexists; reflexivity].
Qed.
End Common.

(** ** Outputs *)
Definition kind (c : conv_output) (r : returns) : Prop :=
  match c with DEFAULT => r = Array | SEQUENCE_OUT => r = Arrays | FIRST_IF_SEQUENCE | FIRST_IN_SEQUENCE => r = First_array | NONE => False end.
Definition as_quantity (loc : @du_table K) (u : unit_) (b : bool) (x : V) : operand := if b then Qty x u loc else Plain x.
Lemma outputs_map (loc : @du_table K) (u : unit_) (conv : nat -> bool) (l : list V) n :
  map (fun p : nat * (V * unit_) => let '(k, (x, w)) := p in if conv k then Qty x w loc else Plain x) (combine (seq n (length l)) (combine l (repeat u (length l)))) =
  map (fun p => as_quantity loc u (conv (fst p)) (snd p)) (combine (seq n (length l)) l).
Proof. revert n. induction l as [|x l IH]; intros n; [reflexivity|]. cbn [length seq repeat combine map fst snd]. rewrite IH. reflexivity. Qed.
Lemma combine_const {B} (f : V -> B) (l : list V) n : map (fun p : nat * V => f (snd p)) (combine (seq n (length l)) l) = map f l.
Proof. revert n. induction l as [|x l IH]; intros n; [reflexivity|]. cbn. rewrite IH. reflexivity. Qed.
Lemma outputs_value loc c u out res r : kind (c_output c) r -> convert_outputs loc c (OneUnit u) out = Ok res -> fits r res ->
  times act r (pw u) out = Some (fout_value o act scale res).
Proof.
  intros Kd E Ft. destruct out as [x|l|]; cbn [convert_outputs] in E.
  - inversion E; subst. destruct r; cbn in Ft |- *; auto. tauto.
  - inversion E as [E']; subst res; clear E. rewrite outputs_map in *. destruct (c_output c) eqn:Co; cbn in Kd; try tauto; subst r.
    + destruct l; cbn in Ft; tauto.
    + cbn [times fout_value]. f_equal. f_equal. rewrite map_map.
      rewrite (map_ext _ (fun p : nat * V => act (pw u) (snd p))) by (intros [k x]; reflexivity). symmetry. apply combine_const.
    + destruct l as [|x l]; [cbn in Ft; tauto|]. cbn [times fout_value length seq combine map fst snd as_quantity Nat.eqb value]. do 3 f_equal. rewrite map_map.
      rewrite (map_ext_in _ (fun p : nat * V => snd p)); [symmetry; rewrite (combine_const (fun y => y)); apply map_id|].
      intros [k y] I. apply in_combine_l in I. apply in_seq in I. cbn [fst snd]. destruct k; [lia|reflexivity].
    + destruct l as [|x l]; [cbn in Ft; tauto|]. cbn [times fout_value length seq combine map fst snd as_quantity Nat.eqb value]. do 3 f_equal. rewrite map_map.
      rewrite (map_ext_in _ (fun p : nat * V => snd p)); [symmetry; rewrite (combine_const (fun y => y)); apply map_id|].
      intros [k y] I. apply in_combine_l in I. apply in_seq in I. cbn [fst snd]. destruct k; [lia|reflexivity].
  - inversion E; subst. destruct r; cbn in Ft; tauto.
Qed.

(** ** No quantity at all *)
Lemma handler_none l : @handler K V l = None -> Forall (fun a => exists x, a = Plain x) l.
Proof. induction l as [|[x|x u loc] l IH]; cbn; intros H; constructor; eauto; discriminate. Qed.
Lemma plain_values p n (args : list farg) : handler (operands args) = None -> values_at o act scale n p [] args = map view_arg args.
Proof.
  intros H. apply handler_none in H. revert n. induction args as [|a args IH]; intros n; [reflexivity|]. unfold operands in H. cbn [flat_map] in H. apply Forall_app in H. destruct H as [H1 H2].
  cbn [values_at map]. f_equal; [|apply IH, H2].
  assert (X : farg_value o act scale a = view_arg a).
  { apply view_value. destruct a as [q|l|]; cbn; auto.
    - inversion H1 as [|y z [x ->]]; subst. exact I.
    - eapply Forall_impl; [|exact H1]. intros q [x ->]. exact I. }
  assert (Y : farg_value_in o act scale [] a = farg_value o act scale a).
  { destruct a as [q|l|]; cbn; auto; f_equal.
    - assert (Z := value_in_none A scale [q]). cbn in Z. injection Z as Z. exact Z.
    - apply (value_in_none A scale). }
  rewrite Y, X. match goal with |- (if ?b then _ else _) = _ => destruct b end; reflexivity.
Qed.
Lemma plain_common p (args : list farg) u : handler (operands args) = None -> first_unit (operands_at p args) u -> u = [].
Proof.
  intros H F. apply handler_none in H. assert (Q : Forall (fun a => exists x, a = @Plain K V x) (operands_at p args)).
  { rewrite Forall_forall in H |- *. intros q I. apply H. unfold operands. apply in_flat_map. destruct p as [l|m]; cbn in I.
    - apply in_flat_map in I. destruct I as [n [_ I]]. destruct (nth_error args n) as [a|] eqn:E; [|destruct I]. exists a. split; [eapply nth_error_In, E|]. destruct a; cbn in I |- *; auto; tauto.
    - destruct (nth_error args m) as [a|] eqn:E; [|destruct I]. exists a. split; [eapply nth_error_In, E|]. destruct a; cbn in I |- *; auto; tauto. }
  induction F as [|x w loc r N|a r w N F IH]; [reflexivity| |]; inversion Q as [|y z [x' Hx] Q2]; subst; [discriminate|auto].
Qed.

(** ** Functions of arguments of the same unit *)
Lemma same_function fn fuel glob c p r args u res : interprets o scale glob -> selects (c_input c) p -> kind (c_output c) r -> c_action c = SAME ->
  well_placed p args -> first_unit (operands_at p args) u -> tables (interprets o scale) (operands_at p args) -> Forall is_dict (operands_at p args) ->
  follows_unit o act p r 1%Qc fn -> array_function o act fn fuel glob c args = Ok res -> fits r res ->
  fout_value o act scale res = fn (values_at o act scale 0 p u args).
Proof.
  intros IG S Kd Ac W FU T D Fn E Ft. unfold array_function in E. destruct (handler (operands args)) as [[su loc]|] eqn:H.
  - rewrite (units_at _ p args S W) in E. cbn [bind] in E. rewrite Ac in E. cbn [output_units bind] in E. rewrite (common_first _ u FU) in E.
    destruct (convert_inputs o act fuel glob c (OneUnit u) args) as [args'|] eqn:C; cbn [bind] in E; [|discriminate].
    assert (X := convert_inputs_good fuel glob IG p args W u FU T D c args' S Ac C).
    assert (O : convert_outputs loc c (OneUnit u) (fn (map view_arg args')) = Ok res) by (destruct (c_output c); cbn in Kd; auto; tauto).
    assert (Y := outputs_value loc c u _ res r Kd O Ft). symmetry. rewrite <- X. apply Fn. rewrite (ml_pow_one _ L). exact Y.
  - rewrite (plain_common p args u H FU). rewrite plain_values by exact H. destruct (fn (map view_arg args)) as [x|l|]; inversion E; subst; cbn; auto.
    f_equal. rewrite map_map. apply map_id.
Qed.
Lemma same_defined fn fuel glob c p r args u : selects (c_input c) p -> kind (c_output c) r -> c_action c = SAME ->
  well_placed p args -> first_unit (operands_at p args) u -> Forall is_dict (operands_at p args) ->
  ((exists res, array_function o act fn fuel glob c args = Ok res) <-> Forall (convertible (act:=act) (o:=o) fuel glob u) (operands_at p args)).
Proof.
  intros S Kd Ac W FU D. unfold array_function. destruct (handler (operands args)) as [[su loc]|] eqn:H.
  - rewrite (units_at _ p args S W). cbn [bind]. rewrite Ac. cbn [output_units bind]. rewrite (common_first _ u FU). rewrite <- (convert_inputs_ok fuel glob p args W u FU D c S Ac).
    split.
    + intros [res E]. destruct (convert_inputs o act fuel glob c (OneUnit u) args) as [args'|]; cbn [bind] in E; [eauto|discriminate].
    + intros [args' ->]. cbn [bind]. destruct (c_output c); cbn [kind] in Kd; try tauto; destruct (fn (map view_arg args')); cbn; eauto.
  - rewrite (plain_common p args u H FU) in *. split; [|eauto]. intros _. apply Forall_forall. intros q I. destruct q as [x|x [|kv w] loc]; cbn; auto.
    exfalso. apply (first_nonempty _ u FU); [|apply (plain_common p args u H FU)]. apply Exists_exists. eexists. split; [exact I|exact Logic.I].
Qed.
End F.
