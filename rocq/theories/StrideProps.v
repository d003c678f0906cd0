(** Property C116: what is written in outputs that are not contiguous. *)
From Coq Require Import List ZArith Bool Lia Arith.
From Verif Require Import Base BaseFacts StrideModel StrideSpec StrideFacts.
Import ListNotations.
Local Open Scope nat_scope.

Ltac axes_distinct :=
  intros i j Hi Hj E; cbn [v_axes map fst app] in Hi, Hj; cbn [app] in E;
  repeat match goal with
  | H : within [] _ |- _ => inversion H; subst; clear H
  | H : within (_ :: _) _ |- _ => inversion H; subst; clear H
  | H : Forall2 _ [] _ |- _ => inversion H; subst; clear H
  | H : Forall2 _ (_ :: _) _ |- _ => inversion H; subst; clear H
  end; unfold address in E; cbn [offset v_axes v_origin] in E; cbv beta in *; repeat f_equal; lia.

(** ** When reshape and ravel are views *)
Theorem C116_reshape : forall k v, Forall (fun a => 0 < fst a) (v_axes v) ->
  (reshape k v <> None <-> exists c, even_steps (firstn k (v_axes v)) c).
Proof.
  intros k v P. unfold reshape. split.
  - intros H. destruct (merge _) as [[n c]|] eqn:M; [|congruence]. exists c. apply (proj2 (merge_steps _ _ _ M)).
  - intros [c H].
    assert (Pl : Forall (fun a : axis => 0 < fst a) (firstn k (v_axes v))).
    { rewrite <- (firstn_skipn k (v_axes v)) in P. apply Forall_app in P as [P _]. exact P. }
    pose proof (steps_merge _ _ Pl H). destruct (merge _); congruence.
Qed.
Print Assumptions C116_reshape.
Theorem C116_contiguous : forall v, Forall (fun a => 0 < fst a) (v_axes v) ->
  (contiguous v = true <-> forall idx, within (map fst (v_axes v)) idx -> address v idx = (v_origin v + Z.of_nat (place (map fst (v_axes v)) idx))%Z).
Proof.
  intros v P. split.
  - intros H idx W. unfold address. rewrite (contiguous_steps v H idx W). lia.
  - intros H. unfold contiguous. apply orb_true_iff. right. apply steps_contiguous_axes; [exact P|].
    intros idx W. specialize (H idx W). unfold address in H. lia.
Qed.
Print Assumptions C116_contiguous.
(** A row of points kept every other one is merged, its ravel would not be a view; some columns of a matrix are not merged. *)
Example C116_views : reshape 1 (View 0 [(3, 4%Z); (2, 1%Z)]) = Some (View 0 [(3, 4%Z); (2, 1%Z)]) /\
  contiguous (View 0 [(3, 4%Z); (2, 1%Z)]) = false /\ contiguous (View 7 [(3, 2%Z); (1, 9%Z); (2, 1%Z)]) = true /\
  reshape 2 (View 5 [(3, 8%Z); (2, 4%Z); (2, 1%Z)]) = Some (View 5 [(6, 4%Z); (2, 1%Z)]) /\
  reshape 2 (View 0 [(2, 6%Z); (2, 2%Z); (2, 1%Z)]) = None.
Proof. repeat split. Qed.

(** ** Transforms of world coordinates *)
Theorem C116_validatein : forall shape, (validatein shape = Ok tt <-> exists s, shape = s ++ [2]) /\
  (validatein shape <> Ok tt -> validatein shape = Err ValueError).
Proof.
  intros shape. unfold validatein. destruct (rev shape) as [|n r] eqn:E.
  - split; [|auto]. split; [discriminate|]. intros [s ->]. rewrite rev_app_distr in E. discriminate.
  - assert (S : shape = rev r ++ [n]) by (rewrite <- (rev_involutive shape), E; reflexivity).
    destruct (Nat.eqb_spec n 2) as [->|Hn].
    + split; [|congruence]. split; [eauto | auto].
    + split; [|auto]. split; [discriminate|]. intros [s H]. rewrite S in H. apply app_inj_tail in H as [_ H]. contradiction.
Qed.
Print Assumptions C116_validatein.
Example C116_validatein_case : validatein [4; 5; 2] = Ok tt /\ validatein [] = Err ValueError /\ validatein [2; 3] = Err ValueError.
Proof. repeat split. Qed.

Lemma firstn_pred : forall l : list axis, firstn (length l - 1) l = removelast l.
Proof. intros l. rewrite removelast_firstn_len. f_equal. lia. Qed.
Theorem C116_wcs : forall A op (m : Z -> A) output values c, Forall (fun a => 0 < fst a) (v_axes output) -> distinct output ->
  even_steps (removelast (v_axes output)) c ->
  filled m (wcs_direct op m output values) output (fun idx => op (m (address output idx)) (values (place (map fst (v_axes output)) idx))).
Proof.
  intros A op m output values c P D H. unfold wcs_direct.
  destruct (reshape (length (v_axes output) - 1) output) as [w|] eqn:E.
  - apply (reshape_filled (length (v_axes output) - 1)); assumption.
  - exfalso. apply (proj2 (C116_reshape (length (v_axes output) - 1) output P)); [|exact E]. exists c. rewrite firstn_pred. exact H.
Qed.
Print Assumptions C116_wcs.
Theorem C116_wcs_lost : forall A op (m : Z -> A) output values, Forall (fun a => 0 < fst a) (v_axes output) ->
  (forall c, ~ even_steps (removelast (v_axes output)) c) -> wcs_direct op m output values = m.
Proof.
  intros A op m output values P H. unfold wcs_direct.
  destruct (reshape (length (v_axes output) - 1) output) as [w|] eqn:E; [|reflexivity].
  exfalso. destruct (proj1 (C116_reshape (length (v_axes output) - 1) output P)) as [c Hc]; [congruence|].
  rewrite firstn_pred in Hc. exact (H c Hc).
Qed.
Print Assumptions C116_wcs_lost.
(** The points [big[:, :2, :]] of an array of shape (2, 3, 2): nothing is written. *)
Theorem C116_wcs_refuted : ~ (forall (m : Z -> Z) output values, Forall (fun a => 0 < fst a) (v_axes output) -> distinct output ->
  validatein (map fst (v_axes output)) = Ok tt ->
  filled m (wcs_direct (fun _ x => x) m output values) output (fun idx => values (place (map fst (v_axes output)) idx))).
Proof.
  intros H. set (v := View 0 [(2, 6%Z); (2, 2%Z); (2, 1%Z)]).
  destruct (H (fun _ => 0%Z) v (fun j => (1 + Z.of_nat j)%Z)) as [F _].
  - repeat constructor.
  - unfold v. axes_distinct.
  - reflexivity.
  - specialize (F [0; 0; 0]). cbn in F. discriminate F. repeat constructor.
Qed.
Print Assumptions C116_wcs_refuted.
Example C116_wcs_case : exists c, even_steps (removelast [(3, 8%Z); (2, 4%Z); (2, 1%Z)]) c /\ distinct (View 5 [(3, 8%Z); (2, 4%Z); (2, 1%Z)]) /\
  map (wcs_direct Z.add (fun a => (100 * a)%Z) (View 5 [(3, 8%Z); (2, 4%Z); (2, 1%Z)]) Z.of_nat) [5; 6; 7; 9; 26; 27]%Z = [500; 601; 700; 902; 2611; 2700]%Z.
Proof.
  exists 4%Z. split; [|split; [axes_distinct | reflexivity]].
  destruct (merge_steps [(3, 8%Z); (2, 4%Z)] 6 4%Z eq_refl) as [_ H]. exact H.
Qed.
Example C116_wcs_lost_case : forall c, ~ even_steps (removelast [(2, 6%Z); (2, 2%Z); (2, 1%Z)]) c.
Proof.
  intros c H. pose proof (H [0; 1] ltac:(repeat constructor)) as H1. pose proof (H [1; 0] ltac:(repeat constructor)) as H2.
  cbn in H1, H2. lia.
Qed.

(** ** Sparse products *)
Definition local {A} (n : nat) (kernel : (nat -> A) -> nat -> A) : Prop :=
  forall f g, (forall j, j < n -> f j = g j) -> forall j, j < n -> kernel f j = kernel g j.
Lemma ravel_kernel {A} : forall v w (m : Z -> A) kernel old, ravel v = Some w -> distinct v -> local (nprod (map fst (v_axes v))) kernel ->
  (forall idx, within (map fst (v_axes v)) idx -> old (place (map fst (v_axes v)) idx) = m (address v idx)) ->
  filled m (assign (fun _ x => x) m w (kernel (fun j => m (address w [j])))) v (fun idx => kernel old (place (map fst (v_axes v)) idx)).
Proof.
  intros v w m kernel old E D L H. destruct (ravel_filled v w (fun _ x => x) m (kernel (fun j => m (address w [j]))) E D) as [F1 F2].
  split; [|exact F2]. intros idx W. rewrite (F1 idx W). apply L; [|apply place_lt, W].
  intros j Hj. destruct (place_surj _ _ Hj) as (i & Wi & <-). rewrite (H i Wi). apply ravel_reshape in E as [C ->].
  unfold address. cbn [v_origin v_axes offset]. rewrite (contiguous_steps _ C i Wi). f_equal. lia.
Qed.
Theorem C116_matvec : forall A (m m' : Z -> A) out kernel old, distinct out -> local (nprod (map fst (v_axes out))) kernel ->
  (forall idx, within (map fst (v_axes out)) idx -> old (place (map fst (v_axes out)) idx) = m (address out idx)) ->
  matvec_out m out kernel = Ok m' -> filled m m' out (fun idx => kernel old (place (map fst (v_axes out)) idx)).
Proof.
  intros A m m' out kernel old D L H E. unfold matvec_out in E. destruct (contiguous out) eqn:C; cbn [negb] in E; [|discriminate].
  destruct (ravel out) as [w|] eqn:R.
  - inversion E; subst. apply ravel_kernel; assumption.
  - unfold ravel in R. rewrite C in R. discriminate.
Qed.
Print Assumptions C116_matvec.
Theorem C116_matvec_refuses : forall A (m : Z -> A) out kernel, Forall (fun a => 0 < fst a) (v_axes out) ->
  (matvec_out m out kernel = Err ValueError <-> ~ even_steps (v_axes out) 1) /\
  (even_steps (v_axes out) 1 -> exists m', matvec_out m out kernel = Ok m').
Proof.
  intros A m out kernel P. unfold matvec_out. destruct (contiguous out) eqn:C; cbn [negb].
  - assert (S := contiguous_steps _ C). split; [|intros _; destruct (ravel out); eauto].
    split; [destruct (ravel out); discriminate | contradiction].
  - assert (N : ~ even_steps (v_axes out) 1).
    { intros S. unfold contiguous in C. rewrite (steps_contiguous_axes _ P S), orb_true_r in C. discriminate. }
    split; [tauto | contradiction].
Qed.
Print Assumptions C116_matvec_refuses.
Example C116_matvec_case : distinct (View 3 [(2, 2%Z); (2, 1%Z)]) /\ local (A:=Z) 4 (fun old j => (old j + Z.of_nat j)%Z) /\
  (exists m', matvec_out (fun a => (10 * a)%Z) (View 3 [(2, 2%Z); (2, 1%Z)]) (fun old j => (old j + Z.of_nat j)%Z) = Ok m' /\
    map m' [2; 3; 4; 5; 6; 7]%Z = [20; 30; 41; 52; 63; 70]%Z) /\
  matvec_out (fun a => a) (View 0 [(3, 2%Z)]) (fun old j => old j) = Err ValueError.
Proof.
  split; [axes_distinct|]. split; [intros f g H j Hj; rewrite (H j Hj); reflexivity|]. split; [|reflexivity].
  eexists. split; reflexivity.
Qed.

(** ** Restriction in place *)
Theorem C116_restrict : forall A (m m' : Z -> A) data kernel old, distinct data -> local (nprod (map fst (v_axes data))) kernel ->
  even_steps (v_axes data) 1 -> Forall (fun a => 0 < fst a) (v_axes data) ->
  (forall idx, within (map fst (v_axes data)) idx -> old (place (map fst (v_axes data)) idx) = m (address data idx)) ->
  restrict_data m data kernel = Ok m' -> filled m m' data (fun idx => kernel old (place (map fst (v_axes data)) idx)).
Proof.
  intros A m m' data kernel old D L S P H E. unfold restrict_data in E. destruct (rev (v_axes data)) as [|[n s] r]; [discriminate|].
  destruct (negb (n =? 1) && negb (nprod (sizes (v_axes data)) =? 0) && negb (s =? 1)%Z); [discriminate|].
  assert (C : contiguous data = true) by (unfold contiguous; rewrite (steps_contiguous_axes _ P S), orb_true_r; reflexivity).
  destruct (ravel data) as [w|] eqn:R.
  - inversion E; subst. apply ravel_kernel; assumption.
  - unfold ravel in R. rewrite C in R. discriminate.
Qed.
Print Assumptions C116_restrict.
Theorem C116_restrict_lost : forall A (m m' : Z -> A) data kernel, Forall (fun a => 0 < fst a) (v_axes data) ->
  ~ even_steps (v_axes data) 1 -> restrict_data m data kernel = Ok m' -> m' = m.
Proof.
  intros A m m' data kernel P N E. unfold restrict_data in E. destruct (rev (v_axes data)) as [|[n s] r]; [discriminate|].
  destruct (negb (n =? 1) && negb (nprod (sizes (v_axes data)) =? 0) && negb (s =? 1)%Z); [discriminate|]. unfold ravel in E. destruct (contiguous data) eqn:C; [|congruence].
  exfalso. apply N, contiguous_steps, C.
Qed.
Print Assumptions C116_restrict_lost.
(** Every other row of records, restricted in place: the call succeeds and the indices are those before. *)
Theorem C116_restrict_refuted : ~ (forall (m m' : Z -> Z) data kernel old, distinct data -> local (nprod (map fst (v_axes data))) kernel ->
  (forall idx, within (map fst (v_axes data)) idx -> old (place (map fst (v_axes data)) idx) = m (address data idx)) ->
  restrict_data m data kernel = Ok m' -> filled m m' data (fun idx => kernel old (place (map fst (v_axes data)) idx))).
Proof.
  intros H. set (v := View 0 [(2, 4%Z); (2, 1%Z)]).
  destruct (H (fun _ => 1%Z) (fun _ => 1%Z) v (fun old j => (old j - 1)%Z) (fun _ => 1%Z)) as [F _].
  - unfold v. axes_distinct.
  - intros f g E j Hj. rewrite (E j Hj). reflexivity.
  - reflexivity.
  - reflexivity.
  - specialize (F [1; 0]). cbn in F. discriminate F. repeat constructor.
Qed.
Print Assumptions C116_restrict_refuted.
Theorem C116_restrict_raises : forall A (m : Z -> A) origin lead n s kernel, Forall (fun a => 0 < fst a) lead -> 1 < n -> s <> 1%Z ->
  restrict_data m (View origin (lead ++ [(n, s)])) kernel = Err ValueError.
Proof.
  intros A m origin lead n s kernel P Hn Hs. unfold restrict_data. cbn [v_axes]. rewrite rev_app_distr. cbn [rev app].
  assert (Q : nprod (sizes (lead ++ [(n, s)])) <> 0).
  { unfold sizes, nprod. induction P as [|[k t] l Hk _ IH]; cbn in *; [lia|]. apply Nat.neq_mul_0. lia. }
  destruct (Nat.eqb_spec n 1); [lia|]. apply Nat.eqb_neq in Q. rewrite Q. destruct (Z.eqb_spec s 1); [contradiction | reflexivity].
Qed.
Print Assumptions C116_restrict_raises.
Example C116_restrict_case : even_steps [(2, 2%Z); (2, 1%Z)] 1 /\ ~ even_steps [(2, 4%Z); (2, 1%Z)] 1 /\
  (exists m', restrict_data (fun a => (10 * a)%Z) (View 0 [(2, 2%Z); (2, 1%Z)]) (fun old j => (old j - 1)%Z) = Ok m' /\ map m' [0; 1; 2; 3; 4]%Z = [-1; 9; 19; 29; 40]%Z) /\
  restrict_data (fun a : Z => a) (View 0 [(3, 2%Z)]) (fun old j => old j) = Err ValueError.
Proof.
  split; [apply contiguous_axes_steps; reflexivity|]. split.
  - intros H. specialize (H [1; 0] ltac:(repeat constructor)). cbn in H. lia.
  - split; [eexists; split; reflexivity | reflexivity].
Qed.

(** ** unpack *)
Theorem C116_unpack : forall A (m : Z -> A) lead rest origin x, distinct (View origin (lead ++ rest)) ->
  let out := View origin (lead ++ rest) in
  (forall i1 i2, within (map fst lead) i1 -> within (map fst rest) i2 ->
     unpack_out m (length lead) out x (address out (i1 ++ i2)) =
       match x (place (map fst lead) i1) with Some f => f (place (map fst rest) i2) | None => m (address out (i1 ++ i2)) end) /\
  (forall a, (forall idx, within (map fst (lead ++ rest)) idx -> a <> address out idx) -> unpack_out m (length lead) out x a = m a).
Proof.
  intros A m lead rest origin x D out.
  assert (F : exists old, (forall idx, within (map fst (v_axes out)) idx -> old (place (map fst (v_axes out)) idx) = m (address out idx)) /\
     filled m (unpack_out m (length lead) out x) out (fun idx => update_flat (nprod (map fst rest)) x old (place (map fst (v_axes out)) idx))).
  { unfold unpack_out, sizes. cbn [v_axes out]. rewrite skipn_app, skipn_all, Nat.sub_diag. cbn [app skipn].
    destruct (reshape (length lead) out) as [w|] eqn:R.
    - set (old := fun j => m (address w (nth j (indices (map fst (v_axes w))) []))). exists old. split.
      + intros idx W. unfold old. pose proof R as R'. unfold reshape, out in R'. cbn [v_axes v_origin] in R'.
        rewrite firstn_app, firstn_all, Nat.sub_diag, skipn_app, skipn_all, Nat.sub_diag in R'. cbn [firstn skipn app] in R'. rewrite app_nil_r in R'.
        destruct (merge lead) as [[n c]|] eqn:M; [|discriminate]. inversion R'; subst w. apply merge_steps in M as [Hn S].
        rewrite map_app in W. apply within_app in W as (i1 & i2 & -> & W1 & W2). cbn [v_axes out]. rewrite map_app, place_app by exact W1.
        cbn [v_axes map fst].
        assert (Ww : within (n :: map fst rest) (place (map fst lead) i1 :: i2)) by (constructor; [rewrite Hn; apply place_lt, W1 | exact W2]).
        pose proof (nth_place_default _ _ Ww) as Q. cbn [place] in Q.
        change (fold_right Nat.mul 1 (map fst rest)) with (nprod (map fst rest)) in Q. rewrite Q.
        unfold address. cbn [v_axes v_origin offset out]. rewrite offset_app by (rewrite <- (map_length fst); apply within_length, W1).
        rewrite (S i1 W1). f_equal. lia.
      + apply (reshape_filled _ _ _ (fun _ y => y) m (update_flat (nprod (map fst rest)) x old) R D).
    - set (old := fun j => m (address out (nth j (indices (map fst (v_axes out))) []))). exists old. split.
      + intros idx W. unfold old. rewrite nth_place_default by exact W. reflexivity.
      + apply (assign_filled (fun _ y => y) m out (update_flat (nprod (map fst rest)) x old) D). }
  destruct F as (old & Ho & F1 & F2). split; [|exact F2]. intros i1 i2 W1 W2.
  assert (W : within (map fst (v_axes out)) (i1 ++ i2)) by (cbn [v_axes out]; rewrite map_app; apply within_app; eauto).
  rewrite (F1 _ W). unfold update_flat. pose proof (Ho _ W) as Hold. revert Hold. cbn [v_axes out]. rewrite map_app, place_app by exact W1.
  pose proof (place_lt _ _ W2) as B. set (R := nprod (map fst rest)) in *. set (i := place (map fst lead) i1). set (k := place (map fst rest) i2) in *.
  assert (Hd : (i * R + k) / R = i) by (rewrite Nat.div_add_l by lia; rewrite (Nat.div_small _ _ B); lia).
  assert (Hm : (i * R + k) mod R = k) by (rewrite Nat.add_comm, Nat.mod_add by lia; apply Nat.mod_small, B).
  rewrite Hd, Hm. intros Hold. destruct (x i); [reflexivity | exact Hold].
Qed.
Print Assumptions C116_unpack.
(** The first axes of the output are not merged: the copy is assigned back. *)
Example C116_unpack_case : distinct (View 0 ([(2, 6%Z); (2, 2%Z)] ++ [(2, 1%Z)])) /\
  map (unpack_out (fun a => (- a)%Z) 2 (View 0 [(2, 6%Z); (2, 2%Z); (2, 1%Z)]) (fun j => if j =? 2 then Some (fun k => (100 + Z.of_nat k)%Z) else None))
    [0; 2; 3; 5; 6; 7; 8; 9; 10]%Z = [0; -2; -3; -5; 100; 101; -8; -9; -10]%Z.
Proof. split; [axes_distinct | reflexivity]. Qed.

(** ** Detectors of the other processes *)
Lemma c_distinct : forall o l, distinct (View o (c_axes l)).
Proof.
  intros o l i j Hi Hj E. pose proof (contiguous_steps _ (c_axes_contiguous o l)) as S. cbn [v_axes] in *. unfold address in E. cbn [v_axes v_origin] in E.
  rewrite (S i Hi), (S j Hj) in E. assert (P : place (map fst (c_axes l)) i = place (map fst (c_axes l)) j) by lia.
  apply nth_place in Hi, Hj. congruence.
Qed.
Theorem C116_mask : forall A (m : Z -> A) detectors origin chosen yes,
  (forall idx, within (map fst (v_axes detectors)) idx ->
     ~ (origin <= address detectors idx < origin + Z.of_nat (nprod (map fst (v_axes detectors))))%Z) ->
  let '(m1, v) := mask_copy m detectors origin in let m2 := mask_others m1 v chosen yes in
  map fst (v_axes v) = map fst (v_axes detectors) /\
  forall idx, within (map fst (v_axes detectors)) idx ->
    m2 (address v idx) = (if chosen (place (map fst (v_axes detectors)) idx) then yes else m (address detectors idx)) /\
    m2 (address detectors idx) = m (address detectors idx).
Proof.
  intros A m detectors origin chosen yes Fr. unfold mask_copy, sizes. set (l := map fst (v_axes detectors)) in *. set (v := View origin (c_axes l)).
  set (m1 := assign _ m v _). cbn zeta. assert (E : map fst (v_axes v) = l) by apply c_axes_sizes. split; [exact E|]. intros idx W.
  destruct (assign_filled (fun _ x => x) m v (fun j => m (address detectors (nth j (indices l) []))) (c_distinct origin l)) as [F1 F2].
  fold m1 in F1, F2. rewrite E in F1, F2. pose proof (c_axes_contiguous origin l) as C. fold v in C.
  assert (S := contiguous_steps _ C). rewrite <- E in W.
  assert (Far : forall i, within l i -> address detectors idx <> address v i).
  { intros i Wi Q. rewrite E in W. apply (Fr idx W). rewrite Q. unfold address. rewrite <- E in Wi. rewrite (S i Wi), E. rewrite E in Wi.
    pose proof (place_lt _ _ Wi). cbn [v_origin v]. lia. }
  unfold mask_others. assert (R : ravel v = Some (View origin [(nprod (map fst (v_axes v)), 1%Z)])) by (unfold ravel; rewrite C; reflexivity).
  rewrite R. set (w := View origin [(nprod (map fst (v_axes v)), 1%Z)]) in *. destruct (ravel_filled v w (fun _ x => x) m1 (fun j => if chosen j then yes else m1 (address w [j])) R (c_distinct origin l)) as [G1 G2].
  split.
  - rewrite (G1 idx W), E. destruct (chosen _); [reflexivity|].
    assert (Q : address w [place l idx] = address v idx).
    { unfold address. cbn [v_origin v_axes offset w v]. change (c_axes l) with (v_axes v). rewrite (S idx W), E. lia. }
    rewrite Q. rewrite E in W. rewrite (F1 idx W). rewrite nth_place_default by exact W. reflexivity.
  - rewrite G2; [|rewrite E; exact Far]. apply F2, Far.
Qed.
Print Assumptions C116_mask.
Example C116_mask_case : (forall idx, within [2; 2] idx -> ~ (50 <= address (View 0 [(2%nat, 1); (2%nat, 5)]) idx < 50 + 4)%Z) /\
  let '(m1, v) := mask_copy (fun a => (10 * a)%Z) (View 0 [(2, 1%Z); (2, 5%Z)]) 50 in
  map (mask_others m1 v (fun j => j =? 1) 7%Z) [0; 5; 1; 6; 50; 51; 52; 53; 54]%Z = [0; 50; 10; 60; 0; 7; 10; 60; 540]%Z.
Proof.
  split; [|reflexivity]. intros idx W. inversion W as [|? i ? r Hi Hr]; subst. inversion Hr as [|? j ? r' Hj Hr']; subst. inversion Hr'; subst. unfold address. cbn. lia.
Qed.

(** ** Transposes applied to their argument and to ones *)
Lemma zeroed_at {A} : forall zero (assignment : bool) (m : Z -> A) out, distinct out ->
  filled m (zeroed zero assignment m out) out (fun idx => if assignment then zero else m (address out idx)).
Proof.
  intros zero [|] m out D; unfold zeroed.
  - apply (assign_filled (fun _ x => x) m out (fun _ => zero) D).
  - split; reflexivity.
Qed.
Theorem C116_pT1 : forall A zero (assignment : bool) (m : Z -> A) out kernel old, distinct out -> local (nprod (map fst (v_axes out))) kernel ->
  Forall (fun a => 0 < fst a) (v_axes out) -> even_steps (v_axes out) 1 ->
  (forall idx, within (map fst (v_axes out)) idx -> old (place (map fst (v_axes out)) idx) = if assignment then zero else m (address out idx)) ->
  filled m (pT1_out zero assignment m out kernel) out (fun idx => kernel old (place (map fst (v_axes out)) idx)).
Proof.
  intros A zero assignment m out kernel old D L P S H. unfold pT1_out. destruct (zeroed_at zero assignment m out D) as [Z1 Z2].
  set (m1 := zeroed zero assignment m out) in *.
  assert (C : contiguous out = true) by (unfold contiguous; rewrite (steps_contiguous_axes _ P S), orb_true_r; reflexivity).
  destruct (ravel out) as [w|] eqn:R; [|unfold ravel in R; rewrite C in R; discriminate].
  destruct (ravel_kernel out w m1 kernel old R D L) as [F1 F2].
  - intros idx W. rewrite (H idx W), (Z1 idx W). reflexivity.
  - split; [exact F1|]. intros a Ha. rewrite (F2 a Ha). apply Z2, Ha.
Qed.
Print Assumptions C116_pT1.
Theorem C116_pT1_lost : forall A zero (assignment : bool) (m : Z -> A) out kernel, distinct out -> Forall (fun a => 0 < fst a) (v_axes out) ->
  ~ even_steps (v_axes out) 1 ->
  filled m (pT1_out zero assignment m out kernel) out (fun idx => if assignment then zero else m (address out idx)).
Proof.
  intros A zero assignment m out kernel D P N. unfold pT1_out, ravel. destruct (contiguous out) eqn:C.
  - exfalso. apply N, contiguous_steps, C.
  - apply zeroed_at, D.
Qed.
Print Assumptions C116_pT1_lost.
(** One column of a map of two: the coverage stays zero. *)
Theorem C116_pT1_refuted : ~ (forall (m : Z -> Z) out kernel, distinct out -> local (nprod (map fst (v_axes out))) kernel ->
  filled m (pT1_out 0%Z true m out kernel) out (fun idx => kernel (fun _ => 0%Z) (place (map fst (v_axes out)) idx))).
Proof.
  intros H. set (v := View 0 [(3, 2%Z)]). destruct (H (fun _ => 5%Z) v (fun old j => (old j + 1)%Z)) as [F _].
  - unfold v. axes_distinct.
  - intros f g E j Hj. rewrite (E j Hj). reflexivity.
  - specialize (F [1]). cbn in F. discriminate F. repeat constructor.
Qed.
Print Assumptions C116_pT1_refuted.
Example C116_pT1_case : even_steps [(2, 2%Z); (2, 1%Z)] 1 /\ ~ even_steps [(3, 2%Z)] 1 /\
  map (pT1_out 0%Z true (fun a => (10 * a)%Z) (View 3 [(2, 2%Z); (2, 1%Z)]) (fun old j => (old j + Z.of_nat j)%Z)) [2; 3; 4; 5; 6; 7]%Z = [20; 0; 1; 2; 3; 70]%Z /\
  map (pT1_out 0%Z false (fun a => (10 * a)%Z) (View 3 [(2, 2%Z); (2, 1%Z)]) (fun old j => (old j + Z.of_nat j)%Z)) [2; 3; 4; 5; 6; 7]%Z = [20; 30; 41; 52; 63; 70]%Z.
Proof.
  split; [apply contiguous_axes_steps; reflexivity|]. split; [|split; reflexivity].
  intros H. specialize (H [1] ltac:(repeat constructor)). cbn in H. lia.
Qed.

(** ** Projections in memory *)
Lemma inout_filled {A} : forall (m : Z -> A) v kernel old, contiguous v = true -> distinct v -> local (nprod (map fst (v_axes v))) kernel ->
  (forall idx, within (map fst (v_axes v)) idx -> old (place (map fst (v_axes v)) idx) = m (address v idx)) ->
  filled m (fst (inout m v kernel)) v (fun idx => kernel old (place (map fst (v_axes v)) idx)) /\ snd (inout m v kernel) = Ok tt.
Proof.
  intros m v kernel old C D L H. unfold inout. rewrite C. cbn [fst snd]. split; [|reflexivity].
  apply ravel_kernel; auto. unfold ravel. rewrite C. reflexivity.
Qed.
Theorem C116_transpose : forall A zero (assignment : bool) (m : Z -> A) out kernel old, distinct out -> local (nprod (map fst (v_axes out))) kernel ->
  Forall (fun a => 0 < fst a) (v_axes out) ->
  (forall idx, within (map fst (v_axes out)) idx -> old (place (map fst (v_axes out)) idx) = if assignment then zero else m (address out idx)) ->
  let r := transpose_out zero assignment m out kernel in
  (even_steps (v_axes out) 1 -> snd r = Ok tt /\ filled m (fst r) out (fun idx => kernel old (place (map fst (v_axes out)) idx))) /\
  (~ even_steps (v_axes out) 1 -> snd r = Err ValueError /\ filled m (fst r) out (fun idx => if assignment then zero else m (address out idx))).
Proof.
  intros A zero assignment m out kernel old D L P H r. subst r. unfold transpose_out. destruct (zeroed_at zero assignment m out D) as [Z1 Z2].
  set (m1 := zeroed zero assignment m out) in *. split.
  - intros S. assert (C : contiguous out = true) by (unfold contiguous; rewrite (steps_contiguous_axes _ P S), orb_true_r; reflexivity).
    destruct (inout_filled m1 out kernel old C D L) as [[F1 F2] E].
    + intros idx W. rewrite (H idx W), (Z1 idx W). reflexivity.
    + split; [exact E|]. split; [exact F1|]. intros a Ha. rewrite (F2 a Ha). apply Z2, Ha.
  - intros N. unfold inout. destruct (contiguous out) eqn:C; [exfalso; apply N, contiguous_steps, C|]. cbn. split; [reflexivity | split; assumption].
Qed.
Print Assumptions C116_transpose.
(** The call that is refused has already erased its output. *)
Theorem C116_erased_refuted : ~ (forall (m : Z -> Z) out kernel, distinct out -> snd (transpose_out 0%Z true m out kernel) = Err ValueError ->
  fst (transpose_out 0%Z true m out kernel) (address out (repeat 0 (length (v_axes out)))) = m (address out (repeat 0 (length (v_axes out))))).
Proof.
  intros H. set (v := View 0 [(3, 2%Z)]). specialize (H (fun _ => 5%Z) v (fun old j => old j)).
  assert (D : distinct v) by (unfold v; axes_distinct). specialize (H D eq_refl). cbn in H. discriminate H.
Qed.
Print Assumptions C116_erased_refuted.

Lemma k_distinct : forall o l, contiguous (View o (k_axes l)) = true -> distinct (View o (k_axes l)).
Proof.
  intros o l C i j Hi Hj E. pose proof (contiguous_steps _ C) as S. cbn [v_axes] in *. unfold address in E. cbn [v_axes v_origin] in E.
  rewrite (S i Hi), (S j Hj) in E. assert (P : place (map fst (k_axes l)) i = place (map fst (k_axes l)) j) by lia.
  apply nth_place in Hi, Hj. congruence.
Qed.
(** [value]: what the kernel writes, whatever the output was; the array allocated is away from the output. *)
Theorem C116_direct : forall A (m : Z -> A) output origin kernel value, distinct output -> Forall (fun a => 0 < fst a) (v_axes output) ->
  (forall old j, j < nprod (map fst (v_axes output)) -> kernel old j = value j) ->
  (forall idx, within (map fst (v_axes output)) idx ->
     ~ (origin <= address output idx < origin + Z.of_nat (nprod (map fst (v_axes output))))%Z) ->
  let r := direct_out m output origin kernel in
  (even_steps (v_axes output) 1 \/ c_ordered (v_axes output) ->
     snd r = Ok tt /\ (forall idx, within (map fst (v_axes output)) idx -> fst r (address output idx) = value (place (map fst (v_axes output)) idx)) /\
     (forall a, (forall idx, within (map fst (v_axes output)) idx -> a <> address output idx) ->
        ~ (origin <= a < origin + Z.of_nat (nprod (map fst (v_axes output))))%Z -> fst r a = m a)) /\
  (~ even_steps (v_axes output) 1 -> ~ c_ordered (v_axes output) -> r = (m, Err ValueError)).
Proof.
  intros A m output origin kernel value D P K Far r. subst r.
  assert (Lk : local (nprod (map fst (v_axes output))) kernel) by (intros f g _ j Hj; rewrite !K by exact Hj; reflexivity).
  unfold direct_out. destruct (contiguous output) eqn:C.
  - split; [|intros N; exfalso; apply N, contiguous_steps, C]. intros _.
    destruct (inout_filled m output kernel (fun j => m (address output (nth j (indices (map fst (v_axes output))) []))) C D Lk) as [[F1 F2] E].
    + intros idx W. rewrite nth_place_default by exact W. reflexivity.
    + split; [exact E|]. split; [|auto]. intros idx W. rewrite (F1 idx W). apply K, place_lt, W.
  - assert (N : ~ even_steps (v_axes output) 1).
    { intros S. unfold contiguous in C. rewrite (steps_contiguous_axes _ P S), orb_true_r in C. discriminate. }
    set (w := View origin (k_axes (v_axes output))).
    assert (Ew : map fst (v_axes w) = map fst (v_axes output)) by apply k_axes_sizes.
    pose proof (k_contiguous origin _ P) as KC. fold w in KC. split.
    + intros [S|S]; [contradiction|]. apply KC in S.
      assert (Dw : distinct w) by (apply k_distinct, S).
      destruct (inout_filled m w kernel (fun j => m (address w (nth j (indices (map fst (v_axes w))) []))) S Dw ltac:(rewrite Ew; exact Lk)) as [[F1 F2] E].
      { intros idx W. rewrite nth_place_default by exact W. reflexivity. }
      destruct (inout m w kernel) as [m1 r1]. cbn [fst snd] in *. subst r1. cbn [fst snd]. split; [reflexivity|].
      destruct (assign_filled (fun _ x => x) m1 output (fun j => m1 (address w (nth j (indices (sizes (v_axes w))) []))) D) as [G1 G2].
      assert (St := contiguous_steps _ S). split.
      * intros idx W. rewrite (G1 idx W). unfold sizes. rewrite <- Ew in *. rewrite nth_place_default by exact W. rewrite (F1 idx W). apply K. apply place_lt, W.
      * intros a Ha Hr. rewrite (G2 a Ha). apply F2. intros idx W Q. apply Hr. rewrite Q. unfold address. rewrite (St idx W).
        pose proof (place_lt _ _ W) as B. rewrite Ew in *. cbn [v_origin w]. lia.
    + intros _ Nc. unfold inout. destruct (contiguous w) eqn:Cw; [exfalso; apply Nc, KC; reflexivity | reflexivity].
Qed.
Print Assumptions C116_direct.
(** A transposed array of samples is refused. *)
Theorem C116_direct_refuted : ~ (forall (m : Z -> Z) output origin kernel, distinct output -> snd (direct_out m output origin kernel) = Ok tt).
Proof.
  intros H. set (v := View 0 [(2, 1%Z); (3, 2%Z)]). specialize (H (fun _ => 5%Z) v 50%Z (fun _ _ => 1%Z)).
  assert (D : distinct v) by (unfold v; axes_distinct). specialize (H D). cbn in H. discriminate H.
Qed.
Print Assumptions C116_direct_refuted.
(** Every other row of samples, backwards. *)
Example C116_direct_case : c_ordered [(2, (-6)%Z); (3, 1%Z)] /\ ~ even_steps [(2, (-6)%Z); (3, 1%Z)] 1 /\ ~ c_ordered [(2, 1%Z); (3, 2%Z)] /\
  distinct (View 10 [(2, (-6)%Z); (3, 1%Z)]) /\
  let r := direct_out (fun a => (- a)%Z) (View 10 [(2, (-6)%Z); (3, 1%Z)]) 50 (fun _ j => (100 + Z.of_nat j)%Z) in
  snd r = Ok tt /\ map (fst r) [3; 4; 5; 6; 7; 10; 11; 12; 13]%Z = [-3; 103; 104; 105; -7; 100; 101; 102; -13]%Z.
Proof.
  split; [|split; [|split; [|split; [axes_distinct | split; reflexivity]]]].
  - intros [|[|i]] [|[|j]] a b H Ea Eb; cbn in Ea, Eb; try lia; try (destruct i; discriminate); try (destruct j; discriminate); inversion Ea; inversion Eb; subst; cbn; lia.
  - intros H. specialize (H [1; 0] ltac:(repeat constructor)). cbn in H. lia.
  - intros H. specialize (H 0 1 _ _ ltac:(lia) eq_refl eq_refl). cbn in H. lia.
Qed.
