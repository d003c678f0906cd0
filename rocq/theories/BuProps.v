(** C104: derived units that vary along the axes of an array. *)
From Coq Require Import String Ascii QArith Qcanon Lia.
From Verif Require Import Base BaseFacts TemplateModel UnitModel UnitSpec UnitFacts UnitSIFacts BuModel BuFacts.
Open Scope nat_scope.

(** *** Hypotheses on the tables *)
(** Names of the derived units that have axes. *)
Definition array_name {K} (t : nd_table K) (k : text) : Prop :=
  exists p d x u, In ((k, p), d, Some (x, u)) t /\ nsh x <> [].
(** Derived units have the first or the last axes of the array, and those with axes are not
    used in the definitions of others. *)
Definition table_fits {K} (sh : list Z) (t : nd_table K) : Prop :=
  forall k d x u, In (k, d, Some (x, u)) t -> fits d (nsh x) sh /\ Forall (fun kv => ~ array_name t (fst kv)) u.
(** Derived units with axes are rightward and have all the same axes. *)
Definition table_rightward {K} (p : list Z) (t : nd_table K) : Prop :=
  forall k d x u, In (k, d, Some (x, u)) t -> nsh x <> [] -> d = Rightward /\ nsh x = p.
Definition table_canonical {K} (t : nd_table K) : Prop :=
  forall k d x u, In (k, d, Some (x, u)) t -> canonical u.

Section Props.
Context {K : Type} (o : mag_ops K) (L : mag_laws o).
Variables (loc glob : nd_table K).

Lemma new_factor_In k v x u d : new_factor o loc glob k v = Some (x, u, d) ->
  exists p y w, In ((k, p), d, Some (y, w)) (loc ++ glob) /\ nsh x = nsh y /\ incl (names u) (names w) /\ (canonical w -> canonical u).
Proof.
  unfold new_factor. destruct (ncheck_du o loc k v) as [f|] eqn:E.
  - intros H0. inversion H0; subst f; clear H0. apply ncheck_In in E. destruct E as (p & y & w & I & H). exists p, y, w. split; [apply in_or_app; auto|exact H].
  - intros H. apply ncheck_In in H. destruct H as (p & y & w & I & H). exists p, y, w. split; [apply in_or_app; auto|exact H].
Qed.
Lemma scalar_factor_at idx k v :
  scalar_factor (o := o) (table_at idx loc) (table_at idx glob) k v = at_index idx (new_factor o loc glob k v).
Proof.
  unfold scalar_factor, new_factor. rewrite !check_at. destruct (ncheck_du o loc k v) as [[[x u] d]|]; reflexivity.
Qed.
Definition Sc (k : text) : Prop := ~ array_name (loc ++ glob) k.

Lemma factor_scalar sh k v x u d : table_fits sh (loc ++ glob) -> Sc k -> new_factor o loc glob k v = Some (x, u, d) ->
  nsh x = [] /\ Forall (fun kv => Sc (fst kv)) u.
Proof.
  intros T S E. destruct (new_factor_In _ _ _ _ _ E) as (p & y & w & I & Sx & Iu & _).
  destruct (T _ _ _ _ I) as [_ F]. split; [|eapply names_prop; eassumption]. rewrite Sx.
  destruct (nsh y) eqn:Ey; [reflexivity|]. elim S. exists p, d, y, w. split; [exact I|congruence].
Qed.
Lemma scalars_at sh idx : table_fits sh (loc ++ glob) -> forall k v, Sc k ->
  scalar_factor (o := o) (table_at idx loc) (table_at idx glob) k v = at_index [] (new_factor o loc glob k v) /\
  forall x u d, new_factor o loc glob k v = Some (x, u, d) -> nsh x = [] /\ Forall (fun kv => Sc (fst kv)) u.
Proof.
  intros T k v S. split; [|intros x u d; now apply (factor_scalar sh)]. rewrite scalar_factor_at.
  destruct (new_factor o loc glob k v) as [[[x u] d]|] eqn:E; [|reflexivity].
  destruct (factor_scalar sh _ _ _ _ _ T S E) as [N _]. cbn. now rewrite N, !part_nil.
Qed.
Lemma agree_all sh idx : table_fits sh (loc ++ glob) ->
  agree (o := o) loc glob (table_at idx loc) (table_at idx glob) Sc (fun _ => True) sh idx.
Proof.
  intros T k v _. split; [apply scalar_factor_at|]. intros x u d E.
  destruct (new_factor_In _ _ _ _ _ E) as (p & y & w & I & Sx & Iu & _).
  destruct (T _ _ _ _ I) as [F U]. rewrite Sx. split; [exact F|eapply names_prop; eassumption].
Qed.

(** ** SI of an array is element by element *)
Theorem C104_SI : forall sh, table_fits sh (loc ++ glob) ->
  forall fuel (x : nd K) (u : unit_) idx, nsh x = sh -> inside sh idx ->
  (forall r w, nsi o fuel loc glob (x, u) = Ok (r, w) -> nsh r = sh /\
     exists w', si o fuel (table_at idx loc) (table_at idx glob) (nval x idx, u) = Ok (nval r idx, w') /\
                forall j, exponent w j = exponent w' j) /\
  (forall e, nsi o fuel loc glob (x, u) = Err e ->
     si o fuel (table_at idx loc) (table_at idx glob) (nval x idx, u) = Err e).
Proof.
  intros sh T fuel x u idx Hx Hi.
  pose proof (nsi_at L loc glob _ _ Sc (scalars_at sh idx T) fuel (fun _ => True) sh idx Hi (agree_all sh idx T) x u) as H.
  specialize (H ltac:(apply Forall_forall; auto) (or_introl Hx)).
  rewrite elemT_full in H by now rewrite Hx. split; intros; rewrite H0 in H.
  - destruct H as (_ & Sr & _ & w' & E & EX). specialize (Sr Hx). split; [exact Sr|]. exists w'. split; [|exact EX].
    rewrite elemT_full in E by now rewrite Sr. exact E.
  - exact H.
Qed.

(** *** Canonical units *)
Lemma stuck {A : Prop} f v e b : fold_left (step o f loc glob) v (Err e) = Ok b -> A.
Proof. rewrite step_err. discriminate. Qed.
Lemma nsi_canonical : table_canonical (loc ++ glob) -> forall n x u r w, canonical u ->
  nsi o n loc glob (x, u) = Ok (r, w) -> canonical w.
Proof.
  intros TC. assert (C0 : canonical []) by (split; constructor).
  induction n as [|n IH]; intros x u r w Cu E; [discriminate|]. destruct u as [|kv u]; [inversion E; subst; exact Cu|].
  cbn [nsi snd fst] in E.
  assert (Loop : forall v a, Forall (fun kv => snd kv <> 0%Qc) v -> canonical (snd (fst a)) -> canonical (snd (snd a)) ->
     forall b, fold_left (step o (nsi o n loc glob) loc glob) v (Ok a) = Ok b -> canonical (snd (fst b)) /\ canonical (snd (snd b))).
  { induction v as [|[k e] v IHv]; intros a Hv C1 C2 b EF; [inversion EF; subst; auto|].
    inversion Hv; subst. cbn [fold_left] in EF. destruct a as [[sx su] [fx fu]]. unfold step at 2 in EF. cbn [bind fst snd] in *.
    destruct (new_factor o loc glob k e) as [[[d du] dr]|] eqn:NF.
    - assert (Cd : canonical du). { destruct (new_factor_In _ _ _ _ _ NF) as (p & y & w' & I & _ & _ & C). apply C. eapply TC, I. }
      revert EF. destruct dr; match goal with |- context[nsi o n loc glob ?q] => destruct (nsi o n loc glob q) as [[r' w']|e'] eqn:EN end; cbn [bind]; intros EF; try (exact (stuck _ _ _ _ EF)).
      + destruct (nmul o sx r') as [z|] eqn:EZ; cbn [fst] in EF; rewrite ?EZ in EF; cbn [bind] in EF; [|exact (stuck _ _ _ _ EF)].
        eapply IHv in EF; cbn [fst snd]; auto. apply canonical_multiply; auto. eapply IH; eassumption.
      + destruct (tmul o fx r') as [z|] eqn:EZ; cbn [fst] in EF; rewrite ?EZ in EF; cbn [bind] in EF; [|exact (stuck _ _ _ _ EF)].
        eapply IHv in EF; cbn [fst snd]; auto. apply canonical_multiply; auto. eapply IH; eassumption.
    - eapply IHv in EF; cbn [fst snd]; auto. destruct C1 as [N1 Z1]. split; [now apply mul1_names|now apply mul1_nonzero]. }
  destruct (fold_left (step o (nsi o n loc glob) loc glob) (kv :: u) _) as [b|] eqn:EF; [|discriminate]. cbn [bind] in E.
  apply Loop in EF; [|apply Cu|exact C0|exact C0]. destruct EF as [B1 B2].
  destruct (nmul o x (fst (fst b))) as [z|]; [|discriminate]. cbn [bind] in E.
  destruct (tmul o z (fst (snd b))) as [z'|]; [|discriminate]. cbn [bind] in E. inversion E; subst.
  now apply canonical_multiply.
Qed.

Definition canonical_table (t : @du_table K) : Prop := forall k m u, In (k, Some (m, u)) t -> canonical u.
Lemma check_canonical (t : @du_table K) k v m u : canonical_table t -> check_du o t k v = Some (m, u) -> canonical u.
Proof.
  intros T. assert (C0 : canonical []) by (split; constructor). unfold check_du. destruct t as [|e t]; [discriminate|].
  destruct (du_find (e :: t) (k, Some v)) as [q|] eqn:F1.
  { intros ->. apply du_find_In in F1. eapply T, F1. }
  destruct (du_find (e :: t) (k, Some (- v)%Qc)) as [[[a b]|]|] eqn:F2; [|discriminate|].
  { intros H; inversion H; subst. apply du_find_In in F2. cbn. apply canonical_divide; [exact C0|eapply T, F2]. }
  destruct (du_find (e :: t) (k, None)) as [[[a b]|]|] eqn:F3; [|discriminate|discriminate].
  apply du_find_In in F3. apply T in F3.
  destruct (Qc_eqb v 1); [intros H; inversion H; subst; exact F3|].
  destruct (Qc_eqb v (- (1))); intros H; inversion H; subst; cbn; auto using canonical_divide, canonical_power.
Qed.
Lemma si_canonical (l g : @du_table K) : canonical_table l -> canonical_table g -> forall n m u r w, canonical u ->
  si o n l g (m, u) = Ok (r, w) -> canonical w.
Proof.
  intros T1 T2. assert (C0 : canonical []) by (split; constructor).
  induction n as [|n IH]; intros m u r w Cu E; [discriminate|]. destruct u as [|kv u]; [inversion E; subst; exact Cu|].
  rewrite si_unfold in E.
  assert (Loop : forall (v : list (text * Qc)) (a b : @quantity K), Forall (fun kv => snd kv <> 0%Qc) v -> canonical (snd a) ->
     fold_left (si_step (o := o) n l g) v (Ok a) = Ok b -> canonical (snd b)).
  { induction v as [|[k e] v IHv]; intros a b Hv Ca EF; [inversion EF; subst; auto|].
    inversion Hv; subst. cbn [fold_left] in EF. rewrite si_step_factor in EF.
    destruct (scalar_factor l g k e) as [[d du]|] eqn:NF.
    - assert (Cd : canonical du).
      { unfold scalar_factor in NF. destruct (check_du o l k e) eqn:E1; [inversion NF; subst; eapply check_canonical; [exact T1|exact E1]|].
        eapply check_canonical; [exact T2|exact NF]. }
      destruct (si o n l g (d, du)) as [[r' w']|] eqn:EN; try rewrite EN in EF; cbn [bind] in EF; [|rewrite si_step_err in EF; discriminate].
      eapply IHv in EF; auto. cbn. apply canonical_multiply; auto. eapply IH; eassumption.
    - eapply IHv in EF; auto. cbn. destruct Ca as [N1 Z1]. split; [now apply mul1_names|now apply mul1_nonzero]. }
  destruct (fold_left (si_step (o := o) n l g) (kv :: u) _) as [b|] eqn:EF; [|discriminate]. cbn [bind] in E.
  apply Loop in EF; [|apply Cu|exact C0]. inversion E; subst. exact EF.
Qed.
Lemma table_at_canonical idx (t : nd_table K) : table_canonical t -> canonical_table (table_at idx t).
Proof.
  intros T k m u I. unfold table_at in I. apply in_map_iff in I. destruct I as ([[k' d] [[x w]|]] & E & I); cbn in E; [|discriminate].
  inversion E; subst. eapply T, I.
Qed.

(** ** Conversion is element by element when the derived units with axes are rightward *)
Theorem C104_inunit : forall sh p, table_fits sh (loc ++ glob) -> table_rightward p (loc ++ glob) -> fits Rightward p sh ->
  table_canonical (loc ++ glob) ->
  forall fuel (x : nd K) (u new : unit_) idx, nsh x = sh -> inside sh idx -> canonical u -> canonical new ->
  (forall r w, nconvert o fuel loc glob (x, u) new = Ok (r, w) -> nsh r = sh /\
     convert o (mmul o) fuel (table_at idx loc) (table_at idx glob) (nval x idx, u) new = Ok (nval r idx, w)) /\
  (forall e, nconvert o fuel loc glob (x, u) new = Err e ->
     convert o (mmul o) fuel (table_at idx loc) (table_at idx glob) (nval x idx, u) new = Err e).
Proof.
  intros sh p T TR Fp TC fuel x u new idx Hx Hi Cu Cn.
  set (idx' := firstn (length p) idx).
  assert (Hi' : inside p idx') by (apply (inside_part Rightward p sh idx Fp Hi)).
  assert (Shapes : forall k v y w d, new_factor o loc glob k v = Some (y, w, d) -> nsh y = [] \/ (d = Rightward /\ nsh y = p)).
  { intros k v y w d E. destruct (new_factor_In _ _ _ _ _ E) as (q & z & w' & I & Sy & _).
    destruct (nsh z) eqn:Ez; [left; congruence|]. right. rewrite Sy. rewrite <- Ez. eapply TR; [exact I|congruence]. }
  assert (HA : agree (o := o) loc glob (table_at idx loc) (table_at idx glob) Sc (fun _ => True) p idx').
  { intros k v _. destruct (agree_all sh idx T k v I) as [E1 E2]. split.
    - rewrite E1. destruct (new_factor o loc glob k v) as [[[y w] d]|] eqn:NF; [|reflexivity]. cbn.
      destruct (Shapes _ _ _ _ _ NF) as [-> |[-> ->]]; [now rewrite !part_nil|].
      cbn. unfold idx'. rewrite firstn_firstn, Nat.min_id. reflexivity.
    - intros y w d NF. split; [|apply (E2 y w d NF)]. destruct (Shapes _ _ _ _ _ NF) as [-> |[-> ->]]; [apply fits_nil|].
      exists []. now rewrite app_nil_r. }
  assert (Q : forall v : unit_, match nsi o fuel loc glob (scalar (m1 o), v) with
     | Ok (r, w) => (nsh r = [] \/ nsh r = p) /\ exists w', si o fuel (table_at idx loc) (table_at idx glob) (m1 o, v) = Ok (elemT r idx', w') /\ forall j, exponent w j = exponent w' j
     | Err e => si o fuel (table_at idx loc) (table_at idx glob) (m1 o, v) = Err e end).
  { intros v. pose proof (nsi_at L loc glob _ _ Sc (scalars_at sh idx T) fuel (fun _ => True) p idx' Hi' HA (scalar (m1 o)) v) as H.
    specialize (H ltac:(apply Forall_forall; auto)).
    assert (HL : left_scalar (o := o) loc glob (fun _ => True)).
    { intros k e y w _ NF. destruct (Shapes _ _ _ _ _ NF) as [E|[E _]]; [exact E|discriminate]. }
    specialize (H (or_intror (conj eq_refl HL))). change (elemT (scalar (m1 o)) idx') with (m1 o) in H.
    destruct (nsi o fuel loc glob (scalar (m1 o), v)) as [[r w]|e]; [|exact H].
    destruct H as (_ & _ & A & w' & E & EX). split; [|exists w'; auto]. apply A.
    intros k e y z d _ NF. destruct (Shapes _ _ _ _ _ NF) as [E'|[_ E']]; auto. }
  assert (TL : table_canonical loc) by (intros k d y w I; eapply TC, in_or_app; left; exact I).
  assert (TG : table_canonical glob) by (intros k d y w I; eapply TC, in_or_app; right; exact I).
  assert (D : match nconvert o fuel loc glob (x, u) new with
    | Ok (r, w) => nsh r = sh /\ convert o (mmul o) fuel (table_at idx loc) (table_at idx glob) (nval x idx, u) new = Ok (nval r idx, w)
    | Err e => convert o (mmul o) fuel (table_at idx loc) (table_at idx glob) (nval x idx, u) new = Err e end).
  2:{ split; intros; rewrite H in D; exact D. }
  unfold nconvert, convert. cbn [fst snd].
  destruct u as [|kv u]; [auto|]. destruct new as [|kv' new]; [auto|].
  pose proof (Q (kv :: u)) as Q1. pose proof (Q (kv' :: new)) as Q2.
  revert Q1. match goal with |- match nsi o fuel loc glob ?q with _ => _ end -> _ => destruct (nsi o fuel loc glob q) as [[r1 w1]|e] eqn:E1 end; cbn [bind]; intros Q1; [|rewrite Q1; reflexivity].
  destruct Q1 as (S1 & w1' & ES1 & EX1). rewrite ES1. cbn [bind].
  revert Q2. match goal with |- match nsi o fuel loc glob ?q with _ => _ end -> _ => destruct (nsi o fuel loc glob q) as [[r2 w2]|e] eqn:E2 end; cbn [bind]; intros Q2; [|rewrite Q2; reflexivity].
  destruct Q2 as (S2 & w2' & ES2 & EX2). rewrite ES2. cbn [bind fst snd].
  assert (DE : dict_eqb w1 w2 = dict_eqb w1' w2').
  { apply nsi_canonical in E1; auto. apply nsi_canonical in E2; auto.
    apply si_canonical in ES1; auto using table_at_canonical. apply si_canonical in ES2; auto using table_at_canonical.
    pose proof (canonical_eqb _ _ E1 E2). pose proof (canonical_eqb _ _ ES1 ES2).
    destruct (dict_eqb w1 w2), (dict_eqb w1' w2'); auto.
    - symmetry. apply H0. intros k. rewrite <- EX1, <- EX2. now apply H.
    - apply H. intros k. rewrite EX1, EX2. now apply H0. }
  rewrite DE. destruct (dict_eqb w1' w2'); cbn [negb]; [|reflexivity].
  (* the factor *)
  assert (F : exists f, nmul o r1 (nmap (minv o) r2) = Ok f /\ (nsh f = [] \/ nsh f = p) /\ elemT f idx' = mmul o (elemT r1 idx') (minv o (elemT r2 idx'))).
  { assert (Sf : forall y : nd K, nsh y = [] \/ nsh y = p -> exists i, nsh y = sfx i p /\ elem y idx' = elemT y idx').
    { intros y [E|E].
      - exists 0. split; [exact E|]. unfold elemT, elem. cbn. rewrite E. reflexivity.
      - exists (length p). split; [rewrite E; symmetry; apply sfx_all; lia|]. rewrite elem_full, elemT_full; rewrite ?E; auto. }
    destruct (Sf r1 S1) as (i & Ei & V1). destruct (Sf (nmap (minv o) r2) S2) as (j & Ej & V2).
    destruct (nmul_sfx (o := o) p idx' r1 (nmap (minv o) r2) i j Hi' Ei Ej) as (f & Ef & Sf' & Vf).
    exists f. split; [exact Ef|].
    assert (Sh : nsh f = [] \/ nsh f = p).
    { rewrite Sf'. destruct (Nat.max_spec i j) as [[_ ->]|[_ ->]]; [rewrite <- Ej; exact S2|rewrite <- Ei; exact S1]. }
    split; [exact Sh|]. destruct (Sf f Sh) as (_ & _ & Vf'). rewrite <- Vf', Vf, V1, V2. f_equal.
  }
  destruct F as (f & Ef & Sf & Vf). rewrite Ef. cbn [bind].
  assert (Fi : exists i, nsh f = firstn i sh /\ elemT f idx = elemT f idx').
  { destruct Sf as [E|E].
    - exists 0. split; [exact E|]. unfold elemT, elem. cbn. rewrite E. reflexivity.
    - exists (length p). split; [rewrite E; now apply fits_right|].
      rewrite (elemT_right f sh idx) by (rewrite ?E; auto). rewrite (elemT_full f idx') by now rewrite E. cbn. now rewrite E. }
  destruct Fi as (i & Si & Vi).
  assert (R : exists r, (match nsh x with [] => nmul o x f | _ => tmul o x f end) = Ok r /\ nsh r = sh /\
     nval r idx = mmul o (nval x idx) (elemT f idx)).
  { destruct (nsh x) as [|n0 s0] eqn:Nx.
    - subst sh. inversion Hi; subst. rewrite firstn_nil in Si. destruct (nmul_sfx (o := o) [] [] x f 0 0) as (r & Er & Sr & Vr).
      + constructor. + exact Nx. + exact Si. + exists r. split; [exact Er|]. split; [exact Sr|]. cbn in Sr.
        unfold elem in Vr. rewrite Sr, Nx, Si in Vr. cbn in Vr. rewrite Vr. unfold elemT, elem. cbn. rewrite Si. reflexivity.
    - destruct (tmul_prefix (o := o) sh idx x f (length sh) i Hi) as (r & Er & Sr & Vr); [rewrite Nx, Hx; symmetry; apply firstn_all|exact Si|].
      rewrite firstn_all2 in Sr by lia. exists r. split; [exact Er|]. split; [exact Sr|].
      rewrite (elemT_full r), (elemT_full x) in Vr by (rewrite ?Sr, ?Nx, ?Hx; auto). exact Vr. }
  destruct R as (r & Er & Sr & Vr). rewrite Er. cbn [bind]. rewrite Sr, Hx.
  destruct (list_eq_dec Z.eq_dec sh sh) as [_|n0]; [|now elim n0]. split; [exact Sr|].
  rewrite Vr, Vi, Vf. f_equal. f_equal. apply (ml_comm _ L).
Qed.
End Props.
Print Assumptions C104_SI.
Print Assumptions C104_inunit.

(** *** Examples, with decimal logarithms as magnitudes *)
Definition logs (l : list Z) (s : list Z) : nd Qc :=
  Nd s (fun idx => match idx with [i] => Q2Qc (inject_Z (nth (Z.to_nat i) l 0%Z)) | _ => 0%Qc end).
Definition one (s : string) : unit_ := [(lit s, 1%Qc)].
Definition ones (sh : list Z) : nd Qc := Nd sh (fun _ => 0%Qc).
(** Two detectors of 1 and 10 m^2, three times of 1, 10 and 100 s. *)
Definition detectors : du_key * dir * option (nquantity Qc) :=
  ((lit "detector", None), Rightward, Some (logs [0; 1]%Z [2]%Z, [(lit "m", Q2Qc 2)])).
Definition times (n : Z) : du_key * dir * option (nquantity Qc) :=
  ((lit "time", None), Leftward, Some (logs [0; 1; 2]%Z [n]%Z, one "s")).

Definition both : unit_ := [(lit "time", 1%Qc); (lit "detector", (- (1))%Qc)].
Lemma both_fits : table_fits [2; 3]%Z [detectors; times 3].
Proof.
  assert (N : forall s, In s [lit "m"; lit "s"] -> ~ array_name [detectors; times 3] s).
  { intros s Hs (p & d & x & u & [I|[I|[]]] & _); inversion I; subst; cbn in Hs; intuition discriminate. }
  intros k d x u [I|[I|[]]]; inversion I; subst; (split; [|repeat constructor; apply N; cbn; auto]).
  - exists [3]%Z. reflexivity.
  - exists [2]%Z. reflexivity.
Qed.
(** Shape, element and unit of a result. *)
Definition show (r : res (nquantity Qc)) (idx : list Z) : res (list Z * Q * list (text * Q)) :=
  do q <- r; Ok (nsh (fst q), this (nval (fst q) idx), map (fun kv => (fst kv, this (snd kv))) (snd q)).
Definition named (s : string) (e : Q) : text * Q := (lit s, e).
Example C104_SI_example :
  let r := nsi log_ops 3 [detectors; times 3] [] (ones [2; 3]%Z, both) in
  table_fits [2; 3]%Z [detectors; times 3] /\ inside [2; 3]%Z [1; 2]%Z /\
  show r [1; 2]%Z = Ok ([2; 3]%Z, 1%Q, [named "s" 1; named "m" (-2 # 1)]) /\
  show r [0; 2]%Z = Ok ([2; 3]%Z, 2%Q, [named "s" 1; named "m" (-2 # 1)]).
Proof.
  split; [exact both_fits|]. split; [repeat constructor; lia|]. split; vm_compute; reflexivity.
Qed.

Lemma det_fits : table_fits [2; 3]%Z [detectors] /\ table_rightward [2]%Z [detectors] /\ table_canonical [detectors].
Proof.
  split; [|split].
  - assert (N : ~ array_name [detectors] (lit "m")).
    { intros (p & d & x & u & [I|[]] & _); inversion I. }
    intros k d x u [I|[]]; inversion I; subst. split; [exists [3]%Z; reflexivity|]. repeat constructor. exact N.
  - intros k d x u [I|[]]; inversion I; subst. auto.
  - intros k d x u [I|[]]; inversion I; subst. split; [repeat constructor; intros []|]. repeat constructor. discriminate.
Qed.
Example C104_inunit_example :
  let r := nconvert log_ops 3 [detectors] [] (ones [2; 3]%Z, one "detector") [(lit "m", Q2Qc 2)] in
  table_fits [2; 3]%Z [detectors] /\ table_rightward [2]%Z [detectors] /\ table_canonical [detectors] /\
  fits Rightward [2]%Z [2; 3]%Z /\ inside [2; 3]%Z [1; 2]%Z /\
  show r [1; 2]%Z = Ok ([2; 3]%Z, 1%Q, [named "m" 2]) /\ show r [0; 2]%Z = Ok ([2; 3]%Z, 0%Q, [named "m" 2]).
Proof.
  destruct det_fits as (A & B & C). repeat (split; [assumption|]). split; [exists [3]%Z; reflexivity|].
  split; [repeat constructor; lia|]. split; vm_compute; reflexivity.
Qed.

(** FINDING 156.  inunit applies the factor along the first axes, also for leftward derived
    units: the elements of a square array are multiplied by the factors of the transpose,
    other arrays are refused, although SI is right. *)
Theorem C104_leftward_refuted :
  let si_value := nsi log_ops 3 [times 2] [] (ones [2; 2]%Z, one "time") in
  let converted := nconvert log_ops 3 [times 2] [] (ones [2; 2]%Z, one "time") (one "s") in
  show si_value [0; 1]%Z = Ok ([2; 2]%Z, 1%Q, [named "s" 1]) /\
  show si_value [1; 0]%Z = Ok ([2; 2]%Z, 0%Q, [named "s" 1]) /\
  show converted [0; 1]%Z = Ok ([2; 2]%Z, 0%Q, [named "s" 1]) /\
  show converted [1; 0]%Z = Ok ([2; 2]%Z, 1%Q, [named "s" 1]) /\
  show (nconvert log_ops 3 [times 3] [] (ones [2; 3]%Z, one "time") (one "s")) [0; 0]%Z = Err ValueError.
Proof. repeat split; vm_compute; reflexivity. Qed.
Print Assumptions C104_leftward_refuted.

(** FINDING 157.  A derived unit with axes defined from another one with axes: the axes of
    the second are those of the first, not of the array. *)
Definition rates : du_key * dir * option (nquantity Qc) :=
  ((lit "rate", None), Leftward, Some (logs [0; 1]%Z [2]%Z, one "detector")).
Theorem C104_nested_refuted :
  (forall k d x u, In (k, d, Some (x, u)) [rates; detectors] -> fits d (nsh x) [2; 2]%Z) /\
  show (nsi log_ops 4 [rates; detectors] [] (ones [2; 2]%Z, one "rate")) [0; 1]%Z = Ok ([2; 2]%Z, 2%Q, [named "m" 2]) /\
  (do q <- si log_ops 4 (table_at [0; 1]%Z [rates; detectors]) [] (0%Qc, one "rate");
   Ok (this (fst q), map (fun kv => (fst kv, this (snd kv))) (snd q))) = Ok (1%Q, [named "m" 2]).
Proof.
  split; [|split; vm_compute; reflexivity].
  intros k d x u [I|[I|[]]]; inversion I; subst; exists [2]%Z; reflexivity.
Qed.
Print Assumptions C104_nested_refuted.

(** Multiplication broadcasts: along each axis, counted from the last, a size of 1 is repeated and other sizes
    are those of the result; different sizes are refused.  The element of the result is the product of
    the elements at the index without the missing axes and at 0 along the repeated ones. *)
Definition size_at (s : list Z) (k : nat) : Z := nth k (rev s) 1%Z.
Lemma bcast_ok a b : match bcast a b with
  | Ok r => length r = Nat.max (length a) (length b) /\ forall k, (nth k a 1 = 1 \/ nth k a 1 = nth k r 1)%Z /\ (nth k b 1 = 1 \/ nth k b 1 = nth k r 1)%Z /\ (nth k r 1 = nth k a 1 \/ nth k r 1 = nth k b 1)%Z
  | Err e => e = ValueError /\ exists k, (nth k a 1 <> nth k b 1 /\ nth k a 1 <> 1 /\ nth k b 1 <> 1)%Z
  end.
Proof.
revert b; induction a as [|x a IH]; intros [|y b]; cbn [bcast].
- split; [reflexivity|]; intros [|k]; cbn; auto.
- split; [reflexivity|]; intros [|k]; cbn; auto.
- split; [symmetry; apply Nat.max_l; cbn; lia|]; intros [|k]; cbn; auto.
- specialize (IH b); destruct (bcast a b) as [r|e]; cbn [bind].
  + destruct IH as [Lr IH]; destruct (Z.eqb_spec x y); [|destruct (Z.eqb_spec x 1); [|destruct (Z.eqb_spec y 1)]]; subst.
    1,2,3: split; [cbn; now rewrite Lr|]; intros [|k]; cbn [nth]; [auto|apply IH].
    split; [reflexivity|]; exists 0; cbn; auto.
  + destruct IH as [-> [k H]]; split; [reflexivity|]; now exists (S k).
Qed.
Lemma clamp_length s idx : length s <= length idx -> length (clamp s idx) = length s.
Proof. revert idx; induction s as [|d s IH]; intros [|i idx] H; cbn in *; try lia. rewrite IH; lia. Qed.
Lemma clamp_nth s idx k : k < length s -> length s <= length idx -> nth k (clamp s idx) 0%Z = (if (nth k s 1 =? 1)%Z then 0 else nth k idx 0)%Z.
Proof.
  revert idx k; induction s as [|d s IH]; intros [|i idx] k H L; cbn [length clamp] in *; try lia.
  destruct k as [|k]; cbn [nth]; [reflexivity|]. apply IH; lia.
Qed.
Theorem C104_broadcast : forall (K : Type) (o : mag_ops K) (x y : nd K),
  match nmul o x y with
  | Ok z =>
      length (nsh z) = Nat.max (length (nsh x)) (length (nsh y)) /\
      (forall k, (size_at (nsh x) k = 1 \/ size_at (nsh x) k = size_at (nsh z) k)%Z /\ (size_at (nsh y) k = 1 \/ size_at (nsh y) k = size_at (nsh z) k)%Z /\
                 (size_at (nsh z) k = size_at (nsh x) k \/ size_at (nsh z) k = size_at (nsh y) k)%Z) /\
      forall idx, length idx = length (nsh z) -> exists i j,
        nval z idx = mmul o (nval x i) (nval y j) /\ length i = length (nsh x) /\ length j = length (nsh y) /\
        (forall k, k < length i -> nth k (rev i) 0%Z = if (size_at (nsh x) k =? 1)%Z then 0%Z else nth k (rev idx) 0%Z) /\
        (forall k, k < length j -> nth k (rev j) 0%Z = if (size_at (nsh y) k =? 1)%Z then 0%Z else nth k (rev idx) 0%Z)
  | Err e => e = ValueError /\ exists k, (size_at (nsh x) k <> size_at (nsh y) k /\ size_at (nsh x) k <> 1 /\ size_at (nsh y) k <> 1)%Z
  end.
Proof.
  intros K o x y. unfold nmul, bshape. pose proof (bcast_ok (rev (nsh x)) (rev (nsh y))) as B.
  destruct (bcast (rev (nsh x)) (rev (nsh y))) as [r|e]; cbn [bind nsh nval]; [|exact B].
  destruct B as [Lr B]. rewrite !rev_length in Lr. split; [now rewrite rev_length|]. split; [intros k; unfold size_at; rewrite rev_involutive; apply B|].
  intros idx Li. rewrite rev_length in Li. unfold elem.
  eexists _, _. split; [reflexivity|].
  rewrite !rev_length, !clamp_length, !rev_length by (rewrite !rev_length; lia). split; [reflexivity|]. split; [reflexivity|].
  split; intros k Hk; rewrite rev_involutive; apply clamp_nth; rewrite ?rev_length; lia.
Qed.
Print Assumptions C104_broadcast.
Example C104_broadcast_case :
  (do z <- nmul log_ops (Nd [2; 1]%Z (fun idx => match idx with [i; 0%Z] => Q2Qc (inject_Z (i + 1)) | _ => 0%Qc end)) (logs [10; 20; 30]%Z [3]%Z); Ok (nsh z, this (nval z [1; 2]%Z))) = Ok ([2; 3]%Z, 32%Q) /\
  (do z <- nmul log_ops (logs [1; 2]%Z [2]%Z) (logs [10; 20; 30]%Z [3]%Z); Ok (nsh z)) = Err ValueError.
Proof. split; vm_compute; reflexivity. Qed.
