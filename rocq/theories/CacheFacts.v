(** Lemmas on the on-the-fly cache. *)
From Verif Require Import Base CacheModel.

Section Facts.
Context {I A : Type} (eqI : forall a b : I, {a = b} + {a <> b}) (none : I) (mat : I -> A).

(** A computation, when it succeeds, gives the matrix of its block. *)
Definition faithful (l : list (I * res A)) : Prop := Forall (fun ir => forall m, snd ir = Ok m -> m = mat (fst ir)) l.

Definition good (h : holder (I := I)) : Prop := forall m, h_matrix h = Some m -> m = mat (h_id h).

Lemma access_good h i (r : res A) : good h -> (forall m, r = Ok m -> m = mat i) ->
  good (snd (access eqI h i r)) /\ (forall m, fst (access eqI h i r) = Ok (Some m) -> m = mat i).
Proof.
  intros G H. unfold access. destruct (eqI (h_id h) i) as [E|E]; cbn.
  - split; [exact G|]. intros m Q. inversion Q. rewrite <- E. apply G; auto.
  - destruct r as [m|e]; cbn.
    + rewrite (H m eq_refl). split; [intros m' Q; inversion Q; reflexivity|]. intros m' Q; inversion Q; reflexivity.
    + split; [intros m Q; discriminate|discriminate].
Qed.

Lemma never_other l : forall h, good h -> faithful l ->
  Forall2 (fun ir x => forall m, x = Ok (Some m) -> m = mat (fst ir)) l (fst (accesses eqI h l)).
Proof.
  induction l as [|[i r] q IH]; intros h G F; cbn; [constructor|]. inversion F as [|a b F1 F2]; subst. cbn in F1.
  destruct (access_good h i r G F1) as [G' H']. destruct (access eqI h i r) as [x h'] eqn:E. cbn in *.
  specialize (IH h' G' F2). destruct (accesses eqI h' q) as [xs h'']. cbn in *. constructor; auto.
Qed.

Lemma always_right l : forall h, good h -> (h_matrix h = None -> h_id h = none) ->
  Forall (fun ir => fst ir <> none /\ snd ir = Ok (mat (fst ir))) l ->
  fst (accesses eqI h l) = map (fun ir => Ok (Some (mat (fst ir)))) l.
Proof.
  induction l as [|[i r] q IH]; intros h G N F; cbn; [reflexivity|]. inversion F as [|a b F1 F2]; subst. cbn in F1.
  destruct F1 as [Hi ->]. destruct (access eqI h i (Ok (mat i))) as [x h'] eqn:E. unfold access in E.
  assert (X : x = Ok (Some (mat i)) /\ good h' /\ (h_matrix h' = None -> h_id h' = none)).
  { destruct (eqI (h_id h) i) as [Q|Q]; inversion E; subst.
    - destruct (h_matrix h') eqn:M; [|exfalso; apply Hi; apply N; reflexivity].
      rewrite (G a M). split; [reflexivity|]. split; auto. intros; discriminate.
    - split; [reflexivity|]. split; [intros m W; inversion W; reflexivity|discriminate]. }
  destruct X as [-> [G' N']]. specialize (IH h' G' N' F2).
  destruct (accesses eqI h' q) as [xs h'']. cbn in *. rewrite IH. reflexivity.
Qed.
End Facts.
