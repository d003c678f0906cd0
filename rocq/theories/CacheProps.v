(** Property C25: on-the-fly projections. *)
From Verif Require Import Base CacheModel CacheFacts.

(** Whatever the sequence of accesses and failures: a matrix that is served is that of
    the block. *)
Theorem C25_never_another : forall (I A : Type) (eqI : forall a b : I, {a = b} + {a <> b}) (none : I) (mat : I -> A) l,
  Forall (fun ir => forall m, snd ir = Ok m -> m = mat (fst ir)) l ->
  Forall2 (fun ir x => forall m, x = Ok (Some m) -> m = mat (fst ir)) l (fst (accesses eqI (fresh none) l)).
Proof. intros. apply never_other; [intros m Q; discriminate|assumption]. Qed.
Print Assumptions C25_never_another.

(** Without failures and with identifiers other than None, every access is served. *)
Theorem C25_served_partial : forall (I A : Type) (eqI : forall a b : I, {a = b} + {a <> b}) (none : I) (mat : I -> A) l,
  Forall (fun ir => fst ir <> none /\ snd ir = Ok (mat (fst ir))) l ->
  fst (accesses eqI (fresh none) l) = map (fun ir => Ok (Some (mat (fst ir)))) l.
Proof. intros. apply (always_right eqI none); [intros m Q; discriminate|reflexivity|assumption]. Qed.
Print Assumptions C25_served_partial.

Example C25_example :
  fst (accesses Nat.eq_dec (fresh 0%nat) [(1%nat, Ok 10); (2%nat, Ok 20); (1%nat, Ok 10); (1%nat, Ok 10)])
  = [Ok (Some 10); Ok (Some 20); Ok (Some 10); Ok (Some 10)].
Proof. reflexivity. Qed.

(** FINDING 13.  After a failed computation the block computed before it is served the
    value None; a block whose identifier is None is never computed. *)
Theorem C25_after_failure_refuted : forall (I A : Type) (eqI : forall a b : I, {a = b} + {a <> b}) (none a b : I) (m m' : A) e,
  a <> none -> b <> a ->
  fst (accesses eqI (fresh none) [(a, Ok m); (b, Err e); (a, Ok m')]) = [Ok (Some m); Err e; Ok None].
Proof.
  intros I A eqI none a b m m' e Ha Hb. cbn. unfold access, fresh. cbn.
  destruct (eqI none a) as [E|_]; [congruence|]. cbn. destruct (eqI a b) as [E|_]; [congruence|]. cbn.
  destruct (eqI a a) as [_|E]; [reflexivity|congruence].
Qed.
Print Assumptions C25_after_failure_refuted.
Theorem C25_none_refuted : forall (I A : Type) (eqI : forall a b : I, {a = b} + {a <> b}) (none : I) (r : res A),
  fst (accesses eqI (fresh none) [(none, r)]) = [Ok None].
Proof. intros. cbn. unfold access, fresh. cbn. destruct (eqI none none); [reflexivity|congruence]. Qed.
Print Assumptions C25_none_refuted.
