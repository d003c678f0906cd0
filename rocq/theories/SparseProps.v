(** Properties C16 to C18: sparse products, transposes, application. *)
From Coq Require Import Lia Permutation Ring.
From Verif Require Import Base BaseFacts SparseModel SparseSpec RingFacts SparseExecFacts SparseFacts SparsePyFacts.
Open Scope nat_scope.

(** Data for the examples: two stored columns per row, an unused one, indices 0..2. *)
Definition ex_scalar : matrix Z :=
  Matrix FSR KScalar 2 3 (1, 1) [[Elt 2 [5%Z]; Elt 0 [7%Z]]; [Elt (-1) [9%Z]; Elt 2 [4%Z]]].
Definition ex_block : matrix Z :=
  Matrix FSC KBlock 4 3 (2, 3) [[Elt 1 [1; 2; 3; 4; 5; 6]%Z; Elt 0 [7; 8; 9; 1; 2; 3]%Z]].
Definition ex_rot : matrix Z :=
  Matrix FSR KRot3 3 6 (3, 3) [[Elt 1 [2; 3; 4]%Z; Elt 1 [1; 0; 1]%Z]].

Lemma ex_scalar_wf : well_formed ex_scalar.
Proof. split; [reflexivity|]. exists 2, 3. repeat split; repeat constructor; reflexivity. Qed.
Lemma ex_block_wf : well_formed ex_block.
Proof.
  split; [cbn; repeat split; try lia; discriminate|].
  exists 2, 1. repeat split; repeat constructor; reflexivity.
Qed.
Lemma ex_rot_wf : well_formed ex_rot.
Proof. split; [reflexivity|]. exists 1, 2. repeat split; repeat constructor; reflexivity. Qed.
Lemma in_order_scheduler {A} : @scheduler (act A) (@in_order A).
Proof. intros its. apply merge_in_order. Qed.

(** ** C16: products *)

(** For every class, compiled or not, every schedule and any number of broadcast
    columns: the output gains the product by the dense matrix. *)
Theorem C16_product : forall (K : Type) (o : ops K), ring_laws o ->
  forall flib sched (M : matrix K) extra v out,
  well_formed M -> scheduler sched -> allowed_extra M extra -> 0 < mx_cols M -> 0 < mx_rows M ->
  length v = extra * mx_cols M -> length out = extra * mx_rows M ->
  exists r, matvec o flib sched M v (Some out) = Ok (Some r) /\
    adds_product o (extra * mx_rows M) (extra * mx_cols M) (dense_of o M extra) v out r.
Proof. exact @matvec_some. Qed.
Print Assumptions C16_product.

Theorem C16_product_new_output : forall (K : Type) (o : ops K), ring_laws o ->
  forall flib sched (M : matrix K) extra v,
  well_formed M -> scheduler sched -> allowed_extra M extra -> 0 < mx_cols M ->
  length v = extra * mx_cols M ->
  exists r, matvec o flib sched M v None = Ok (Some r) /\
    adds_product o (extra * mx_rows M) (extra * mx_cols M) (dense_of o M extra) v
      (repeat (k0 o) (extra * mx_rows M)) r.
Proof. exact @matvec_none. Qed.
Print Assumptions C16_product_new_output.

(** The result depends neither on the schedule nor on the compiled/fallback path. *)
Theorem C16_any_order : forall (K : Type) (o : ops K), ring_laws o ->
  forall flib flib' sched sched' (M : matrix K) extra v out,
  well_formed M -> scheduler sched -> scheduler sched' -> allowed_extra M extra ->
  0 < mx_cols M -> 0 < mx_rows M ->
  length v = extra * mx_cols M -> length out = extra * mx_rows M ->
  matvec o flib sched M v (Some out) = matvec o flib' sched' M v (Some out).
Proof.
  intros K o RL flib flib' sched sched' M extra v out W S S' A C R Lv Lo.
  destruct (matvec_some o RL flib sched M extra v out W S A C R Lv Lo) as [r [E H]].
  destruct (matvec_some o RL flib' sched' M extra v out W S' A C R Lv Lo) as [r' [E' H']].
  rewrite E, E'. rewrite (adds_product_unique o _ _ _ _ _ _ _ H H'). reflexivity.
Qed.
Print Assumptions C16_any_order.

(** Row formats: no algebraic law is needed, so the compiled result is reproducible also
    with rounded arithmetic. *)
Theorem C16_rows_reproducible : forall (K : Type) (o : ops K) sched sched' (M : matrix K) extra v out,
  well_formed M -> mx_axis M = FSR -> scheduler sched -> scheduler sched' -> allowed_extra M extra ->
  0 < mx_cols M -> length v = extra * mx_cols M ->
  matvec o true sched M v out = matvec o true sched' M v out.
Proof. exact @fsr_reproducible. Qed.
Print Assumptions C16_rows_reproducible.

Example C16_example :
  matvec z_ops true (@in_order Z) ex_scalar [1; 2; 3; 4; 5; 6]%Z (Some [100; 200; 300; 400]%Z)
    = Ok (Some [132; 244; 320; 424]%Z) /\
  matvec z_ops true (@in_order Z) ex_block [1; 2]%Z None = Err ValueError /\
  matvec z_ops true (@in_order Z) (transpose ex_block) [1; 2; 3; 4]%Z None = Ok (Some [34; 36; 47]%Z) /\
  matvec z_ops false (@in_order Z) ex_rot [1; 2; 3; 4; 5; 6]%Z None = Ok (Some [12; -15; 43]%Z).
Proof. repeat split; reflexivity. Qed.

(** FINDING 16a.  Column formats: the order of the iterations matters as soon as the
    addition is not associative (here saturated at 10), as with rounding. *)
Definition sat_ops : ops Z := Ops Z 0%Z 1%Z (fun a b => Z.min 10 (a + b)) Z.mul Z.opp.
Definition ex_cols : matrix Z := Matrix FSC KScalar 1 3 (1, 1) [[Elt 0 [8%Z]]; [Elt 0 [8%Z]]; [Elt 0 [(-8)%Z]]].

(** Last iterations first. *)
Definition backwards {A} (its : list (list A)) : list (nat * A) :=
  (fix go n := match n with O => [] | S k => map (pair k) (nth k its []) ++ go k end) (length its).

Lemma nth_error_set_same {A} (l : list A) k x y : nth_error l k = Some y -> nth_error (set_nth l k x) k = Some x.
Proof. revert k; induction l; intros [|k] H; cbn in *; try discriminate; auto. Qed.

Lemma set_nth_twice {A} (l : list A) k x y : set_nth (set_nth l k x) k y = set_nth l k y.
Proof. revert k; induction l; intros [|k]; cbn; auto. f_equal; auto. Qed.

Lemma merge_prefix {A} (l : list A) its k tr : nth_error its k = Some l ->
  merge (set_nth its k []) tr -> merge its (map (pair k) l ++ tr).
Proof.
  revert its; induction l as [|a r IH]; intros its H Hm; cbn.
  - assert (E : set_nth its k [] = its).
    { clear Hm. revert k H; induction its; intros [|k] H; cbn in *; try discriminate;
        [injection H as ->; reflexivity|f_equal; auto]. }
    rewrite E in Hm; exact Hm.
  - eapply merge_cons; [exact H|]. apply IH; [eapply nth_error_set_same; eauto|].
    rewrite set_nth_twice; exact Hm.
Qed.

Lemma backwards_scheduler {A} : scheduler (@backwards A).
Proof.
  intros its. unfold backwards.
  set (go := fix go n := match n with O => [] | S k => map (pair k) (nth k its []) ++ go k end).
  assert (G : forall n its', n <= length its' ->
      (forall k, k < n -> nth k its' [] = nth k its []) ->
      (forall k, n <= k -> nth k its' [] = []) -> merge its' (go n)).
  { induction n as [|n IH]; intros its' L H1 H2; cbn.
    - apply merge_nil. apply Forall_forall. intros l Hl.
      destruct (In_nth _ _ [] Hl) as [k [_ Hk]]. rewrite <- Hk. apply H2; lia.
    - rewrite <- H1 by lia. apply merge_prefix; [apply nth_error_nth'; lia|].
      assert (NS : forall (l : list (list A)) j x k, nth k (set_nth l j x) [] =
                if Nat.eqb k j then (if Nat.ltb j (length l) then x else []) else nth k l []).
      { clear. induction l as [|a l IHl]; intros [|j] x [|k]; cbn; auto.
        - destruct (Nat.eqb k j); reflexivity.
        - rewrite IHl. reflexivity. }
      apply IH.
      + assert (forall (l : list (list A)) j x, length (set_nth l j x) = length l) as ->
          by (clear; induction l; intros [|j] x; cbn; auto). lia.
      + intros k Hk. rewrite NS. destruct (Nat.eqb_spec k n); [lia|]. apply H1; lia.
      + intros k Hk. rewrite NS. destruct (Nat.eqb_spec k n); [|apply H2; lia].
        destruct (Nat.ltb n (length its')); reflexivity. }
  apply G; auto. intros k Hk. apply nth_overflow; lia.
Qed.

Theorem C16_columns_rounding_refuted :
  exists M v sched sched', well_formed M /\ mx_axis M = FSC /\ scheduler sched /\ scheduler sched' /\
    matvec sat_ops true sched M v None <> matvec sat_ops true sched' M v None.
Proof.
  exists ex_cols, [1; 1; 1]%Z, (@in_order Z), backwards. split.
  { split; [reflexivity|]. exists 1, 3. repeat split; repeat constructor; reflexivity. }
  split; [reflexivity|]. split; [apply in_order_scheduler|]. split; [apply backwards_scheduler|].
  vm_compute. intros E; discriminate E.
Qed.
Print Assumptions C16_columns_rounding_refuted.

(** FINDING 8.  FSRBlockMatrix does not check the block shape: with a shape unknown to
    the compiled kernel the product silently adds nothing, while the fallback adds the
    product. *)
Definition ex_block4 : matrix Z := Matrix FSR KBlock 4 1 (4, 1) [[Elt 0 [1; 2; 3; 4]%Z]].
Theorem C16_block_shape_refuted :
  matvec z_ops true (@in_order Z) ex_block4 [1%Z] None = Ok (Some [0; 0; 0; 0]%Z) /\
  matvec z_ops false (@in_order Z) ex_block4 [1%Z] None = Ok (Some [1; 2; 3; 4]%Z) /\
  map (mat_vec z_ops 1 (dense_of z_ops ex_block4 1) [1%Z]) (seq 0 4) = [1; 2; 3; 4]%Z.
Proof. repeat split; reflexivity. Qed.
Print Assumptions C16_block_shape_refuted.

(** FINDING 12f.  A scalar matrix without rows refuses an output of the right size. *)
Theorem C16_no_rows_refuted :
  matvec z_ops true (@in_order Z) (Matrix FSR KScalar 0 2 (1, 1) []) [1; 2]%Z None = Ok (Some []) /\
  matvec z_ops true (@in_order Z) (Matrix FSR KScalar 0 2 (1, 1) []) [1; 2]%Z (Some []) = Err ZeroDivisionError.
Proof. split; reflexivity. Qed.
Print Assumptions C16_no_rows_refuted.

(** Multiplication by a number multiplies the dense matrix. *)
Theorem C16_scale : forall (K : Type) (o : ops K), ring_laws o ->
  forall flib sched (M : matrix K) k extra v,
  well_formed M -> scheduler sched -> allowed_extra M extra -> 0 < mx_cols M ->
  length v = extra * mx_cols M ->
  exists r s, matvec o flib sched M v None = Ok (Some r) /\ matvec o flib sched (scale o M k) v None = Ok (Some s) /\
    s = map (fun a => kmul o a k) r.
Proof. exact @scale_product. Qed.
Print Assumptions C16_scale.

Example C16_scale_example :
  matvec z_ops true (@in_order Z) (scale z_ops ex_rot 10%Z) [1; 2; 3; 4; 5; 6]%Z None = Ok (Some [120; -150; 430]%Z).
Proof. reflexivity. Qed.

(** ** C17: transposes *)
Theorem C17_adjoint : forall (K : Type) (o : ops K), ring_laws o ->
  forall flib flib' sched sched' (M : matrix K) extra x y,
  well_formed M -> scheduler sched -> scheduler sched' -> allowed_extra M extra ->
  0 < mx_cols M -> 0 < mx_rows M ->
  length x = extra * mx_cols M -> length y = extra * mx_rows M ->
  exists a b, matvec o flib sched M x None = Ok (Some a) /\
    matvec o flib' sched' (transpose M) y None = Ok (Some b) /\
    length a = length y /\ length b = length x /\
    inner o a y = inner o x b.
Proof. exact @transpose_adjoint. Qed.
Print Assumptions C17_adjoint.

Theorem C17_transpose_twice : forall (K : Type) (M : matrix K),
  transpose (transpose M) = M /\ mx_data (transpose M) = mx_data M /\
  (well_formed M -> well_formed (transpose M)).
Proof. intros. split; [apply transpose_transpose|]. split; [reflexivity|apply wf_transpose]. Qed.
Print Assumptions C17_transpose_twice.

Example C17_example :
  matvec z_ops true (@in_order Z) ex_rot [1; 2; 3; 4; 5; 6]%Z None = Ok (Some [12; -15; 43]%Z) /\
  matvec z_ops true (@in_order Z) (transpose ex_rot) [1; 1; 2]%Z None = Ok (Some [0; 0; 0; 3; 13; 1]%Z) /\
  inner z_ops [12; -15; 43]%Z [1; 1; 2]%Z = 83%Z /\
  inner z_ops [1; 2; 3; 4; 5; 6]%Z [0; 0; 0; 3; 13; 1]%Z = 83%Z.
Proof. repeat split; reflexivity. Qed.

(** ** C18: application of the operator *)
Theorem C18_assign : forall (K : Type) (o : ops K), ring_laws o ->
  forall flib sched (M : matrix K) extra v out,
  well_formed M -> scheduler sched -> allowed_extra M extra -> 0 < mx_cols M -> 0 < mx_rows M ->
  length v = extra * mx_cols M -> length out = extra * mx_rows M ->
  exists r, direct o flib sched M v out Assign = Ok (Some r) /\ length r = length out /\
    forall i, i < length out -> at_ o r i = mat_vec o (extra * mx_cols M) (dense_of o M extra) v i.
Proof. exact @direct_assign. Qed.
Print Assumptions C18_assign.

Theorem C18_accumulate : forall (K : Type) (o : ops K), ring_laws o ->
  forall flib sched (M : matrix K) extra v out,
  well_formed M -> scheduler sched -> allowed_extra M extra -> 0 < mx_cols M -> 0 < mx_rows M ->
  length v = extra * mx_cols M -> length out = extra * mx_rows M ->
  exists r, direct o flib sched M v out IAdd = Ok (Some r) /\ length r = length out /\
    forall i, i < length out ->
      at_ o r i = kadd o (at_ o out i) (mat_vec o (extra * mx_cols M) (dense_of o M extra) v i).
Proof. exact @direct_iadd. Qed.
Print Assumptions C18_accumulate.

Theorem C18_other : forall (K : Type) (o : ops K) flib sched (M : matrix K) v out,
  direct o flib sched M v out OtherOp = Err ValueError.
Proof. reflexivity. Qed.
Print Assumptions C18_other.

Example C18_example :
  direct z_ops true (@in_order Z) ex_scalar [1; 2; 3]%Z [50; 60]%Z Assign = Ok (Some [22; 12]%Z) /\
  direct z_ops true (@in_order Z) ex_scalar [1; 2; 3]%Z [50; 60]%Z IAdd = Ok (Some [72; 72]%Z) /\
  direct z_ops true (@in_order Z) ex_scalar [1; 2; 3]%Z [50; 60; 70]%Z IAdd = Err ValueError.
Proof. repeat split; reflexivity. Qed.
