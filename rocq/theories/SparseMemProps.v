(** C18: what the output contains after any number of calls, also those that fail. *)
From Coq Require Import Lia.
From Verif Require Import Base BaseFacts SparseModel SparseSpec SparseFacts SparseProps SparseOpProps SparseMemModel.
Open Scope nat_scope.

Section S.
Context (K : Type) (o : ops K).

(** One element of the output: a call with in-place addition adds its product, an assignment forgets what was there; a refused
    reduction changes nothing, and neither does an addition refused for the size of its input; an assignment refused for the
    size of its input has already set the output to zero. *)
Fixpoint element (fits : list K -> bool) (product : list K -> K) (x : K) (l : list (call K)) : K :=
  match l with
  | [] => x
  | c :: r =>
      element fits product
        (match c_op c with
         | OtherOp => x
         | Assign => if fits (c_input c) then product (c_input c) else k0 o
         | IAdd => if fits (c_input c) then kadd o x (product (c_input c)) else x
         end) r
  end.
Definition accepted (fits : list K -> bool) (c : call K) : bool := match c_op c with OtherOp => false | _ => fits (c_input c) end.

Hypothesis laws : ring_laws o.

Lemma refused (M : matrix K) flib sched extra v out : 0 < mx_cols M -> 0 < mx_rows M -> length out = extra * mx_rows M -> length v <> extra * mx_cols M ->
  exists e, matvec o flib sched M v (Some out) = Err e.
Proof.
  intros Hc Hr Ho Hv. destruct (matvec o flib sched M v (Some out)) as [r|e] eqn:E; [|now exists e].
  destruct (proj1 (C22_products_given_output K o flib sched M v out Hc Hr) (ex_intro _ r E)) as (e & Hv' & Ho' & _).
  exfalso. apply Hv. rewrite Hv'. f_equal. rewrite Ho in Ho'. apply Nat.mul_cancel_r in Ho'; lia.
Qed.

Lemma calls_content (M : matrix K) extra l : well_formed M -> allowed_extra M extra -> 0 < mx_cols M -> 0 < mx_rows M -> Forall (fun c => scheduler (c_sched c)) l ->
  let fits v := length v =? extra * mx_cols M in forall out, length out = extra * mx_rows M ->
  exists r es, calls o M l out = Some (r, es) /\ length r = length out /\
    (forall i, i < length out -> at_ o r i = element fits (fun v => mat_vec o (extra * mx_cols M) (dense_of o M extra) v i) (at_ o out i) l) /\
    Forall2 (fun c e => accepted fits c = true <-> e = Ok tt) l es.
Proof.
  intros W A Hc Hr Hs fits. induction Hs as [|c l Sc _ IH]; intros out Ho.
  - exists out, []. repeat split. constructor.
  - cbn [calls]. unfold direct_memory. destruct (c_op c) eqn:Op.
    + destruct (fits (c_input c)) eqn:F.
      * destruct (C18_assign K o laws (c_flib c) (c_sched c) M extra (c_input c) out W Sc A Hc Hr (proj1 (Nat.eqb_eq _ _) F) Ho) as (r & E & Lr & Hx). cbn [direct] in E. rewrite E.
        destruct (IH r ltac:(congruence)) as (r' & es & E' & L' & H' & F'). rewrite E'. exists r', (Ok tt :: es). split; [reflexivity|]. split; [congruence|]. split.
        -- intros i Hi. rewrite H' by congruence. cbn [element]. rewrite Op, F, Hx by exact Hi. reflexivity.
        -- constructor; [unfold accepted; rewrite Op, F; tauto|exact F'].
      * destruct (refused M (c_flib c) (c_sched c) extra (c_input c) (repeat (k0 o) (length out)) Hc Hr ltac:(now rewrite repeat_length) ltac:(now apply Nat.eqb_neq in F)) as [e E]. rewrite E.
        destruct (IH (repeat (k0 o) (length out)) ltac:(now rewrite repeat_length)) as (r' & es & E' & L' & H' & F'). rewrite E'. exists r', (Err e :: es). rewrite repeat_length in *. split; [reflexivity|]. split; [exact L'|]. split.
        -- intros i Hi. rewrite H' by exact Hi. cbn [element]. rewrite Op, F. f_equal. unfold at_. apply nth_repeat.
        -- constructor; [unfold accepted; rewrite Op, F; split; discriminate|exact F'].
    + destruct (fits (c_input c)) eqn:F.
      * destruct (C18_accumulate K o laws (c_flib c) (c_sched c) M extra (c_input c) out W Sc A Hc Hr (proj1 (Nat.eqb_eq _ _) F) Ho) as (r & E & Lr & Hx). cbn [direct] in E. rewrite E.
        destruct (IH r ltac:(congruence)) as (r' & es & E' & L' & H' & F'). rewrite E'. exists r', (Ok tt :: es). split; [reflexivity|]. split; [congruence|]. split.
        -- intros i Hi. rewrite H' by congruence. cbn [element]. rewrite Op, F, Hx by exact Hi. reflexivity.
        -- constructor; [unfold accepted; rewrite Op, F; tauto|exact F'].
      * destruct (refused M (c_flib c) (c_sched c) extra (c_input c) out Hc Hr Ho ltac:(now apply Nat.eqb_neq in F)) as [e E]. rewrite E.
        destruct (IH out Ho) as (r' & es & E' & L' & H' & F'). rewrite E'. exists r', (Err e :: es). split; [reflexivity|]. split; [exact L'|]. split.
        -- intros i Hi. rewrite H' by exact Hi. cbn [element]. rewrite Op, F. reflexivity.
        -- constructor; [unfold accepted; rewrite Op, F; split; discriminate|exact F'].
    + destruct (IH out Ho) as (r' & es & E' & L' & H' & F'). rewrite E'. exists r', (Err ValueError :: es). split; [reflexivity|]. split; [exact L'|]. split.
      * intros i Hi. rewrite H' by exact Hi. cbn [element]. rewrite Op. reflexivity.
      * constructor; [unfold accepted; rewrite Op; split; discriminate|exact F'].
Qed.
End S.

(** Any number of calls on the same output. *)
Theorem C18_calls : forall (K : Type) (o : ops K), ring_laws o -> forall (M : matrix K) extra l out,
  well_formed M -> allowed_extra M extra -> 0 < mx_cols M -> 0 < mx_rows M -> Forall (fun c => scheduler (c_sched c)) l -> length out = extra * mx_rows M ->
  let fits v := length v =? extra * mx_cols M in
  exists r es, calls o M l out = Some (r, es) /\ length r = length out /\
    (forall i, i < length out -> at_ o r i = element K o fits (fun v => mat_vec o (extra * mx_cols M) (dense_of o M extra) v i) (at_ o out i) l) /\
    Forall2 (fun c e => accepted K fits c = true <-> e = Ok tt) l es.
Proof. intros K o laws M extra l out W A Hc Hr Hs Ho fits. exact (calls_content K o laws M extra l W A Hc Hr Hs out Ho). Qed.
Print Assumptions C18_calls.

(** A refused reduction raises ValueError and leaves the output as it was, whatever the matrix and the sizes. *)
Theorem C18_untouched : forall (K : Type) (o : ops K) flib sched (M : matrix K) v out, direct_memory o flib sched M v out OtherOp = Some (out, Err ValueError).
Proof. reflexivity. Qed.
Print Assumptions C18_untouched.

Example C18_calls_case : exists es,
  calls z_ops ex_scalar [Call IAdd true (@in_order Z) [1; 2; 3]%Z; Call OtherOp true (@in_order Z) [1; 2; 3]%Z; Call IAdd false (@in_order Z) [1; 2]%Z; Call IAdd true (@in_order Z) [1; 2; 3]%Z] [50; 60]%Z = Some ([94; 84]%Z, es) /\
  nth 1 es (Ok tt) = Err ValueError /\ nth 0 es (Err ValueError) = Ok tt.
Proof. eexists. split; [reflexivity|]. split; reflexivity. Qed.
