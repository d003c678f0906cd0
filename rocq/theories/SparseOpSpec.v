(** Specification for restriction, corestriction, hit maps and kernel masks. *)
From Verif Require Import Base SparseModel SparseSpec SparseOpModel.
Open Scope nat_scope.

(** Number of kept positions. *)
Fixpoint kept (mask : list bool) : nat :=
  match mask with [] => 0 | true :: r => S (kept r) | false :: r => kept r end.

(** The packed vector put back at the kept positions (groups of [b] components), zeros
    elsewhere. *)
Fixpoint expand {K} (zero : K) (b : nat) (mask : list bool) (v : list K) : list K :=
  match mask with
  | [] => []
  | true :: r => firstn b v ++ expand zero b r (skipn b v)
  | false :: r => repeat zero b ++ expand zero b r v
  end.

(** The kept groups of [b] components. *)
Fixpoint compress {K} (b : nat) (mask : list bool) (v : list K) : list K :=
  match mask with
  | [] => []
  | true :: r => firstn b v ++ compress b r (skipn b v)
  | false :: r => compress b r (skipn b v)
  end.

(** Some stored element of column c has a non-zero value. *)
Definition seen {K} (o : ops K) (data : list (list (elt K))) (c : nat) : Prop :=
  exists row e v, In row data /\ In e row /\ e_idx e = Z.of_nat c /\ In v (e_val e) /\ v <> k0 o.

(** Elements in use have a non-zero value. *)
Definition no_zero_element {K} (o : ops K) (data : list (list (elt K))) : Prop :=
  forall row e, In row data -> In e row -> (0 <= e_idx e)%Z -> exists v, In v (e_val e) /\ v <> k0 o.

(** The number of values of each record is that of the class. *)
Definition record_size (k : kind) (bs : nat * nat) : nat :=
  match k with KScalar => 1 | KBlock => fst bs * snd bs | KRot2 => 2 | KRot3 => 3 end.
Definition full_records {K} (M : matrix K) : Prop :=
  Forall (Forall (fun e => length (e_val e) = record_size (mx_kind M) (mx_bs M))) (mx_data M).

(** Non-negative numbers: closed under addition, and a sum vanishes only if its terms do. *)
Definition nonneg_laws {K} (o : ops K) (P : K -> Prop) : Prop :=
  P (k0 o) /\ forall a b, P a -> P b -> P (kadd o a b) /\ (kadd o a b = k0 o -> a = k0 o /\ b = k0 o).

(** The two maps agree on the seen pixels (groups of [b] components). *)
Definition agree_on_seen {K} (o : ops K) (data : list (list (elt K))) (b : nat) (x y : list K) : Prop :=
  forall c q, seen o data c -> q < b -> at_ o x (c * b + q) = at_ o y (c * b + q).

(** What is accumulated upon: nothing for an assignment. *)
Definition previous {K} (o : ops K) (op : reduction) (out : list K) (c : nat) : K :=
  match op with Assign => k0 o | _ => at_ o out c end.

(** The shape of the masks accepted by the restriction: the column dimensions. *)
Definition mask_shape {K} (S : sop K) : option (list nat) :=
  match mx_kind (so_mx S), so_in S with
  | KScalar, _ => Some (so_bin S)
  | _, Some s => Some (removelast s)
  | _, None => None
  end.

(** Compatibility of the shapes of a matrix, of its blocks and of its stored data. *)
Definition fits (a : axis) (shape bs : nat * nat) (ds : list nat) : Prop :=
  0 < fst bs /\ 0 < snd bs /\ fst shape mod fst bs = 0 /\ snd shape mod snd bs = 0 /\
  prodn (removelast ds) * fixed a bs = fixed a shape.
