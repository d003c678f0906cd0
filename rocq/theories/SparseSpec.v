(** Specification of sparse matrices: the dense matrix that stored data denotes,
    the product of a dense matrix by a vector, inner products. *)
From Coq Require Export Ring_theory.
From Verif Require Import Base SparseModel.
Open Scope nat_scope.

(** The numbers form a commutative ring (Z, Q, R, ...). *)
Definition ring_laws {K} (o : ops K) : Prop :=
  ring_theory (k0 o) (k1 o) (kadd o) (kmul o) (fun a b => kadd o a (kopp o b)) (kopp o) eq.

Definition z_ops : ops Z := Ops Z 0%Z 1%Z Z.add Z.mul Z.opp.

Section Spec.
Context {K : Type} (o : ops K).

(** f 0 + f 1 + ... + f (n-1). *)
Fixpoint bigsum (n : nat) (f : nat -> K) : K :=
  match n with O => k0 o | S k => kadd o (bigsum k f) (f k) end.

(** Sum over a list. *)
Fixpoint sum_over {A} (l : list A) (f : A -> K) : K :=
  match l with [] => k0 o | a :: r => kadd o (f a) (sum_over r f) end.

Definition at_ (x : list K) (i : nat) : K := nth i x (k0 o).

(** The dense block denoted by the values of a record, in a row matrix. *)
Definition block_entry (f : fmt) (v : list K) (p q : nat) : K :=
  match f with
  | Hom _ => if Nat.eqb p q then at_ v 0 else k0 o
  | Blk m n => at_ v (p * n + q)
  | Rot2 =>                        (* | r11 -r21 |
                                      | r21  r11 | *)
      match p, q with
      | 0, 0 => at_ v 0 | 0, 1 => kopp o (at_ v 1)
      | 1, 0 => at_ v 1 | 1, 1 => at_ v 0
      | _, _ => k0 o
      end
  | Rot3 =>                        (* | r11  0    0   |
                                      | 0    r22 -r32 |
                                      | 0    r32  r22 | *)
      match p, q with
      | 0, 0 => at_ v 0
      | 1, 1 => at_ v 1 | 1, 2 => kopp o (at_ v 2)
      | 2, 1 => at_ v 2 | 2, 2 => at_ v 1
      | _, _ => k0 o
      end
  end.

(** Entry (r, c) of the dense matrix of a row-sparse storage: the sum of the blocks
    stored in the block row of r whose index is the block column of c. *)
Definition dense_row (f : fmt) (data : list (list (elt K))) (r c : nat) : K :=
  sum_over (nth (r / frow f) data [])
    (fun e => if (e_idx e =? Z.of_nat (c / fcol f))%Z
              then block_entry f (e_val e) (r mod frow f) (c mod fcol f) else k0 o).

(** A column-sparse storage denotes the transpose of the row-sparse matrix with the
    same data. *)
Definition dense (a : axis) (f : fmt) (data : list (list (elt K))) (r c : nat) : K :=
  match a with FSR => dense_row f data r c | FSC => dense_row f data c r end.

(** Dense matrix of ncols columns times vector. *)
Definition mat_vec (ncols : nat) (A : nat -> nat -> K) (x : list K) (r : nat) : K :=
  bigsum ncols (fun c => kmul o (A r c) (at_ x c)).

(** [res] is [out] plus the product. *)
Definition adds_product (nrows ncols : nat) (A : nat -> nat -> K) (x out res : list K) : Prop :=
  length res = nrows /\
  forall r, r < nrows -> at_ res r = kadd o (at_ out r) (mat_vec ncols A x r).

(** Inner product of vectors. *)
Definition inner (x y : list K) : K :=
  bigsum (length x) (fun i => kmul o (at_ x i) (at_ y i)).

End Spec.

(** Block shapes the compiled kernels know. *)
Definition supported (f : fmt) : Prop :=
  match f with
  | Hom e => 1 <= e
  | Blk m n => 1 <= m <= 3 /\ 1 <= n <= 3 /\ (m, n) <> (1, 1)
  | _ => True
  end.

(** Indices do not exceed the sparse dimension (negative ones are allowed). *)
Definition in_range {K} (n : nat) (data : list (list (elt K))) : Prop :=
  Forall (Forall (fun e => (e_idx e < Z.of_nat n)%Z)) data.

(** A schedule: for each loop, an interleaving of its iterations. *)
Definition scheduler {A} (s : list (list A) -> list (nat * A)) : Prop :=
  forall its, merge its (s its).

(** A matrix object in the state left by a successful constructor: block shape of
    the class, shape multiple of it, as many stored rows (columns) as block rows
    (columns), indices in range. *)
Definition class_blocks (k : kind) (bs : nat * nat) : Prop :=
  match k with
  | KScalar => bs = (1, 1)
  | KBlock => 1 <= fst bs <= 3 /\ 1 <= snd bs <= 3 /\ bs <> (1, 1)
  | KRot2 => bs = (2, 2)
  | KRot3 => bs = (3, 3)
  end.

Definition well_formed {K} (M : matrix K) : Prop :=
  class_blocks (mx_kind M) (mx_bs M) /\
  (exists nr nc, mx_rows M = nr * fst (mx_bs M) /\ mx_cols M = nc * snd (mx_bs M) /\
     match mx_axis M with
     | FSR => length (mx_data M) = nr /\ in_range nc (mx_data M)
     | FSC => length (mx_data M) = nc /\ in_range nr (mx_data M)
     end).

(** The dense matrix of a matrix object acting on [extra] broadcast columns. *)
Definition dense_of {K} (o : ops K) (M : matrix K) (extra : nat) : nat -> nat -> K :=
  dense o (mx_axis M) (fmt_of M extra) (mx_data M).

(** Number of broadcast columns allowed by the class. *)
Definition allowed_extra {K} (M : matrix K) (extra : nat) : Prop :=
  match mx_kind M with KScalar => 1 <= extra | _ => extra = 1 end.
