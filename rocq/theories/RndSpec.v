(** Specification of rounded products: exact arithmetic, representable numbers, magnitudes and
    numbers of products of a cell. *)
From Coq Require Import ZArith Reals List.
From Flocq Require Import Core.
From Verif Require Import Base SparseModel SparseSpec.
Import ListNotations.

Definition exact_ops : ops R := Ops R 0%R 1%R Rplus Rmult Ropp.

(** x = m 2^e with |m| < 2^prec and emin <= e. *)
Definition representable (emin prec : Z) (x : R) : Prop :=
  exists m e : Z, x = (IZR m * powerRZ 2 e)%R /\ (Z.abs m < 2 ^ prec)%Z /\ (emin <= e)%Z.

Definition is_integer (x : R) : Prop := exists n : Z, x = IZR n.

(** All the stored values of a matrix. *)
Definition stored_values (P : R -> Prop) (M : matrix R) : Prop :=
  forall row e v, In row (mx_data M) -> In e row -> In v (e_val e) -> P v.

(** The sum of the absolute values of what is stored for an entry of the dense matrix. *)
Definition abs_row (f : fmt) (data : list (list (elt R))) (r c : nat) : R :=
  sum_over exact_ops (nth (r / frow f) data [])
    (fun e => if (e_idx e =? Z.of_nat (c / fcol f))%Z
              then Rabs (block_entry exact_ops f (e_val e) (r mod frow f) (c mod fcol f)) else 0%R).

Definition abs_dense (M : matrix R) (extra r c : nat) : R :=
  let f := fmt_of M extra in
  match mx_axis M with FSR => abs_row f (mx_data M) r c | FSC => abs_row f (mx_data M) c r end.

(** |out| + |A| |x|. *)
Definition magnitude (M : matrix R) (extra : nat) (x out : list R) (r : nat) : R :=
  (Rabs (at_ exact_ops out r) + mat_vec exact_ops (extra * mx_cols M) (abs_dense M extra) (map Rabs x) r)%R.

(** out + A x. *)
Definition exact_value (M : matrix R) (extra : nat) (x out : list R) (r : nat) : R :=
  (at_ exact_ops out r + mat_vec exact_ops (extra * mx_cols M) (dense_of exact_ops M extra) x r)%R.

(** Products made for a cell, at most: the elements in use of its row (column) times the
    non-zero entries in a line of a block. *)
Definition line_width (a : axis) (f : fmt) : nat :=
  match f with
  | Hom _ => 1
  | Blk m n => match a with FSR => n | FSC => m end
  | Rot2 | Rot3 => 2
  end.

Definition count {A} (p : A -> bool) (l : list A) : nat := length (filter p l).

Definition products (M : matrix R) (extra r : nat) : nat :=
  let f := fmt_of M extra in
  line_width (mx_axis M) f *
  match mx_axis M with
  | FSR => count (fun e => (0 <=? e_idx e)%Z) (nth (r / frow f) (mx_data M) [])
  | FSC => count (fun e => (e_idx e =? Z.of_nat (r / fcol f))%Z) (concat (mx_data M))
  end.

(** Rounding unit and half of the smallest positive number. *)
Definition unit_of (prec : Z) : R := powerRZ 2 (- prec).
Definition tiny_of (emin : Z) : R := powerRZ 2 (emin - 1).

Definition error_bound (emin prec : Z) (M : matrix R) (extra : nat) (x out : list R) (r : nat) : R :=
  let k := products M extra r in
  let g := ((1 + unit_of prec) ^ (k + 1))%R in
  ((g - 1) * magnitude M extra x out r + INR k * g * tiny_of emin)%R.
