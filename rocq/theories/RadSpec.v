(** Specification of the dot test: how far apart the two inner products may be. *)
From Coq Require Import ZArith Reals List.
From Verif Require Import Base SparseModel SparseSpec RndSpec.
Import ListNotations.

Definition total (l : list R) : R := bigsum exact_ops (length l) (fun i => Rabs (nth i l 0%R)).

(** Σ_r bound_r |y_r| + Σ_c |x_c| bound'_c, where bound and bound' are those of the product by the
    matrix and by its transpose. *)
Definition dot_bound (emin prec : Z) (M : matrix R) (extra : nat) (x y : list R) : R :=
  (bigsum exact_ops (extra * mx_rows M)
     (fun r => error_bound emin prec M extra x (repeat 0%R (extra * mx_rows M)) r * Rabs (nth r y 0%R)) +
   bigsum exact_ops (extra * mx_cols M)
     (fun c => Rabs (nth c x 0%R) * error_bound emin prec (transpose M) extra y (repeat 0%R (extra * mx_cols M)) c))%R.

(** |y|' |A| |x|, |A| being made of the absolute values stored. *)
Definition dot_magnitude (M : matrix R) (extra : nat) (x y : list R) : R :=
  bigsum exact_ops (extra * mx_rows M) (fun r =>
    bigsum exact_ops (extra * mx_cols M) (fun c =>
      (Rabs (nth r y 0) * abs_dense M extra r c * Rabs (nth c x 0))%R)).
