(** C93: sums over images, independent of the model. *)
From Coq Require Import Reals List.
Open Scope R_scope.

Definition total (x : list (list R)) : R := fold_right Rplus 0 (map (fun r => fold_right Rplus 0 r) x).
Definition square (z : R * R) : R := fst z ^ 2 + snd z ^ 2.
Definition mean_square (x : list (list (R * R))) (size : nat) : R := total (map (map square) x) / INR size.
