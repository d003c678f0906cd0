(** _gaussian_psd_1f, noises.py 39-80, with the default twosided=False: the two-sided spectrum
    folded by _fold_psd (16-24).  None is a number that is not finite. *)
From Coq Require Import Reals List.
From Verif Require Import Base SparseModel NoiseModel PsdModel.
Import ListNotations.
Open Scope R_scope.

Definition both {A B C} (f : A -> B -> C) (x : option A) (y : option B) : option C :=
  match x, y with Some a, Some b => Some (f a b) | _, _ => None end.
Definition opt_ops : ops (option R) := Ops (option R) (Some 0) (Some 1) (both Rplus) (both Rmult) (option_map Ropp).

Definition psd_1f_onesided (n : nat) (fs sigma fknee fslope : R) : res (list (option R)) :=
  fold_psd opt_ops (psd_1f n fs sigma fknee fslope).
