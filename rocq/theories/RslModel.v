(** Distances to a centre on any number of axes with rounded operations: _distance_slow (datautils.py 156-174).

    Every operation is rounded to nearest, in the order of the source; a square is a product and the sum of Python starts from zero.
    The index [idx] is that of the array; zip stops at the shortest.  Simplifications: no overflow; no fused operations. *)
From Coq Require Import ZArith Reals List.
From Verif Require Import Base RndModel.
Import ListNotations.
Open Scope R_scope.

Section Slow.
Variables (emin prec : Z).
Notation rn := (rndp emin prec).
(** 170-173 *)
Definition square_r (d : Z * (R * R)) : R := let h := rn (snd (snd d) * rn (rn (IZR (fst d)) - fst (snd d))) in rn (h * h).
(** 174 *)
Definition distance_slow_r (center scale : list R) (idx : list Z) : R :=
  rn (sqrt (fold_left (fun s x => rn (s + x)) (map square_r (combine idx (combine (rev center) (rev scale)))) 0)).
End Slow.
