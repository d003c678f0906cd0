(** Radial profiles with rounded operations: profile_axisymmetric_2d (datautils.f90.j2 117-161).

    Every operation is rounded to nearest, in the order of the source.  The pixels are given by thread, in the order in which each of them is met;
    the partial sums of the threads are added in the order of the list, to zero (reductions of OpenMP).  A bin only depends on the pixels
    whose number is its own, so that each bin is computed apart (DataModel for the arrays).  Bins are numbered from 0.
    Simplifications: a positive width of bins; numbers of bins below 2^31; no overflow; no fused operations; [None] is NaN. *)
From Coq Require Import ZArith Reals List Bool.
From Verif Require Import Base ConstModel DataModel RndModel.
Import ListNotations.
Open Scope R_scope.

Section Profile.
Variables (emin prec : Z) (ox oy bin : R).
Notation rn := (rndp emin prec).
(** 137, 141 *)
Definition distance_r (i j : Z) : R :=
  let dj := rn (rn (IZR j) - oy) in let tmpj := rn (dj * dj) in
  let di := rn (rn (IZR i) - ox) in
  rn (sqrt (rn (rn (di * di) + tmpj))).
(** 142 *)
Definition bin_r (i j : Z) : Z := trunc (rn (distance_r i j / bin)).
(** 138-147: what a pixel adds to the bin k *)
Definition seen_r (k : Z) (p : pixel) : list (R * R) :=
  match p with
  | (i, j, Some v) => if (bin_r i j =? k)%Z then [(distance_r i j, v)] else []
  | _ => []
  end.
Definition sum_r (l : list R) : R := fold_left (fun s x => rn (s + x)) l 0.
(** 135, 149 *)
Definition reduce_r (f : R * R -> R) (k : Z) (threads : list (list pixel)) : R :=
  sum_r (map (fun t => sum_r (map f (flat_map (seen_r k) t))) threads).
Definition count_r (k : Z) (threads : list (list pixel)) : Z :=
  fold_left Z.add (map (fun t => Z.of_nat (length (flat_map (seen_r k) t))) threads) 0%Z.
(** 151-159 *)
Definition bin_result_r (k : Z) (threads : list (list pixel)) : R * option R * Z :=
  let n := count_r k threads in
  if negb (n =? 0)%Z then (rn (reduce_r fst k threads / rn (IZR n)), Some (rn (reduce_r snd k threads / rn (IZR n))), n)
  else (rn (bin * rn (rn (IZR (k + 1)) - / 2)), None, n).
Definition profile_r (nbins : nat) (threads : list (list pixel)) : list (R * option R * Z) :=
  map (fun k => bin_result_r (Z.of_nat k) threads) (seq 0 nbins).
End Profile.
