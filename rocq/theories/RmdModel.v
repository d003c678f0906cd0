(** Means of angles in degrees with rounded operations: mean_degrees (wcsutils.f90 78-115).

    Every operation is rounded to nearest.  The samples are given by thread, in the order in which each of them is met; the partial results
    are combined in the order of the list of the threads, from the values before the loop (reductions of OpenMP).  modulo is the exact
    remainder of the division, of the sign of the dividend, to which the divisor is added when it is negative (how gfortran compiles it);
    [rn] around a remainder which is not negative changes nothing, the remainder of a representable number being representable.
    Simplifications: no overflow; [None] is NaN, among the samples (infinities also, their remainder being NaN) and as the result, where
    the constant of module_math_old.f90 is another number (C62). *)
From Coq Require Import ZArith Reals List Bool.
From Flocq Require Import Core.
From Verif Require Import Base WcsModel RndModel.
Import ListNotations.
Open Scope R_scope.

Section Mean.
Variables (emin prec : Z).
Notation rn := (rndp emin prec).
Definition modulo_r (x : R) : R :=
  let r := x - 360 * IZR (Ztrunc (x / 360)) in
  if Rlt_dec r 0 then rn (r + 360) else rn r.
(** 91-95 *)
Definition start_r : degrees := Degrees 0 false false 0 0.
(** 99-106 *)
Definition mean_step_r (s : degrees) (v : option R) : degrees :=
  match v with
  | None => s
  | Some v =>
      let val := modulo_r v in
      Degrees (rn (d_mean s + val)) (d_zero_minus s || Rltb 270 val) (d_zero_plus s || Rleb val 90)
              (if Rleb 180 val then d_n180 s + 1 else d_n180 s)%Z (d_nvalids s + 1)%Z
  end.
(** 97-98, 108 *)
Definition combine_r (s t : degrees) : degrees :=
  Degrees (rn (d_mean s + d_mean t)) (d_zero_minus s || d_zero_minus t) (d_zero_plus s || d_zero_plus t)
          (d_n180 s + d_n180 t)%Z (d_nvalids s + d_nvalids t)%Z.
Definition mean_loop_r (threads : list (list (option R))) : degrees :=
  fold_left (fun s l => combine_r s (fold_left mean_step_r l start_r)) threads start_r.
(** 110-116 *)
Definition mean_degrees_r (threads : list (list (option R))) : option R :=
  let s := mean_loop_r threads in
  let mean := if (d_zero_minus s && d_zero_plus s)%bool then rn (d_mean s - rn (360 * rn (IZR (d_n180 s)))) else d_mean s in
  if (0 <? d_nvalids s)%Z then Some (modulo_r (rn (mean / rn (IZR (d_nvalids s))))) else None.
End Mean.
