(** Extrema of angles in degrees with rounded operations: minmax_degrees (wcsutils.f90 121-157).

    Every operation is rounded to nearest.  The samples are given by thread: each of them starts from the neutral values of the reductions of
    OpenMP (infinities), and its extrema are combined with those before the loop, the constants pInf and mInf of module_math_old.f90, which are
    arguments here (C62: they are other numbers).  mean_degrees and modulo as in RmdModel, with the same samples by thread.
    Simplifications: no overflow; [None] is NaN among the samples. *)
From Coq Require Import ZArith Reals List Bool.
From Verif Require Import Base ConstModel WcsModel RndModel RmdModel.
Import ListNotations.
Open Scope R_scope.

Section Extrema.
Variables (emin prec : Z).
Notation rn := (rndp emin prec).
(** 143-148 *)
Definition near_r (meanv v : R) : R :=
  let val := modulo_r emin prec v in
  if Rltb meanv val then (if Rltb (Rabs (rn (rn (val - 360) - meanv))) (Rabs (rn (val - meanv))) then rn (val - 360) else val)
  else (if Rltb (Rabs (rn (rn (val + 360) - meanv))) (Rabs (rn (val - meanv))) then rn (val + 360) else val).
(** 141-142, 149-150 *)
Definition minmax_step_r (meanv : R) (s : num * num) (v : option R) : num * num :=
  match v with None => s | Some v => let val := near_r meanv v in (num_min (fst s) val, num_max (snd s) val) end.
(** 139, 152: the extrema t of a thread *)
Definition minmax_combine (s t : num * num) : num * num :=
  (match fst t with Fin x => num_min (fst s) x | _ => fst s end, match snd t with Fin x => num_max (snd s) x | _ => snd s end).
(** 137-152 *)
Definition minmax_loop_r (pinf minf : num) (meanv : R) (threads : list (list (option R))) : num * num :=
  fold_left (fun s l => minmax_combine s (fold_left (minmax_step_r meanv) l (Inf false, Inf true))) threads (pinf, minf).
Definition num_modulo_r (a : num) : num := match a with Fin x => Fin (modulo_r emin prec x) | _ => NaN end.
(** 130-155 *)
Definition minmax_degrees_r (nan pinf minf : num) (threads : list (list (option R))) : num * num :=
  match mean_degrees_r emin prec threads with
  | None => (nan, nan)
  | Some meanv => let s := minmax_loop_r pinf minf meanv threads in (num_modulo_r (fst s), num_modulo_r (snd s))
  end.
End Extrema.
