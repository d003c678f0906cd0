(** Interpolation and folding of spectra with rounded operations: _interp (noises.py 180-198); _fold_psd (16-24) and
    _unfold_psd (27-36) are those of NoiseModel with the operations [fp_ops] of RndModel.

    Every operation is rounded to nearest, in the order of the source; comparisons are exact.  Simplifications: one spectrum; no
    overflow; a quotient by zero, which is an infinity or NaN in the code, is [None]. *)
From Coq Require Import ZArith Reals.
From Verif Require Import Base NoiseModel PsdModel RndModel.
Open Scope R_scope.

Section Interp.
Variables (emin prec : Z).
Notation rn := (rndp emin prec).
(** 197 *)
Definition value_r (x1 x2 y1 y2 z : R) : option R :=
  let d := rn (x2 - x1) in
  if Req_EM_T d 0 then None else Some (rn (rn (rn (rn (z - x1) * y2) + rn (rn (x2 - z) * y1)) / d)).
(** 192-197; [PsdModel.advance] is the loop 193-196. *)
Fixpoint interp_from_r (x y : list R) (ix : nat) (zs : list R) : res (list (option R)) :=
  match zs with
  | [] => Ok []
  | z :: r => do ix' <- advance (S (length x)) x z ix;
              do x1 <- item_at x (ix' - 1); do x2 <- item_at x ix';
              do y1 <- item_at y (ix' - 1); do y2 <- item_at y ix';
              do vs <- interp_from_r x y ix' r;
              Ok (value_r x1 x2 y1 y2 z :: vs)
  end.
(** 189-191 *)
Definition interp_r (z x y : list R) : res (list (option R)) :=
  do _ <- item_at x 0; do _ <- item_at x 1; interp_from_r x y 1 z.
End Interp.
