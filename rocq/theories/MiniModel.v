(** C94: minimaps, module_pointingmatrix.f90: backprojection_weighted_roi (544-594), xy2roi (601-615);
    ProjectionInMemoryOperator._rule_diagonal (operators.py 858-866).

    The frame is the list, over the detectors, of the elements of the sample itime.  Numbers are those of
    [ops]; the weights of the code are rounded to single precision, and indices are integers of 32 bits:
    neither the rounding nor overflows are modelled. *)
From Verif Require Import Base SparseModel NumModel PmModel.
Open Scope Z_scope.

Section Mini.
Context {K : Type} (o : ops K) (iszero : K -> bool) (kdiv : K -> K -> K).
Local Notation frame := (list (list (Z * K))).

(** minval and maxval of integers of 32 bits, with a mask. *)
Definition huge : Z := 2147483647.
Definition minval (l : list Z) : Z := fold_right Z.min huge l.
Definition maxval (l : list Z) : Z := fold_right Z.max (- huge - 1) l.
Definition indices (m : frame) : list Z := filter (fun i => negb (i =? -1)) (map fst (concat m)).
(** 562-565 *)
Definition frame_roi (nx : Z) (m : frame) : roi :=
  ((minval (map (fun i => i mod nx) (indices m)), maxval (map (fun i => i mod nx) (indices m))),
   (minval (map (fun i => Z.quot i nx) (indices m)), maxval (map (fun i => Z.quot i nx) (indices m)))).
(** 580-582 *)
Definition local (nx : Z) (r : roi) (i : Z) : Z :=
  let nxmap := snd (fst r) - fst (fst r) + 1 in
  let xmap := Z.rem i nx - fst (fst r) in
  let ymap := Z.quot i nx - fst (snd r) in
  xmap + ymap * nxmap.
(** 569-592; [size]: size of the output. *)
Definition minimap (nx : Z) (m : frame) (timeline : list K) (mask : list bool) (size : nat) : res (roi * list (option K)) :=
  if nx =? 0 then Err ZeroDivisionError
  else
    let r := frame_roi nx m in
    let here evs := map (fun e : Z * K => (local nx r (fst e), snd e)) evs in
    let samples := unmasked_samples m timeline (Some mask) in
    do map_ <- run_events o (repeat (k0 o) size) (here (flat_map (fun rt => row_events (fun v => kmul o (snd rt) v) (fst rt)) samples));
    do weight <- run_events o (repeat (k0 o) size) (here (flat_map (fun rt => row_events (fun v => v) (fst rt)) samples));
    Ok (r, map (fun mw => if iszero (snd mw) then None else Some (kdiv (fst mw) (snd mw))) (combine map_ weight)).
End Mini.

(** xy2roi: coordinates num/den of the vertices of one detector, not empty. *)
Definition qle (a b : Z * Z) : bool := fst a * snd b <=? fst b * snd a.
Definition qmin (a : Z * Z) (l : list (Z * Z)) : Z * Z := fold_left (fun m x => if qle m x then m else x) l a.
Definition qmax (a : Z * Z) (l : list (Z * Z)) : Z * Z := fold_left (fun m x => if qle x m then m else x) l a.
Definition up (q : Z * Z) : Z := nint_up (fst q) (snd q).
Definition down (q : Z * Z) : Z := nint_down (fst q) (snd q).
Definition xy2roi (v : (Z * Z) * (Z * Z)) (vs : list ((Z * Z) * (Z * Z))) : roi :=
  ((up (qmin (fst v) (map fst vs)), down (qmax (fst v) (map fst vs))), (up (qmin (snd v) (map snd vs)), down (qmax (snd v) (map snd vs)))).

(** ** _rule_diagonal *)
Close Scope Z_scope.
(** value *= data: the shape of data, from its last dimension, must be 1 or that of value. *)
Fixpoint fits_in (data value : list nat) : bool :=
  match data, value with
  | [], _ => true
  | d :: ds, v :: vs => (Nat.eqb d 1 || Nat.eqb d v) && fits_in ds vs
  | _, [] => false
  end.
Inductive broadcast := Scalar | Disabled | Leftward | Rightward.
(** [data]: shape and content of d.get_data(), a scalar has the shape (); the last dimension of the matrix is [npps].
    The data of a scalar multiplies all values; values are those of the samples, in order. *)
Definition rule_diagonal {K} (o : ops K) (shape : list nat) (npps : nat) (b : broadcast) (dshape : list nat) (data : list K) (m : list (Z * K)) : res (option (list (Z * K))) :=
  if negb (Nat.eqb npps 1) then Ok None else
  match b with
  | Rightward => Ok None
  | _ =>
      if fits_in (rev dshape) (rev (shape ++ [npps])) then
        match data with
        | [d] => Ok (Some (map (fun e => (fst e, kmul o (snd e) d)) m))
        | _ => Err RuntimeError (* not modelled: see C94_diagonal_refuted *)
        end
      else Err ValueError
  end.
