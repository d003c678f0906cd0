(** The moments with every operation rounded: module_math_old.f90 139-216.

    As in RndModel: to the nearest, ties to even, gradual underflow, no overflow; the input is
    finite, [None] is NaN.  The powers of the residuals are the products of the powers below:
    r**2 = r r, r**3 = r**2 r, r**4 = r**2 r**2. *)
From Coq Require Import ZArith Reals List.
From Verif Require Import Base SparseModel NumModel RndModel ClipModel.
Import ListNotations.
Open Scope Z_scope.

Section Moments.
Variables emin prec : Z.
Notation rn := (rndp emin prec).
Let o := fp_ops emin prec.

Definition square (r : R) : R := rn (r * r).
Definition cube (r : R) : R := rn (square r * r).
Definition fourth (r : R) : R := rn (square r * square r).

Definition rmoment (input : list R) (mask : option (list bool)) : res moments :=
  do _ <- match mask with
          | Some mk => if negb (zlen mk =? zlen input) then Err RuntimeError (* stop 1 *) else Ok tt
          | None => Ok tt
          end;
  let nsamples := match mask with Some mk => zlen input - count mk | None => zlen input end in
  let sum l := fst (match mask with Some mk => sum_kahan_mask o (kadd o) l mk | None => sum_kahan o (kadd o) l end) in
  if nsamples =? 0 then Ok (Moments None None None None None None)
  else
    let m := rn (sum input / IZR nsamples) in
    let residuals := map (fun x => rn (x - m)) input in
    let meandev := rn (sum (map Rabs residuals) / IZR nsamples) in
    let var := if nsamples <=? 1 then None else Some (rn (sum (map square residuals) / IZR (nsamples - 1))) in
    let sdev := lift1 (fun v => rn (sqrt v)) var in
    let skewness := if is_zero sdev then None
                    else lift1 (fun s => rn (sum (map cube residuals) / rn (IZR nsamples * cube s))) sdev in
    let kurtosis := if is_zero sdev then None
                    else lift1 (fun s => rn (rn (sum (map fourth residuals) / rn (IZR nsamples * fourth s)) - 3)) sdev in
    Ok (Moments (Some m) (Some meandev) var sdev skewness kurtosis).
End Moments.
