(** Moments and sigma clipping: module_math_old.f90.

    A floating-point number is a real number or NaN ([None]); operations are exact and
    there are no infinities.  Comparisons with NaN are false. *)
From Coq Require Import Reals.
From Verif Require Import Base SparseModel NumModel.
Open Scope Z_scope.

Definition fl := option R.
Definition lift1 (f : R -> R) (x : fl) : fl := match x with Some a => Some (f a) | None => None end.
Definition lift2 (f : R -> R -> R) (x y : fl) : fl := match x, y with Some a, Some b => Some (f a b) | _, _ => None end.
Definition fl_ops : ops fl := Ops fl (Some 0%R) (Some 1%R) (lift2 Rplus) (lift2 Rmult) (lift1 Ropp).
Definition fsub (x y : fl) : fl := lift2 Rminus x y.
Definition gtb (x y : fl) : bool := match x, y with Some a, Some b => if Rlt_dec b a then true else false | _, _ => false end.
Definition is_zero (x : fl) : bool := match x with Some a => if Req_EM_T a 0 then true else false | None => false end.
Definition count (mask : list bool) : Z := zlen (filter (fun b => b) mask).

Record moments := Moments { mo_mean : fl; mo_meandev : fl; mo_variance : fl; mo_stddev : fl; mo_skewness : fl; mo_kurtosis : fl }.

(** moment, 135-207; [mask]: None when absent; a mask of another size stops the program. *)
Definition moment (input : list fl) (mask : option (list bool)) : res moments :=
  do _ <- match mask with
          | Some mk => if negb (zlen mk =? zlen input) then Err RuntimeError (* stop 1 *) else Ok tt
          | None => Ok tt
          end;
  let nsamples := match mask with Some mk => zlen input - count mk | None => zlen input end in
  let sum_kahan x := fst (match mask with Some mk => sum_kahan_mask fl_ops (lift2 Rplus) x mk | None => sum_kahan fl_ops (lift2 Rplus) x end) in
  let over x n := lift1 (fun a => a / n)%R x in
  let m := if nsamples =? 0 then None else over (sum_kahan input) (IZR nsamples) in
  let residuals := map (fun x => fsub x m) input in
  let meandev := if nsamples =? 0 then None else over (sum_kahan (map (lift1 Rabs) residuals)) (IZR nsamples) in
  let var := if nsamples <=? 1 then None else over (sum_kahan (map (lift1 (fun r => r ^ 2)%R) residuals)) (IZR (nsamples - 1)) in
  let sdev := lift1 sqrt var in
  let skewness := if (nsamples =? 0) || is_zero sdev then None
                  else lift2 (fun a s => a / (IZR nsamples * s ^ 3))%R (sum_kahan (map (lift1 (fun r => r ^ 3)%R) residuals)) sdev in
  let kurtosis := if (nsamples =? 0) || is_zero sdev then None
                  else lift2 (fun a s => a / (IZR nsamples * s ^ 4) - 3)%R (sum_kahan (map (lift1 (fun r => r ^ 4)%R) residuals)) sdev in
  Ok (Moments m meandev var sdev skewness kurtosis).

(** sigma_clipping, 726-755: [iter] is 1 and never changes. *)
Definition newmask (input : list fl) (mask : list bool) (nsigma mean stddev : fl) : list bool :=
  map (fun bx => fst bx || gtb (lift1 Rabs (fsub (snd bx) mean)) (lift2 Rmult nsigma stddev)) (combine mask input).
Fixpoint clip_loop (fuel : nat) (input : list fl) (nsigma : fl) (iter nitermax : Z) (mask : list bool) : res (list bool) :=
  match fuel with
  | O => Err RuntimeError (* does not end *)
  | S fuel => do mo <- moment input (Some mask);
              let new := newmask input mask nsigma (mo_mean mo) (mo_stddev mo) in
              if count new =? count mask then Ok mask
              else if iter =? nitermax then Ok new
              else clip_loop fuel input nsigma iter nitermax new
  end.
Definition sigma_clipping (input : list fl) (nsigma : fl) (nitermax : option Z) : res (list bool) :=
  clip_loop (S (length input)) input nsigma 1 (match nitermax with Some n => n | None => 0 end) (map (fun _ => false) input).
