(** noises.py: _fold_psd 16-24, _unfold_psd 27-36, the lengths in _gaussian_sample 111-125,
    _interp 181-200; instruments.py: size of the transforms 216-219.

    One spectrum (the leading dimensions are handled element by element by NumPy);
    exact numbers: any commutative ring for the spectra, rationals for the interpolation. *)
From Coq Require Import QArith Qcanon.
From Verif Require Import Base SparseModel.
Open Scope nat_scope.

Definition item_at {A} (l : list A) (i : nat) : res A := match nth_error l i with Some x => Ok x | None => Err IndexError end.
(** [l[a:b]] for 0 <= a *)
Definition part_of {A} (l : list A) (a b : nat) : list A := firstn (b - a) (skipn a l).

Section N.
Context {K : Type} (o : ops K) (half : K).
Definition two := kadd o (k1 o) (k1 o).
Definition fold_psd (p : list K) : res (list K) :=
  let n := length p / 2 + 1 in
  do p0 <- item_at p 0;
  do pn <- item_at p n;                                              (* 23 *)
  Ok (p0 :: map (fun x => kmul o x two) (part_of p 1 (n - 1)) ++ [pn]).
Definition unfold_psd (p : list K) : res (list K) :=
  let n := length p in
  if n =? 0 then Err ValueError                                  (* negative dimension, 31 *)
  else if n =? 1 then Err IndexError                             (* 32, on an empty array *)
  else
    do p0 <- item_at p 0;
    do pl <- item_at p (n - 1);
    let mid := map (fun x => kmul o x half) (part_of p 1 (n - 1)) in
    Ok (p0 :: mid ++ pl :: rev mid).
End N.

(** Lines 111-121 with a one-sided spectrum: the product of the transform of [nsamples]
    values and the spectrum. *)
Definition sample_spectrum {K} (o : ops K) (half : K) (noise : list K) (p : list K) : res (list K) :=
  do u <- unfold_psd o half p;
  if (length u =? length noise)%nat then Ok (map (fun xy => kmul o (fst xy) (snd xy)) (combine noise u))
  else if (length u =? 1)%nat || (length noise =? 1)%nat then Ok (map (fun xy => kmul o (fst xy) (snd xy)) (list_prod noise u))
  else Err ValueError.

(** instruments.py 216-219. *)
Fixpoint fft_size (fuel nmax size : nat) : res nat :=
  match fuel with
  | O => Err RuntimeError                                        (* does not end *)
  | S f => if size <? nmax then fft_size f nmax (size * 2) else Ok size
  end.

(** _interp, 181-200; x(ix-1) = x1 and x(ix) = x2 throughout. *)
Open Scope Qc_scope.
Definition Qc_ltb (a b : Qc) : bool := if Qclt_le_dec a b then true else false.
Fixpoint advance (fuel : nat) (x : list Qc) (z : Qc) (ix : nat) : res nat :=
  match fuel with
  | O => Err RuntimeError                                        (* does not end *)
  | S f => do x2 <- item_at x ix;
           if Qc_ltb x2 z && (ix <? length x - 1)%nat then advance f x z (S ix) else Ok ix
  end.
Definition value_at (x y : list Qc) (z : Qc) (ix : nat) : res Qc :=
  do x1 <- item_at x (ix - 1); do x2 <- item_at x ix;
  do y1 <- item_at y (ix - 1); do y2 <- item_at y ix;
  Ok (((z - x1) * y2 + (x2 - z) * y1) / (x2 - x1)).
Fixpoint interp_from (x y : list Qc) (ix : nat) (zs : list Qc) : res (list Qc) :=
  match zs with
  | [] => Ok []
  | z :: r => do ix' <- advance (S (length x)) x z ix;
              do v <- value_at x y z ix';
              do vs <- interp_from x y ix' r;
              Ok (v :: vs)
  end.
Definition interp (z x y : list Qc) : res (list Qc) :=
  do _ <- item_at x 0; do _ <- item_at x 1;
  interp_from x y 1 z.
