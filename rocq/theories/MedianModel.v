(** Median by quickselect and median absolute deviation: module_math_old.f90 608-718.

    A number is an integer or NaN: only the order of the numbers and, for the deviation,
    their differences matter.  Positions start at zero, as in the code; an access outside
    of the array is an IndexError; loops have fuel, RuntimeError when it is exhausted. *)
From Verif Require Import Base.

Inductive num := NaN | Fin (z : Z).
Definition is_nan (x : num) : bool := match x with NaN => true | Fin _ => false end.
(** Comparisons: false with NaN. *)
Definition gt (x y : num) : bool := match x, y with Fin a, Fin b => b <? a | _, _ => false end.
Definition le (x y : num) : bool := match x, y with Fin a, Fin b => a <=? b | _, _ => false end.

Definition put (l : list num) (i : Z) (x : num) : res (list num) := do _ <- get l i; Ok (set_at l i x).
Definition swap (l : list num) (i j : Z) : res (list num) :=
  do x <- get l i; do y <- get l j; do l <- put l i y; put l j x.
Definition order (l : list num) (i j : Z) : res (list num) :=         (* if (a > b) call swap(a, b) *)
  do x <- get l i; do y <- get l j; if gt x y then swap l i j else Ok l.

(** 622-643: removal of the NaN or masked elements; the mask is [None] when absent. *)
Definition bad (remove_nan : bool) (x : num) (m : option bool) : bool :=
  (remove_nan && is_nan x) || match m with Some b => b | None => false end.
Fixpoint compact (fuel : nat) (remove_nan : bool) (arr : list num) (mask : option (list bool)) (ll high : Z) : res (list num * Z) :=
  match fuel with
  | O => Err RuntimeError                                          (* does not end *)
  | S f =>
      if high <? ll then Ok (arr, high)
      else
        do x <- get arr ll;
        do m <- match mask with Some l => do b <- get l ll; Ok (Some b) | None => Ok None end;
        if bad remove_nan x m then
          do y <- get arr high;
          do mask' <- match mask with Some l => do b <- get l high; Ok (Some (set_at l ll b)) | None => Ok None end;
          compact f remove_nan (set_at arr ll y) mask' ll (high - 1)
        else compact f remove_nan arr mask (ll + 1) high
  end.

(** 673-686 *)
Fixpoint up (fuel : nat) (arr : list num) (low ll : Z) : res Z :=
  match fuel with
  | O => Err RuntimeError
  | S f => let ll := ll + 1 in
           do x <- get arr low; do y <- get arr ll;
           if le x y then Ok ll else up f arr low ll
  end.
Fixpoint down (fuel : nat) (arr : list num) (low hh : Z) : res Z :=
  match fuel with
  | O => Err RuntimeError
  | S f => let hh := hh - 1 in
           do y <- get arr hh; do x <- get arr low;
           if le y x then Ok hh else down f arr low hh
  end.
Fixpoint nibble (fuel : nat) (arr : list num) (low ll hh : Z) : res (list num * Z * Z) :=
  match fuel with
  | O => Err RuntimeError
  | S f =>
      do ll <- up (S (length arr)) arr low ll;
      do hh <- down (S (length arr)) arr low hh;
      if hh <? ll then Ok (arr, ll, hh)
      else do arr <- swap arr ll hh; nibble f arr low ll hh
  end.

(** 649-695 *)
Fixpoint select (fuel : nat) (arr : list num) (low high imedian : Z) : res (num * list num) :=
  match fuel with
  | O => Err RuntimeError
  | S f =>
      if high <=? low then do x <- get arr imedian; Ok (x, arr)
      else if high =? low + 1 then
        do arr <- order arr low high; do x <- get arr imedian; Ok (x, arr)
      else
        let middle := (low + high) / 2 in
        do arr <- order arr middle high;
        do arr <- order arr low high;
        do arr <- order arr middle low;
        do arr <- swap arr middle (low + 1);
        do t <- nibble (S (length arr)) arr low (low + 1) high;
        let '(arr, ll, hh) := t in
        do arr <- swap arr low hh;
        select f arr (if hh <=? imedian then ll else low) (if imedian <=? hh then hh - 1 else high) imedian
  end.

(** median_nocopy: the median and the new content of the array. *)
Definition median (arr : list num) (remove_nan : bool) (mask : option (list bool)) : res (num * list num) :=
  do c <- (if remove_nan || match mask with Some _ => true | None => false end
           then compact (S (length arr)) remove_nan arr mask 0 (zlen arr - 1)
           else Ok (arr, zlen arr - 1));
  let '(arr, high) := c in
  if high <? 0 then Ok (NaN, arr)
  else select (S (length arr)) arr 0 high ((0 + high) / 2).

(** mad, 704-718. *)
Definition abs_diff (m x : num) : num := match x, m with Fin a, Fin b => Fin (Z.abs (a - b)) | _, _ => NaN end.
Definition mad (x : list num) : res (num * num) :=
  do r <- median x true None;
  let '(med, x_) := r in
  do s <- median (map (abs_diff med) x_) true None;
  Ok (fst s, med).
