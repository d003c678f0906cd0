(** Sums and shifts: module_math_old.f90.

    Numbers are those of an arbitrary ring, except that the addition of the running sum
    may be rounded: [add]. *)
From Verif Require Import Base SparseModel SortModel.
Open Scope Z_scope.

Section Kahan.
Context {K : Type} (o : ops K) (add : K -> K -> K).
Definition ksub (a b : K) : K := kadd o a (kopp o b).

(** The loop of all compensated sums: the sum and the compensation. *)
Fixpoint kloop (sum c : K) (l : list K) : K * K :=
  match l with
  | [] => (sum, c)
  | x :: r => let y := ksub x c in let t := add sum y in let c := ksub (ksub t sum) y in kloop t c r
  end.

(** sum_kahan_1d without mask, 248-291. *)
Definition sum_kahan (l : list K) : K * K :=
  match l with [] => (k0 o, k0 o) | x :: r => kloop x (k0 o) r end.
(** The same with a mask (true: not counted). *)
Fixpoint kloop_mask (sum c : K) (l : list K) (m : list bool) : K * K :=
  match l, m with
  | x :: r, b :: ms =>
      if b then kloop_mask sum c r ms
      else let y := ksub x c in let t := add sum y in let c := ksub (ksub t sum) y in kloop_mask t c r ms
  | _, _ => (sum, c)
  end.
Fixpoint sum_kahan_mask (l : list K) (m : list bool) : K * K :=
  match l, m with
  | x :: r, b :: ms => if b then sum_kahan_mask r ms else kloop_mask x (k0 o) r ms
  | _, _ => (k0 o, k0 o)
  end.
(** sum_kahan_2d 295-315, of the columns; sum_kahan_3d 321-341, of the planes. *)
Definition sum_kahan_2d (cols : list (list K)) : K * K := sum_kahan (map (fun c => fst (sum_kahan c)) cols).
Definition sum_kahan_3d (planes : list (list (list K))) : K * K := sum_kahan (map (fun c => fst (sum_kahan_2d c)) planes).

(** norm_l1 347-368, norm_huber 374-410, norm2 416-437, normp 443-465, dot 471-493. *)
Definition norm_l1 (abs : K -> K) (l : list K) : K * K := sum_kahan (map abs l).
Definition huber (abs : K -> K) (ltb : K -> K -> bool) (delta x : K) : K :=
  let a := kmul o (kadd o (k1 o) (k1 o)) delta in let b := kopp o (kmul o delta delta) in
  if ltb (abs x) delta then kmul o x x else kadd o (kmul o a (abs x)) b.
Definition norm_huber (abs : K -> K) (ltb : K -> K -> bool) (delta : K) (l : list K) : K * K := sum_kahan (map (huber abs ltb delta) l).
Definition norm2 (l : list K) : K * K := sum_kahan (map (fun x => kmul o x x) l).
Definition normp (abs : K -> K) (pow : K -> K) (l : list K) : K * K := sum_kahan (map (fun x => pow (abs x)) l).
Definition dot (l r : list K) : K * K := sum_kahan (map (fun xy => kmul o (fst xy) (snd xy)) (combine l r)).
End Kahan.

(** shift_fast, 807-837.  A column of [m] numbers is shifted by [d]; [inplace]: input and
    output are the same memory. *)
Section Shift.
Context {T : Type} (zero : T).
(** output(i) = input(i-d), for the positions [l] in their order. *)
Fixpoint shift_loop (inplace : bool) (input : list T) (d : Z) (l : list Z) (output : list T) : res (list T) :=
  match l with
  | [] => Ok output
  | i :: r => do x <- aget (if inplace then output else input) (i - d);
              do output <- aset output i x; shift_loop inplace input d r output
  end.
(** output(a:b) = 0 *)
Fixpoint zero_loop (l : list Z) (output : list T) : res (list T) :=
  match l with [] => Ok output | i :: r => do output <- aset output i zero; zero_loop r output end.
(** a, a+1, ..., b and b, b-1, ..., a. *)
Definition upto (a b : Z) : list Z := map (fun i => a + i) (iota (b - a + 1)).
Definition downto (b a : Z) : list Z := rev (upto a b).

Definition shift_col (inplace : bool) (m : Z) (input output : list T) (d : Z) : res (list T) :=
  if d =? 0 then Ok input
  else if 0 <? d then
    do output <- shift_loop inplace input d (downto m (d + 1)) output;
    zero_loop (upto 1 (Z.min d m)) output
  else
    do output <- shift_loop inplace input d (upto 1 (m + d)) output;
    zero_loop (upto (Z.max (m + d + 1) 1) m) output.

(** Columns j, j+1, ... *)
Fixpoint shift_cols (inplace : bool) (m n : Z) (offset : list Z) (j : Z) (input output : list (list T)) : res (list (list T)) :=
  match input, output with
  | ci :: ri, co :: ro =>
      let w := n / zlen offset in
      if zlen offset =? 0 then Err ZeroDivisionError
      else if w =? 0 then Err ZeroDivisionError
      else do d <- aget offset ((j - 1) / w + 1);
           do c <- shift_col inplace m ci (if inplace then ci else co) d;
           do r <- shift_cols inplace m n offset (j + 1) ri ro; Ok (c :: r)
  | _, _ => Ok []
  end.
Definition shift_fast (inplace : bool) (m : Z) (input output : list (list T)) (offset : list Z) : res (list (list T)) :=
  shift_cols inplace m (zlen input) offset 1 input output.
End Shift.

(** nint_down 509-520, nint_up 527-538, of the rational num/den (den > 0); nint rounds
    halves away from zero. *)
Definition nint (num den : Z) : Z :=
  if 0 <=? num then (2 * num + den) / (2 * den) else - ((2 * - num + den) / (2 * den)).
Definition nint_down (num den : Z) : Z :=
  let n := nint num den in
  if (0 <? num) && (2 * Z.abs (num - n * den) =? den) then n - 1 else n.
Definition nint_up (num den : Z) : Z :=
  let n := nint num den in
  if (num <? 0) && (2 * Z.abs (num - n * den) =? den) then n + 1 else n.
