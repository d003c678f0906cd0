(** Sorting through an index, unique values, histograms and positions: module_sort.f90.

    Items are numbered from 1.  [leb x y] stands for compare(x, y) >= 0 (QSORTGI) and for
    A(x) <= A(y) (QSORTID), where the variables X, Z, XX, ZZ hold items instead of their
    values.  An access outside of an array is an IndexError; loops have fuel,
    RuntimeError when it is exhausted. *)
From Verif Require Import Base MedianModel.

(** Fortran arrays. *)
Definition aget {T} (l : list T) (i : Z) : res T := get l (i - 1).
Definition aset {T} (l : list T) (i : Z) (v : T) : res (list T) := do _ <- aget l i; Ok (set_at l (i - 1) v).
Definition aswap (l : list Z) (i j : Z) : res (list Z) :=
  do a <- aget l i; do b <- aget l j; do l <- aset l i b; aset l j a.

Section Q.
Variable leb : Z -> Z -> bool.
Definition same (x y : Z) : bool := leb x y && leb y x.

(** Label 6, LEFT: advances P until an item is not smaller than XX; [None]: P reached Q. *)
Fixpoint left (fuel : nat) (ord : list Z) (q xx p x : Z) : res (option (Z * Z) * Z) :=
  match fuel with
  | O => Err RuntimeError
  | S f => let p := p + 1 in
           if q <=? p then Ok (None, x)
           else do x <- aget ord p;
                if leb xx x then Ok (Some (p, x), x) else left f ord q xx p x
  end.
(** Label 8, RIGHT; [None]: Q reached P. *)
Fixpoint right (fuel : nat) (ord : list Z) (p zz q : Z) : res (option (Z * Z)) :=
  match fuel with
  | O => Err RuntimeError
  | S f => let q := q - 1 in
           if q <=? p then Ok None
           else do z <- aget ord q;
                if leb z zz then Ok (Some (q, z)) else right f ord p zz q
  end.

Record pstate := PState { s_ord : list Z; s_p : Z; s_q : Z; s_x : Z; s_z : Z; s_xx : Z; s_ix : Z; s_zz : Z; s_iz : Z }.

(** Labels 6 to 12; the state at label 13. *)
Fixpoint part_loop (fuel : nat) (s : pstate) : res pstate :=
  match fuel with
  | O => Err RuntimeError
  | S f =>
      let '(PState ord p q x z xx ix zz iz) := s in
      do a <- left (S (length ord)) ord q xx p x;
      match a with
      | (None, x) => Ok (PState ord (q - 1) q x z xx ix zz iz)                        (* 7 *)
      | (Some (p, x), _) =>
          do b <- right (S (length ord)) ord p zz q;
          do t <- match b with
                  | None => do x' <- aget ord (p - 1); Ok (p - 1, p, x', x)            (* 9 *)
                  | Some (q, z) => Ok (p, q, x, z)
                  end;
          let '(p, q, x, z) := t in
          do d <- (if leb x z then Ok (ord, x, z) else do o <- aswap ord p q; Ok (o, z, x));  (* 10 *)
          let '(ord, x, z) := d in
          let '(xx, ix) := if leb x xx then (xx, ix) else (x, p) in                    (* 11 *)
          let '(zz, iz) := if leb zz z then (zz, iz) else (z, q) in                    (* 12 *)
          part_loop f (PState ord p q x z xx ix zz iz)
      end
  end.

(** Labels 4 to 15: the new order, P and Q. *)
Definition part (ord : list Z) (l u : Z) : res (list Z * Z * Z) :=
  do x <- aget ord l; do z <- aget ord u;
  do d <- (if leb x z then Ok (ord, x, z) else do o <- aswap ord l u; Ok (o, z, x));
  let '(ord, x, z) := d in
  if u - l <=? 1 then Ok (ord, l, u)
  else
    do s <- part_loop (S (length ord)) (PState ord l u x z x l z u);
    let '(PState ord p q x z xx ix zz iz) := s in
    do ord <- (if negb (p =? ix) && negb (same x xx) then aswap ord p ix else Ok ord);  (* 13 *)
    do ord <- (if negb (q =? iz) && negb (same z zz) then aswap ord q iz else Ok ord);  (* 14 *)
    Ok (ord, p, q).

(** Label 18: the next range to sort. *)
Fixpoint next (l u : Z) (stack : list (Z * Z)) : option (Z * Z * list (Z * Z)) :=
  if l <? u then Some (l, u, stack)
  else match stack with [] => None | (u', l') :: r => next l' u' r end.

Definition POPLST_SIZE := 1000.
(** Labels 4 to 18. *)
Fixpoint sort_loop (fuel : nat) (ord : list Z) (l u : Z) (stack : list (Z * Z)) : res (list Z) :=
  match fuel with
  | O => Err RuntimeError
  | S f =>
      do t <- part ord l u;
      let '(ord, p, q) := t in
      let '(l1, u1, l, u) := if u - q <=? p - l then (q + 1, u, l, p - 1) else (l, p - 1, q + 1, u) in
      if u1 <=? l1 then
        match next l u stack with
        | None => Ok ord
        | Some (l, u, stack) => sort_loop f ord l u stack
        end
      else if POPLST_SIZE <? zlen stack + 1 then Err IndexError
      else sort_loop f ord l1 u1 ((u, l) :: stack)
  end.

Definition qsort (n : Z) : res (list Z) :=
  let ord := map (fun i => i + 1) (iota n) in
  if n <=? 1 then Ok ord else sort_loop (S (Z.to_nat n)) ord 1 n [].
End Q.

(** compare_int 391-404, compare_nomask_double 444-465, compare_mask_double 471-492, as
    the test >= 0. *)
Definition item (a : list num) (i : Z) : num := match aget a i with Ok x => x | Err _ => NaN end.
Definition out (a : list num) (mask : list bool) (i : Z) : bool :=
  is_nan (item a i) || match aget mask i with Ok b => b | Err _ => true end.
Definition leb_num (a : list num) (i j : Z) : bool :=
  if is_nan (item a i) then is_nan (item a j)
  else if is_nan (item a j) then true else le (item a i) (item a j).
Definition leb_mask (a : list num) (mask : list bool) (i j : Z) : bool :=
  if out a mask i then out a mask j
  else if out a mask j then true else le (item a i) (item a j).
Definition leb_int (a : list Z) (i j : Z) : bool :=
  match aget a i, aget a j with Ok x, Ok y => x <=? y | Ok _, Err _ => true | Err _, Ok _ => false | Err _, Err _ => true end.
(** QSORTID: plain comparison of the values; the items are within the array. *)
Definition leb_plain (a : list num) (i j : Z) : bool :=
  match aget a i, aget a j with Ok x, Ok y => le x y | Ok _, Err _ => true | Err _, Ok _ => false | Err _, Err _ => true end.

(** uniq_int, 498-535. *)
Fixpoint uniq_loop (i val : Z) (l : list Z) : list Z :=
  match l with
  | [] => [i - 1]
  | x :: r => if x =? val then uniq_loop (i + 1) val r else (i - 1) :: uniq_loop (i + 1) x r
  end.
Definition uniq_int (a : list Z) : list Z :=
  match a with [] => [] | x :: r => uniq_loop 2 x r end.

(** eq_real, neq_real: module_math_old.f90 761-800, with the tolerance rn/rd. *)
Definition eq_real (rn rd : Z) (a b : num) : bool :=
  match a, b with
  | NaN, _ => is_nan b
  | _, NaN => false
  | Fin x, Fin y => Z.abs (x - y) * rd <=? rn * Z.max (Z.abs x) (Z.abs y)
  end.
Definition neq_real (rn rd : Z) (a b : num) : bool := negb (eq_real rn rd a b).

(** uniq_double, 542-573; [neq] is neq_real with the given tolerance. *)
Section Eq.
Variable neq : num -> num -> bool.
Fixpoint uniq_double_loop (a : list num) (val : num) (l : list Z) : res (list Z) :=
  match l with
  | [] => Ok []
  | i :: r => do x <- aget a i;
              if is_nan x then uniq_double_loop a val r
              else if neq x val then do q <- uniq_double_loop a x r; Ok (i :: q)
              else uniq_double_loop a val r
  end.
Definition uniq_double (a : list num) (inindex : list Z) : res (list Z) :=
  match inindex with
  | [] => Ok []
  | i :: r => do x <- aget a i; do q <- uniq_double_loop a x r; Ok (i :: q)
  end.

(** reorder, 579-670; [HUGE]: the largest integer; [rejected]: NaN or masked. *)
Definition HUGE := 2147483647.
Fixpoint reorder_loop (a : list num) (rejected : Z -> bool) (l : list Z) (index : list Z) (nuniqs : Z) (val : num) (table : list num)
  : res (list Z * Z * list num) :=
  match l with
  | [] => Ok (index, nuniqs, table)
  | i :: r =>
      do x <- aget a i;
      if rejected i then do index <- aset index i HUGE; reorder_loop a rejected r index nuniqs val table
      else
        let '(nuniqs, val, table) := if neq val x then (nuniqs + 1, x, table ++ [x]) else (nuniqs, val, table) in
        do index <- aset index i nuniqs; reorder_loop a rejected r index nuniqs val table
  end.
Definition reorder (a : list num) (rejected : Z -> bool) (isort : list Z) (unset : list Z) : res (list Z * Z * list num) :=
  reorder_loop a rejected isort unset 0 NaN [].
End Eq.

(** histogram, 676-711. *)
Fixpoint histogram_loop (a : list Z) (mask : list bool) (h : list Z) : res (list Z) :=
  match a, mask with
  | x :: r, m :: ms =>
      if (x =? HUGE) || m then histogram_loop r ms h
      else do c <- aget h x; do h <- aset h x (c + 1); histogram_loop r ms h
  | _, _ => Ok h
  end.
Definition histogram (a : list Z) (mask : list bool) (nbins : Z) : res (list Z) :=
  histogram_loop a mask (repeat 0 (Z.to_nat nbins)).

(** where_1d_1d, 717-738; where_2d_2d, 763-790 (columns of the array). *)
Fixpoint where_loop (i : Z) (l : list bool) : list Z :=
  match l with [] => [] | b :: r => if b then i :: where_loop (i + 1) r else where_loop (i + 1) r end.
Definition where_1d (l : list bool) : list Z := where_loop 1 l.
Fixpoint where_2d_loop (j : Z) (cols : list (list bool)) : list (Z * Z) :=
  match cols with [] => [] | c :: r => map (fun i => (i, j)) (where_1d c) ++ where_2d_loop (j + 1) r end.
Definition where_2d (cols : list (list bool)) : list (Z * Z) := where_2d_loop 1 cols.
(** where_3d_3d, 793-826 (planes of the array). *)
Fixpoint where_3d_loop (k : Z) (planes : list (list (list bool))) : list (Z * Z * Z) :=
  match planes with [] => [] | c :: r => map (fun ij => (fst ij, snd ij, k)) (where_2d c) ++ where_3d_loop (k + 1) r end.
Definition where_3d (planes : list (list (list bool))) : list (Z * Z * Z) := where_3d_loop 1 planes.
