(** RollOperator, operators.py 1199-1222. *)
From Verif Require Import Base.

(** A scalar or a sequence. *)
Inductive arg := Scalar (z : Z) | Sequence (l : list Z).

(** [__init__], 1202-1212: offsets and axes. *)
Definition roll_init (n : arg) (axis : option arg) : res (list Z * list Z) :=
  let axis :=
    match axis with
    | Some a => a
    | None => match n with Scalar _ => Scalar (-1) | Sequence l => Sequence (map (fun k => k - zlen l) (iota (zlen l))) end
    end in
  let axis := match axis with Scalar a => [a] | Sequence l => l end in
  let n := match n with Scalar n => repeat n (length axis) | Sequence l => l end in
  if negb (length axis =? length n)%nat then Err ValueError else Ok (n, axis).

(** np.roll(a, n, axis) for an array given by its shape and its row-major content (the
    environment): the element of the result at i along the axis is that of a at i - n,
    modulo the size of the axis.  [rolled] is its place in the content. *)
Fixpoint rolled (shape : list Z) (k : nat) (n p : Z) : Z :=
  match shape with
  | [] => p
  | N :: s =>
      let inner := prodZ s in
      match k with
      | O => ((p / inner - n) mod N) * inner + p mod inner
      | S k => (p / inner) * inner + rolled s k n (p mod inner)
      end
  end.
Definition np_roll {A} (shape : list Z) (a : list A) (n axis : Z) : res (list A) :=
  let ndim := zlen shape in
  if (axis <? - ndim) || (ndim <=? axis) then Err IndexError (* AxisError *)
  else
    let k := Z.to_nat (if axis <? 0 then axis + ndim else axis) in
    map_res (fun p => get a (rolled shape k n p)) (iota (prodZ shape)).

(** [direct], 1214-1217, and [transpose], 1219-1222. *)
Fixpoint roll_loop {A} (shape : list Z) (output : list A) (na : list (Z * Z)) : res (list A) :=
  match na with
  | [] => Ok output
  | (n, axis) :: r => do output <- np_roll shape output n axis; roll_loop shape output r
  end.
Definition roll_direct {A} (shape : list Z) (n axis : list Z) (input : list A) : res (list A) :=
  match n, axis with
  | n0 :: n, a0 :: axis => do output <- np_roll shape input n0 a0; roll_loop shape output (combine n axis)
  | _, _ => Err IndexError
  end.
Definition roll_transpose {A} (shape : list Z) (n axis : list Z) (input : list A) : res (list A) :=
  match n, axis with
  | n0 :: n, a0 :: axis => do output <- np_roll shape input (- n0) a0; roll_loop shape output (combine (map Z.opp n) axis)
  | _, _ => Err IndexError
  end.
