(** Model of the derived units that are arrays: src/pysimulators/quantities.py,
    Quantity.inunit (lines 1028-1080), Quantity.SI (1082-1123), _check_du (1208-1224),
    _get_du and _check_in_du (1227-1252), which UnitModel.v treats for scalars.

    An array is its shape and its element at each index; products broadcast as NumPy's.
    An entry of a table of derived units has a name (and a power), a direction and a
    quantity; keys 'name[leftward]' and 'name' are leftward, 'name[rightward]' is
    rightward (1243-1252).  The entries that are functions are not modelled (see
    AreaModel.v), nor are headers. *)
From Coq Require Import String Ascii QArith Qcanon.
From Verif Require Import Base TemplateModel UnitModel.
Open Scope nat_scope.

Section Bu.
Context {K : Type} (o : mag_ops K).

Record nd := Nd { nsh : list Z; nval : list Z -> K }.

(** Broadcasting of shapes, from the last axis. *)
Fixpoint bcast (a b : list Z) : res (list Z) :=
  match a, b with
  | [], _ => Ok b
  | _, [] => Ok a
  | x :: a', y :: b' =>
      do r <- bcast a' b';
      if (x =? y)%Z then Ok (x :: r) else if (x =? 1)%Z then Ok (y :: r)
      else if (y =? 1)%Z then Ok (x :: r) else Err ValueError
  end.
Definition bshape (a b : list Z) : res (list Z) := do r <- bcast (rev a) (rev b); Ok (rev r).
(** The element of a broadcast array at an index of the result: the last axes, the axes of
    one element being repeated. *)
Fixpoint clamp (s idx : list Z) : list Z :=
  match s, idx with d :: s', i :: r => (if (d =? 1)%Z then 0%Z else i) :: clamp s' r | _, _ => [] end.
Definition elem (x : nd) (idx : list Z) : K := nval x (rev (clamp (rev (nsh x)) (rev idx))).
Definition nmul (x y : nd) : res nd :=
  do s <- bshape (nsh x) (nsh y); Ok (Nd s (fun idx => mmul o (elem x idx) (elem y idx))).
Definition transpose (x : nd) : nd := Nd (rev (nsh x)) (fun idx => nval x (rev idx)).
(** (x.T * y.T).T *)
Definition tmul (x y : nd) : res nd := do z <- nmul (transpose x) (transpose y); Ok (transpose z).
Definition nmap (f : K -> K) (x : nd) : nd := Nd (nsh x) (fun idx => f (nval x idx)).
Definition scalar (a : K) : nd := Nd [] (fun _ => a).

Inductive dir := Leftward | Rightward.
Definition nquantity := (nd * unit_)%type.
Definition nd_table := list (du_key * dir * option nquantity).

Fixpoint nd_find (t : nd_table) (k : du_key) : option (option (nquantity * dir)) :=
  match t with
  | [] => None
  | (k', d, q) :: r =>
      if du_key_eqb k' k then Some (match q with Some x => Some (x, d) | None => None end) else nd_find r k
  end.

(** _check_du before the final SI. *)
Definition ncheck_du (t : nd_table) (k : text) (v : Qc) : option (nquantity * dir) :=
  match t with
  | [] => None                                                          (* 1209-1210 *)
  | _ =>
      match nd_find t (k, Some v) with
      | Some r => r                                                     (* 1211-1213 *)
      | None =>
          match nd_find t (k, Some (- v)%Qc) with
          | Some None => None
          | Some (Some (x, u, d)) => Some (nmap (minv o) x, divide_unit [] u, d)   (* 1214-1216 *)
          | None =>
              match nd_find t (k, None) with
              | Some (Some (x, u, d)) =>
                  if Qc_eqb v 1%Qc then Some (x, u, d)                  (* 1220-1221 *)
                  else if Qc_eqb v (- (1))%Qc
                  then Some (nmap (minv o) x, divide_unit [] u, d)      (* 1222-1223 *)
                  else Some (nmap (fun m => mpow o m v) x, power_unit u v, d)      (* 1224 *)
              | _ => None
              end
          end
      end
  end.

(** The derived unit of a name: the local one, else the global one (1102-1107). *)
Definition new_factor (loc glob : nd_table) (k : text) (v : Qc) : option (nquantity * dir) :=
  match ncheck_du loc k v with Some x => Some x | None => ncheck_du glob k v end.

(** SI: two products are kept, fslow and ffast. *)
Definition step (f : nquantity -> res nquantity) (loc glob : nd_table)
    (acc : res (nquantity * nquantity)) (kv : text * Qc) : res (nquantity * nquantity) :=
  do a <- acc;
  let '(slow, fast) := a in
  match new_factor loc glob (fst kv) (snd kv) with
  | None => Ok ((fst slow, mul1 (snd slow) (fst kv) (snd kv)), fast)    (* 1110-1112 *)
  | Some (q, Leftward) =>                                               (* 1115-1116 *)
      do d <- f q; do m <- nmul (fst slow) (fst d);
      Ok ((m, multiply_unit (snd slow) (snd d)), fast)
  | Some (q, Rightward) =>                                              (* 1117-1118 *)
      do d <- f q; do m <- tmul (fst fast) (fst d);
      Ok (slow, (m, multiply_unit (snd fast) (snd d)))
  end.
Fixpoint nsi (fuel : nat) (loc glob : nd_table) (q : nquantity) : res nquantity :=
  match fuel with
  | O => Err RuntimeError
  | S n =>
      match snd q with
      | [] => Ok q                                                      (* 1094-1095 *)
      | _ =>
          do a <- fold_left (step (nsi n loc glob) loc glob) (snd q)
                    (Ok ((scalar (m1 o), []), (scalar (m1 o), [])));    (* 1097-1118 *)
          do r <- nmul (fst q) (fst (fst a));                           (* 1120 *)
          do r2 <- tmul r (fst (snd a));                                (* 1121 *)
          Ok (r2, multiply_unit (snd (fst a)) (snd (snd a)))            (* 1122 *)
      end
  end.

(** inunit: the factor is the quotient of the SI values of 1; it multiplies the array in
    place, along its first axes. *)
Definition nconvert (fuel : nat) (loc glob : nd_table) (x : nquantity) (new : unit_) : res nquantity :=
  match snd x, new with
  | [], _ | _, [] => Ok (fst x, new)                                    (* 1048-1050 *)
  | _, _ =>
      do q1 <- nsi fuel loc glob (scalar (m1 o), snd x);                (* 1064 *)
      do q2 <- nsi fuel loc glob (scalar (m1 o), new);                  (* 1065 *)
      if negb (dict_eqb (snd q1) (snd q2)) then Err UnitError           (* 1067-1074 *)
      else
        do f <- nmul (fst q1) (nmap (minv o) (fst q2));                 (* 1075 *)
        do r <- (match nsh (fst x) with
                 | [] => nmul (fst x) f                                 (* 1076-1077 *)
                 | _ => tmul (fst x) f                                  (* 1079 *)
                 end);
        if list_eq_dec Z.eq_dec (nsh r) (nsh (fst x)) then Ok (r, new)              (* 1080 *)
        else Err ValueError                (* the output has not the shape of the product *)
  end.
End Bu.
Arguments nd : clear implicits. Arguments nquantity : clear implicits. Arguments nd_table : clear implicits.
