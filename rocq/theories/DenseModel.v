(** Products by an operand on either side of a matrix (sparse.py 182-199, 505-512,
    650-658), dense forms and input shapes of the operators (sparse.py 840-856, 865-870).

    The method [todense] of the parent class (pyoperators) is written as its documentation
    says: column j is the operator applied to the j-th vector of the canonical basis. *)
From Verif Require Import Base SparseModel SparseOpModel.
Open Scope nat_scope.

Section Dense.
Context {K : Type} (o : ops K).
Variable flib : bool.
Variable sched : list (list (act K)) -> list (nat * act K).

(** ** Products.  [None]: Python's NotImplemented. *)
Inductive operand := Scalar (k : K) | Vector (v : list K) | Array (ndim : nat).
Inductive product := PMatrix (M : matrix K) | PVector (v : option (list K)).

Definition mul (M : matrix K) (x : operand) : res (option product) :=
  match x with
  | Scalar k => Ok (Some (PMatrix (scale o M k)))
  | Vector v => do r <- matvec o flib sched M v None; Ok (Some (PVector r))
  | Array _ => Ok None
  end.

Definition rmul (M : matrix K) (x : operand) : res (option product) :=
  match x with
  | Scalar k => mul M (Scalar k)
  | Vector v => mul (transpose M) (Vector v)
  | Array _ => Ok None
  end.

(** ** Dense form: a list of rows. *)
Definition unit_vector (n j : nat) : list K := map (fun i => if Nat.eqb i j then k1 o else k0 o) (seq 0 n).

Definition column (M : matrix K) (n m j : nat) : res (list K) :=
  match direct o flib sched M (unit_vector n j) (repeat (k0 o) m) Assign with
  | Ok (Some c) => Ok c
  | Ok None => Err RuntimeError   (* access outside of an array *)
  | Err e => Err e
  end.

(** The parent's [todense(shapein=shapein)]; its output shape is [reshapein(shapein)]. *)
Definition base_todense (S : sop K) (shapein : list nat) : res (list (list K)) :=
  match reshapein S shapein with
  | None => Err ValueError
  | Some shapeout =>
      let n := prodn shapein in
      let m := prodn shapeout in
      do cols <- map_res (column (so_mx S) n m) (seq 0 n);
      Ok (map (fun i => map (fun c => nth i c (k0 o)) cols) (seq 0 m))
  end.

(** [np.kron] and [np.eye]. *)
Definition kron (A B : list (list K)) : list (list K) :=
  flat_map (fun ra => map (fun rb => flat_map (fun a => map (kmul o a) rb) ra) B) A.
Definition eye (n : nat) : list (list K) := map (unit_vector n) (seq 0 n).

(** sparse.py 840-856, for an explicit input shape. *)
Definition todense (S : sop K) (shapein : list nat) : res (list (list K)) :=
  if Nat.eqb (mx_cols (so_mx S)) 0 then Err ZeroDivisionError else
  let extra := prodn shapein / mx_cols (so_mx S) in                       (* 847 *)
  let implicit := match so_in S with None => true | Some _ => false end in
  if implicit && Nat.ltb 1 extra then                                     (* 848 *)
    do out <- base_todense S (removelast shapein);                        (* 849, 853 *)
    Ok (kron out (eye extra))                                             (* 855 *)
  else base_todense S shapein.

(** [reshapeout], sparse.py 865-870. *)
Definition reshapeout (S : sop K) (shape : list nat) : option (list nat) :=
  match mx_kind (so_mx S) with
  | KScalar => Some (so_bin S ++ skipn (length (so_bout S)) shape)
  | _ => so_in S
  end.
End Dense.

Arguments operand K : clear implicits.
Arguments product K : clear implicits.

(** [_reshapeout] of the matrices, sparse.py 210-214. *)
Definition reshapeout_mx (rows cols : nat) (shape : list nat) : res (list nat) :=
  if Nat.eqb rows 0 then Err ZeroDivisionError
  else let e := prodn shape / rows in
       if Nat.ltb 1 e then Ok [cols; e]
       else match rev shape with
            | [] => Err IndexError
            | l :: _ => if Nat.eqb l 1 then Ok [cols; e] else Ok [cols]
            end.
