(** C92: back projection and coverage, operators.py: ProjectionOperator.pTx_pT1 (1124-1196).

    The compiled kernels are never generated (C46_missing_kernels_refuted): the Python branch 1189-1194.  Types of
    numbers are not modelled.  [junk]: content of the arrays that [empty] allocates. *)
From Verif Require Import Base SparseModel SparseOpModel.
Open Scope nat_scope.

Section Op.
Context {K : Type} (o : ops K).
Definition pTx flib sched (S : sop K) (x out : list K) (op : reduction) : res (option (list K)) :=
  let M := so_mx S in
  match mx_kind M with
  | KScalar => direct o flib sched (transpose M) x out op
  | _ =>
      do t <- matvec o flib sched (transpose M) x None;
      Ok (match t with
          | None => None
          | Some t =>
              if Nat.eqb (snd (mx_bs M)) 1
              then Some (fill o op out (repeat (nth 0 t (k0 o)) (length out)))
              else Some (fill o op out (firsts o (length out) (snd (mx_bs M)) t))
          end)
  end.
(** 1137-1142: the shape of the argument. *)
Definition shape_of_x (S : sop K) : list nat :=
  match so_out S with
  | Some s => s
  | None => let b := snd (mx_bs (so_mx S)) in mx_rows (so_mx S) :: (if Nat.eqb b 1 then [] else [b])
  end.
(** 1143-1147 *)
Definition shape_of_map (S : sop K) : list nat :=
  match so_in S with
  | None => [mx_cols (so_mx S)]
  | Some s => if Nat.ltb 1 (snd (mx_bs (so_mx S))) then removelast s else s
  end.
Fixpoint same_shape (a b : list nat) : bool :=
  match a, b with [], [] => true | x :: a, y :: b => Nat.eqb x y && same_shape a b | _, _ => false end.
(** [out]: the two arrays and their shapes. *)
Definition pTx_pT1 flib sched norm (junk : nat -> list K) (S : sop K) (xshape : list nat) (x : list K) (out : option (list nat * list nat * (list K * list K))) (op : reduction)
  : res (option (list K * list K)) :=
  match mx_kind (so_mx S) with
  | KRot2 => Err NotImplementedError
  | _ =>
    if negb (same_shape xshape (shape_of_x S)) then Err ValueError else
    do arrays <- match out with
                 | None => Ok (junk (prodn (shape_of_map S)), junk (prodn (shape_of_map S)))
                 | Some (s1, s2, a) => if same_shape s1 (shape_of_map S) && same_shape s2 (shape_of_map S) then Ok a else Err ValueError
                 end;
    match op with
    | OtherOp => Err ValueError
    | _ =>
      do h <- pT1 o flib sched norm S (snd arrays) op;
      do t <- pTx flib sched S x (fst arrays) op;
      Ok (match h, t with Some h, Some t => Some (t, h) | _, _ => None end)
    end
  end.
End Op.
