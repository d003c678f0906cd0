(** The other computations of the kernel mask of a projection: canonical_basis_in_kernel_old
    (operators.py 949-1002, operators.f90.j2 12-88) and the fallback without compiled code it
    shares with canonical_basis_in_kernel (operators.py 1051-1060).

    Arrays are flattened; [nz v] is the test [v != 0].  Simplification: the operations on
    masks other than the assignment and the in-place product are given as functions. *)
From Verif Require Import Base SparseModel SparseOpModel.
Open Scope nat_scope.

Section Kern.
Context {K : Type} (o : ops K) (nz : K -> bool).

(** The test of an element: operators.py 994-999, operators.f90.j2 27, 52-53, 78.  Block
    matrices have no field r11. *)
Definition tested (k : kind) (e : elt K) : res bool :=
  let v := vals o e in
  match k with
  | KScalar => Ok (nz (v 0))
  | KRot2 => Ok (nz (v 0) || nz (v 1))
  | KRot3 => Ok (nz (v 0))
  | KBlock => Err AttributeError
  end.

(** ** Compiled code: each iteration of the parallel loop unsets cells of the mask. *)
Definition unset_iter (k : kind) (n : nat) (row : list (elt K)) : option (list nat) :=
  concat_opt (map (fun e =>
    if (e_idx e <? 0)%Z then Some []
    else match tested k e with
         | Ok true => if (e_idx e <? Z.of_nat n)%Z then Some [Z.to_nat (e_idx e)] else None
         | _ => Some []
         end) row).

Definition unset (cells : list (nat * nat)) (mask : list bool) : list bool :=
  fold_left (fun m c => set_nth m (snd c) false) cells mask.

(** ** [np.histogram(indices, n, range=(0, n))[0] == 0]: n bins of width one, the last one
    being closed on both sides. *)
Definition in_bin (n i : nat) (x : Z) : bool :=
  ((Z.of_nat i <=? x) && ((x <? Z.of_nat i + 1) || ((x =? Z.of_nat n) && (Z.of_nat i + 1 =? Z.of_nat n))))%Z.
Definition empty_bins (indices : list Z) (n : nat) : res (list bool) :=
  if Nat.eqb n 0 then Err ValueError
  else Ok (map (fun i => negb (existsb (in_bin n i) indices)) (seq 0 n)).

Definition fallback (k : kind) (data : list (list (elt K))) (n : nat) : res (list bool) :=
  do ts <- map_res (fun e => do t <- tested k e; Ok (t, e_idx e)) (concat data);
  empty_bins (map snd (filter fst ts)) n.

(** [operation(out, kernel)], the kernel having a single dimension of n entries. *)
Definition operate (op : kop) (shape : list nat) (out kernel : list bool) : res (list bool) :=
  let ok := match rev shape with [] => true | l :: _ => Nat.eqb l (length kernel) end in
  if ok then
    Ok (match op with
        | KAssign => kernel
        | KIand => map2 andb out kernel
        | KOther f => map2 f out kernel
        end)
  else Err ValueError.

(** The shape of the mask, operators.py 956-960. *)
Definition kernel_shape (S : sop K) : list nat :=
  match so_in S with
  | None => [mx_cols (so_mx S)]
  | Some s => if Nat.ltb 1 (snd (mx_bs (so_mx S))) then removelast s else s
  end.

(** operators.py 949-1002; [out]: previous content of the mask; [None]: access outside of it.
    [compiled]: the types of the indices and values have compiled code (no block has). *)
Definition kernel_old (compiled : bool) (sched : list (list nat) -> list (nat * nat)) (S : sop K)
    (out : list bool) (op : kop) : res (option (list bool)) :=
  let M := so_mx S in
  let shape := kernel_shape S in
  if Nat.eqb (length (concat (mx_data M))) 0 then
    (* the scalar True is broadcast *)
    Ok (Some (match op with
              | KAssign => repeat true (length out)
              | KIand => out
              | KOther f => map (fun b => f b true) out
              end))
  else if compiled && match mx_kind M with KBlock => false | _ => true end then
    let start := match op with KIand => out | _ => repeat true (length out) end in
    Ok (match all_opt (map (unset_iter (mx_kind M) (length out)) (mx_data M)) with
        | None => None
        | Some its =>
            let kernel := unset (sched its) start in
            Some (match op with KOther f => map2 f out kernel | _ => kernel end)
        end)
  else
    do kernel <- fallback (mx_kind M) (mx_data M) (prodn shape);
    do r <- operate op shape out kernel;
    Ok (Some r).
End Kern.
