(** Distributed packed tables, src/pysimulators/packedtables/core.py.
    A distributed value is the list of its local values in rank order; every rank runs the
    same program, so one collective call is one step on these lists. *)
From Coq Require Import String.
From Verif Require Import Base PTModel.

Section Mpi.
Variable A : Type.

(** Lines 452-483, [scatter] of a table with comm.size = 1 on m ranks.  The array
    attributes are copied (476-481), which does not change their values. *)
Definition scatter (t : table A) (m : Z) : res (list (table A)) :=
  if m =? 1 then Ok [t]                                                  (* 466-467 *)
  else do n <- t_len t;
       map_res (fun r => getitem t (SelSlice (split_slice n m r))) (iota m).

(** Lines 520-528: the receive counts are those of [split(ntot, comm.size)]. *)
Definition split_counts (n m : Z) : list Z :=
  map (fun r => split_start n m (r + 1) - split_start n m r) (iota m).

(** Lines 507-518, [func]: Allgatherv.  MPI requires that rank r contributes exactly
    counts[r] elements. *)
Definition allgatherv {B} (counts : list Z) (xs : list (list B)) : res (list B) :=
  if list_eqb (map zlen xs) counts then Ok (concat xs) else Err RuntimeError.

Definition gather_ntot (ts : list (table A)) : res Z :=                  (* 520-521 *)
  do ns <- map_res t_len ts; Ok (sumZ ns).

(** Lines 530-531, [table.gather(array)]. *)
Definition gather_array {B} (ts : list (table A)) (xs : list (list B)) : res (list B) :=
  do n <- gather_ntot ts; allgatherv (split_counts n (zlen ts)) xs.

(** Local part of an attribute; a rank without it would not enter the collective. *)
Definition local_rows (k : string) (t : table A) : res (list A) :=
  match assoc k (t_attrs t) with Some (AtArr l) => Ok l | _ => Err RuntimeError end.

Fixpoint gather_attrs (ts : list (table A)) (n : Z) (l : list (string * attr A))
  : res (list (string * attr A)) :=
  match l with                                                           (* 539-547 *)
  | [] => Ok []
  | (k, v) :: r =>
      do v' <- match v with
               | AtArr _ =>
                   do xs <- map_res (local_rows k) ts;
                   do y <- allgatherv (split_counts n (zlen ts)) xs;
                   if zlen y =? n then Ok (AtArr y) else Err ValueError  (* setattr *)
               | other => Ok other
               end;
      do r' <- gather_attrs ts n r; Ok ((k, v') :: r')
  end.

(** Lines 485-548, [table.gather()]: the global table held by each rank. *)
Definition gather (ts : list (table A)) : res (list (table A)) :=
  do n <- gather_ntot ts;
  do ls <- map_res t_indices ts;
  do l <- allgatherv (split_counts n (zlen ts)) ls;                      (* 536-538 *)
  map_res (fun t => do attrs <- gather_attrs ts n (t_attrs t);
                    Ok (Table (t_shape t) (normalize_int_selection l (t_size t)) attrs)) ts.

(** Lines 564-648, [unpack] with comm.size > 1.  [pieces] are the (index, x) pairs received
    by the allgather of line 643, in the order in which they are written. *)
Definition check_packed (t : table A) (x : list A) : res unit :=         (* 603-607 *)
  do n <- t_len t;
  if (zlen x =? 1) || (zlen x =? n) then Ok tt else Err ValueError.

Fixpoint write_pieces (out : list A) (pieces : list (table A * list A)) : res (list A) :=
  match pieces with                                                      (* 644-645 *)
  | [] => Ok out
  | (t, x) :: r => do pos <- unpack_positions t; do out' <- np_assign out pos x; write_pieces out' r
  end.

Definition unpack_rank (t : table A) (pieces : list (table A * list A)) (missing : A) (garbage : list A)
  : res (list A) :=
  do n <- t_len t;
  let out := if n <? t_size t then repeat missing (Z.to_nat (t_size t)) else garbage in
  write_pieces out pieces.

(** What every rank obtains; [order] is the order in which the pieces are written. *)
Definition unpack_dist (ts : list (table A)) (order : list (table A * list A)) (missing : A)
    (garbage : list A) : res (list (list A)) :=
  do _ <- map_res (fun p => check_packed (fst p) (snd p)) order;
  map_res (fun t => unpack_rank t order missing garbage) ts.

End Mpi.
Arguments scatter {A} t m. Arguments gather_ntot {A} ts. Arguments gather_array {A B} ts xs.
Arguments local_rows {A} k t. Arguments gather_attrs {A} ts n l. Arguments gather {A} ts.
Arguments check_packed {A} t x. Arguments write_pieces {A} out pieces.
Arguments unpack_rank {A} t pieces missing garbage.
Arguments unpack_dist {A} ts order missing garbage.
