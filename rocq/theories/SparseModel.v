(** Fixed-sparse matrices: storage, Fortran kernels (as sequences of memory actions
    executed by OpenMP loop iterations), NumPy fallbacks and the Python layer.

    Numbers belong to any type with the operations [ops]; no law is assumed here.
    Simplifications: no rounding, no dtype conversion; a stored record always has
    the number of values its dtype prescribes, so reading inside a record cannot be
    out of bounds. *)
From Verif Require Import Base.
Open Scope nat_scope.

(** ** Numbers *)
Record ops (K : Type) := Ops { k0 : K; k1 : K; kadd : K -> K -> K; kmul : K -> K -> K; kopp : K -> K }.
Arguments k0 {K} o. Arguments k1 {K} o. Arguments kadd {K} o. Arguments kmul {K} o. Arguments kopp {K} o.

(** One stored element: index of the sparse axis (negative: unused) and the values
    of the record in memory order (sparse.py 240-241, 432-433, 479-480, 521-522,
    641-642; module_pointingmatrix.f90 70-295). *)
Record elt (K : Type) := Elt { e_idx : Z; e_val : list K }.
Arguments Elt {K}. Arguments e_idx {K}. Arguments e_val {K}.

(** Element formats. [Hom e]: scalar times the identity of size e (e = 1: plain
    sparse matrix); [Blk m n]: records PointingElementBlock_m_n; [Rot2], [Rot3]. *)
Inductive fmt := Hom (e : nat) | Blk (m n : nat) | Rot2 | Rot3.

(** Output/input block sizes of the row format (exchanged for the column format). *)
Definition frow (f : fmt) : nat := match f with Hom e => e | Blk m _ => m | Rot2 => 2 | Rot3 => 3 end.
Definition fcol (f : fmt) : nat := match f with Hom e => e | Blk _ n => n | Rot2 => 2 | Rot3 => 3 end.

(** ** Memory actions and their execution.
    OpenMP [parallel do]: the iterations are executed by an unknown number of
    threads.  [Atomic]: an [!$omp atomic] update or an [!$omp critical] section,
    [output(c) = output(c) + t1 + t2 ...] for each listed cell, indivisible.
    An unprotected statement [output(c) = output(c) + t1 + ...] is a [Read] into a
    private register followed by a [Write]; other iterations may act in between. *)
Inductive act (K : Type) :=
| Atomic (ups : list (nat * list K))
| Read (c : nat)
| Write (c : nat) (ts : list K).
Arguments Atomic {K}. Arguments Read {K}. Arguments Write {K}.

Section Kernels.
Context {K : Type} (o : ops K).
Local Notation "a + b" := (kadd o a b).
Local Notation "a * b" := (kmul o a b).
Local Notation "- a" := (kopp o a).

(** x + t1 + t2 + ..., from left to right. *)
Definition addl (x : K) (ts : list K) : K := fold_left (kadd o) ts x.

(** [None]: access outside of the array. *)
Definition update (mem : list K) (c : nat) (g : K -> K) : option (list K) :=
  match nth_error mem c with Some x => Some (set_nth mem c (g x)) | None => None end.

Fixpoint updates (mem : list K) (ups : list (nat * list K)) : option (list K) :=
  match ups with
  | [] => Some mem
  | (c, ts) :: r =>
      match update mem c (fun x => addl x ts) with Some m => updates m r | None => None end
  end.

Definition set_reg (reg : nat -> K) (i : nat) (x : K) : nat -> K :=
  fun j => if Nat.eqb j i then x else reg j.

(** One action of iteration i. *)
Definition step (i : nat) (a : act K) (st : list K * (nat -> K)) : option (list K * (nat -> K)) :=
  let '(mem, reg) := st in
  match a with
  | Atomic ups => match updates mem ups with Some m => Some (m, reg) | None => None end
  | Read c => match nth_error mem c with Some x => Some (mem, set_reg reg i x) | None => None end
  | Write c ts =>
      match update mem c (fun _ => addl (reg i) ts) with Some m => Some (m, reg) | None => None end
  end.

Fixpoint run (tr : list (nat * act K)) (st : list K * (nat -> K)) : option (list K * (nat -> K)) :=
  match tr with
  | [] => Some st
  | (i, a) :: r => match step i a st with Some st' => run r st' | None => None end
  end.

(** The final content of the output array. *)
Definition exec (tr : list (nat * act K)) (mem : list K) : option (list K) :=
  option_map fst (run tr (mem, fun _ => k0 o)).

(** Iterations one after the other. *)
Fixpoint tag (i : nat) (its : list (list (act K))) : list (nat * act K) :=
  match its with [] => [] | l :: r => map (pair i) l ++ tag (S i) r end.
Definition in_order (its : list (list (act K))) : list (nat * act K) := tag 0 its.

(** ** Statements of the kernels.
    [V k]: k-th value of the record; [X q]: q-th component (from 0) of the input
    block; the result lists, for each output component, the terms added to it. *)

(** Fortran [value(a,b)] of PointingElementBlock_m_n, declared value(n,m):
    module_pointingmatrix.f90 96-255. *)
Definition fval (n : nat) (V : nat -> K) (a b : nat) : K := V ((a - 1) + (b - 1) * n)%nat.

(** FSR: sparse.f90.j2 185-227 (scalar), 230-273 (homothety), 360-393 (rot2d),
    396-432 (rot3d); module_operators.f90.j2 222-432 (blocks), selected by
    sparse.f90.j2 318-357 (other block shapes: no call). *)
Definition fsr_stmts (f : fmt) (V X : nat -> K) : list (list K) :=
  match f with
  | Hom e => map (fun p => [V 0 * X p]) (seq 0 e)
  | Rot2 => [ [V 0 * X 0; - (V 1 * X 1)];
              [V 1 * X 0; V 0 * X 1] ]
  | Rot3 => [ [V 0 * X 0];
              [V 1 * X 1; - (V 2 * X 2)];
              [V 2 * X 1; V 1 * X 2] ]
  | Blk 1 2 => let v := fval 2 V in [ [v 1 1 * X 0; v 2 1 * X 1] ]
  | Blk 1 3 => let v := fval 3 V in [ [v 1 1 * X 0; v 2 1 * X 1; v 3 1 * X 2] ]
  | Blk 2 1 => let v := fval 1 V in [ [v 1 1 * X 0]; [v 1 2 * X 0] ]
  | Blk 2 2 => let v := fval 2 V in [ [v 1 1 * X 0; v 2 1 * X 1];
                                       [v 1 2 * X 0; v 2 2 * X 1] ]
  | Blk 2 3 => let v := fval 3 V in [ [v 1 1 * X 0; v 2 1 * X 1; v 3 1 * X 2];
                                       [v 1 2 * X 0; v 2 2 * X 1; v 3 2 * X 2] ]
  | Blk 3 1 => let v := fval 1 V in [ [v 1 1 * X 0]; [v 1 2 * X 0]; [v 1 3 * X 0] ]
  | Blk 3 2 => let v := fval 2 V in [ [v 1 1 * X 0; v 2 1 * X 1];
                                       [v 1 2 * X 0; v 2 2 * X 1];
                                       [v 1 3 * X 0; v 2 3 * X 1] ]
  | Blk 3 3 => let v := fval 3 V in [ [v 1 1 * X 0; v 2 1 * X 1; v 3 1 * X 2];
                                       [v 1 2 * X 0; v 2 2 * X 1; v 3 2 * X 2];
                                       [v 1 3 * X 0; v 2 3 * X 1; v 3 3 * X 2] ]
  | Blk _ _ => []
  end.

(** FSC: sparse.f90.j2 16-59 (scalar), 62-105 (homothety), 108-142 (rot2d),
    145-182 (rot3d); module_operators.f90.j2 13-220 (blocks), selected by
    sparse.f90.j2 276-315. *)
Definition fsc_stmts (f : fmt) (V X : nat -> K) : list (list K) :=
  match f with
  | Hom e => map (fun p => [V 0 * X p]) (seq 0 e)
  | Rot2 => [ [V 0 * X 0 + V 1 * X 1];
              [- (V 1 * X 0) + V 0 * X 1] ]
  | Rot3 => [ [V 0 * X 0];
              [V 1 * X 1 + V 2 * X 2];
              [- (V 2 * X 1) + V 1 * X 2] ]
  | Blk 1 2 => let v := fval 2 V in [ [v 1 1 * X 0]; [v 2 1 * X 0] ]
  | Blk 1 3 => let v := fval 3 V in [ [v 1 1 * X 0]; [v 2 1 * X 0]; [v 3 1 * X 0] ]
  | Blk 2 1 => let v := fval 1 V in [ [v 1 1 * X 0; v 1 2 * X 1] ]
  | Blk 2 2 => let v := fval 2 V in [ [v 1 1 * X 0; v 1 2 * X 1];
                                       [v 2 1 * X 0; v 2 2 * X 1] ]
  | Blk 2 3 => let v := fval 3 V in [ [v 1 1 * X 0; v 1 2 * X 1];
                                       [v 2 1 * X 0; v 2 2 * X 1];
                                       [v 3 1 * X 0; v 3 2 * X 1] ]
  | Blk 3 1 => let v := fval 1 V in [ [v 1 1 * X 0; v 1 2 * X 1; v 1 3 * X 2] ]
  | Blk 3 2 => let v := fval 2 V in [ [v 1 1 * X 0; v 1 2 * X 1; v 1 3 * X 2];
                                       [v 2 1 * X 0; v 2 2 * X 1; v 2 3 * X 2] ]
  | Blk 3 3 => let v := fval 3 V in [ [v 1 1 * X 0; v 1 2 * X 1; v 1 3 * X 2];
                                       [v 2 1 * X 0; v 2 2 * X 1; v 2 3 * X 2];
                                       [v 3 1 * X 0; v 3 2 * X 1; v 3 3 * X 2] ]
  | Blk _ _ => []
  end.

(** Whether the column kernel protects each statement by its own [atomic] (scalar,
    rotations) or the whole block by one [critical] section (homothety, blocks). *)
Definition fsc_separate (f : fmt) : bool :=
  match f with Hom e => Nat.eqb e 1 | Rot2 | Rot3 => true | Blk _ _ => false end.

(** Values of a record and of an input block. *)
Definition vals (e : elt K) : nat -> K := fun k => nth k (e_val e) (k0 o).
Definition comps (x : list K) (b i : nat) : nat -> K := fun q => nth (i * b + q)%nat x (k0 o).

(** Cells of block k of the output, block size b, with their terms. *)
Fixpoint cells (base : nat) (ss : list (list K)) : list (nat * list K) :=
  match ss with [] => [] | s :: r => (base, s) :: cells (S base) r end.

Definition fsr_elt_acts (f : fmt) (i : nat) (V X : nat -> K) : list (act K) :=
  flat_map (fun ct => [Read (fst ct); Write (fst ct) (snd ct)]) (cells (i * frow f)%nat (fsr_stmts f V X)).

Definition fsc_elt_acts (f : fmt) (k : nat) (V X : nat -> K) : list (act K) :=
  let cs := cells (k * fcol f)%nat (fsc_stmts f V X) in
  if fsc_separate f then map (fun ct => Atomic [ct]) cs else [Atomic cs].

Fixpoint concat_opt {A} (l : list (option (list A))) : option (list A) :=
  match l with
  | [] => Some []
  | Some a :: r => match concat_opt r with Some b => Some (a ++ b) | None => None end
  | None :: _ => None
  end.

Fixpoint all_opt {A} (l : list (option A)) : option (list A) :=
  match l with
  | [] => Some []
  | Some a :: r => match all_opt r with Some b => Some (a :: b) | None => None end
  | None :: _ => None
  end.

(** [if (col < 0) cycle]; an index beyond the array is an invalid access. *)
Definition guarded {A} (idx : Z) (n : nat) (acts : nat -> list A) : option (list A) :=
  if (idx <? 0)%Z then Some []
  else if (idx <? Z.of_nat n)%Z then Some (acts (Z.to_nat idx)) else None.

(** Iteration i of the row kernels: loop j over the elements of row i. *)
Definition fsr_iter (f : fmt) (ninput : nat) (x : list K) (i : nat) (row : list (elt K)) : option (list (act K)) :=
  concat_opt (map (fun e => guarded (e_idx e) ninput
                              (fun c => fsr_elt_acts f i (vals e) (comps x (fcol f) c))) row).

(** Iteration i of the column kernels. *)
Definition fsc_iter (f : fmt) (noutput : nat) (x : list K) (i : nat) (row : list (elt K)) : option (list (act K)) :=
  concat_opt (map (fun e => guarded (e_idx e) noutput
                              (fun k => fsc_elt_acts f k (vals e) (comps x (frow f) i))) row).

Fixpoint mapi {A B} (g : nat -> A -> B) (i : nat) (l : list A) : list B :=
  match l with [] => [] | a :: r => g i a :: mapi g (S i) r end.

(** The actions of all iterations of a kernel ([None]: some access out of bounds). *)
Definition fsr_kernel (f : fmt) (ninput : nat) (data : list (list (elt K))) (x : list K) : option (list (list (act K))) :=
  all_opt (mapi (fsr_iter f ninput x) 0 data).
Definition fsc_kernel (f : fmt) (noutput : nat) (data : list (list (elt K))) (x : list K) : option (list (list (act K))) :=
  all_opt (mapi (fsc_iter f noutput x) 0 data).

(** ** NumPy fallbacks (index or value types without a compiled kernel).
    One term per output component; [np.sum]/[np.dot]/[einsum] are sums. *)
Definition ksum (l : list K) : K := fold_right (kadd o) (k0 o) l.

(** sparse.py 333-345 (scalar), 468-474 (block), 600-609 (rot2d), 752-762 (rot3d). *)
Definition py_fsr_term (f : fmt) (V X : nat -> K) (p : nat) : K :=
  match f with
  | Hom _ => V 0 * X p
  | Blk m n => ksum (map (fun q => V (p * n + q)%nat * X q) (seq 0 n))
  | Rot2 => match p with 0 => V 0 * X 0 + - (V 1 * X 1) | _ => V 1 * X 0 + V 0 * X 1 end
  | Rot3 => match p with
            | 0 => V 0 * X 0
            | 1 => V 1 * X 1 + - (V 2 * X 2)
            | _ => V 2 * X 1 + V 1 * X 2 end
  end.

(** sparse.py 279-292 (scalar), 419-427 (block), 560-568 (rot2d), 701-710 (rot3d). *)
Definition py_fsc_term (f : fmt) (V X : nat -> K) (p : nat) : K :=
  match f with
  | Hom _ => V 0 * X p
  | Blk m n => ksum (map (fun q => V (q * n + p)%nat * X q) (seq 0 m))
  | Rot2 => match p with 0 => V 0 * X 0 + V 1 * X 1 | _ => - (V 1 * X 0) + V 0 * X 1 end
  | Rot3 => match p with
            | 0 => V 0 * X 0
            | 1 => V 1 * X 1 + V 2 * X 2
            | _ => - (V 2 * X 1) + V 1 * X 2 end
  end.

(** Row i: [b = b[b.index >= 0]]; [out_[i] += sum over b]. *)
Definition py_fsr_iter (f : fmt) (ninput : nat) (x : list K) (i : nat) (row : list (elt K)) : option (list (act K)) :=
  let used := filter (fun e => (0 <=? e_idx e)%Z) row in
  if forallb (fun e => (e_idx e <? Z.of_nat ninput)%Z) used then
    Some [Atomic (cells (i * frow f)%nat
       (map (fun p => [ksum (map (fun e => py_fsr_term f (vals e) (comps x (fcol f) (Z.to_nat (e_idx e))) p) used)])
            (seq 0 (frow f))))]
  else None.

Definition py_fsc_iter (f : fmt) (noutput : nat) (x : list K) (i : nat) (row : list (elt K)) : option (list (act K)) :=
  concat_opt (map (fun e => guarded (e_idx e) noutput
     (fun k => [Atomic (cells (k * fcol f)%nat
        (map (fun p => [py_fsc_term f (vals e) (comps x (frow f) i) p]) (seq 0 (fcol f))))])) row).

Definition py_fsr_kernel f ninput data x := all_opt (mapi (py_fsr_iter f ninput x) 0 data).
Definition py_fsc_kernel f noutput data x := all_opt (mapi (py_fsc_iter f noutput x) 0 data).

(** ** Python layer *)
Inductive axis := FSC | FSR.
Inductive kind := KScalar | KBlock | KRot2 | KRot3.

(** State of a matrix object after [__init__] (sparse.py 105-110). *)
Record matrix := Matrix {
  mx_axis : axis; mx_kind : kind;
  mx_rows : nat; mx_cols : nat;            (* self.shape *)
  mx_bs : nat * nat;                       (* self.block_shape *)
  mx_data : list (list (elt K));           (* self.data, leading dimensions flattened *)
}.

(** The element format used by a product with [extra] broadcast columns: the class
    chooses the record type; a column matrix of block shape (n, m) stores the
    records of a row matrix of block shape (m, n) (sparse.py 404, 432-433, 453). *)
Definition fmt_of (M : matrix) (extra : nat) : fmt :=
  match mx_kind M with
  | KScalar => Hom extra
  | KBlock => match mx_axis M with
              | FSR => Blk (fst (mx_bs M)) (snd (mx_bs M))
              | FSC => Blk (snd (mx_bs M)) (fst (mx_bs M))
              end
  | KRot2 => Rot2
  | KRot3 => Rot3
  end.

(** sparse.py 216-226. *)
Definition validatein (M : matrix) (size : nat) : res unit :=
  match mx_kind M with
  | KScalar => if Nat.eqb (mx_cols M) 0 then Err ZeroDivisionError
               else if Nat.eqb (size mod mx_cols M) 0 then Ok tt else Err ValueError
  | _ => if Nat.eqb size (mx_cols M) then Ok tt else Err ValueError
  end.

(** sparse.py 228-238. *)
Definition validateout (M : matrix) (size : nat) : res unit :=
  match mx_kind M with
  | KScalar => if Nat.eqb (mx_rows M) 0 then Err ZeroDivisionError
               else if Nat.eqb (size mod mx_rows M) 0 then Ok tt else Err ValueError
  | _ => if Nat.eqb size (mx_rows M) then Ok tt else Err ValueError
  end.

(** v.size * self.shape[0] // self.shape[1], sparse.py 117, 124. *)
Definition outsize (M : matrix) (size : nat) : res nat :=
  if Nat.eqb (mx_cols M) 0 then Err ZeroDivisionError
  else Ok ((size * mx_rows M) / mx_cols M)%nat.

(** Number of broadcast columns, sparse.py 160-163 (used by the scalar formats). *)
Definition extra_size (M : matrix) (size : nat) : nat :=
  match mx_kind M with KScalar => (size / mx_cols M)%nat | _ => 1%nat end.

(** Kernel called by [_matvec]: compiled (sparse.py 159-178) or fallback. *)
Definition kernel_of (flib : bool) (M : matrix) (v : list K) : option (list (list (act K))) :=
  let f := fmt_of M (extra_size M (length v)) in
  match mx_axis M with
  | FSR =>
      let ninput := (mx_cols M / snd (mx_bs M))%nat in
      (if flib then fsr_kernel else py_fsr_kernel) f ninput (mx_data M) v
  | FSC =>
      let noutput := (mx_rows M / fst (mx_bs M))%nat in
      (if flib then fsc_kernel else py_fsc_kernel) f noutput (mx_data M) v
  end.

(** A scheduler chooses an interleaving of the iterations; the fallbacks are
    sequential. *)
Definition trace_of (flib : bool) (sched : list (list (act K)) -> list (nat * act K)) its :=
  if flib then sched its else in_order its.

(** [_matvec], sparse.py 112-181 and the subclasses; contiguity and ndarray checks
    are not modelled.  The result is the final content of [out] ([None]: a compiled
    kernel accessed memory out of bounds; in the fallbacks NumPy would raise). *)
Definition matvec (flib : bool) (sched : list (list (act K)) -> list (nat * act K))
    (M : matrix) (v : list K) (out : option (list K)) : res (option (list K)) :=
  do _ <- validatein M (length v);
  do n <- outsize M (length v);
  do buf <- match out with
            | None => Ok (repeat (k0 o) n)
            | Some b =>
                if Nat.eqb (length b) n then (do _ <- validateout M (length b); Ok b)
                else Err ValueError
            end;
  Ok (match kernel_of flib M v with
      | Some its => exec (trace_of flib sched its) buf
      | None => None
      end).

(** [_transpose], sparse.py 295, 349, 430, 477, 571, 612, 713, 765 followed by the
    constructor given the same data (which takes the block shape from the dtype,
    sparse.py 404, 453). *)
Definition transpose (M : matrix) : matrix :=
  Matrix (match mx_axis M with FSC => FSR | FSR => FSC end) (mx_kind M)
         (mx_cols M) (mx_rows M) (snd (mx_bs M), fst (mx_bs M)) (mx_data M).

(** [SparseOperator.direct], sparse.py 833-838.  [operation]: assignment, in-place
    addition or another reduction. *)
Inductive reduction := Assign | IAdd | OtherOp.

Definition direct flib sched (M : matrix) (input output : list K) (op : reduction) : res (option (list K)) :=
  match op with
  | Assign => matvec flib sched M input (Some (repeat (k0 o) (length output)))
  | IAdd => matvec flib sched M input (Some output)
  | OtherOp => Err ValueError
  end.

(** [__mul__] by a scalar, sparse.py 183-187, 505-510, 650-656: every value field. *)
Definition scale (M : matrix) (k : K) : matrix :=
  Matrix (mx_axis M) (mx_kind M) (mx_rows M) (mx_cols M) (mx_bs M)
         (map (map (fun e => Elt (e_idx e) (map (fun v => v * k) (e_val e)))) (mx_data M)).

End Kernels.

Arguments matrix K : clear implicits.
Arguments Matrix {K}.

(** Interleavings of the action sequences of the iterations. *)
Inductive merge {A} : list (list A) -> list (nat * A) -> Prop :=
| merge_nil its : Forall (fun l => l = []) its -> merge its []
| merge_cons its i a r tr :
    nth_error its i = Some (a :: r) ->
    merge (set_nth its i r) tr ->
    merge its ((i, a) :: tr).
