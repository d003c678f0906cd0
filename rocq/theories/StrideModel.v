(** Arrays that are not contiguous: what reaches the output when the code reshapes or flattens it.
    wcsutils.py 692-745 (WCSToPixelOperator, WCSToWorldOperator), sparse.py 112-181 (_matvec) and
    941-986 (restrict), packedtables/core.py 605-648 (unpack), mpiutils.py 143-146,
    operators.py 636-668 (projections in memory), 733-757, 1075-1120 and 1124-1196 (pT1, pTx_pT1).

    An array is an origin in a memory and, for each axis, a size and a stride, in elements.  NumPy's
    reshape and ravel return a view when they can, and a copy otherwise: what is written in a copy
    does not reach the memory.  Not modelled: types, the transforms, the kernels and the
    renumbering themselves, which are parameters here. *)
From Coq Require Import List ZArith Bool.
From Verif Require Import Base.
Import ListNotations.
Local Open Scope nat_scope.

Notation axis := (nat * Z)%type.
Record view := View { v_origin : Z; v_axes : list axis }.
Definition sizes (l : list axis) : list nat := map fst l.
Definition nprod (l : list nat) : nat := fold_right Nat.mul 1 l.

Fixpoint offset (l : list axis) (idx : list nat) : Z :=
  match l, idx with
  | (_, s) :: r, i :: is_ => (Z.of_nat i * s + offset r is_)%Z
  | _, _ => 0%Z
  end.
Definition address (v : view) (idx : list nat) : Z := (v_origin v + offset (v_axes v) idx)%Z.

(** All the indices, the last one varying first. *)
Fixpoint indices (l : list nat) : list (list nat) :=
  match l with
  | [] => [[]]
  | n :: r => flat_map (fun i => map (cons i) (indices r)) (seq 0 n)
  end.

(** The flag C_CONTIGUOUS: axes of one element do not count, empty arrays are contiguous. *)
Fixpoint contiguous_axes (l : list axis) : bool * Z :=
  match l with
  | [] => (true, 1%Z)
  | (n, s) :: r => let '(b, e) := contiguous_axes r in
                   if n =? 1 then (b, e) else (b && (s =? e)%Z, (Z.of_nat n * e)%Z)
  end.
Definition contiguous (v : view) : bool := (nprod (sizes (v_axes v)) =? 0) || fst (contiguous_axes (v_axes v)).

(** reshape(-1, ...) of the first axes: they are merged if each stride is the size times the stride of
    the next axis, axes of one element being left out; the result has the stride of the last one. *)
Fixpoint chained (l : list axis) : bool :=
  match l with
  | (_, s) :: (((n', s') :: _) as r) => (s =? Z.of_nat n' * s')%Z && chained r
  | _ => true
  end.
Definition several (l : list axis) : list axis := filter (fun a => negb (fst a =? 1)) l.
Definition merge (l : list axis) : option axis :=
  if chained (several l) then Some (nprod (sizes l), snd (last (several l) (1, 0%Z))) else None.
Definition reshape (k : nat) (v : view) : option view :=
  match merge (firstn k (v_axes v)) with
  | Some a => Some (View (v_origin v) (a :: skipn k (v_axes v)))
  | None => None
  end.
(** ravel(): a view of contiguous arrays only. *)
Definition ravel (v : view) : option view :=
  if contiguous v then Some (View (v_origin v) [(nprod (sizes (v_axes v)), 1%Z)]) else None.

Section Memory.
Context {A : Type}.
Definition memory := Z -> A.
Definition store (m : memory) (a : Z) (x : A) : memory := fun b => if (b =? a)%Z then x else m b.
(** operation(array, values): for every element, in order; [op] is the value assigned. *)
Fixpoint assign_all (op : A -> A -> A) (m : memory) (l : list (Z * A)) : memory :=
  match l with [] => m | (a, x) :: r => assign_all op (store m a (op (m a) x)) r end.
Definition assign (op : A -> A -> A) (m : memory) (v : view) (values : nat -> A) : memory :=
  assign_all op m (combine (map (address v) (indices (sizes (v_axes v)))) (map values (seq 0 (nprod (sizes (v_axes v)))))).

(** ** The transforms of world coordinates: wcsutils.py 683-689, 712-717, 740-745 *)
Definition validatein (shape : list nat) : res unit :=
  match rev shape with
  | [] => Err ValueError
  | n :: _ => if n =? 2 then Ok tt else Err ValueError
  end.
(** [values]: the transforms of the points, flattened. *)
Definition wcs_direct (op : A -> A -> A) (m : memory) (output : view) (values : nat -> A) : memory :=
  match reshape (length (v_axes output) - 1) output with
  | Some v => assign op m v values
  | None => m                                            (* assigned to a copy *)
  end.

(** ** _matvec with an output, sparse.py 119-131, 152-180: the kernel changes the elements of the flat
    output, given as a function of their number. *)
Definition matvec_out (m : memory) (out : view) (kernel : (nat -> A) -> nat -> A) : res memory :=
  if negb (contiguous out) then Err ValueError
  else match ravel out with
       | Some v => Ok (assign (fun _ x => x) m v (kernel (fun j => m (address v [j]))))
       | None => Ok m
       end.

(** ** restrict, sparse.py 949-965: data.view(np.int8) raises if the last axis is not contiguous, unless it has one
    element or the array is empty.  [kernel] is fsr_restrict, the elements are records. *)
Definition restrict_data (m : memory) (data : view) (kernel : (nat -> A) -> nat -> A) : res memory :=
  match rev (v_axes data) with
  | [] => Err ValueError
  | (n, s) :: _ =>
      if negb (n =? 1) && negb (nprod (sizes (v_axes data)) =? 0) && negb (s =? 1)%Z then Err ValueError
      else match ravel data with
           | Some v => Ok (assign (fun _ x => x) m v (kernel (fun j => m (address v [j]))))
           | None => Ok m
           end
  end.

(** ** unpack into [out], core.py 639-648, one process: the elements of the first axes whose number has a
    value in [x] get it; [ndim] axes are merged.  If the reshape is a copy, the copy is assigned back. *)
Definition update_flat (rest : nat) (x : nat -> option (nat -> A)) (old : nat -> A) (j : nat) : A :=
  match x (j / rest) with Some f => f (j mod rest) | None => old j end.
Definition unpack_out (m : memory) (ndim : nat) (out : view) (x : nat -> option (nat -> A)) : memory :=
  let rest := nprod (sizes (skipn ndim (v_axes out))) in
  match reshape ndim out with
  | Some v => assign (fun _ y => y) m v (update_flat rest x (fun j => m (address v (nth j (indices (sizes (v_axes v))) []))))
  | None => assign (fun _ y => y) m out (update_flat rest x (fun j => m (address out (nth j (indices (sizes (v_axes out))) []))))
  end.

(** ** mpiutils.py 143-146: copy() is in C order. *)
Fixpoint c_axes (shape : list nat) : list axis :=
  match shape with [] => [] | n :: r => (n, Z.of_nat (nprod r)) :: c_axes r end.
Definition mask_copy (m : memory) (detectors : view) (origin : Z) : memory * view :=
  let v := View origin (c_axes (sizes (v_axes detectors))) in
  (assign (fun _ x => x) m v (fun j => m (address detectors (nth j (indices (sizes (v_axes detectors))) []))), v).
Definition mask_others (m : memory) (v : view) (chosen : nat -> bool) (yes : A) : memory :=
  match ravel v with
  | Some w => assign (fun old x => x) m w (fun j => if chosen j then yes else m (address w [j]))
  | None => m
  end.

(** ** pT1 and pTx_pT1 with [out], operators.py 1092-1100, 1177-1190, and get_pTx_pT1, 733-757 (never
    set to zero): one of the outputs; [kernel] adds to the flat output. *)
Definition zeroed (zero : A) (assignment : bool) (m : memory) (out : view) : memory :=
  if assignment then assign (fun _ x => x) m out (fun _ => zero) else m.
Definition pT1_out (zero : A) (assignment : bool) (m : memory) (out : view) (kernel : (nat -> A) -> nat -> A) : memory :=
  let m := zeroed zero assignment m out in
  match ravel out with
  | Some v => assign (fun _ x => x) m v (kernel (fun j => m (address v [j])))
  | None => m                                            (* added to a copy *)
  end.

(** ** Arguments intent(inout) of the wrappers: refused unless array.T is in the order of Fortran. *)
Definition inout (m : memory) (v : view) (kernel : (nat -> A) -> nat -> A) : memory * res unit :=
  if contiguous v then
    let w := View (v_origin v) [(nprod (sizes (v_axes v)), 1%Z)] in
    (assign (fun _ x => x) m w (kernel (fun j => m (address w [j]))), Ok tt)
  else (m, Err ValueError).
(** ProjectionInMemory.transpose, operators.py 653-668, for a contiguous input. *)
Definition transpose_out (zero : A) (assignment : bool) (m : memory) (output : view) (kernel : (nat -> A) -> nat -> A) : memory * res unit :=
  inout (zeroed zero assignment m output) output kernel.

(** np.empty_like: the axes are laid out by decreasing absolute stride, in their order for equal ones.  [origin] is
    where it is allocated. *)
Definition size_at (l : list axis) (i : nat) : nat := fst (nth i l (1, 0%Z)).
Definition stride_at (l : list axis) (i : nat) : Z := snd (nth i l (1, 0%Z)).
Definition inside (l : list axis) (i j : nat) : bool :=
  (Z.abs (stride_at l j) <? Z.abs (stride_at l i))%Z || ((Z.abs (stride_at l j) =? Z.abs (stride_at l i))%Z && (i <? j)).
Definition k_stride (l : list axis) (i : nat) : nat :=
  nprod (map (fun j => if inside l i j then size_at l j else 1) (seq 0 (length l))).
Definition k_axes (l : list axis) : list axis := map (fun i => (size_at l i, Z.of_nat (k_stride l i))) (seq 0 (length l)).
(** ProjectionInMemory.direct, operators.py 636-651, of a matrix that is not empty. *)
Definition direct_out (m : memory) (output : view) (origin : Z) (kernel : (nat -> A) -> nat -> A) : memory * res unit :=
  if contiguous output then inout m output kernel
  else
    let output_ := View origin (k_axes (v_axes output)) in
    let '(m, r) := inout m output_ kernel in
    match r with
    | Ok _ => (assign (fun _ x => x) m output (fun j => m (address output_ (nth j (indices (sizes (v_axes output_))) []))), Ok tt)
    | Err e => (m, Err e)
    end.
End Memory.
Arguments memory : clear implicits.
