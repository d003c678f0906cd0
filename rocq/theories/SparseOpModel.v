(** Sparse operators: construction of matrices, operator shapes, restriction,
    corestriction, the P.T*P shortcut, hit maps and kernel masks. *)
From Verif Require Import Base SparseModel.
Open Scope nat_scope.

Fixpoint map2 {A B C} (f : A -> B -> C) (l : list A) (r : list B) : list C :=
  match l, r with a :: l', b :: r' => f a b :: map2 f l' r' | _, _ => [] end.

Definition prodn (l : list nat) : nat := fold_right Nat.mul 1 l.

(** ** Construction: [_FSMatrix.__init__], sparse.py 28-110.
    [dshape]: shape of the given structured array ([None]: allocate); types of the
    fields are not modelled.  The result is the shape of the stored data. *)
Definition fixed (a : axis) {A} (p : A * A) : A := match a with FSR => fst p | FSC => snd p end.

Definition init_matrix (a : axis) (shape bs : nat * nat) (nmax : option nat) (dshape : option (list nat)) : res (list nat) :=
  if Nat.eqb (fst bs) 0 then Err ZeroDivisionError                      (* line 51 *)
  else if negb (Nat.eqb (fst shape mod fst bs) 0) then Err ValueError
  else if Nat.eqb (snd bs) 0 then Err ZeroDivisionError
  else if negb (Nat.eqb (snd shape mod snd bs) 0) then Err ValueError
  else match dshape with
  | None =>
      match nmax with
      | None => Err ValueError                                           (* 58-61 *)
      | Some n => Ok [fixed a shape / fst bs; n]                         (* 62 *)
      end
  | Some ds =>
      if negb (Nat.eqb (prodn (removelast ds) * fixed a bs) (fixed a shape)) then Err ValueError  (* 76-83 *)
      else match nmax with
           | Some n => if Nat.eqb n (last ds 0) then Ok ds else Err ValueError                     (* 85 *)
           | None => Ok ds
           end
  end.

(** [FSCBlockMatrix] also checks the block shape (sparse.py 364-376); [FSRBlockMatrix]
    calls [_FSMatrix.__init__] directly (sparse.py 454). *)
Definition init_block (a : axis) (shape bs : nat * nat) (nmax : option nat) (dshape : option (list nat)) : res (list nat) :=
  match a with
  | FSC =>
      if andb (Nat.eqb (fst bs) 1) (Nat.eqb (snd bs) 1) then Err ValueError
      else if andb (andb (Nat.leb 1 (fst bs)) (Nat.leb (fst bs) 3)) (andb (Nat.leb 1 (snd bs)) (Nat.leb (snd bs) 3))
           then init_matrix a shape bs nmax dshape else Err NotImplementedError
  | FSR => init_matrix a shape bs nmax dshape
  end.

(** [_reshapein], sparse.py 207-211: the shape of the output for an input shape. *)
Definition reshapein_mx (rows cols : nat) (shape : list nat) : res (list nat) :=
  if Nat.eqb cols 0 then Err ZeroDivisionError
  else let e := prodn shape / cols in
       if Nat.ltb 1 e then Ok [rows; e]
       else match rev shape with
            | [] => Err IndexError
            | l :: _ => if Nat.eqb l 1 then Ok [rows; e] else Ok [rows]
            end.

Section Op.
Context {K : Type} (o : ops K).

(** ** Operator: sparse.py 774-826.  [so_bin], [so_bout]: broadcastable shapes (scalar
    formats). *)
Record sop := Sop {
  so_mx : matrix K;
  so_in : option (list nat); so_out : option (list nat);
  so_bin : list nat; so_bout : list nat }.

(** [np.cumprod(shape) == n], then the prefix up to the last match (lines 799-804). *)
Fixpoint last_prefix (acc n : nat) (shape : list nat) : option nat :=
  match shape with
  | [] => None
  | d :: r => match last_prefix (acc * d) n r with
              | Some k => Some (S k)
              | None => if Nat.eqb (acc * d) n then Some 1 else None
              end
  end.
Definition broadcastable (n : nat) (shape : list nat) : list nat :=
  match last_prefix 1 n shape with Some k => firstn k shape | None => [n] end.

Definition mk_sop (M : matrix K) (shapein shapeout : option (list nat)) : sop :=
  match mx_kind M with
  | KScalar =>
      Sop M shapein shapeout
          (match shapein with None => [mx_cols M] | Some s => broadcastable (mx_cols M) s end)
          (match shapeout with None => [mx_rows M] | Some s => broadcastable (mx_rows M) s end)
  | _ =>
      let '(b0, b1) := mx_bs M in
      Sop M (match shapein with
             | None => Some (if Nat.eqb b1 1 then [mx_cols M] else [mx_cols M / b1; b1])
             | s => s end)
            (match shapeout with
             | None => Some (if Nat.eqb b0 1 then [mx_rows M] else [mx_rows M / b0; b0])
             | s => s end)
          [] []
  end.

(** [reshapein], sparse.py 860-865. *)
Definition reshapein (S : sop) (shape : list nat) : option (list nat) :=
  match mx_kind (so_mx S) with
  | KScalar => Some (so_bout S ++ skipn (length (so_bin S)) shape)
  | _ => so_out S
  end.

(** ** Restriction *)

(** Integers of [bits] bits; an overflow is assumed to wrap around. *)
Definition wrap (bits : Z) (z : Z) : Z := ((z + 2 ^ (bits - 1)) mod 2 ^ bits - 2 ^ (bits - 1))%Z.

(** First loop of fsr_restrict, sparse.f90.j2 557-565: new indices and their number,
    both of the integer kind of the indices. *)
Fixpoint new_index (bits : Z) (mask : list bool) (ncol : Z) : list Z * Z :=
  match mask with
  | [] => ([], ncol)
  | true :: r => let '(l, n) := new_index bits r (wrap bits (ncol + 1)) in (ncol :: l, n)
  | false :: r => let '(l, n) := new_index bits r ncol in ((-1)%Z :: l, n)
  end.

(** Second loop, 567-576: each iteration changes its own records only. *)
Definition restrict_elt (ni : list Z) (e : elt K) : option (elt K) :=
  if (e_idx e <? 0)%Z then Some e
  else match nth_error ni (Z.to_nat (e_idx e)) with
       | Some k => Some (Elt k (e_val e))
       | None => None
       end.

Definition restrict_data (ni : list Z) (data : list (list (elt K))) : option (list (list (elt K))) :=
  all_opt (map (fun row => all_opt (map (restrict_elt ni) row)) data).

(** [SparseOperator.restrict], sparse.py 923-986, indices of signed integer types
    ([bits]: 8, 16, 32 or 64).  [None]: the kernel reads outside of [new_index].
    A negative number of columns is not followed further. *)
Definition restrict (bits : Z) (S : sop) (mshape : list nat) (mask : list bool) : res (option sop) :=
  let M := so_mx S in
  match mx_axis M with
  | FSC => Err NotImplementedError
  | FSR =>
    do bshape <- match mx_kind M, so_in S with
                 | KScalar, _ => Ok (so_bin S)
                 | _, Some s => Ok (removelast s)
                 | _, None => Err TypeError
                 end;
    if negb (if list_eq_dec Nat.eq_dec mshape bshape then true else false) then Err ValueError
    else
      let '(ni, ncol) := new_index bits mask 0 in
      match restrict_data ni (mx_data M) with
      | None => Ok None
      | Some data =>
          if (ncol <? 0)%Z then Err RuntimeError
          else
            let n := Z.to_nat ncol in
            let M' := Matrix FSR (mx_kind M) (mx_rows M) (n * snd (mx_bs M)) (mx_bs M) data in
            Ok (Some (match mx_kind M with
                | KScalar => Sop M' (match so_in S with
                                     | Some s => Some (n :: skipn (length (so_bin S)) s)
                                     | None => None end) (so_out S) [n] (so_bout S)
                | _ => Sop M' (Some [n; snd (mx_bs M)]) (so_out S) (so_bin S) (so_bout S)
                end))
      end
  end.

(** The other index types, 966-974: unsigned integers of [bits] bits.  NumPy 2 refuses to store an
    integer that the type does not hold (OverflowError, written ValueError). *)
Definition store_unsigned (bits v : Z) : res Z := if ((0 <=? v) && (v <? 2 ^ bits))%Z then Ok v else Err ValueError.
Definition restrict_unsigned (bits : Z) (S : sop) (mshape : list nat) (mask : list bool) : res (option sop) :=
  let M := so_mx S in
  match mx_axis M with
  | FSC => Err NotImplementedError
  | FSR =>
    do bshape <- match mx_kind M, so_in S with
                 | KScalar, _ => Ok (so_bin S)
                 | _, Some s => Ok (removelast s)
                 | _, None => Err TypeError
                 end;
    if negb (if list_eq_dec Nat.eq_dec mshape bshape then true else false) then Err ValueError
    else do none <- store_unsigned bits (-1);                                   (* 969 *)
         Err RuntimeError (* not followed further *)
  end.

(** ** Corestriction, sparse.py 892-921 (data with one leading dimension). *)
Fixpoint select {A} (mask : list bool) (l : list A) : list A :=
  match mask, l with
  | b :: m, a :: r => if b then a :: select m r else select m r
  | _, _ => []
  end.
Definition count (mask : list bool) : nat := length (filter (fun b => b) mask).

Definition corestrict (S : sop) (mask : list bool) : res sop :=
  let M := so_mx S in
  match mx_axis M, mx_kind M with
  | FSC, _ | _, KBlock => Err NotImplementedError
  | FSR, _ =>
      let nrow := count mask in
      let mask_ := flat_map (fun b => repeat b (fst (mx_bs M))) mask in
      if negb (Nat.eqb (length mask_) (length (mx_data M))) then Err IndexError
      else
        let data := select mask_ (mx_data M) in
        if negb (Nat.eqb (length data * fst (mx_bs M)) (nrow * fst (mx_bs M))) then Err ValueError
        else
          let M' := Matrix FSR (mx_kind M) (nrow * fst (mx_bs M)) (mx_cols M) (mx_bs M) data in
          Ok (match mx_kind M with
              | KScalar => Sop M' (so_in S)
                  (match so_out S with Some s => Some (nrow :: skipn (length (so_bout S)) s) | None => None end)
                  (so_bin S) [nrow]
              | _ => Sop M' (so_in S) (Some [nrow; fst (mx_bs M)]) (so_bin S) (so_bout S)
              end)
  end.

(** ** P.T*P, sparse.py 999-1028; kernels fsc_fsr*_ncolmax1, sparse.f90.j2 429-511. *)
Definition ptp_stmts (k : kind) (V : nat -> K) : list (list K) :=
  let sq x := kmul o x x in
  match k with
  | KRot2 => [ [sq (V 0); sq (V 1)]; [sq (V 0); sq (V 1)] ]
  | KRot3 => let val := kadd o (sq (V 1)) (sq (V 2)) in [ [sq (V 0)]; [val]; [val] ]
  | _ => [ [sq (V 0)] ]
  end.

Definition ptp_block (k : kind) : nat := match k with KRot2 => 2 | KRot3 => 3 | _ => 1 end.

(** One iteration per record. *)
Definition ptp_kernel (k : kind) (size : nat) (data : list (list (elt K))) : option (list (list (act K))) :=
  all_opt (map (fun e => guarded (e_idx e) (size / ptp_block k)
     (fun c => [Atomic (cells (c * ptp_block k) (ptp_stmts k (vals o e)))])) (concat data)).

Definition one_per_row (data : list (list (elt K))) : bool := forallb (fun row => Nat.eqb (length row) 1) data.

(** [None]: no simplification; otherwise the data of the diagonal operator. *)
Definition rule_ptp (sched : list (list (act K)) -> list (nat * act K)) (S : sop) : option (option (list K)) :=
  let M := so_mx S in
  match mx_axis M, mx_kind M, so_in S with
  | FSC, _, _ | _, KBlock, _ | _, _, None => None
  | FSR, k, Some shp =>
      if one_per_row (mx_data M)          (* self.matrix.ncolmax == 1 *)
      then Some (match ptp_kernel k (prodn shp) (mx_data M) with
                 | Some its => exec o (sched its) (repeat (k0 o) (prodn shp))
                 | None => None
                 end)
      else None
  end.

(** ** Hit map [pT1], operators.py 1064-1122.  The compiled kernels are never
    generated (see TemplateModel.v), so the Python branch is always taken.
    [norm a b] is sqrt(a^2 + b^2); [out]: previous content. *)
Definition ones (n : nat) : list K := repeat (k1 o) n.

Definition fill (op : reduction) (out new : list K) : list K :=
  match op with IAdd => map2 (kadd o) out new | _ => new end.

(** [for i, d in zip(index, data): if i >= 0: out[i] += d] on an array with one dimension. *)
Fixpoint add_hits (hits : list (Z * K)) (out : list K) : res (list K) :=
  match hits with
  | [] => Ok out
  | (i, d) :: r =>
      if (i <? 0)%Z then add_hits r out
      else match update out (Z.to_nat i) (fun x => kadd o x d) with
           | Some out' => add_hits r out'
           | None => Err IndexError
           end
  end.

(** Component 0 of each group of [b]. *)
Fixpoint firsts (n b : nat) (l : list K) : list K :=
  match n with O => [] | S k => nth 0 l (k0 o) :: firsts k b (skipn b l) end.

Definition pT1 flib sched (norm : K -> K -> K) (S : sop) (out : list K) (op : reduction) : res (option (list K)) :=
  let M := so_mx S in
  let nin := match so_out S with Some s => prodn s | None => mx_rows M end in
  match op with
  | OtherOp => Err ValueError
  | _ =>
    match mx_kind M with
    | KScalar => direct o flib sched (transpose M) (ones nin) out op
    | KRot2 =>
        let start := match op with Assign => repeat (k0 o) (length out) | _ => out end in
        do r <- add_hits (map (fun e => (e_idx e, norm (nth 0 (e_val e) (k0 o)) (nth 1 (e_val e) (k0 o))))
                              (concat (mx_data M))) start;
        Ok (Some r)
    | _ =>
        do t <- matvec o flib sched (transpose M) (ones nin) None;
        Ok (match t with
            | None => None
            | Some t =>
                if Nat.eqb (snd (mx_bs M)) 1
                then Some (fill op out (repeat (nth 0 t (k0 o)) (length out)))   (* t[..., 0] is a number *)
                else Some (fill op out (firsts (length out) (snd (mx_bs M)) t))
            end)
    end
  end.

(** The Fortran hit map (operators.f90.j2 92-171): one term per record. *)
Definition pT1_kernel (n : nat) (w : elt K -> K) (data : list (list (elt K))) : option (list (list (act K))) :=
  all_opt (map (fun row => concat_opt (map (fun e => guarded (e_idx e) n
     (fun c => [Atomic [(c, [w e])]])) row)) data).

(** ** Kernel mask, operators.py 1003-1062 and fsr_kernel, sparse.f90.j2 520-543.
    The pointer [val] is not in the [private] clause: it is one variable shared by all
    the iterations.  [Point]: it is made to point to the values of a record; [Test c]:
    [if (any(val /= 0)) kernel(c) = .false.].  [nz]: some bit of the number is set. *)
Inductive kact := Point (vs : list K) | Test (c : nat).

Variable nz : K -> bool.

Definition kstep (a : kact) (st : list bool * list K) : option (list bool * list K) :=
  let '(mask, val) := st in
  match a with
  | Point vs => Some (mask, vs)
  | Test c => if existsb nz val
              then (if Nat.ltb c (length mask) then Some (set_nth mask c false, val) else None)
              else Some (mask, val)
  end.

Fixpoint krun (tr : list (nat * kact)) (st : list bool * list K) : option (list bool * list K) :=
  match tr with
  | [] => Some st
  | (_, a) :: r => match kstep a st with Some st' => krun r st' | None => None end
  end.

Definition kernel_iter (n : nat) (row : list (elt K)) : option (list kact) :=
  concat_opt (map (fun e => guarded (e_idx e) n (fun c => [Point (e_val e); Test c])) row).

Inductive kop := KAssign | KIand | KOther (f : bool -> bool -> bool).

(** The iterations one after the other (one thread). *)
Definition sequential {A} (its : list (list A)) : list (nat * A) :=
  concat (mapi (fun i l => map (pair i) l) 0 its).

(** [out]: previous content, of the size of the mask.  Block matrices: the second field
    of the record is an array, the fallback reads the field r11, which is missing. *)
Definition kernel_mask (sched : list (list kact) -> list (nat * kact)) (M : matrix K)
    (out : list bool) (op : kop) : res (option (list bool)) :=
  let finish kernel := match op with
                       | KAssign => kernel
                       | KIand => map2 andb out kernel
                       | KOther f => map2 f out kernel
                       end in
  if Nat.eqb (length (concat (mx_data M))) 0 then Ok (Some (finish (repeat true (length out))))
  else match mx_kind M with
  | KBlock => Err AttributeError
  | _ =>
      let start := match op with KIand => out | _ => repeat true (length out) end in
      Ok (match all_opt (map (kernel_iter (length out)) (mx_data M)) with
          | None => None
          | Some its =>
              match krun (sched its) (start, []) with
              | None => None
              | Some (mask, _) =>
                  Some (match op with KOther f => map2 f out mask | _ => mask end)
              end
          end)
  end.
End Op.
Arguments sop K : clear implicits.
Arguments Sop {K}.
Arguments kact K : clear implicits.
