(** Specification of quantities in numpy functions: the value of a quantity, the degrees of
    the numpy functions, the functions by what they do with the values. *)
From Coq Require Import String Ascii QArith Qcanon.
From Verif Require Import Base TemplateModel UnitModel UnitSpec UfModel.
Open Scope nat_scope.

Section S.
Context {K : Type} (o : mag_ops K) {V : Type} (act : K -> V -> V).

(** The magnitude of each unit name agrees with the definitions of a table. *)
Definition interprets (scale : text -> K) (t : @du_table K) : Prop :=
  Forall (fun e => match e with
                   | (_, None) => True
                   | ((k, None), Some (m, u)) => scale k = mmul o m (powers o scale u)
                   | ((k, Some p), Some (m, u)) => mpow o (scale k) p = mmul o m (powers o scale u)
                   end) t.

(** The value: the array times the magnitude of the unit. *)
Definition value (scale : text -> K) (a : @operand K V) : V :=
  match a with Plain x => x | Qty x u _ => act (powers o scale u) x end.
(** A number without unit is taken as being in the unit [common]. *)
Definition value_in (scale : text -> K) (common : unit_) (a : @operand K V) : V :=
  match a with
  | Plain x | Qty x [] _ => act (powers o scale common) x
  | Qty x u _ => act (powers o scale u) x
  end.
Definition has_unit (a : @operand K V) : Prop := match a with Qty _ (_ :: _) _ => True | _ => False end.
Definition no_unit (a : @operand K V) : Prop := match a with Qty _ (_ :: _) _ => False | _ => True end.
(** The unit of the first operand that has one. *)
Inductive first_unit : list (@operand K V) -> unit_ -> Prop :=
| fu_none : first_unit [] []
| fu_here x u loc r : u <> [] -> first_unit (Qty x u loc :: r) u
| fu_next a r u : no_unit a -> first_unit r u -> first_unit (a :: r) u.
Definition tables (P : @du_table K -> Prop) (l : list (@operand K V)) : Prop :=
  Forall (fun a => match a with Plain _ => True | Qty _ _ loc => P loc end) l.
Definition is_dict (a : @operand K V) : Prop := match a with Plain _ => True | Qty _ u _ => distinct_names u end.

(** Degrees. *)
Definition degree_one (f : list V -> V) : Prop := forall k l, l <> [] -> f (map (act k) l) = act k (f l).
Definition degree_zero (f : list V -> V) : Prop := forall k l, l <> [] -> f (map (act k) l) = f l.
Definition degree (p : Qc) (f : V -> V) : Prop := forall k x, f (act k x) = act (mpow o k p) (f x).
Definition bilinear (f : V -> V -> V) : Prop := forall k l x y, f (act k x) (act l y) = act (mmul o k l) (f x y).
Definition quotient (f : V -> V -> V) : Prop := forall k l x y, f (act k x) (act l y) = act (mmul o k (minv o l)) (f x y).

(** ** Functions *)
Definition no_unit_arg (a : @farg K V) : Prop :=
  match a with One a => no_unit a | Seq l => Forall no_unit l | Misc => True end.
Definition farg_value (scale : text -> K) (a : @farg K V) : @vin V :=
  match a with One a => VOne (value scale a) | Seq l => VSeq (map (value scale) l) | Misc => VMisc end.
Definition farg_value_in (scale : text -> K) (common : unit_) (a : @farg K V) : @vin V :=
  match a with One a => VOne (value_in scale common a) | Seq l => VSeq (map (value_in scale common) l) | Misc => VMisc end.
Definition fout_value (scale : text -> K) (r : @fout K V) : @vout V :=
  match r with FArr a => VArr (value scale a) | FSeq l => VSeqOut (map (value scale) l) | FNone => VNone end.

(** What a function returns: an array, arrays that all change with the argument, or arrays
    of which only the first does. *)
Inductive returns := Array | Arrays | First_array.
Definition times (r : returns) (k : K) (out : @vout V) : option (@vout V) :=
  match r, out with
  | Array, VArr x | First_array, VArr x => Some (VArr (act k x))
  | Arrays, VSeqOut l => Some (VSeqOut (map (act k) l))
  | First_array, VSeqOut (x :: l) => Some (VSeqOut (act k x :: l))
  | _, _ => None
  end.
(** Where the arguments of the same unit are: at positions, or in the sequence at one. *)
Inductive place_ := At (l : list nat) | Inside (n : nat).
Fixpoint times_at (n : nat) (p : place_) (k : K) (args : list (@vin V)) : list (@vin V) :=
  match args with
  | [] => []
  | a :: r =>
      (match p, a with
       | At l, VOne x => if existsb (Nat.eqb n) l then VOne (act k x) else a
       | Inside m, VSeq l => if n =? m then VSeq (map (act k) l) else a
       | _, _ => a
       end) :: times_at (S n) p k r
  end.
(** The function follows a change of the unit of these arguments. *)
Definition follows_unit (p : place_) (r : returns) (d : Qc) (fn : list (@vin V) -> @vout V) : Prop :=
  forall k args out, times r (mpow o k d) (fn args) = Some out -> fn (times_at 0 p k args) = out.
(** What was returned is of this kind. *)
Definition fits (r : returns) (out : @fout K V) : Prop :=
  match r, out with
  | Array, FArr _ | First_array, FArr _ | Arrays, FSeq _ | First_array, FSeq (_ :: _) => True
  | _, _ => False
  end.
(** The arguments are where the function expects them; the others have no unit. *)
Definition well_placed (p : place_) (args : list (@farg K V)) : Prop :=
  (match p with
   | At l => Forall (fun n => exists a, nth_error args n = Some (One a)) l
   | Inside n => exists l, nth_error args n = Some (Seq l)
   end) /\
  forall n a, nth_error args n = Some a -> match p with At l => ~ In n l | Inside m => n <> m end -> no_unit_arg a.
Definition operands_at (p : place_) (args : list (@farg K V)) : list (@operand K V) :=
  match p with
  | At l => flat_map (fun n => match nth_error args n with Some (One a) => [a] | _ => [] end) l
  | Inside n => match nth_error args n with Some (Seq l) => l | _ => [] end
  end.
Fixpoint values_at (scale : text -> K) (n : nat) (p : place_) (common : unit_) (args : list (@farg K V)) : list (@vin V) :=
  match args with
  | [] => []
  | a :: r =>
      (if match p with At l => existsb (Nat.eqb n) l | Inside m => n =? m end then farg_value_in scale common a else farg_value scale a)
      :: values_at scale (S n) p common r
  end.
End S.

(** Functions linear in their first argument: selections, orders, sums and means. *)
Definition linear_names : list string := ["amax"; "amin"; "average"; "broadcast_to"; "copy"; "cumsum"; "cumulative_sum";
  "delete"; "diag"; "diagflat"; "diagonal"; "diff"; "expand_dims"; "flip"; "fliplr"; "flipud"; "imag"; "max"; "mean"; "median"; "min"; "moveaxis"; "nan_to_num";
  "nancumsum"; "nanmax"; "nanmean"; "nanmedian"; "nanmin"; "nanstd"; "nansum"; "pad"; "partition"; "permute_dims"; "ptp"; "ravel"; "real"; "repeat"; "reshape"; "resize"; "roll"; "rollaxis";
  "rot90"; "sort"; "sort_complex"; "squeeze"; "std"; "sum"; "swapaxes"; "take"; "take_along_axis"; "tile"; "trace"; "transpose"; "trim_zeros"; "unique_values"; "atleast_1d"; "atleast_2d"; "atleast_3d"]%string.
Definition splitting_names : list string := ["array_split"; "dsplit"; "hsplit"; "split"; "unstack"; "vsplit"]%string.
Definition selecting_names : list string := ["compress"; "extract"]%string.
Definition joining_names : list string := ["column_stack"; "concat"; "concatenate"; "dstack"; "hstack"; "row_stack"; "stack"; "vstack"]%string.
Definition merging_names : list string := ["append"; "intersect1d"; "setdiff1d"; "setxor1d"; "union1d"]%string.
(** Name, where the arguments of the same unit are, what is returned. *)
Definition same_unit (name : string) (p : place_) (r : returns) : Prop :=
  (In name linear_names /\ p = At [0] /\ r = Array) \/
  (In name splitting_names /\ p = At [0] /\ r = Arrays) \/
  ((name = "unique" \/ name = "unique_all")%string /\ p = At [0] /\ r = First_array) \/
  (In name selecting_names /\ p = At [1] /\ r = Array) \/
  (In name joining_names /\ p = Inside 0 /\ r = Array) \/
  (In name merging_names /\ p = At [0; 1] /\ r = Array) \/
  (name = "insert"%string /\ p = At [0; 2] /\ r = Array) \/
  (name = "where"%string /\ p = At [1; 2] /\ r = Array) \/
  ((name = "choose" \/ name = "select")%string /\ p = Inside 1 /\ r = Array).
Definition product_names : list string := ["convolve"; "correlate"; "cov"; "cross"; "dot"; "inner"; "kron"; "outer"; "tensordot"; "vdot"]%string.

(** ** Items *)
(** numpy: the ellipsis stands for the slices that are missing. *)
Definition numpy_key (ndim : nat) (key : list kitem) : list kitem :=
  let used := length (filter (fun k => match k with KInt _ | KSlice _ _ => true | _ => false end) key) in
  if existsb is_ellipsis key
  then flat_map (fun k => if is_ellipsis k then repeat colon (ndim - used) else [k]) key
  else key ++ repeat colon (ndim - used).
(** The element of a broadcast array that goes with an index of the array: the last or the
    first indices. *)
Definition last_ {A} (n : nat) (l : list A) : list A := skipn (length l - n) l.
Definition element {A} (dir : direction) (v : barray A) (idx : list Z) : A :=
  b_at v (match dir with Leftward => last_ (b_rank v) idx | Rightward => firstn (b_rank v) idx end).
