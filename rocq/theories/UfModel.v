(** Quantities in numpy functions: quantities.py 41-227 and 475-836.

    The arrays (type V), what numpy computes with them and the multiplication [act] of an
    array by a magnitude are parameters.  Simplifications: a quantity given as one argument
    is not iterated over as a sequence; the subclasses of Quantity, the argument out and
    named tuples are left out (the unit of out: see [ufunc_out]). *)
From Coq Require Import String Ascii QArith Qcanon.
From Verif Require Import Base TemplateModel UnitModel.
Open Scope nat_scope.

Inductive ufunc :=
| Add | Fmod | Hypot | Maximum | Minimum | Subtract
| Equal | Greater | Greater_equal | Less | Less_equal | Not_equal
| Absolute | Ceil | Conjugate | Copysign | Fabs | Float_power | Floor | Fmax | Fmin | Negative | Rint | Trunc
| Reciprocal | Cbrt | Sqrt | Square | Power
| Matmul | Matvec | Multiply | Vecdot | Vecmat
| Floor_divide | True_divide
| Exp | Expm1 | Exp2 | Log | Log10 | Log2 | Log1p
| Clip_ufunc | Positive | Remainder | Arctan2 | Other (n : nat).  (* np.clip of the first list is not the ufunc *)
Inductive method := Call | Reduce.

Section Uf.
Context {K : Type} (o : mag_ops K) {V : Type} (act : K -> V -> V).
Inductive operand := Plain (x : V) | Qty (x : V) (u : unit_) (loc : @du_table K).
Definition magnitude (a : operand) : V := match a with Plain x => x | Qty x _ _ => x end.
(** _get_units, 714-718. *)
Definition get_units (a : operand) : unit_ := match a with Plain _ => [] | Qty _ u _ => u end.
(** The first quantity handles the call. *)
Fixpoint handler (l : list operand) : option (unit_ * @du_table K) :=
  match l with [] => None | Plain _ :: r => handler r | Qty _ u loc :: _ => Some (u, loc) end.
Definition nonempty (u : unit_) : bool := match u with [] => false | _ => true end.
(** next((_ for _ in input_units if _), {}) *)
Definition common_of (us : list unit_) : unit_ := match find nonempty us with Some u => u | None => [] end.
(** tounit, 1000-1021, where the unit is not the common one. *)
Definition homogenize (fuel : nat) (glob : @du_table K) (common : unit_) (a : operand) : res operand :=
  match a with
  | Plain _ => Ok a
  | Qty x u loc => if (nonempty u && negb (dict_eqb u common))%bool
                   then do r <- convert o act fuel loc glob (x, u) common; Ok (Qty (fst r) (snd r) loc) else Ok a
  end.
(** _get_inputs_with_common_units, 720-731. *)
Definition common_units (fuel : nat) (glob : @du_table K) (inputs : list operand) : res (list operand * unit_) :=
  let common := common_of (map get_units inputs) in
  do l <- map_res (homogenize fuel glob common) inputs; Ok (l, common).
(** _power_unit with a number ([expo]: its value) or an array. *)
Definition power_by (u : unit_) (p : option Qc) : res unit_ :=
  match u with
  | [] => Ok []
  | _ => match p with Some p => Ok (power_unit u p) | None => Err ValueError end
  end.
Definition nth_unit (us : list unit_) (i : nat) : res unit_ := match nth_error us i with Some u => Ok u | None => Err IndexError end.
(** 733-805: the inputs and the unit of the output, if any. *)
Definition ufunc_units (expo : V -> option Qc) (fuel : nat) (glob : @du_table K) (self : unit_) (f : ufunc) (inputs : list operand) : res (list operand * option unit_) :=
  let us := map get_units inputs in
  match f with
  | Add | Fmod | Hypot | Maximum | Minimum | Subtract => do r <- common_units fuel glob inputs; Ok (fst r, Some (snd r))
  | Equal | Greater | Greater_equal | Less | Less_equal | Not_equal => do r <- common_units fuel glob inputs; Ok (fst r, None)
  | Absolute | Ceil | Conjugate | Copysign | Fabs | Float_power | Floor | Fmax | Fmin | Negative | Rint | Trunc => Ok (inputs, Some self)
  | Reciprocal => do u <- nth_unit us 0; Ok (inputs, Some (power_unit u (- (1))%Qc))
  | Cbrt => do u <- nth_unit us 0; Ok (inputs, Some (power_unit u (Q2Qc (1 # 3))))
  | Sqrt => do u <- nth_unit us 0; Ok (inputs, Some (power_unit u (Q2Qc (1 # 2))))
  | Square => do u <- nth_unit us 0; Ok (inputs, Some (power_unit u (Q2Qc 2)))
  | Power => match nth_error inputs 1 with
             | None => Err IndexError
             | Some p => do u <- nth_unit us 0; do u' <- power_by u (expo (magnitude p)); Ok (inputs, Some u')
             end
  | Matmul | Matvec | Multiply | Vecdot | Vecmat => do u <- nth_unit us 0; do v <- nth_unit us 1; Ok (inputs, Some (multiply_unit u v))
  | Floor_divide | True_divide => do u <- nth_unit us 0; do v <- nth_unit us 1; Ok (inputs, Some (divide_unit u v))
  | Exp | Expm1 | Exp2 | Log | Log10 | Log2 | Log1p => Ok (inputs, Some [])
  | Clip_ufunc | Positive | Remainder | Arctan2 | Other _ => Ok (inputs, None)
  end.
(** __array_ufunc__, 733-836. *)
Definition array_ufunc (core : ufunc -> method -> list V -> V) (expo : V -> option Qc) (fuel : nat) (glob : @du_table K) (f : ufunc) (m : method) (inputs : list operand) : res operand :=
  match handler inputs with
  | None => Ok (Plain (core f m (map magnitude inputs)))
  | Some (self, loc) =>
      do r <- ufunc_units expo fuel glob self f inputs;
      let x := core f m (map magnitude (fst r)) in
      Ok (match snd r with None => Plain x | Some u => Qty x u loc end)
  end.
(** With the argument out, 807-813: the array out, a quantity, receives the values and keeps
    its unit. *)
Definition ufunc_out (core : ufunc -> method -> list V -> V) expo fuel glob f m inputs (out : V * unit_ * @du_table K) : res (operand * operand) :=
  let '(_, u, loc) := out in
  do r <- array_ufunc core expo fuel glob f m inputs; Ok (r, Qty (magnitude r) u loc).

(** ** Functions, 41-227 and 475-706 *)
Inductive conv_input := FIRST | SECOND | SEQUENCE | SEQUENCE_EXCEPT_FIRST | FIRST_SEQUENCE | SECOND_SEQUENCE | FIRST_AND_SECOND | FIRST_AND_THIRD | SECOND_AND_THIRD.
Inductive conv_output := DEFAULT | SEQUENCE_OUT | FIRST_IF_SEQUENCE | FIRST_IN_SEQUENCE | NONE.
Inductive conv_action := SAME | EACH | SQUARE | PROD.
Record conversion := Conversion { c_input : conv_input; c_output : conv_output; c_action : conv_action }.
Inductive farg := One (a : operand) | Seq (l : list operand) | Misc.  (* Misc: axis, index, text... *)
Inductive vin := VOne (x : V) | VSeq (l : list V) | VMisc.
Inductive vout := VArr (x : V) | VSeqOut (l : list V) | VNone.
Inductive fout := FArr (a : operand) | FSeq (l : list operand) | FNone.
Definition units_of (a : farg) : unit_ := match a with One a => get_units a | _ => [] end.
Definition nth_units (l : list farg) (i : nat) : res unit_ := match nth_error l i with Some a => Ok (units_of a) | None => Err IndexError end.
Definition seq_units (l : list farg) (i : nat) : res (list unit_) :=
  match nth_error l i with Some (Seq l) => Ok (map get_units l) | Some _ => Err TypeError | None => Err IndexError end.
(** _get_function_input_units, 505-531. *)
Definition input_units (i : conv_input) (args : list farg) : res (list unit_) :=
  match i with
  | FIRST => do u <- nth_units args 0; Ok [u]
  | SECOND => do u <- nth_units args 1; Ok [u]
  | SEQUENCE => Ok (map units_of args)
  | SEQUENCE_EXCEPT_FIRST => Ok (map units_of (tl args))
  | FIRST_AND_SECOND => do u <- nth_units args 0; do v <- nth_units args 1; Ok [u; v]
  | SECOND_AND_THIRD => do u <- nth_units args 1; do v <- nth_units args 2; Ok [u; v]
  | FIRST_AND_THIRD => do u <- nth_units args 0; do v <- nth_units args 2; Ok [u; v]
  | FIRST_SEQUENCE => seq_units args 0
  | SECOND_SEQUENCE => seq_units args 1
  end.
(** _get_function_output_units, 533-551: one unit, or one by output. *)
Inductive ounits := OneUnit (u : unit_) | EachUnit (us : list unit_).
Definition output_units (a : conv_action) (us : list unit_) : res ounits :=
  match a with
  | SAME => Ok (OneUnit (common_of us))
  | EACH => Ok (EachUnit us)
  | SQUARE => do u <- nth_unit us 0; Ok (OneUnit (power_unit u (Q2Qc 2)))
  | PROD => match us with [] => Err IndexError | u :: r => Ok (OneUnit (fold_left multiply_unit r u)) end
  end.
(** 590-619: the arguments that are converted. *)
Definition selected (i : conv_input) (k : nat) : bool :=
  match i with
  | FIRST => k =? 0
  | SECOND => k =? 1
  | FIRST_AND_SECOND => (k =? 0) || (k =? 1)
  | FIRST_AND_THIRD => (k =? 0) || (k =? 2)
  | SECOND_AND_THIRD => (k =? 1) || (k =? 2)
  | SEQUENCE_EXCEPT_FIRST => 0 <? k
  | SEQUENCE => true
  | FIRST_SEQUENCE => false
  | SECOND_SEQUENCE => false
  end.
Definition nested (i : conv_input) (k : nat) : bool := match i with FIRST_SEQUENCE => k =? 0 | SECOND_SEQUENCE => k =? 1 | _ => false end.
Definition convert_arg fuel glob common (i : conv_input) (k : nat) (a : farg) : res farg :=
  if nested i k then match a with Seq l => do l' <- map_res (homogenize fuel glob common) l; Ok (Seq l') | _ => Ok a end
  else if selected i k then match a with One q => do q' <- homogenize fuel glob common q; Ok (One q') | _ => Ok a end
  else Ok a.
Fixpoint convert_args fuel glob common (i : conv_input) (k : nat) (args : list farg) : res (list farg) :=
  match args with
  | [] => Ok []
  | a :: r => do a' <- convert_arg fuel glob common i k a; do r' <- convert_args fuel glob common i (S k) r; Ok (a' :: r')
  end.
(** _convert_function_inputs, 553-620. *)
Definition convert_inputs fuel glob (c : conversion) (ou : ounits) (args : list farg) : res (list farg) :=
  match c_action c, c_input c, ou with
  | SAME, FIRST, _ | SAME, SECOND, _ => Ok args
  | SAME, i, OneUnit ((_ :: _) as common) => convert_args fuel glob common i 0 args
  | _, _, _ => Ok args
  end.
(** _view_function_inputs, 622-650: a sequence elsewhere than where it is expected keeps its
    quantities; what numpy does then is left out. *)
Definition view_arg (a : farg) : vin := match a with One a => VOne (magnitude a) | Seq l => VSeq (map magnitude l) | Misc => VMisc end.
(** _convert_function_outputs, 652-706. *)
Definition convert_outputs (loc : @du_table K) (c : conversion) (ou : ounits) (out : vout) : res fout :=
  match out with
  | VNone => Ok FNone
  | VArr x => match ou with OneUnit u => Ok (FArr (Qty x u loc)) | EachUnit _ => Err TypeError (* the unit is a tuple *) end
  | VSeqOut l =>
      let us := match ou with OneUnit u => repeat u (length l) | EachUnit us => us end in
      let conv (k : nat) := match c_output c with SEQUENCE_OUT => true | FIRST_IF_SEQUENCE | FIRST_IN_SEQUENCE => k =? 0 | _ => false end in
      Ok (FSeq (map (fun p => let '(k, (x, u)) := p in if conv k then Qty x u loc else Plain x) (combine (seq 0 (length l)) (combine l us))))
  end.
Definition operands (args : list farg) : list operand := flat_map (fun a => match a with One a => [a] | Seq l => l | Misc => [] end) args.
(** __array_function__, 475-503. *)
Definition array_function (fn : list vin -> vout) fuel glob (c : conversion) (args : list farg) : res fout :=
  match handler (operands args) with
  | None => Ok (match fn (map view_arg args) with VArr x => FArr (Plain x) | VSeqOut l => FSeq (map Plain l) | VNone => FNone end)
  | Some (_, loc) =>
      do us <- input_units (c_input c) args;
      do ou <- output_units (c_action c) us;
      do args' <- convert_inputs fuel glob c ou args;
      match c_output c with
      | NONE => Ok FNone
      | _ => convert_outputs loc c ou (fn (map view_arg args'))
      end
  end.
End Uf.
Arguments Plain {K V}. Arguments Qty {K V}. Arguments One {K V}. Arguments Seq {K V}. Arguments Misc {K V}.
Arguments VOne {V}. Arguments VSeq {V}. Arguments VMisc {V}. Arguments VArr {V}. Arguments VSeqOut {V}. Arguments VNone {V}.
Arguments FArr {K V}. Arguments FSeq {K V}. Arguments FNone {K V}.

(** FUNCTIONS, 87-227. *)
Definition default_conversion := Conversion FIRST DEFAULT SAME.
Definition functions : list (string * conversion) :=
  map (fun n => (n, default_conversion)) ["amax"; "amin"; "around"; "atleast_1d"; "atleast_2d"; "atleast_3d"; "average"; "broadcast_to"; "clip"; "copy"; "cumsum"; "cumulative_sum";
    "delete"; "diag"; "diagflat"; "diagonal"; "diff"; "expand_dims"; "fix"; "flip"; "fliplr"; "flipud"; "imag"; "interp"; "max"; "mean"; "median"; "min"; "moveaxis"; "nan_to_num";
    "nancumsum"; "nanmax"; "nanmean"; "nanmedian"; "nanmin"; "nanstd"; "nansum"; "pad"; "partition"; "permute_dims"; "ptp"; "ravel"; "real"; "real_if_close"; "repeat"; "reshape"; "resize"; "roll"; "rollaxis";
    "rot90"; "round"; "sort"; "sort_complex"; "squeeze"; "std"; "sum"; "swapaxes"; "take"; "take_along_axis"; "tile"; "trace"; "transpose"; "trim_zeros"; "unique_values"; "unwrap"]%string ++
  map (fun n => (n, Conversion FIRST SEQUENCE_OUT SAME)) ["array_split"; "dsplit"; "hsplit"; "split"; "unstack"; "vsplit"]%string ++
  map (fun n => (n, Conversion FIRST_SEQUENCE DEFAULT SAME)) ["column_stack"; "concat"; "concatenate"; "dstack"; "hstack"; "row_stack"; "stack"; "vstack"]%string ++
  map (fun n => (n, Conversion FIRST_AND_SECOND DEFAULT PROD)) ["convolve"; "correlate"; "cov"; "cross"; "dot"; "inner"; "kron"; "outer"; "tensordot"; "vdot"]%string ++
  map (fun n => (n, Conversion FIRST_AND_SECOND DEFAULT SAME)) ["append"; "intersect1d"; "setdiff1d"; "setxor1d"; "union1d"]%string ++
  map (fun n => (n, Conversion SECOND DEFAULT SAME)) ["compress"; "extract"]%string ++
  map (fun n => (n, Conversion FIRST DEFAULT SQUARE)) ["nanvar"; "var"]%string ++
  map (fun n => (n, Conversion SECOND_SEQUENCE DEFAULT SAME)) ["choose"; "select"]%string ++
  [("broadcast_arrays", Conversion SEQUENCE SEQUENCE_OUT EACH); ("einsum", Conversion SEQUENCE_EXCEPT_FIRST DEFAULT PROD); ("fill_diagonal", Conversion FIRST_AND_SECOND NONE SAME);
   ("insert", Conversion FIRST_AND_THIRD DEFAULT SAME); ("unique", Conversion FIRST FIRST_IF_SEQUENCE SAME); ("unique_all", Conversion FIRST FIRST_IN_SEQUENCE SAME); ("where", Conversion SECOND_AND_THIRD DEFAULT SAME)]%string.
Definition conversion_of (name : string) : option conversion := match find (fun p => String.eqb name (fst p)) functions with Some (_, c) => Some c | None => None end.
(** np.name(args): [None]: not in the table, other rules apply. *)
Definition np_function {K V} (o : mag_ops K) (act : K -> V -> V) (name : string) (fn : list (@vin V) -> @vout V) fuel glob args : option (res (@fout K V)) :=
  match conversion_of name with Some c => Some (array_function o act fn fuel glob c args) | None => None end.

(** ** Items: __getitem__, 852-918
    An array of rank n is a function of n indices.  A key is made of integers (non-negative:
    the sizes are left out), slices (first index and step), None and Ellipsis. *)
Inductive kitem := KInt (i : Z) | KSlice (a s : Z) | KNew | KEllipsis.
Definition is_ellipsis (k : kitem) : bool := match k with KEllipsis => true | _ => false end.
Definition colon := KSlice 0 1.
(** key.index(Ellipsis) *)
Fixpoint index_of_ellipsis (key : list kitem) : option nat :=
  match key with [] => None | k :: r => if is_ellipsis k then Some 0 else option_map S (index_of_ellipsis r) end.
(** 875-883; n * (slice(None),) is empty when n is negative. *)
Definition code_key (ndim : nat) (key : list kitem) : list kitem :=
  let key' := match index_of_ellipsis key with
              | Some pos => firstn pos key ++ repeat colon (ndim - length key) ++ skipn (S pos) key
              | None => key
              end in
  key' ++ repeat colon (ndim - length key').
(** An index of the item gives an index of the array: numpy's basic indexing with a key of
    integers, slices and None; missing slices are added at the end. *)
Fixpoint place (key : list kitem) (idx : list Z) : list Z :=
  match key with
  | [] => idx
  | KInt i :: r => i :: place r idx
  | KSlice a s :: r => match idx with j :: idx => (a + s * j)%Z :: place r idx | [] => [] end
  | KNew :: r | KEllipsis :: r => match idx with _ :: idx => place r idx | [] => [] end
  end.
Definition item_rank (key : list kitem) (rank : nat) : nat :=
  length (filter (fun k => match k with KSlice _ _ | KNew => true | _ => false end) key) +
  (rank - length (filter (fun k => match k with KInt _ | KSlice _ _ => true | _ => false end) key)).
Inductive direction := Leftward | Rightward.
Record barray {A} := BArray { b_rank : nat; b_at : list Z -> A }.
Arguments barray : clear implicits. Arguments BArray {A}.
Definition b_item {A} (v : barray A) (key : list kitem) : res (barray A) :=
  if b_rank v <? length (filter (fun k => match k with KInt _ | KSlice _ _ => true | _ => false end) key) then Err IndexError
  else Ok (BArray (item_rank key (b_rank v)) (fun idx => b_at v (place key idx))).
(** 885-915, for one broadcastable derived unit: key[-v.ndim:], key[:v.ndim]. *)
Definition item_unit {A} (ndim : nat) (key : list kitem) (dir : direction) (v : barray A) : res (barray A) :=
  let k := code_key ndim key in
  b_item v (match dir with
            | Leftward => match b_rank v with O => k | d => skipn (length k - d) k end
            | Rightward => firstn (b_rank v) k
            end).
