(** Headers as values: every array has its own.  [v_family] is only used to say which programs do not
    write in a header that another array was given. *)
From Verif Require Import Base TemplateModel HobjModel.
Open Scope Z_scope.

Record value := Value { v_shape : list Z; v_type : dtype; v_header : option cards; v_family : nat }.
(** The number of bits of a FITS array, negative for real numbers. *)
Definition bits (t : dtype) : option Z :=
  match t with
  | Int8 | UInt8 => Some 8 | Int16 => Some 16 | Int32 => Some 32 | Int64 => Some 64
  | Float32 => Some (-32) | Float64 => Some (-64) | Bool_ | Float16 | Complex128 => None
  end.
Definition stored_bits (t : dtype) : option Z := match t with Bool_ => Some 8 | _ => bits t end.
Definition axes_of (shape : list Z) : list Z := match shape with [] => [1] | _ => rev shape end.
(** The header that describes an array. *)
Definition describes (h : cards) (shape : list Z) (t : dtype) : Prop := c_axes h = axes_of shape /\ stored_bits t = Some (c_bitpix h).

Definition vget (v : list value) (i : nat) : res value := match nth_error v i with Some x => Ok x | None => Err KeyError end.
Definition vput (v : list value) (i : nat) (h : option cards) (f : nat) : list value :=
  match nth_error v i with Some x => set_nth v i (Value (v_shape x) (v_type x) h f) | None => v end.
Definition vnew (v : list value) (shape : list Z) (t : dtype) (h : option cards) (f : nat) : list value := v ++ [Value shape t h f].
(** Reading the header of the array i makes one when there is none, except for complex numbers. *)
Definition vread (v : list value) (i : nat) : res (list value) :=
  do x <- vget v i;
  match v_header x, v_type x with
  | Some _, _ => Ok v
  | None, Complex128 => Ok v
  | None, t => if 8 <? zlen (axes_of (v_shape x)) then Err ValueError
               else match stored_bits t with
                    | Some b => Ok (vput v i (Some (Cards (axes_of (v_shape x)) b [])) (v_family x))
                    | None => Err KeyError
                    end
  end.
Definition no_int (t : dtype) : dtype := match t with Int8 | Int16 | Int32 | Int64 => Float64 | _ => t end.
Definition vstep (v : list value) (e : event) : res (list value) :=
  let n := length v in
  match e with
  | New shape t h => Ok (vnew v shape (no_int t) h n)
  | NewFrom shape t j => do v <- vread v j; do y <- vget v j; Ok (vnew v shape (no_int t) (v_header y) (v_family y))
  | Copy i t => do x <- vget v i; Ok (vnew v (v_shape x) (match t with Some t => t | None => no_int (v_type x) end) (v_header x) n)
  | NoCopy i j => Err RuntimeError (* not in the programs considered *)
  | Derive i shape t => do x <- vget v i; Ok (vnew v shape t (v_header x) (match v_header x with Some _ => v_family x | None => n end))
  | AsType i t =>
      do x <- vget v i;
      match v_header x, bits t with
      | None, _ => Ok (vnew v (v_shape x) t None n)
      | Some h, Some b => Ok (vnew v (v_shape x) t (Some (Cards (c_axes h) b (c_user h))) n)
      | Some _, None => Err KeyError
      end
  | Read i => vread v i
  | Write i k w =>
      do v <- vread v i; do x <- vget v i;
      match v_header x with
      | Some h => Ok (vput v i (Some (set_card h k w)) (v_family x))
      | None => Err TypeError
      end
  | Take i j => do v <- vread v j; do y <- vget v j; do x <- vget v i; Ok (vput v i (v_header y) (v_family y))
  end.
Fixpoint vexec (v : list value) (l : list event) : res (list value) := match l with [] => Ok v | e :: l => do v <- vstep v e; vexec v l end.
Definition vrun (l : list event) := vexec [] l.
(** A header that was given to several arrays is not written, and no array is shared. *)
Definition alone (v : list value) (i : nat) : Prop :=
  forall j x y, nth_error v i = Some x -> nth_error v j = Some y -> v_family y = v_family x -> j = i.
Definition allowed (v : list value) (e : event) : Prop :=
  match e with NoCopy _ _ => False | Write i _ _ => alone v i | _ => True end.
Fixpoint guarded_from (v : list value) (l : list event) : Prop :=
  match l with
  | [] => True
  | e :: l => allowed v e /\ forall v', vstep v e = Ok v' -> guarded_from v' l
  end.
Definition guarded (l : list event) : Prop := guarded_from [] l.
Definition show_value (v : value) : list Z * dtype * option cards := (v_shape v, v_type v, v_header v).
