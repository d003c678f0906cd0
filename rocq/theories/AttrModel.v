(** Model of the attribute access of packed and unpacked tables:
    src/pysimulators/packedtables/core.py, PackedTable.__getattribute__ (lines 281-307) and
    UnpackedTable (lines 770-801).

    A special attribute holds nothing, an array (its entries along the first axis), or
    something callable.  A callable is described by what inspect.getfullargspec counts: the
    number of positional parameters and, among them, the number of those with a default
    value.  For a bound method and for an object with a __call__ method the count includes
    the parameter [self] that Python fills in itself (getfullargspec does not skip bound
    arguments).  A call receives the actual arguments, the one filled in by Python included;
    a wrong number of them is a TypeError.

    Not modelled: variable and keyword-only parameters, callables without a signature, and
    the results of callables other than arrays.  The attribute 'packed' returns the table
    itself with a warning (282-289). *)
From Coq Require Import ZArith List Bool String.
From Verif Require Import Base PTModel.
Import ListNotations.
Local Open Scope Z_scope.

Section Attr.
  Context {A U : Type}.                 (* entries of the arrays; arguments given by users *)

  Inductive arg := Self | Own | User (u : U).   (* the table; the callable object; others *)

  Inductive kind := Function | Method | Object.

  Record callable := Callable {
    c_kind : kind;
    c_nargs : nat;                      (* len(spec.args) *)
    c_ndefaults : nat;                  (* len(spec.defaults), or 0 *)
    c_body : list arg -> res (list A)   (* the body, given the actual arguments *)
  }.

  Inductive slot := SNone | SArray (x : list A) | SCallable (c : callable).

  (** What the access gives: nothing, an array, or something to call. *)
  Inductive access := VNone | VArray (x : list A) | VFun (f : list arg -> res (list A)).

  (** Calling value( *args): Python adds the bound object, then checks the number. *)
  Definition actual (k : kind) (args : list arg) : list arg :=
    match k with Function => args | Method => Self :: args | Object => Own :: args end.
  Definition invoke (c : callable) (args : list arg) : res (list A) :=
    let full := actual (c_kind c) args in
    if (Nat.leb (c_nargs c - c_ndefaults c) (List.length full)
        && Nat.leb (List.length full) (c_nargs c))%bool
    then c_body c full else Err TypeError.

  Definition evaluated (r : res (list A)) : res access := do x <- r; Ok (VArray x).

  (** PackedTable.__getattribute__ on a special attribute, lines 290-307. *)
  Definition getattribute (s : slot) : res access :=
    match s with
    | SNone => Ok VNone
    | SArray x => Ok (VArray x)
    | SCallable c =>
        let nargs := (c_nargs c - c_ndefaults c)%nat in                  (* 295-298 *)
        match c_kind c with
        | Method => if Nat.eqb nargs 1 then evaluated (invoke c [])      (* 299-301 *)
                    else Ok (VFun (invoke c))                            (* 302 *)
        | _ =>
            if Nat.eqb nargs 0 then evaluated (invoke c [])              (* 303-304 *)
            else if Nat.eqb nargs 1 then evaluated (invoke c [Self])     (* 305-306 *)
            else Ok (VFun (fun args => invoke c (Self :: args)))         (* 307 *)
        end
    end.

  Fixpoint slot_of (key : string) (slots : list (string * slot)) : option slot :=
    match slots with
    | [] => None
    | (k, s) :: r => if String.eqb key k then Some s else slot_of key r
    end.

  (** UnpackedTable.__getattribute__, lines 787-801.  [slots] are the special attributes of
      the packed table; [missing] is the default value for missing elements and [garbage]
      the content of new memory, as in [unpack].  Names starting with an underscore and
      'removed' (788-789) are the attributes of the object itself: not here. *)
  Definition getattribute_all (t : table A) (slots : list (string * slot))
      (missing : A) (garbage : list A) (key : string) : res access :=
    match slot_of key slots with
    | None => Err AttributeError                                         (* 790-791 *)
    | Some s =>
        do v <- getattribute s;                                          (* 792 *)
        match v with
        | VNone => Ok VNone                                              (* 793-794 *)
        | VFun f => Ok (VFun (fun args =>                                (* 795-796 *)
                      do x <- f args; unpack t x missing garbage))
        | VArray x => evaluated (unpack t x missing garbage)             (* 797-799 *)
        end
    end.

End Attr.
Arguments arg : clear implicits. Arguments callable : clear implicits.
Arguments slot : clear implicits. Arguments access : clear implicits.
