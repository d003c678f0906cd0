(** datatypes.py: the headers of FitsArray as objects: __new__ 98-158, __array_finalize__ 159-161,
    astype 174-206, the property header 280-295.  Quantity.__new__, quantities.py 447-478, gives the
    type of the new array.  create_fitsheader_for, wcsutils.py 329-410, writes a header.

    Simplifications: a header is its keywords of structure (NAXISn in the order of FITS, BITPIX) and
    the other keywords with integers as values; a program only writes the latter by itself.  The
    values of the arrays, the units and the subclasses are not modelled (see DataModel.v,
    QobjModel.v).  A program is a list of events; an exception stops it.  NumPy is 2 or later. *)
From Coq Require Import String.
From Verif Require Import Base TemplateModel.
From Verif Require WcsModel.
Open Scope Z_scope.

Inductive dtype := Bool_ | Int8 | UInt8 | Int16 | Int32 | Int64 | Float16 | Float32 | Float64 | Complex128.
Definition name_of (t : dtype) : string :=
  match t with
  | Bool_ => "bool" | Int8 => "int8" | UInt8 => "uint8" | Int16 => "int16" | Int32 => "int32" | Int64 => "int64"
  | Float16 => "float16" | Float32 => "float32" | Float64 => "float64" | Complex128 => "complex128"
  end%string.
Definition itemsize (t : dtype) : Z :=
  match t with Bool_ | Int8 | UInt8 => 1 | Int16 | Float16 => 2 | Int32 | Float32 => 4 | Int64 | Float64 => 8 | Complex128 => 16 end.
(** dtype.kind == 'i' *)
Definition signed (t : dtype) : bool := match t with Int8 | Int16 | Int32 | Int64 => true | _ => false end.
Definition dtype_eqb (s t : dtype) : bool := String.eqb (name_of s) (name_of t).

Record cards := Cards { c_axes : list Z; c_bitpix : Z; c_user : list (text * Z) }.
Fixpoint put (l : list (text * Z)) (k : text) (v : Z) : list (text * Z) :=
  match l with [] => [(k, v)] | p :: r => if text_eqb (fst p) k then (k, v) :: r else p :: put r k v end.
Definition set_card (h : cards) (k : text) (v : Z) : cards := Cards (c_axes h) (c_bitpix h) (put (c_user h) k v).
Definition set_bitpix (h : cards) (b : Z) : cards := Cards (c_axes h) b (c_user h).
(** create_fitsheader_for, wcsutils.py 391-410, and create_fitsheader 243-253 without an extension. *)
Definition header_for (shape : list Z) (t : dtype) : res cards :=
  let naxes := rev (match shape with [] => [1] | _ => shape end) in                             (* 391-392 *)
  if 8 <? zlen naxes then Err ValueError
  else do b <- WcsModel.dtype2bitpix (if itemsize t =? 1 then "uint8"%string else name_of t);   (* 393-394 *)
       Ok (Cards naxes b []).

(** An array and the memory: the headers, the arrays, and the arrays that the names of the program refer to. *)
Record obj := Obj { o_shape : list Z; o_type : dtype; o_header : option nat }.
Record state := State { s_headers : list cards; s_objs : list obj; s_vars : list nat }.
Inductive event :=
| New (shape : list Z) (t : dtype) (h : option cards)          (* FitsArray(ndarray, header=h), h made for it *)
| NewFrom (shape : list Z) (t : dtype) (j : nat)               (* FitsArray(ndarray, header=y.header) *)
| Copy (i : nat) (t : option dtype)                            (* FitsArray(x, dtype=t) *)
| NoCopy (i j : nat)                                           (* FitsArray(x, header=y.header, copy=False) *)
| Derive (i : nat) (shape : list Z) (t : dtype)                (* x[...], x.view(t), x + 1, x * 1j *)
| AsType (i : nat) (t : dtype)                                 (* x.astype(t) *)
| Read (i : nat)                                               (* x.header *)
| Write (i : nat) (k : text) (v : Z)                           (* x.header[k] = v *)
| Take (i j : nat).                                            (* x.header = y.header *)

Definition obj_of (s : state) (i : nat) : res (nat * obj) :=
  match nth_error (s_vars s) i with
  | Some p => match nth_error (s_objs s) p with Some o => Ok (p, o) | None => Err KeyError end
  | None => Err KeyError
  end.
Definition new_obj (s : state) (o : obj) : state := State (s_headers s) (s_objs s ++ [o]) (s_vars s ++ [length (s_objs s)]).
Definition new_header (s : state) (h : cards) : state * nat := (State (s_headers s ++ [h]) (s_objs s) (s_vars s), length (s_headers s)).
Definition set_href (s : state) (p : nat) (o : obj) (r : option nat) : state :=
  State (s_headers s) (set_nth (s_objs s) p (Obj (o_shape o) (o_type o) r)) (s_vars s).
Definition header_at (s : state) (r : nat) : cards := nth r (s_headers s) (Cards [] 0 []).
(** header, 282-286. *)
Definition header (s : state) (i : nat) : res (state * option nat) :=
  do x <- obj_of s i;
  let '(p, o) := x in
  match o_header o, o_type o with
  | Some r, _ => Ok (s, Some r)
  | None, Complex128 => Ok (s, None)
  | None, t => do h <- header_for (o_shape o) t;
               let '(s, r) := new_header s h in
               Ok (set_href s p o (Some r), Some r)
  end.
(** quantities.py 460-462: the type of the data of a new array. *)
Definition quantity_type (given : option dtype) (t : dtype) : dtype :=
  match given with Some t => t | None => if signed t then Float64 else t end.
Definition step (s : state) (e : event) : res state :=
  match e with
  | New shape t h =>
      let t := quantity_type None t in
      match h with
      | None => Ok (new_obj s (Obj shape t None))                                          (* 154-155 *)
      | Some h => let '(s, r) := new_header s h in Ok (new_obj s (Obj shape t (Some r)))   (* 147-148 *)
      end
  | NewFrom shape t j =>
      do x <- header s j;
      let '(s, r) := x in
      Ok (new_obj s (Obj shape (quantity_type None t) r))                                  (* 147-148; None: 154-155 *)
  | Copy i t =>
      do x <- obj_of s i;
      let o := snd x in
      let t := quantity_type t (o_type o) in
      match o_header o with
      | None => Ok (new_obj s (Obj (o_shape o) t None))
      | Some r => let '(s, r) := new_header s (header_at s r) in Ok (new_obj s (Obj (o_shape o) t (Some r)))    (* 150-151 *)
      end
  | NoCopy i j =>
      do y <- header s j;
      let '(s, r) := y in
      do x <- obj_of s i;
      let '(p, o) := x in
      if signed (o_type o) then Err ValueError                                             (* np.array, NumPy 2 *)
      else
        let s := State (s_headers s) (s_objs s) (s_vars s ++ [p]) in                        (* the same array *)
        match r with Some _ => Ok (set_href s p o r) | None => Ok s end
  | Derive i shape t => do x <- obj_of s i; Ok (new_obj s (Obj shape t (o_header (snd x))))  (* 159-161; quantities.py 838-848 *)
  | AsType i t =>
      do x <- obj_of s i;
      let o := snd x in
      match o_header o with
      | None => Ok (new_obj s (Obj (o_shape o) t None))
      | Some r => do b <- WcsModel.dtype2bitpix (name_of t);                               (* 202-205 *)
                  let '(s, r) := new_header s (set_bitpix (header_at s r) b) in
                  Ok (new_obj s (Obj (o_shape o) t (Some r)))
      end
  | Read i => do x <- header s i; Ok (fst x)
  | Write i k v =>
      do x <- header s i;
      match snd x with
      | None => Err TypeError
      | Some r => let s := fst x in Ok (State (set_nth (s_headers s) r (set_card (header_at s r) k v)) (s_objs s) (s_vars s))
      end
  | Take i j =>
      do y <- header s j;
      let '(s, r) := y in
      do x <- obj_of s i;
      Ok (set_href s (fst x) (snd x) r)                                                    (* 288-294 *)
  end.
Fixpoint exec (s : state) (l : list event) : res state := match l with [] => Ok s | e :: l => do s <- step s e; exec s l end.
Definition run (l : list event) : res state := exec (State [] [] []) l.
