(** PackedTable._get_default_missing_value (packedtables/core.py 650-665), and unpack (564-648)
    without a missing value. *)
From Coq Require Import String.
From Verif Require Import Base PTModel.

(** dtype.kind of the plain types; [Kdate] and [Kdelta]: M and m; [Kvoid]: V without field. *)
Inductive kind := Kbool | Kint | Kuint | Kfloat | Kcomplex | Kbytes | Kstr | Kobject | Kdate | Kdelta | Kvoid.
(** A field may have a title; [Sub]: the type of a field which is itself an array. *)
Inductive dtype := Plain (k : kind) | Struct (fields : list (string * option string * dtype)) | Sub (d : dtype) (shape : list Z).

Inductive scalar := False_ | Minus_one | Zero | Nan | Empty | None_ | Junk (i : nat).
Inductive value := Scalar (s : scalar) | Record (fields : list (string * value)).

(** value[f] = v. *)
Fixpoint set_field (l : list (string * value)) (f : string) (v : value) : list (string * value) :=
  match l with
  | [] => []
  | (g, w) :: l => if String.eqb f g then (g, v) :: l else (g, w) :: set_field l f v
  end.
(** np.empty((), dtype): [junk]: what the memory contains. *)
Fixpoint np_empty (junk : nat) (d : dtype) : value :=
  match d with
  | Plain _ | Sub _ _ => Scalar (Junk junk)
  | Struct fields => Record (map (fun f => (fst (fst f), np_empty junk (snd f))) fields)
  end.
(** dtype.fields: (type, offset) or (type, offset, title), the latter also under the title. *)
Definition plain_value (k : kind) : res scalar :=
  match k with
  | Kbool => Ok False_ | Kint => Ok Minus_one | Kuint => Ok Zero | Kfloat => Ok Nan | Kcomplex => Ok Nan
  | Kbytes => Ok Empty | Kstr => Ok Empty | Kobject => Ok None_
  | Kdate | Kdelta => Err KeyError
  | Kvoid => Err AttributeError                  (* None has no attribute items *)
  end.
Fixpoint default_missing (junk : nat) (d : dtype) : res value :=
  match d with
  | Plain k => do s <- plain_value k; Ok (Scalar s)
  | Sub _ _ => Err AttributeError                (* of kind V, without fields *)
  | Struct fields =>
      do l <- (fix loop (fs : list (string * option string * dtype)) (l : list (string * value)) : res (list (string * value)) :=
                 match fs with
                 | [] => Ok l
                 | (name, title, dt) :: fs =>
                     match title with
                     | Some _ => Err ValueError          (* too many values to unpack *)
                     | None => do v <- default_missing junk dt; loop fs (set_field l name v)
                     end
                 end) fields (map (fun f => (fst (fst f), np_empty junk (snd f))) fields);
      Ok (Record l)
  end.

(** unpack(x), of an array of type d. *)
Definition unpack_default (t : table value) (d : dtype) (x : list value) (junk : nat) (garbage : list value) : res (list value) :=
  do n <- t_len t;
  if negb ((zlen x =? 1) || (zlen x =? n)) then Err ValueError
  else if n <? t_size t then do m <- default_missing junk d; unpack t x m garbage
  else unpack t x (Scalar (Junk junk)) garbage.
