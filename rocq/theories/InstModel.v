(** C129: instruments, instruments.py 21-103 (Instrument: constructor, items, iteration, length,
    pack, unpack, scatter and split) and 337-366 (Imager).
    The layout is a packed table (PTModel); the operators and their inverses are parameters.
    Simplified: the methods of an instrument whose detector is a string are not modelled (they
    give TypeError here). *)
From Coq Require Import String.
From Verif Require Import Base PTModel PTMpiModel.
Open Scope Z_scope.

Section Instruments.
Context {A Op : Type}.
Variable inv : Op -> Op.                                   (* the property I of pyoperators *)

(** What is given to the constructors. *)
Inductive arg := ANone | AName (s : string) | ALayout (t : table A).
(** The attributes: [name] may be missing. *)
Record instrument := Instr { i_name : option arg; i_detector : arg; i_transforms : option (Op * Op) }.
(** 35-41. *)
Definition new_instrument (layout name : arg) : instrument :=
  let (layout, name) := match layout with AName _ => (name, layout) | _ => (layout, name) end in
  Instr (match name with ANone => None | n => Some n end) layout None.
Definition name (x : instrument) : res arg := match i_name x with Some n => Ok n | None => Err AttributeError end.
Definition detector (x : instrument) : res (table A) := match i_detector x with ALayout t => Ok t | _ => Err TypeError end.
(** 43-51. *)
Definition item (x : instrument) (s : selection) : res instrument :=
  do t <- detector x; do t' <- getitem t s; Ok (Instr (i_name x) (ALayout t') (i_transforms x)).
(** 57-58. *)
Definition len (x : instrument) : res Z := do t <- detector x; t_len t.
(** 53-55. *)
Definition iterate (x : instrument) : res (list instrument) := do n <- len x; map_res (fun i => item x (SelScalar i)) (iota n).
(** 64-72: the methods take the array only; [kw] are the keywords of the call. *)
Definition pack (x : instrument) (kw : list string) (xshape : list Z) (v : list A) : res (list A) :=
  match kw with [] => do t <- detector x; pack_view t xshape v | _ => Err TypeError end.
Definition unpack (x : instrument) (kw : list string) (v : list A) (missing : A) (garbage : list A) : res (list A) :=
  match kw with [] => do t <- detector x; PTModel.unpack t v missing garbage | _ => Err TypeError end.
(** 74-90, on the processes of a communicator of size m; [dist]: the layout is distributed. *)
Definition scatter (dist : bool) (x : instrument) (m : Z) : res (list instrument) :=
  if dist then Err ValueError
  else do t <- detector x; do ts <- PTMpiModel.scatter t m; Ok (map (fun t' => Instr (i_name x) (ALayout t') (i_transforms x)) ts).
(** 92-103. *)
Definition split (x : instrument) (m : Z) : res (list instrument) := do n <- len x; map_res (fun s => item x (SelSlice s)) (split_slices n m).
(** 352-366: the pair (object2image, image2object). *)
Definition new_imager (nm layout : arg) (image2object object2image : option Op) : res instrument :=
  do tr <- match object2image, image2object with
           | Some f, _ => Ok (f, inv f)
           | None, Some g => Ok (inv g, g)
           | None, None => Err ValueError
           end;
  let x := new_instrument nm layout in
  Ok (Instr (i_name x) (i_detector x) (Some tr)).
End Instruments.
Arguments arg : clear implicits.
Arguments instrument : clear implicits.
