(** datatypes.py, class Map (559-955): the coverage and the error of items, of rearranged maps
    and of results.

    Simplification: arrays are values (the coverage is never written in place by this code);
    NumPy's indexing is the parameter of TodModel.v; the constructor is given arrays. *)
From Verif Require Import Base TodModel.
Open Scope Z_scope.

Section map. Context {E C : Type}.
Record varr A := VArr { v_shape : list Z; v_data : list A }.
Arguments VArr {A}. Arguments v_shape {A}. Arguments v_data {A}.
Record pmap := PMap { pm_arr : varr E; pm_coverage : option (varr C); pm_error : option (varr C) }.
(** __array_finalize__, 702-706. *)
Definition pm_finalize (a : varr E) (parent : pmap) : pmap := PMap a (pm_coverage parent) (pm_error parent).
(** The constructor, 692-700: no check of the shapes; the coverage of a map is kept. *)
Definition pm_construct (a : varr E) (parent : option pmap) (coverage error : option (varr C)) : pmap :=
  let or_parent x (f : pmap -> option (varr C)) := match x with Some c => Some c | None => match parent with Some p => f p | None => None end end in
  PMap a (or_parent coverage pm_coverage) (or_parent error pm_error).
Definition take {A} (a : varr A) (s l : list Z) : res (varr A) := do d <- map_res (get (v_data a)) l; Ok (VArr s d).
Section index. Context {K : Type} (index : list Z -> K -> res item).
(** An array, or a number seen as an array without dimension. *)
Definition v_item {A} (a : varr A) (key : K) : res (varr A) :=
  do it <- index (v_shape a) key; match it with Number p => take a [] [p] | Positions _ s l => take a s l end.
Definition opt_res {A B} (f : A -> res B) (x : option A) : res (option B) :=
  match x with Some a => do b <- f a; Ok (Some b) | None => Ok None end.
(** __getitem__, 715-723. *)
Definition pm_item (m : pmap) (key : K) : res (E + pmap) :=
  do it <- index (v_shape (pm_arr m)) key;
  match it with
  | Number p => do x <- get (v_data (pm_arr m)) p; Ok (inl x)
  | Positions _ s l =>
      do a <- take (pm_arr m) s l;
      let i := pm_finalize a m in
      do c <- opt_res (fun c => v_item c key) (pm_coverage i);
      do e <- opt_res (fun e => v_item e key) (pm_error i);
      Ok (inr (PMap a c e))
  end.
End index.
(** ravel and reshape, 926-955: element j of the result is element perm[j]. *)
Definition pm_rearrange (m : pmap) (shape perm : list Z) : res pmap :=
  do a <- take (pm_arr m) shape perm;
  do c <- opt_res (fun c => take c shape perm) (pm_coverage m);
  do e <- opt_res (fun e => take e shape perm) (pm_error m);
  Ok (PMap a c e).
(** A method of ndarray which Map does not define, or a universal function. *)
Definition pm_ndarray_method (m : pmap) (a : varr E) : pmap := pm_finalize a m.
End map.
Arguments varr : clear implicits. Arguments VArr {A}. Arguments v_shape {A}. Arguments v_data {A}. Arguments pmap : clear implicits.
