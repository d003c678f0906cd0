(** datatypes.py, class Tod (957-1349): its mask, how items, views, results of functions
    and of universal functions get one, and the attribute's setter.

    Simplifications: the mask arrays are references into a heap of buffers of booleans
    (an address, a shape, the position of each element in the buffer), since several Tod
    may hold the same array; the data of a Tod are values; units, derived units and headers
    are modelled elsewhere (UnitModel, UfModel, MpiModel); NumPy's indexing is a parameter
    [index], of which [np_index] is the part for integers, slices, None and an ellipsis;
    masks of integers of one byte, which the setter views as booleans, are copied. *)
From Verif Require Import Base.
Open Scope Z_scope.

(** ** NumPy *)
Inductive item := Number (p : Z) | Positions (view : bool) (shape : list Z) (pos : list Z).
Inductive kitem := KInt (i : Z) | KSlice (s : pyslice) | KNew | KEllipsis.
Definition colon := KSlice (PySlice None None None).
Definition consumes (k : kitem) : bool := match k with KInt _ | KSlice _ => true | _ => false end.
Definition is_ellipsis (k : kitem) : bool := match k with KEllipsis => true | _ => false end.
Definition expand (ndim : nat) (key : list kitem) : list kitem :=
  flat_map (fun k => if is_ellipsis k then repeat colon (ndim - length (filter consumes key)) else [k]) key.
(** Positions in the order of the rows (C order). *)
Fixpoint np_basic (shape : list Z) (key : list kitem) : res (list Z * list Z) :=
  match key with
  | [] => Ok (shape, iota (prodZ shape))
  | KNew :: r => do x <- np_basic shape r; Ok (1 :: fst x, snd x)
  | KInt i :: r => match shape with
                   | [] => Err IndexError
                   | n :: s => do i <- np_wrap n i; do x <- np_basic s r; Ok (fst x, map (fun p => i * prodZ s + p) (snd x))
                   end
  | KSlice sl :: r => match shape with
                      | [] => Err IndexError
                      | n :: s => do ps <- py_slice_positions sl n; do x <- np_basic s r;
                                  Ok (zlen ps :: fst x, flat_map (fun i => map (fun p => i * prodZ s + p) (snd x)) ps)
                      end
  | KEllipsis :: _ => Err IndexError
  end.
Definition np_index (shape : list Z) (key : list kitem) : res item :=
  if (1 <? zlen (filter is_ellipsis key)) then Err IndexError
  else do x <- np_basic shape (expand (length shape) key);
       match fst x, existsb is_ellipsis key, snd x with
       | [], false, [p] => Ok (Number p)
       | s, _, l => Ok (Positions true s l)
       end.

(** ** Masks *)
Record marr := MArr { m_addr : Z; m_shape : list Z; m_pos : list Z }.
Definition heap := list (list bool).
Definition alloc (h : heap) (shape : list Z) (l : list bool) : heap * marr := (h ++ [l], MArr (zlen h) shape (iota (zlen l))).
Definition mread (h : heap) (m : marr) : res (list bool) := do b <- get h (m_addr m); map_res (get b) (m_pos m).
(** m[:] = b, for an array of one dimension at least. *)
Definition fill (h : heap) (m : marr) (b : bool) : res heap :=
  do buf <- get h (m_addr m); Ok (set_at h (m_addr m) (set_all buf (map (fun p => (p, b)) (m_pos m)))).
(** The attribute _mask: None, numpy.ma.nomask (the scalar False) or an array. *)
Inductive attr := NoMask | NumpyFalse | Mask (m : marr).
Section tod. Context {E : Type}.
Record tod := Tod { t_shape : list Z; t_data : list E; t_mask : attr }.
(** __array_finalize__, 1160-1162: views, copies and results hold the same mask array. *)
Definition finalize (shape : list Z) (data : list E) (parent : tod) : tod := Tod shape data (t_mask parent).
Definition with_mask (t : tod) (a : attr) : tod := Tod (t_shape t) (t_data t) a.

Inductive mvalue := VNone | VNomask | VArray (m : marr) | VValues (shape : list Z) (l : list bool) | VInts (shape : list Z) (l : list Z).
Definition shape_eqb (a b : list Z) : bool := (length a =? length b)%nat && forallb (fun p => fst p =? snd p) (combine a b).
(** The setter of mask, 1124-1158.  1139-1157: an array of booleans. *)
Definition set_array (h : heap) (t : tod) (m : marr) : res (heap * tod) :=
  match m_shape m with
  | [] =>
      do l <- mread h m;
      match l, t_mask t with
      | [b], NoMask => let '(h', m') := alloc h (t_shape t) (repeat b (Z.to_nat (prodZ (t_shape t)))) in Ok (h', with_mask t (Mask m'))
      | [b], Mask m0 => match m_shape m0 with [] => Err IndexError | _ => do h' <- fill h m0 b; Ok (h', t) end
      | _, _ => Err TypeError
      end
  | _ => if shape_eqb (t_shape t) (m_shape m) then Ok (h, with_mask t (Mask m)) else Err ValueError
  end.
(** 1125-1137: None, other objects and arrays of integers. *)
Definition set_mask (h : heap) (t : tod) (v : mvalue) : res (heap * tod) :=
  match v with
  | VNone | VNomask => Ok (h, with_mask t NoMask)
  | VArray m => set_array h t m
  | VValues s l => let '(h, m) := alloc h s l in set_array h t m
  | VInts s l => let '(h, m) := alloc h s (map (fun x => negb (x =? 0)) l) in set_array h t m
  end.

(** The constructor, 1063-1118, for data which are not a file: a plain array, a Tod, or a
    masked array of NumPy (None: its mask is nomask).  The data are copied or not by NumPy. *)
Inductive source := Plain (shape : list Z) (data : list E) | OfTod (t : tod) | Masked (shape : list Z) (data : list E) (mask : option marr).
Definition viewed (s : source) : tod :=
  match s with
  | Plain sh d => Tod sh d NoMask
  | OfTod t => t
  | Masked sh d (Some m) => Tod sh d (Mask m)
  | Masked sh d None => Tod sh d NumpyFalse
  end.
Definition copy_array (h : heap) (m : marr) : res (heap * marr) := do l <- mread h m; Ok (alloc h (m_shape m) l).
Definition construct (h : heap) (s : source) (mask : mvalue) (copy : bool) : res (heap * tod) :=
  let result := viewed s in
  let mask := match mask with
              | VNone | VNomask => match t_mask result with Mask m => VArray m | _ => VNone end     (* 1095-1112 *)
              | v => v
              end in
  match mask with
  | VNone | VNomask => Ok (h, result)
  | VArray m => if copy then do x <- copy_array h m; Ok (fst x, with_mask result (Mask (snd x))) else Ok (h, with_mask result (Mask m))
  | VValues s l => let '(h, m) := alloc h s l in Ok (h, with_mask result (Mask m))
  | VInts s l => let '(h, m) := alloc h s (map (fun x => negb (x =? 0)) l) in Ok (h, with_mask result (Mask m))
  end.

(** __getitem__, 1214-1220, with Quantity's (858-917, see UfModel for its units). *)
Section index. Context {K : Type} (index : list Z -> K -> res item).
Definition take_mask (h : heap) (m : marr) (it : item) : res (heap * marr) :=
  match it with
  | Number p => do l <- mread h m; do b <- get l p; Ok (alloc h [] [b])
  | Positions true s l => do pos <- map_res (get (m_pos m)) l; Ok (h, MArr (m_addr m) s pos)
  | Positions false s l => do v <- mread h m; do w <- map_res (get v) l; Ok (alloc h s w)
  end.
Inductive got := GNumber (x : E) | GTod (t : tod).
Definition getitem (h : heap) (t : tod) (key : K) : res (heap * got) :=
  do it <- index (t_shape t) key;
  match it with
  | Number p => do x <- get (t_data t) p; Ok (h, GNumber x)
  | Positions _ s l =>
      do d <- map_res (get (t_data t)) l;
      let it := finalize s d t in
      match t_mask it with
      | NoMask => Ok (h, GTod it)
      | NumpyFalse => Err IndexError (* invalid index to scalar variable *)
      | Mask m => do i <- index (m_shape m) key; do x <- take_mask h m i; do y <- set_array (fst x) it (snd x); Ok (fst y, GTod (snd y))
      end
  end.
End index.
(** t[...]: the item is t itself. *)
Definition getitem_ellipsis (h : heap) (t : tod) : res (heap * tod) :=
  match t_mask t with
  | NoMask => Ok (h, t)
  | NumpyFalse => Err TypeError
  | Mask m => set_array h t m
  end.

(** ravel and reshape, 1313-1323, and NumPy's functions of that name (1164-1169): element j
    of the result is element perm[j]. *)
Definition rearrange (h : heap) (t : tod) (view : bool) (shape perm : list Z) : res (heap * tod) :=
  do d <- map_res (get (t_data t)) perm;
  let r := finalize shape d t in
  match t_mask t with
  | NoMask => set_mask h r VNone
  | NumpyFalse => do x <- set_array (h ++ [[false]]) r (MArr (zlen h) [1] [0]); Ok x       (* np.False_.reshape *)
  | Mask m => do x <- take_mask h m (Positions view shape perm); set_array (fst x) r (snd x)
  end.
(** Methods of ndarray which Tod does not define: copy(), T, swapaxes..., sum(), and the
    results of the universal functions (_process_ufunc_result, quantities.py 838-848). *)
Definition ndarray_method (t : tod) (shape : list Z) (data : list E) : tod := finalize shape data t.
Definition ufunc_result (self : tod) (shape : list Z) (data : list E) : tod := finalize shape data self.
Definition copy_tod (t : tod) : tod := ndarray_method t (t_shape t) (t_data t).
(** Elementwise, on two Tod of the same shape. *)
Definition ufunc2 (f : E -> E -> E) (a b : tod) : tod :=
  ufunc_result a (t_shape a) (map (fun p => f (fst p) (snd p)) (combine (t_data a) (t_data b))).
(** sort, 1347-1349, the data being sorted by NumPy. *)
Definition sort_tod (t : tod) (sorted : list E) : tod := Tod (t_shape t) sorted NoMask.

(** _convert_function_outputs, 1179-1212: what NumPy's function returned for the masked
    arrays given to it. *)
Inductive output := OMasked_constant | OMasked (shape : list Z) (data : list E) (mask : option (list bool)) | OScalar (x : E) | OArray (shape : list Z) (data : list E).
Definition convert_output (nan : E) (h : heap) (self : tod) (o : output) : res (heap * tod) :=
  match o with
  | OMasked_constant => let '(h, _) := alloc h [] [true] in Ok (h, finalize [] [nan] self)     (* 1183-1187 *)
  | OMasked s d m => let '(h, v) := match m with Some l => let '(h, m) := alloc h s l in (h, VArray m) | None => (h, VNone) end in
                     set_mask h (finalize s d self) v
  | OScalar x => Ok (h, Tod [] [x] NoMask)
  | OArray s d => Ok (h, Tod s d NoMask)
  end.
(** numpy.ma: a reduction such as sum gives for each group of positions the reduction of the
    unmasked elements, masked when all are; the constant masked when no dimension is left. *)
Definition masked_reduce (red : list E -> E) (groups : list (list Z)) (shape : list Z) (data : list E) (mask : list bool) : res output :=
  do r <- map_res (fun g => do ds <- map_res (get data) g; do ms <- map_res (get mask) g;
                            Ok (red (np_mask ds (map negb ms)), forallb (fun b => b) ms)) groups;
  match shape, r with
  | [], [(x, m)] => Ok (if m then OMasked_constant else OScalar x)
  | _, _ => Ok (OMasked shape (map fst r) (Some (map snd r)))
  end.
Definition plain_reduce (red : list E -> E) (groups : list (list Z)) (shape : list Z) (data : list E) : res output :=
  do r <- map_res (fun g => do ds <- map_res (get data) g; Ok (red ds)) groups;
  match shape, r with
  | [], [x] => Ok (OScalar x)
  | _, _ => Ok (OArray shape r)
  end.
(** np.sum(t, axis), with _view_function_input, 1171-1177. *)
Definition np_reduce (nan : E) (red : list E -> E) (groups : list (list Z)) (shape : list Z) (h : heap) (t : tod) : res (heap * tod) :=
  match t_mask t with
  | Mask m => do ms <- mread h m; do o <- masked_reduce red groups shape (t_data t) ms; convert_output nan h t o
  | _ => do o <- plain_reduce red groups shape (t_data t); convert_output nan h t o
  end.
(** t.sum(axis): the universal function add and its method reduce. *)
Definition method_reduce (red : list E -> E) (groups : list (list Z)) (shape : list Z) (t : tod) : res tod :=
  do r <- map_res (fun g => do ds <- map_res (get (t_data t)) g; Ok (red ds)) groups;
  Ok (ufunc_result t shape r).
End tod.
Arguments tod : clear implicits.
Arguments source : clear implicits.
Arguments output : clear implicits.
Arguments got : clear implicits.
