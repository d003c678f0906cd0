(** packedtables/layouts.py: units and positions of LayoutGrid and LayoutGridSquares.

    A unit has a dimension and a value in SI.  [create_grid] and [create_grid_squares] are those of
    GeoModel.  The index of the selected components is an argument: it is that of PackedTable
    (C03, C04).  Not modelled: the keywords other than radius and vertex; plot is in PlotModel. *)
From Coq Require Import Reals List ZArith Bool.
From Verif Require Import Base GeoModel.
Open Scope R_scope.

Record unit_ := Unit { dimension : Z; si : R }.
Definition qty (A : Type) := (A * option unit_)%type.

(** quantities.py 1028-1072, for values of any shape: [scale] multiplies the values. *)
Definition tounit {A} (scale : R -> A -> A) (q : qty A) (u : unit_) : res (qty A) :=
  match snd q with
  | None => Ok (fst q, Some u)
  | Some v => if Z.eqb (dimension v) (dimension u) then Ok (scale (si v / si u) (fst q), Some u) else Err UnitError
  end.
Definition scale_pt (k : R) (p : pt) : pt := (k * fst p, k * snd p).

(** A shape is given as a tuple or as a list. *)
Inductive shape := Tuple (l : list Z) | ListOf (l : list Z) | Integer (n : Z).

(** An array of shape (m, n, ...), as the list of its m * n rows. *)
Definition tabulate {A} (m n : Z) (f : Z -> Z -> A) : list A :=
  concat (map (fun j => map (fun i => f (i + 1)%Z (j + 1)%Z) (iota n)) (iota m)).
(** geometry.py 100-105, 144-156: [shape + (2,)] *)
Definition grid (s : shape) (spacing : R) (xr yr : bool) (angle : R) (center : pt) : res (list pt) :=
  match s with
  | Tuple [m; n] => if (m <? 0)%Z || (n <? 0)%Z then Err ValueError else Ok (tabulate m n (create_grid m n spacing xr yr angle center))
  | Tuple _ => Err ValueError
  | ListOf _ | Integer _ => Err TypeError
  end.
Definition grid_squares (s : shape) (spacing ff : R) (xr yr : bool) (angle : R) (center : pt) : res (list (list pt)) :=
  match s with
  | Tuple [m; n] => if (m <? 0)%Z || (n <? 0)%Z then Err ValueError else Ok (tabulate m n (create_grid_squares m n spacing ff xr yr angle center))
  | Tuple _ => Err ValueError
  | ListOf _ | Integer _ => Err TypeError
  end.

(** pack: the rows of the index. *)
Definition pack {A} (index : list Z) (rows : list A) : res (list A) := map_res (get rows) index.

(** np.mean(vertex, axis=-2) *)
Definition mean_pt (l : list pt) : pt :=
  (fold_right Rplus 0 (map fst l) / INR (length l), fold_right Rplus 0 (map snd l) / INR (length l)).

Record layout := Layout {
  l_center : list pt; l_vertex : option (list (list pt)); l_radius : option R; l_spacing : R; l_origin : pt;
  l_unit : option unit_; l_ncolumns : Z; l_index : list Z; l_startswith1 : Z }.

Definition or_unit (a b : option unit_) : option unit_ := match a with Some _ => a | None => b end.

(** 231-285: LayoutGrid.__init__; [vertex]: keyword, with the unit it has. *)
Definition layout_grid (s : shape) (spacing : qty R) (xr yr : bool) (angle : R) (origin : qty pt) (startswith1 : Z)
    (radius : option (qty R)) (vertex : option (qty (list (list pt)))) (index : list Z) : res layout :=
  match s with
  | Integer _ => Err TypeError
  | Tuple l | ListOf l =>
      match l with
      | [m; n] =>
          let unit := or_unit (snd spacing) (or_unit (snd origin) (match radius with Some r => snd r | None => None end)) in
          do spacing <- match unit with Some u => tounit Rmult spacing u | None => Ok spacing end;
          do origin <- match unit with Some u => tounit scale_pt origin u | None => Ok origin end;
          do radius <- match unit, radius with
                       | Some u, Some r => do r <- tounit Rmult r u; Ok (Some r)
                       | _, r => Ok r
                       end;
          do center <- match vertex with
                       | None => do c <- grid s (fst spacing) xr yr angle (fst origin); pack index c
                       | Some v => do v <- pack index (fst v); Ok (map mean_pt v)
                       end;
          do vertex <- match vertex with None => Ok None | Some v => do v <- pack index (fst v); Ok (Some v) end;
          Ok (Layout center vertex (option_map fst radius) (fst spacing) (fst origin) unit n index startswith1)
      | _ => Err ValueError
      end
  end.
(** 293-297 *)
Definition column (l : layout) : list Z := map (fun i => (i mod l_ncolumns l + l_startswith1 l)%Z) (l_index l).
Definition row (l : layout) : list Z := map (fun i => (i / l_ncolumns l + l_startswith1 l)%Z) (l_index l).

(** 378-404: LayoutGridSquares.__init__ *)
Definition layout_squares (s : shape) (spacing : qty R) (ff : R) (xr yr : bool) (angle : R) (origin : qty pt) (startswith1 : Z)
    (radius : option (qty R)) (index : list Z) : res layout :=
  let unit := or_unit (snd spacing) (snd origin) in
  do spacing <- match unit with Some u => tounit Rmult spacing u | None => Ok spacing end;
  do origin <- match unit with Some u => tounit scale_pt origin u | None => Ok origin end;
  do vertex <- grid_squares s (fst spacing) ff xr yr angle (fst origin);
  layout_grid s spacing xr yr angle origin startswith1 radius (Some (vertex, unit)) index.
