(** Rows and columns of grid layouts and scenes:
    src/pysimulators/packedtables/layouts.py 293-297, scenes.py 174-178. *)
From Verif Require Import Base PTModel.

(** [ncols] is self.shape[1]; index % ncols + startswith1 and index // ncols + startswith1. *)
Definition grid_columns {A} (t : table A) (ncols sw1 : Z) : res (list Z) :=
  do l <- t_indices t; Ok (map (fun i => i mod ncols + sw1) l).
Definition grid_rows {A} (t : table A) (ncols sw1 : Z) : res (list Z) :=
  do l <- t_indices t; Ok (map (fun i => i / ncols + sw1) l).
