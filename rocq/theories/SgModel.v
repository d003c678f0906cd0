(** SceneGrid (packedtables/scenes.py 106-261): construction, from a FITS header, and the
    integration operator applied to a map.

    The world-to-pixel transforms are those of C66 and C84 and are not repeated; the matrix is
    the one of [integration_operator] (C34) and the product that of [matvec] (C16).
    To1dOperator is pyoperators': the scalar product by the strides, with the inverse by
    successive divisions. *)
From Coq Require Import Reals.
From Verif Require Import Base SparseModel GeoModel ClipFacts.
Open Scope Z_scope.

(** The lengths of the axes of a header, NAXIS1 first. *)
Definition fitsheader2shape (naxis : list Z) : list Z := rev naxis.   (* wcsutils.py 412-414 *)

(** To1dOperator(shape, order='f'): coefs = cumprod((1,) + shape[:-1]). *)
Fixpoint fstrides (s : Z) (shape : list Z) : list Z :=
  match shape with [] => [] | n :: shape => s :: fstrides (s * n) shape end.
Fixpoint zdot (a b : list Z) : Z := match a, b with x :: a, y :: b => x * y + zdot a b | _, _ => 0 end.
Record to1d := To1d { t_shape : list Z; t_coefs : list Z }.
Definition to1d_f (shape : list Z) : to1d := To1d shape (fstrides 1 shape).
Definition apply_to1d (t : to1d) (c : list Z) : Z := zdot c (t_coefs t).
Fixpoint apply_toNd_f (shape : list Z) (i : Z) : list Z :=
  match shape with [] => [] | [n] => [i] | n :: shape => i mod n :: apply_toNd_f shape (i / n) end.

Inductive origin := Upper | Lower.
Record scene := Scene { s_shape : list Z; s_ndim : nat; s_origin : origin; s_start : Z; s_to1d : option to1d }.
(** 110-155: the number of axes, core.py 140-144, then 145-146. *)
Definition scene_grid (shape : list Z) (ndim : option nat) (o : origin) (startswith1 : bool) (t : option to1d) : res scene :=
  do n <- match ndim with
          | None => Ok (length shape)
          | Some n => if Nat.ltb n 1 || Nat.ltb (length shape) n then Err ValueError else Ok n
          end;
  if negb (Nat.eqb n 2) then Err ValueError else Ok (Scene shape n o (if startswith1 then 1 else 0) t).
(** 157-172. *)
Definition fromfits (naxis : list Z) (ndim : option nat) (startswith1 : bool) : res scene :=
  let shape := fitsheader2shape naxis in
  scene_grid shape ndim Lower startswith1 (Some (to1d_f (rev shape))).
(** 174-178, for the elements of index i. *)
Definition s_column (s : scene) (i : Z) : res Z := do n <- get (s_shape s) 1; Ok (i mod n + s_start s).
Definition s_row (s : scene) (i : Z) : res Z := do n <- get (s_shape s) 1; Ok (i / n + s_start s).

Definition zproduct (l : list Z) : Z := fold_right Z.mul 1 l.
(** 205-261: [nelements]: len(self); the matrix has as many columns as product(self.shape). *)
Definition scene_removed (s : scene) (nelements : Z) : bool := negb (nelements =? zproduct (s_shape s)).
Definition scene_matrix (s : scene) (nelements : Z) polygons ncolmax garbage flag : res (matrix R) :=
  do ny <- get (s_shape s) 0; do nx <- get (s_shape s) 1;
  do r <- integration_operator 3 (scene_removed s nelements) nx ny polygons ncolmax garbage flag;
  let rows := fst (fst r) in
  Ok (Matrix FSR KScalar (length polygons) (Z.to_nat (zproduct (s_shape s))) (1, 1)%nat (map (map (fun e => Elt (fst e) [snd e])) rows)).
Definition integrate (flib : bool) sched (s : scene) (nelements : Z) polygons ncolmax garbage flag (map_ : list R) : res (option (list R)) :=
  do M <- scene_matrix s nelements polygons ncolmax garbage flag;
  matvec r_ops flib sched M map_ None.
