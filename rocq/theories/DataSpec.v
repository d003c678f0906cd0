(** Radial profiles, distances and gaussians. *)
From Coq Require Import Reals List ZArith.
Import ListNotations.
Open Scope R_scope.
Definition rtotal (l : list R) : R := fold_right Rplus 0 l.
Definition pixel_distance (c : R * R) (i j : Z) : R := sqrt ((IZR i - fst c) * (IZR i - fst c) + (IZR j - snd c) * (IZR j - snd c)).
(** The valid pixels of the map with their distance to the centre: distances and values of those in [lo, hi). *)
Definition ring (c : R * R) (lo hi : R) (pixels : list (Z * Z * option R)) : list (R * R) :=
  flat_map (fun p => match p with
                     | (i, j, Some v) => let d := pixel_distance c i j in if Rle_dec lo d then (if Rlt_dec d hi then [(d, v)] else []) else []
                     | _ => []
                     end) pixels.
(** Every valid pixel has a number of bin that is an integer of 32 bits. *)
Definition fits (c : R * R) (bin : R) (pixels : list (Z * Z * option R)) : Prop :=
  forall i j v, In (i, j, Some v) pixels -> pixel_distance c i j < IZR (2 ^ 31 - 1) * bin.
(** Euclidean distance of an index to a centre, axes in the same order. *)
Fixpoint norm2 (scale : list R) (center : list R) (idx : list Z) : R :=
  match scale, center, idx with
  | s :: scale, c :: center, i :: idx => (s * (IZR i - c)) * (s * (IZR i - c)) + norm2 scale center idx
  | _, _, _ => 0
  end.
(** The normal law of one variable. *)
Definition normal (mu sigma x : R) : R := / (sigma * sqrt (2 * PI)) * exp (- ((x - mu) * (x - mu)) / (2 * (sigma * sigma))).
Fixpoint normals (mu sigma : list R) (idx : list Z) : R :=
  match mu, sigma, idx with
  | m :: mu, s :: sigma, i :: idx => normal m s (IZR i) * normals mu sigma idx
  | _, _, _ => 1
  end.
