(** Specification of barycentres: vectors of three components that differ by at most e. *)
From Coq Require Import Reals.
Open Scope R_scope.
Definition near3 (e : R) (v w : R * R * R) : Prop :=
  Rabs (fst (fst v) - fst (fst w)) <= e /\ Rabs (snd (fst v) - snd (fst w)) <= e /\ Rabs (snd v - snd w) <= e.
Definition norm3 (v : R * R * R) : R := sqrt (fst (fst v) * fst (fst v) + snd (fst v) * snd (fst v) + snd v * snd v).
(** Positions in degrees, [None]: NaN. *)
Definition in_range (p : option R * option R) : Prop := match p with (Some lon, Some lat) => Rabs lon <= 360 /\ Rabs lat <= 90 | _ => True end.
