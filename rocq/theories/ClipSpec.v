(** Moments and sigma clipping, as defined in textbooks. *)
From Coq Require Import Reals.
From Verif Require Import Base MedianSpec.
Open Scope R_scope.

Definition total (l : list R) : R := fold_right Rplus 0 l.
Definition size (l : list R) : R := INR (length l).
Definition avg (l : list R) : R := total l / size l.
(** The sum of f over the deviations from the mean. *)
Definition deviations (f : R -> R) (l : list R) : R := total (map (fun x => f (x - avg l)) l).
Definition mean_deviation (l : list R) : R := deviations Rabs l / size l.
Definition variance (l : list R) : R := deviations (fun r => r * r) l / (size l - 1).
Definition sigma (l : list R) : R := sqrt (variance l).
Definition skew (l : list R) : R := deviations (fun r => r * r * r) l / (size l * (sigma l * sigma l * sigma l)).
Definition kurt (l : list R) : R := deviations (fun r => r * r * r * r) l / (size l * (sigma l * sigma l * sigma l * sigma l)) - 3.

(** One pass rejects what lies further than s standard deviations from the mean of what
    is kept; the deviation needs two samples. *)
Definition is_pass (s : R) (x : list R) (m m' : list bool) : Prop :=
  length m' = length m /\
  forall i xi b, nth_error x i = Some xi -> nth_error m i = Some b -> exists b', nth_error m' i = Some b' /\
    (b' = true <-> b = true \/ ((2 <= length (unmasked x m))%nat /\ s * sigma (unmasked x m) < Rabs (xi - avg (unmasked x m)))).
(** The mask after a number of passes. *)
Inductive passes (s : R) (x : list R) : nat -> list bool -> Prop :=
| no_pass : passes s x 0 (map (fun _ => false) x)
| one_more k m m' : passes s x k m -> is_pass s x m m' -> passes s x (S k) m'.
(** Rejected samples stay rejected. *)
Definition grows (m m' : list bool) : Prop := Forall2 (fun b b' => b = true -> b' = true) m m'.
