(** Specification of displays. *)
From Coq Require Import Reals Bool String List.
Import ListNotations.
Open Scope R_scope.

(** What the mask leaves: the finite numbers that are not masked. *)
Definition masked_at (mask : option (list bool)) (i : nat) : bool := match mask with None => false | Some m => nth i m false end.
Definition valid_value (data : list (option R)) (mask : option (list bool)) (i : nat) : option R :=
  if masked_at mask i then None else nth i data None.
Definition valid_values (data : list (option R)) (mask : option (list bool)) : list R :=
  flat_map (fun i => match valid_value data mask i with Some v => [v] | None => [] end) (seq 0 (length data)).
Definition count (f : R -> Prop) (dec : forall x, {f x} + {~ f x}) (l : list R) : nat := length (filter (fun x => if dec x then true else false) l).
Definition count_below (s : R) (l : list R) : nat := count (fun x => x < s) (fun x => Rlt_dec x s) l.
Definition count_above (s : R) (l : list R) : nat := count (fun x => s < x) (fun x => Rlt_dec s x) l.
Definition within_range (lo hi v : R) : R := Rmin hi (Rmax lo v).
(** The percentiles of the minimum and of the maximum. *)
Definition percentiles (p : R + R * R) : R * R := match p with inl p => (p / 2, 100 - p / 2) | inr pq => pq end.
(** An image shows the data under the mask: nothing where a value is masked or not finite, and
    elsewhere the value brought inside of the range; less than one value, and the given
    percentages of the others, are outside of it on each side. *)
Definition shows (data : list (option R)) (mask : option (list bool)) (p : R * R) (image : list (option R)) (range : option R * option R) : Prop :=
  length image = length data /\
  let values := valid_values data mask in
  match values with
  | [] => range = (None, None) /\ forall i, nth i image None = None
  | _ => exists lo hi, range = (Some lo, Some hi) /\ lo <= hi /\
         (forall i, nth i image None = option_map (within_range lo hi) (valid_value data mask i)) /\
         INR (count_below lo values) < 1 + fst p / 100 * (INR (length values) - 1) /\
         INR (count_above hi values) < 1 + (100 - snd p) / 100 * (INR (length values) - 1)
  end.
(** The values that a command line gives to an option. *)
Definition option_values (k : string) (options : list (string * string)) : list string := map snd (filter (fun e => String.eqb (fst e) k) options).
