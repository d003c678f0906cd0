(** What the mask of a Tod means, independently of the functions of TodModel.v: the mask of
    the element j of an array is found by looking up its position in its buffer. *)
From Verif Require Import Base TodModel.
Open Scope Z_scope.

Definition masked_at (h : heap) (m : marr) (j : nat) : option bool :=
  match nth_error (m_pos m) j with
  | Some p => match nth_error h (Z.to_nat (m_addr m)) with Some b => nth_error b (Z.to_nat p) | None => None end
  | None => None
  end.
(** An array of the memory: its elements are inside its buffer, and as many as its shape says. *)
Definition good_mask (h : heap) (m : marr) : Prop :=
  0 <= m_addr m /\ zlen (m_pos m) = prodZ (m_shape m) /\
  exists b, nth_error h (Z.to_nat (m_addr m)) = Some b /\ Forall (fun p => 0 <= p < zlen b) (m_pos m).
Definition good_shape (s : list Z) : Prop := Forall (fun n => 0 <= n) s.
(** A Tod as its documentation describes it: a mask of the shape of the data, or none. *)
Definition good {E} (h : heap) (t : tod E) : Prop :=
  good_shape (t_shape t) /\ zlen (t_data t) = prodZ (t_shape t) /\
  match t_mask t with NoMask => True | NumpyFalse => False | Mask m => good_mask h m /\ m_shape m = t_shape t end.
(** No array that existed has changed. *)
Definition unchanged (h h' : heap) : Prop := forall m, good_mask h m -> good_mask h' m /\ forall j, masked_at h' m j = masked_at h m j.
(** Is element j of a Tod masked? *)
Definition masked {E} (h : heap) (t : tod E) (j : nat) : option bool :=
  match t_mask t with Mask m => masked_at h m j | _ => if (j <? length (t_data t))%nat then Some false else None end.
(** An indexing: it designates elements of the array, as many as the shape of the result says. *)
Definition faithful {K} (index : list Z -> K -> res item) : Prop :=
  forall shape key, good_shape shape ->
  match index shape key with
  | Ok (Number p) => 0 <= p < prodZ shape
  | Ok (Positions _ s l) => good_shape s /\ zlen l = prodZ s /\ Forall (fun p => 0 <= p < prodZ shape) l
  | Err _ => True
  end.
(** The elements of a group that are not masked. *)
Definition unmasked {E} (h : heap) (t : tod E) (g : list Z) : list E :=
  flat_map (fun p => match masked h t (Z.to_nat p), nth_error (t_data t) (Z.to_nat p) with Some false, Some x => [x] | _, _ => [] end) g.
