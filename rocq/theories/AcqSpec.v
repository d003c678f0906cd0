(** Specification of the selection in acquisitions: no cache, no blocks. *)
From Verif Require Import Base AcqModel.
Open Scope nat_scope.
Section A.
Context {D S P : Type}.
Definition plain : Type := list D * list S * list P.

(** The elements at the given positions. *)
Definition chosen {A} (l : list A) (s : sel) (r : list A) : Prop :=
  match s with Colon => r = l | Pick is => map (nth_error l) is = map Some r end.
(** Selection: detectors, samplings, pixels; an ellipsis stands for all, a leading one
    before a single selection for the first two. *)
Definition asked (x : list item) : option (sel * sel * sel) :=
  match x with
  | [Dots; Item c] => Some (Colon, Colon, c)
  | [a; b; c] => Some (undots a, undots b, undots c)
  | [a; b] => Some (undots a, undots b, Colon)
  | [a] => Some (undots a, Colon, Colon)
  | [] => Some (Colon, Colon, Colon)
  | _ => None
  end.
Definition selected (q : plain) (x : list item) (r : plain) : Prop :=
  let '(d, s, p) := q in let '(d', s', p') := r in
  exists a b c, asked x = Some (a, b, c) /\ chosen d a d' /\ chosen s b s' /\ chosen p c p'.
(** A history: the objects only grow, each operator is the one of its object. *)
Inductive history : list plain -> list event -> list plain -> list plain -> Prop :=
| H_nil h : history h [] h []
| H_get h i q es h' os : nth_error h i = Some q -> history h es h' os -> history h (Get i :: es) h' (q :: os)
| H_select h i x q r es h' os : nth_error h i = Some q -> selected q x r -> history (h ++ [r]) es h' os -> history h (Select i x :: es) h' os.

(** An operator is the one of some detectors, samplings and pixels. *)
Definition operator_of (q : plain) (o : oper D S P) : Prop :=
  let '(d, s, p) := q in
  Forall (fun b => p_dets b = d /\ p_pix b = p) o /\ concat (map p_samps o) = s.
Definition fields (a : acq D S P) : plain := (dets a, samps a, pix a).

(** Consecutive blocks from [a] to [n]. *)
Fixpoint chain (a n : nat) (bs : list (nat * nat)) : Prop :=
  match bs with [] => a = n | (x, y) :: r => x = a /\ a <= y /\ chain y n r end.
(** A new acquisition: its blocks tile the samplings, nothing is cached. *)
Definition new (a : acq D S P) : Prop := chain 0 (length (samps a)) (blocks a) /\ cache a = None.
End A.

(** In the history, nothing is selected in an acquisition whose operator has been
    computed and not been discarded since, and no selection has more samplings than the
    acquisition. *)
Fixpoint careful {D S P} (h : list (acq D S P)) (es : list event) : Prop :=
  match es with
  | [] => True
  | Get i :: r => match nth_error h i with None => True | Some a => careful (set_nth h i (fst (get_operator a))) r end
  | Select i x :: r =>
      match nth_error h i with
      | None => True
      | Some a => match getitem a x with
                  | Err _ => True
                  | Ok b => (cache a = None \/ snd b = a) /\ length (samps (snd b)) <= length (samps a) /\ careful (set_nth h i (fst b) ++ [snd b]) r
                  end
      end
  end.
