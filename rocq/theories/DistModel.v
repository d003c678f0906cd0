(** Model of src/pysimulators/wcsutils.py, DistortionOperator (lines 507-548) and str2fitsheader (488-504).

    The Clough-Tocher interpolator of scipy is a parameter: from nodes and values it gives a
    value, or none (NaN), at a point.  It requires coordinates with two dimensions and as many
    values as nodes; what it requires of the nodes themselves (a triangulation) is not modelled.
    Arrays are shapes and, for (npoints, 2), lists of points. *)
From Coq Require Import ZArith Reals List Bool Ascii String.
From Verif Require Import Base TemplateModel.
Import ListNotations.

Section Distortion.
Context {V : Type}.                                   (* coordinates *)
Variable interp : list (V * V) -> list V -> V * V -> option V.

Record coords := Coords { c_shape : list Z; c_points : list (V * V) }.
Record distortion := Distortion { d_in : coords; d_out : coords }.
(** Lines 526-544; the interpolators are built from the points when applied. *)
Definition new (xin xout : coords) : res distortion :=
  match rev (c_shape xin) with
  | [] => Err IndexError                                            (* xin.shape[-1], 529 *)
  | n :: _ =>
      if negb (n =? 2)%Z then Err ValueError                        (* 529-534 *)
      else if negb (if list_eq_dec Z.eq_dec (c_shape xin) (c_shape xout) then true else false) then Err ValueError   (* 535-538 *)
      else if negb (Nat.eqb (List.length (c_shape xin)) 2) then Err ValueError   (* scipy *)
      else Ok (Distortion xin xout)
  end.
(** Rule 'I', 544. *)
Definition inverse (d : distortion) : res distortion := new (d_out d) (d_in d).
(** direct, 546-548. *)
Definition direct (d : distortion) (p : V * V) : option V * option V :=
  (interp (c_points (d_in d)) (map fst (c_points (d_out d))) p, interp (c_points (d_in d)) (map snd (c_points (d_out d))) p).
Definition apply (d : distortion) (ps : list (V * V)) : list (option V * option V) := map (direct d) ps.
End Distortion.

(** str2fitsheader.  [ascard] is what the attribute of the header of the library is: absent
    (astropy), a list of cards that cannot be called (old pyfits), or a method. *)
Inductive attribute := Absent | NotCallable | Method.
(** The loop, 497-503: pieces of 80 characters; the fuel is the length. *)
Fixpoint cards (fuel : nat) (s : text) : list text :=
  match fuel, s with
  | O, _ | _, [] => []
  | S f, _ =>
      let line := firstn 80 s in
      if text_eqb (firstn 3 line) (lit "END") then [] else line :: cards f (skipn 80 s)
  end.
Definition str2fitsheader (ascard : attribute) (s : text) : res (list text) :=
  match ascard with
  | Absent => Err AttributeError
  | NotCallable => Err TypeError
  | Method => Ok (cards (List.length s) s)
  end.
