(** Specification of C95: the linear transformation of a FITS header (Greisen and Calabretta 2002, section 2) and the area of
    the image of a pixel. *)
From Coq Require Import Reals String List ZArith.
From Verif Require Import WcsModel WcsSpec.
Import ListNotations.
Open Scope R_scope.

(** The value of a keyword that is a number, or its default. *)
Definition number_or (h : header) (k : string) (d : R) (x : R) : Prop :=
  match find (fun kv => if string_dec k (fst kv) then true else false) h with
  | Some (_, HF y) => x = y
  | Some (_, HI n) => x = IZR n
  | Some _ => False
  | None => x = d
  end.
Definition present (h : header) (k : string) : Prop := In k (map fst h).
(** CDi_j, those that are missing are zero; without any, CDELTi PCi_j, those that are missing are one and the identity. *)
Inductive transformation (h : header) : (R * R) * (R * R) -> Prop :=
| By_cd a b c d :
    present h "CD1_1" \/ present h "CD1_2" \/ present h "CD2_1" \/ present h "CD2_2" ->
    number_or h "CD1_1" 0 a -> number_or h "CD1_2" 0 b -> number_or h "CD2_1" 0 c -> number_or h "CD2_2" 0 d ->
    transformation h ((a, b), (c, d))
| By_pc s t a b c d :
    ~ present h "CD1_1" -> ~ present h "CD1_2" -> ~ present h "CD2_1" -> ~ present h "CD2_2" ->
    number_or h "CDELT1" 1 s -> number_or h "CDELT2" 1 t ->
    number_or h "PC1_1" 1 a -> number_or h "PC1_2" 0 b -> number_or h "PC2_1" 0 c -> number_or h "PC2_2" 1 d ->
    transformation h ((s * a, s * b), (t * c, t * d)).
(** The area of a polygon, by its vertices in order. *)
Fixpoint shoelace (first : R * R) (l : list (R * R)) : R :=
  match l with
  | [] => 0
  | [p] => fst p * snd first - fst first * snd p
  | p :: ((q :: _) as r) => fst p * snd q - fst q * snd p + shoelace first r
  end.
Definition polygon_area (l : list (R * R)) : R := match l with [] => 0 | p :: _ => Rabs (shoelace p l) / 2 end.
(** The four corners of the pixel (x, y), on the intermediate plane. *)
Definition image_of_pixel (m : (R * R) * (R * R)) (crpix : R * R) (x y : R) : list (R * R) :=
  map (fun c => intermediate m crpix (x + fst c) (y + snd c)) [(- / 2, - / 2); (/ 2, - / 2); (/ 2, / 2); (- / 2, / 2)].
