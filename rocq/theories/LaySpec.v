(** Grids of components, in physical lengths. *)
From Coq Require Import Reals ZArith List.
From Verif Require Import Base LayModel.
Open Scope R_scope.

(** Reflection, rotation by [angle] degrees, translation. *)
Definition place (xr yr : bool) (angle : R) (o p : R * R) : R * R :=
  let x := if xr then - fst p else fst p in
  let y := if yr then - snd p else snd p in
  let a := angle * PI / 180 in
  (fst o + (cos a * x - sin a * y), snd o + (sin a * x + cos a * y)).
(** Position of row r and column c, from 0: rows along -Y, columns along X, centred. *)
Definition cell (m n : Z) (s : R) (r c : Z) : R * R := (s * (IZR c - (IZR n - 1) / 2), s * ((IZR m - 1) / 2 - IZR r)).
Definition node m n s xr yr angle o r c := place xr yr angle o (cell m n s r c).
(** The square of side [s * sqrt ff] around it: top right, top left, bottom left, bottom right. *)
Definition corners m n s ff xr yr angle o r c :=
  let h := s * sqrt ff / 2 in let p := cell m n s r c in
  map (place xr yr angle o) [(fst p + h, snd p + h); (fst p - h, snd p + h); (fst p - h, snd p - h); (fst p + h, snd p - h)]%list.

(** SI value; numbers without unit have the unit [common] of the others, if any. *)
Definition factor (common u : option unit_) : R := match u, common with Some v, _ => si v | None, Some w => si w | None, None => 1 end.
Definition physical common (q : R * option unit_) : R := fst q * factor common (snd q).
Definition physical_pt common (q : (R * R) * option unit_) : R * R := (fst (fst q) * factor common (snd q), snd (fst q) * factor common (snd q)).

(** The units are compatible and positive. *)
Definition units_of (s : R * option unit_) (o : (R * R) * option unit_) (r : option (R * option unit_)) : list unit_ :=
  (match snd s with Some u => [u] | None => [] end ++ match snd o with Some u => [u] | None => [] end ++
   match r with Some (_, Some u) => [u] | _ => [] end)%list.
Definition compatible (l : list unit_) : Prop := Forall (fun u => 0 < si u) l /\ forall u v, In u l -> In v l -> dimension u = dimension v.

(** Signed area of a polygon with four vertices, positive if counter-clockwise. *)
Definition area4 (l : list (R * R)) : R :=
  match l with
  | [(x1, y1); (x2, y2); (x3, y3); (x4, y4)]%list => ((x1 * y2 - x2 * y1) + (x2 * y3 - x3 * y2) + (x3 * y4 - x4 * y3) + (x4 * y1 - x1 * y4)) / 2
  | _ => 0
  end.
