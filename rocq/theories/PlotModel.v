(** C138: packedtables/layouts.py 75-172 (Layout.plot), with exact real numbers.

    The result is what matplotlib is asked to draw.  Arrays are lists, and the last dimension of a coordinate array can be
    longer than 2 (positions in space).  [float_ok]: the texts that float() accepts; [zip_broadcast]: that of PyOperators,
    or None for the versions that do not have it.  The values of the other keywords are texts.
    Not modelled: matplotlib itself (gca, autoscale_view, show), the colours of other types than below. *)
From Coq Require Import Reals String Ascii.
From Verif Require Import Base TemplateModel GeoModel HullModel.
Open Scope R_scope.

Inductive colour := NoColour | Name (s : text) | Level (x : R) | TupleOf (l : list colour) | ListOf (l : list colour).
Inductive coordinates := Points (l : list (list R)) | Polygons (l : list (list (list R))) | OtherDimensions.
(** A quantity is given by its numbers and by the value of its unit in SI (1 without unit). *)
Inductive radii := Same (r : R) | Each (l : list R).
Record layout := Layout { l_vertex : option (list (list (list R))); l_radius : option (radii * R); l_center : list (list R); l_center_unit : R }.

Record patch := Patch { p_vertices : list (list R); p_edge : colour; p_face : colour; p_fill : option bool; p_keywords : list (text * text) }.
Inductive drawing :=
  | Patches (l : list patch) (autoscale : bool)
  | Markers (xs ys : list R) (scale : bool) (keywords : list (text * text)).

(** center[..., :2] *)
Definition xy (c : list R) : list R := firstn 2 c.
(** Broadcasting of the positions of the centres with the vertices, geometry.py 215-222. *)
Definition position (c : list R) : res pt := match c with [x; y] => Ok (x, y) | [x] => Ok (x, x) | _ => Err ValueError end.
Definition circle (r : R) (c : list R) : res (list (list R)) :=
  do p <- position c; Ok (map (fun q : pt => [fst q; snd q]) (create_circle r p 72)).
(** create_circle(self.radius, center=self.center[..., :2]): the units of the quantities are dropped by np.asarray. *)
Definition circles (r : radii) (centers : list (list R)) : res (list (list (list R))) :=
  match r with
  | Same r => map_res (circle r) centers
  | Each rs =>
      if (length rs =? length centers)%nat then map_res (fun rc => circle (fst rc) (snd rc)) (combine rs centers)
      else match rs, centers with
           | [r], _ => map_res (circle r) centers
           | _, [c] => map_res (fun r => circle r c) rs
           | _, _ => Err ValueError
           end
  end.

(** 99-104 *)
Definition coords_of (l : layout) : res coordinates :=
  match l_vertex l with
  | Some v => Ok (Polygons (map (map xy) v))
  | None => match l_radius l with
            | Some (r, _) => do c <- circles r (map xy (l_center l)); Ok (Polygons c)
            | None => Ok (Points (map xy (l_center l)))
            end
  end.

Section M.
Context (float_ok : text -> bool) (zip_broadcast : option (list (list (list R)) -> colour -> colour -> res (list (list (list R) * colour * colour)))).

(** 116-121 *)
Definition isnumber (c : colour) : bool := match c with Level _ => true | Name s => float_ok s | _ => false end.
(** 124-127 *)
Definition rgb (c : colour) : colour := match c with TupleOf l => if forallb isnumber l then ListOf [c] else c | _ => c end.
Definition is_none (c : colour) : bool := match c with NoColour => true | _ => false end.
(** 'key' not in keywords: keywords[key] = value *)
Definition setdefault (key value : text) (k : list (text * text)) : list (text * text) :=
  if existsb (fun e => text_eqb (fst e) key) k then k else k ++ [(key, value)].

Definition plot (autoscale : bool) (transform : option (coordinates -> res coordinates)) (edgecolor facecolor : colour) (fill : option bool)
    (keywords : list (text * text)) (l : layout) : res drawing :=
  do coords <- coords_of l;
  do coords <- match transform with Some f => f coords | None => Ok coords end;
  match coords with
  | Polygons cs =>
      let fill := match fill with None => if is_none facecolor then None else Some true | Some _ => fill end in
      match zip_broadcast with
      | Some zip =>
          do rows <- zip cs (rgb edgecolor) (rgb facecolor);
          Ok (Patches (map (fun r => Patch (fst (fst r)) (snd (fst r)) (snd r) fill keywords) rows) autoscale)
      | None => Ok (Patches (map (fun c => Patch c edgecolor facecolor fill keywords) cs) autoscale)
      end
  | Points ps =>
      let keywords := setdefault (lit "linestyle") (lit "") (setdefault (lit "marker") (lit "o") (setdefault (lit "color") (lit "black") keywords)) in
      do xs <- map_res (fun p => get p 0) ps;
      do ys <- map_res (fun p => get p 1) ps;
      Ok (Markers xs ys autoscale keywords)
  | OtherDimensions => Err ValueError
  end.
End M.
