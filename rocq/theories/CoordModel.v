(** C139: arrays of positions and of pixels.

    interfaces/healpy/operators.py 26-113 (cartesian coordinates), 145-157 and 213-222, 269-277 (spherical coordinates, one
    position being that of HpModel), wcsutils.py 550-588 (RotationBoresightEquatorialOperator, one position being that of
    WcsModel), 591-664 (Kapteyn) and 667-745 (astropy).

    An array has a shape and its elements in C order.  healpy, kapteyn and astropy are parameters.  PyOperators validates the
    shape of the input before direct is called.  Not modelled: the types of the numbers, the memory layout (StrideModel). *)
From Coq Require Import Reals String Ascii.
From Verif Require Import Base TemplateModel HpModel WcsModel.
Open Scope R_scope.

Record array := Array { a_shape : list nat; a_data : list R }.
Definition size (shape : list nat) : nat := fold_right Nat.mul 1%nat shape.
(** a[..., :] in C order: n groups of d elements. *)
Definition groups (d n : nat) (l : list R) : list (list R) := map (fun i => firstn d (skipn (d * i) l)) (seq 0 n).
(** input.astype(int) *)
Definition to_int (x : R) : Z := if Rlt_dec x 0 then (- Int_part (- x))%Z else Int_part x.

(** validatein of the operators on positions: 43-45, 153-155 of operators.py, 611-615 and 684-688 of wcsutils.py. *)
Definition validate (d : nat) (shape : list nat) : res unit :=
  match shape with [] => Err ValueError | _ => if Nat.eqb (last shape 0%nat) d then Ok tt else Err ValueError end.

(** A function of a number that gives a position of d numbers, and conversely, for all the elements. *)
Definition to_positions (d : nat) (f : R -> list R) (a : array) : array := Array (a_shape a ++ [d]) (flat_map f (a_data a)).
Definition to_numbers (d : nat) (g : list R -> R) (a : array) : res array :=
  do _ <- validate d (a_shape a);
  let shape := removelast (a_shape a) in
  Ok (Array shape (map g (groups d (size shape) (a_data a)))).
Definition move (d : nat) (f : list R -> list R) (a : array) : res array :=
  do _ <- validate d (a_shape a);
  Ok (Array (a_shape a) (flat_map f (groups d (size (removelast (a_shape a))) (a_data a)))).

Section Healpix.
Context (pix2vec : Z -> bool -> Z -> R * R * R) (vec2pix : Z -> bool -> R * R * R -> Z).
Context (pix2ang : Z -> bool -> Z -> R * R) (ang2pix : Z -> bool -> R * R -> Z).
Record cartesian := Cartesian { c_nside : Z; c_nest : bool }.
Definition triple (p : R * R * R) : list R := let '(x, y, z) := p in [x; y; z].
Definition untriple (l : list R) : R * R * R := (nth 0 l 0, nth 1 l 0, nth 2 l 0).
(** 77-80 *)
Definition healpix2cartesian (o : cartesian) : array -> array := to_positions 3 (fun x => triple (pix2vec (c_nside o) (c_nest o) (to_int x))).
(** 111-113 *)
Definition cartesian2healpix (o : cartesian) : array -> res array := to_numbers 3 (fun l => IZR (vec2pix (c_nside o) (c_nest o) (untriple l))).
(** 213-222, 269-277 *)
Definition pair_list (p : R * R) : list R := [fst p; snd p].
Definition unpair (l : list R) : R * R := (nth 0 l 0, nth 1 l 0).
Definition healpix2spherical_array (o : spherical) : array -> array := to_positions 2 (fun x => pair_list (healpix2spherical pix2ang o (to_int x))).
Definition spherical2healpix_array (o : spherical) : array -> res array := to_numbers 2 (fun l => IZR (spherical2healpix ang2pix o (unpair l))).
End Healpix.

(** 47-50: the rule of both compositions; the rule 'I', 72 and 106. *)
Definition same_pixels (a b : cartesian) : bool := (c_nside a =? c_nside b)%Z && Bool.eqb (c_nest a) (c_nest b).
Inductive cartesian_operator := ToVectors (o : cartesian) | ToPixels (o : cartesian).
Definition compose_cartesian (a b : cartesian_operator) : option (cartesian_operator * cartesian_operator) :=
  match a, b with
  | ToVectors o1, ToPixels o2 | ToPixels o1, ToVectors o2 => if same_pixels o1 o2 then None else Some (a, b)
  | _, _ => Some (a, b)
  end.
Definition inverse_cartesian (a : cartesian_operator) : cartesian_operator := match a with ToVectors o => ToPixels o | ToPixels o => ToVectors o end.

(** ** World coordinates: [W] is what kapteyn or astropy make of a header. *)
Section World.
Context {W : Type} (w2p p2w : W -> Z -> R * R -> R * R).
Inductive world_operator := WorldToPixel (w : W) (origin : Z) | PixelToWorld (w : W) (origin : Z).
(** 712-717, 740-745 *)
Definition world_direct (op : world_operator) : array -> res array :=
  match op with
  | WorldToPixel w origin => move 2 (fun l => pair_list (w2p w origin (unpair l)))
  | PixelToWorld w origin => move 2 (fun l => pair_list (p2w w origin (unpair l)))
  end.
(** The rules 'I', 708 and 736. *)
Definition world_inverse (op : world_operator) : world_operator :=
  match op with WorldToPixel w origin => PixelToWorld w origin | PixelToWorld w origin => WorldToPixel w origin end.
End World.
Arguments world_operator W : clear implicits.

(** Kapteyn, 618-664: pixels are those of FITS, there is no origin; the rules 'I' are 633 and 658. *)
Section Kapteyn.
Context {W : Type} (topixel toworld : W -> R * R -> R * R).
Inductive kapteyn_operator := KToPixel (w : W) | KToWorld (w : W).
Definition kapteyn_direct (op : kapteyn_operator) : array -> res array :=
  match op with
  | KToPixel w => move 2 (fun l => pair_list (topixel w (unpair l)))
  | KToWorld w => move 2 (fun l => pair_list (toworld w (unpair l)))
  end.
Definition kapteyn_inverse (op : kapteyn_operator) : kapteyn_operator := match op with KToPixel w => KToWorld w | KToWorld w => KToPixel w end.
End Kapteyn.
Arguments kapteyn_operator W : clear implicits.

(** ** RotationBoresightEquatorialOperator *)
Record pointing := Pointing { p_names : list text; p_shape : list nat; p_data : list (R * R * R) }.
(** 569-573 *)
Definition boresight_init (p : pointing) : res pointing :=
  if forallb (fun k => existsb (text_eqb k) (p_names p)) [lit "ra"; lit "dec"; lit "pa"] then Ok p else Err TypeError.
(** 575-588: the output, allocated with the shape of reshapein, contains [garbage]; its last dimension is that of the input,
    which is not validated. *)
Definition boresight_position (garbage : list R) (p : R * R * R) (l : list R) : list R :=
  let '(ra, dec, pa) := p in let q := boresight ra dec pa (nth 0 l 0, nth 1 l 0) in
  fst q :: snd q :: skipn 2 (firstn (length l) garbage).
Definition boresight_direct (garbage : list R) (p : pointing) (x : array) : res array :=
  match a_shape x with
  | [] => Err IndexError
  | _ =>
      let d := last (a_shape x) 0%nat in
      if (d <? 2)%nat then Err IndexError else
      Ok (Array (p_shape p ++ a_shape x)
            (flat_map (fun q => flat_map (boresight_position garbage q) (groups d (size (removelast (a_shape x))) (a_data x))) (p_data p)))
  end.
