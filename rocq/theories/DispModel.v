(** Displays: datatypes.py 351-436 (FitsArray.imshow), 848-936 (Map.imshow), 1271-1291
    (Tod.imshow), 438-553 (ds9), with scipy's scoreatpercentile.  Images are flat lists of real
    numbers, None being a number that is not finite; a mask has the size of the image.  What is
    handed to matplotlib, kapteyn or pyds9 is kept; titles, labels and fonts are left out. *)
From Coq Require Import Reals List ZArith Bool Ascii String.
From Verif Require Import Base.
Import ListNotations.
Open Scope R_scope.

Fixpoint insert_r (x : R) (l : list R) : list R :=
  match l with [] => [x] | y :: r => if Rle_dec x y then x :: l else y :: insert_r x r end.
Definition sort_r (l : list R) : list R := fold_right insert_r [] l.
(** scipy.stats.scoreatpercentile, interpolation between the neighbours; NaN without value. *)
Definition scoreatpercentile (a : list R) (per : R) : res (option R) :=
  match a with
  | [] => Ok None
  | _ =>
      if Rlt_dec per 0 then Err ValueError
      else if Rlt_dec 100 per then Err ValueError
      else
        let sorted := sort_r a in
        let idx := per / 100 * (INR (length sorted) - 1) in
        let i := Int_part idx in
        let at_ k := nth (Z.to_nat k) sorted 0 in
        if Req_EM_T idx (IZR i) then Ok (Some (at_ i))
        else
          let j := (i + 1)%Z in
          Ok (Some ((at_ i * (IZR j - idx) + at_ j * (idx - IZR i)) / ((IZR j - idx) + (idx - IZR i))))
  end.

Record request := Request {
  r_mask : option (list bool);
  r_new : bool;                       (* new_figure *)
  r_interpolation : string;
  r_origin : option string;
  r_colorbar : bool;
  r_percentile : R + R * R }.
Record picture := Picture {
  p_data : list (option R);
  p_range : option R * option R;
  p_interpolation : string;
  p_origin : option string;
  p_colorbar : bool;
  p_new : bool }.

(** data < minval, false with a NaN on either side. *)
Definition below (v m : option R) : bool := match v, m with Some v, Some m => if Rlt_dec v m then true else false | _, _ => false end.
(** 392-407, also 889-904: the data, their minimum and their maximum. *)
Definition prepare (data : list (option R)) (mask : option (list bool)) (percentile : R + R * R) : res (list (option R) * (option R * option R)) :=
  let percentile := match percentile with inl p => (p / 2, 100 - p / 2) | inr pq => pq end in
  let unfinite := map (fun v => match v with None => true | Some _ => false end) data in
  do mask <- match mask with
             | None => Ok unfinite
             | Some m => if Nat.eqb (length m) (length data) then Ok (map (fun b => fst b || snd b) (combine m unfinite)) else Err ValueError
             end;
  let data_valid := flat_map (fun e : bool * option R => if fst e then [] else match snd e with Some v => [v] | None => [] end) (combine mask data) in
  do minval <- scoreatpercentile data_valid (fst percentile);
  do maxval <- scoreatpercentile data_valid (snd percentile);
  let data := map (fun v => if below v minval then minval else v) data in
  let data := map (fun v => if below maxval v then maxval else v) data in
  let data := map (fun e : bool * option R => if fst e then None else snd e) (combine mask data) in
  Ok (data, (minval, maxval)).
(** FitsArray.imshow. *)
Definition fits_imshow (data : list (option R)) (r : request) : res picture :=
  do d <- prepare data (r_mask r) (r_percentile r);
  Ok (Picture (fst d) (snd d) (r_interpolation r) (r_origin r) (r_colorbar r) (r_new r)).
(** Map.imshow: [km] kapteyn is installed.  With it, the origin is not used, there is no color
    bar and the name [fig] exists for a new figure only. *)
Definition map_imshow (has_wcs km : bool) (coverage : option (list R)) (own_origin : option string) (data : list (option R)) (r : request) : res picture :=
  let mask := match r_mask r, coverage with
              | None, Some c => Some (map (fun x => if Rle_dec x 0 then true else false) c)
              | m, _ => m
              end in
  let origin := match r_origin r with None => own_origin | Some o => Some o end in
  if negb has_wcs || negb km then fits_imshow data (Request mask (r_new r) "nearest" origin (r_colorbar r) (r_percentile r))
  else
    do d <- prepare data mask (r_percentile r);
    if r_new r then Ok (Picture (fst d) (snd d) (r_interpolation r) None false true) else Err UnboundLocalError.
(** Tod.imshow. *)
Definition tod_imshow (mask : option (list bool)) (data : list (option R)) (r : request) : res picture :=
  fits_imshow data (Request (match r_mask r with None => mask | m => m end) (r_new r) (r_interpolation r) (r_origin r) (r_colorbar r) (r_percentile r)).

(** ds9: the instance that is addressed and, if one is started, the options of its command line;
    [targets] are the running instances (None: there is none), [id_] the name of a new one. *)
Definition lookup (k : string) (kw : list (string * list string)) : option (list string) := option_map snd (find (fun e => String.eqb (fst e) k) kw).
Definition given (k : string) (kw : list (string * list string)) : bool := match lookup k kw with Some _ => true | None => false end.
Definition ds9 (targets : option (list string)) (id_ : string) (own_origin origin : option string) (new : bool) (kw : list (string * list string)) : res (string * option (list (string * string))) :=
  let id := if new then None else match targets with Some l => Some (last l ""%string) | None => None end in
  match id with
  | Some _ => Err UnboundLocalError               (* 538: id_ has no value *)
  | None =>
      let kw := if given "cmap" kw then kw else app kw [("cmap", ["heat"])] in
      let kw := if given "scale" kw then kw else app kw [("scale", ["scope local"; "mode 99.5"])] in
      let origin := match origin with None => match own_origin with Some o => o | None => "lower" end | Some o => o end in
      let kw := if String.eqb origin "upper" && negb (given "orient" kw) then app kw [("orient", ["y"])] else kw in
      Ok (id_, Some (("title", id_) :: flat_map (fun e => map (fun v => (fst e, v)) (snd e)) kw))
  end%string.
