(** C131: plots of pointings: samplings.py 218-292 (SamplingEquatorial.plot) and 384-392
    (_plot_scan), acquisitions.py 286-310 (Acquisition.plot).  kapteyn is installed: a background
    is an annotated image whose method topixel gives the pixel of a direction, None standing for
    NaN (nothing is drawn there).  Simplified: titles, line widths and other keywords. *)
From Coq Require Import List ZArith Bool.
From Verif Require Import Base.
Import ListNotations.
Open Scope Z_scope.

Section Scan.
Context {C P H : Type}.        (* coordinates (numbers that are not NaN), positions in pixels, headers *)

(** The attribute masked: a scalar, an array of booleans or an array of integers. *)
Inductive flags := FScalar (b : bool) | FBools (l : list bool) | FInts (l : list Z).
(** The background given: an array without attributes, or a Map with its header and whether that
    header has an astrometry. *)
Inductive given_map := Plain | WithHeader (h : H).
(** What is drawn: the image (with a map, or a header only), the line, the marker. *)
Record drawing := Drawing { d_map : bool; d_header : H; d_line : list (option P); d_marker : option P }.

(** np.all of the attribute. *)
Definition all_flags (f : flags) : bool := match f with FScalar b => b | FBools l => forallb (fun b => b) l | FInts l => forallb (fun i => negb (i =? 0)) l end.
(** ra[masked] = nan: selection by booleans, or the elements of those numbers. *)
Fixpoint erase_bools (m : list bool) (l : list (option C)) : list (option C) :=
  match m, l with b :: m, x :: l => (if b then None else x) :: erase_bools m l | _, _ => l end.
Definition erase (f : flags) (l : list (option C)) : res (list (option C)) :=
  match f with
  | FScalar _ => Ok l
  | FBools m => if Nat.eqb (length m) (length l) then Ok (erase_bools m l) else Err IndexError
  | FInts m => do w <- map_res (np_wrap (zlen l)) m; Ok (fold_left (fun l i => set_at l i None) w l)
  end.
(** 384-392: the marker is at the first position that is not NaN. *)
Definition first_point (l : list (option P)) : option P := match flat_map (fun p => match p with Some p => [p] | None => [] end) l with p :: _ => Some p | [] => None end.
(** [coords] are the pairs (ra, dec), erased together; [pixel] is topixel for a header. *)
Definition plot (has_wcs : H -> bool) (pixel : H -> C -> option P) (coords : list (option C)) (masked : flags) (m : option given_map) (header : option H) (new_figure : bool) : res (option drawing) :=
  if all_flags masked then (if new_figure then Err ValueError else Ok None)
  else
    do coords <- erase masked coords;
    let header' := match header with None => match m with Some (WithHeader h) => Some h | _ => None end | h => h end in
    let m := match header, m with Some h, Some _ => Some (WithHeader h) | _, m => m end in      (* Map(map, header=header), 268-269 *)
    do im <- match m with
             | Some (WithHeader h) => if has_wcs h then (if new_figure then Ok (true, h) else Err UnboundLocalError)  (* Map.imshow, C128 *)
                                      else match header' with Some h => Ok (false, h) | None => Err AttributeError end
             | _ => match header' with Some h => Ok (false, h) | None => Err AttributeError end                       (* get_map_header, 275 *)
             end;
    let line := map (fun c => match c with Some c => pixel (snd im) c | None => None end) coords in
    Ok (Some (Drawing (fst im) (snd im) line (first_point line))).
(** Acquisition.plot. *)
Definition acq_plot (has_wcs : H -> bool) (pixel : H -> C -> option P) (coords : list (option C)) (masked : flags) (m : option given_map) (header : option H) (new_figure : bool) : res (option drawing) :=
  do header <- match header with
               | Some h => Ok (Some h)
               | None => match m with Some (WithHeader h) => Ok (Some h) | _ => Err AttributeError end
               end;
  plot has_wcs pixel coords masked m header new_figure.
End Scan.
Arguments given_map : clear implicits.
Arguments drawing : clear implicits.
