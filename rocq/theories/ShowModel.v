(** C130: displays of arrays, continued: datatypes.py 328-349 (FitsArray.imsave), 540-553 (the
    array that ds9 is given), datautils.py 280-287 (Ds9.__call__) and 419-451 (plot_tod).
    matplotlib is its interactive mode and what it is asked to draw or to save. *)
From Coq Require Import Reals List ZArith Bool String Ascii.
From Verif Require Import Base DispModel.
Import ListNotations.
Open Scope R_scope.

(** imsave: [imshow] is that of the class, applied to the figure that has just been made.  The
    result has the mode that is left, the size of the figure and what is saved, or an exception. *)
Definition max_list (l : list R) : res R := match l with [] => Err ValueError | x :: r => Ok (fold_left Rmax r x) end.
Definition clip (lo hi x : R) : R := Rmin hi (Rmax lo x).
Definition imsave (shape : list R) (imshow : bool -> bool -> res picture) (colorbar interactive : bool) : bool * res (R * R * picture) :=
  match max_list (map (fun d => d / 80) (rev shape)) with
  | Err e => (false, Err e)                                              (* interactive(False), 341 *)
  | Ok m =>
      let s := clip 8 50 m in
      let size := (s + (if colorbar then 2 else 0), s) in
      match imshow colorbar false with                                   (* new_figure=False, 346 *)
      | Err e => (false, Err e)
      | Ok p => (interactive, Ok (size, p))
      end
  end.
Definition with_figure (r : request) (colorbar new : bool) : request := Request (r_mask r) new (r_interpolation r) (r_origin r) colorbar (r_percentile r).
(** What the keywords of imsave are: those of imshow. *)
Definition fits_imsave (shape : list R) (data : list (option R)) (r : request) (interactive : bool) :=
  imsave shape (fun c n => fits_imshow data (with_figure r c n)) (r_colorbar r) interactive.
Definition map_imsave (has_wcs km : bool) coverage own (shape : list R) (data : list (option R)) (r : request) (interactive : bool) :=
  imsave shape (fun c n => map_imshow has_wcs km coverage own data (with_figure r c n)) (r_colorbar r) interactive.

(** The values that ds9 is given: those of signed integers, and booleans, are converted to 32 bits. *)
Definition to_int32 (v : Z) : Z := ((v + 2 ^ 31) mod 2 ^ 32 - 2 ^ 31)%Z.

(** Ds9.__call__: arrays are objects; [o_map] whether one is a Map and [o_contiguous] in C order.
    With copy=False a Map is not copied, and an array in another order cannot be converted
    (NumPy 2).  The result has the objects and the origin of what is displayed. *)
Record object := Object { o_map : bool; o_contiguous : bool; o_origin : string }.
Definition lower_char (c : ascii) : ascii := let n := nat_of_ascii c in if (Nat.leb 65 n && Nat.leb n 90)%bool then ascii_of_nat (n + 32) else c.
Definition blank (c : ascii) : bool := let n := nat_of_ascii c in ((Nat.leb 28 n && Nat.leb n 32) || (Nat.leb 9 n && Nat.leb n 13))%bool.
Fixpoint drop_blanks (l : list ascii) : list ascii := match l with c :: r => if blank c then drop_blanks r else l | [] => [] end.
Definition strip_lower (s : string) : string := string_of_list_ascii (map lower_char (rev (drop_blanks (rev (drop_blanks (list_ascii_of_string s)))))).
Fixpoint replace_nth {A} (l : list A) (i : nat) (x : A) : list A :=
  match l, i with [], _ => [] | _ :: r, O => x :: r | y :: r, S j => y :: replace_nth r j x end.
Definition ds9_call (h : list object) (i : nat) (origin : option string) : res (list object * string) :=
  match nth_error h i with
  | None => Err KeyError
  | Some o =>
      if negb (o_contiguous o) then Err ValueError
      else
        let own := if o_map o then o_origin o else "lower"%string in
        match origin with
        | None => Ok (h, own)
        | Some s =>
            let s := strip_lower s in
            if (String.eqb s "lower" || String.eqb s "upper")%bool
            then Ok ((if o_map o then replace_nth h i (Object true true s) else h), s)
            else Err ValueError
        end
  end.

(** plot_tod: [shape] and the samples in C order; the mask, flat.  The result: for each detector
    its line and, if there is a mask, its red points; then the label of the ordinates. *)
Section Plot.
Context {A : Type}.
Local Open Scope Z_scope.
Definition prod (l : list Z) : Z := fold_left Z.mul l 1.
Definition reshape2 {B} (nd : Z) (l : list B) : res (Z * (Z -> list B)) :=
  if nd =? 0 then Err ValueError
  else if negb (zlen l mod nd =? 0) then Err ValueError
  else let ns := zlen l / nd in Ok (ns, fun d => firstn (Z.to_nat ns) (skipn (Z.to_nat (d * ns)) l)).
Fixpoint where_ (m : list bool) (i : Z) : list Z := match m with [] => [] | b :: r => if b then i :: where_ r (i + 1) else where_ r (i + 1) end.
Definition plot_tod (shape : list Z) (tod : list A) (own mask : option (list bool)) (unit : string) : res (list (list A * option (list (Z * A))) * string) :=
  let mask := match mask with None => own | m => m end in
  let nd := prod (removelast shape) in
  do t <- reshape2 nd tod;
  do m <- match mask with None => Ok None | Some m => do m' <- reshape2 nd m; Ok (Some (m, m')) end;
  let label := (if String.eqb unit "" then "Signal" else "Signal [" ++ unit ++ "]")%string in
  match m with
  | None => Ok (map (fun d => (snd t d, None)) (iota nd), label)
  | Some (m, rows) =>
      if forallb (fun b => b) m then Ok ([], ""%string)                  (* There is no valid sample. *)
      else do l <- map_res (fun d => do p <- map_res (fun k => do x <- get (snd t d) k; Ok (k, x)) (where_ (snd rows d) 0); Ok (snd t d, Some p)) (iota nd);
           Ok (l, label)
  end.
End Plot.
