(** distance, distance2, aperture_circular, airy_disk and profile (datautils.py 33-91, 94-237,
    454-504) with quantities.

    The numbers are those of DataModel and MiscModel, the units those of [array_ufunc] (C69),
    pixel by pixel.  Magnitudes of units are logarithms.  The in-place products and quotients
    bind their name to what the universal function returns, as Python does. *)
From Coq Require Import String Reals Qcanon Qreals.
From Verif Require Import Base TemplateModel UnitModel UfModel ConstModel DataModel MiscModel.
Open Scope R_scope.

Definition rlog_ops : mag_ops R := MagOps R 0 Rplus Ropp (fun k (p : Qc) => k * Q2R p).
Definition ract (k x : R) : R := exp k * x.
Notation operand := (@UfModel.operand R R).

Section Qd.
Variable jn : R -> R -> R.        (* the Bessel functions of scipy: order, argument *)
Variable fuel : nat.
Variable glob : @du_table R.

(** What numpy computes. *)
Definition rcore (f : ufunc) (m : method) (l : list R) : R :=
  match f, l with
  | Multiply, [a; b] => a * b
  | True_divide, [a; b] => a / b
  | Power, [a; b] => if Req_EM_T b 2 then a * a else Rpower a b
  | Equal, [a; b] => if Req_EM_T a b then 1 else 0
  | Less_equal, [a; b] => if Rle_dec a b then 1 else 0
  | Other _, [n; x] => jn n x
  | _, _ => 0
  end.
Definition rexpo (x : R) : option Qc := if Req_EM_T x 2 then Some (Q2Qc (2 # 1)) else None.
Definition uf (f : ufunc) (l : list operand) : res operand := array_ufunc rlog_ops ract rcore rexpo fuel glob f Call l.

(** unit = getattr(scale, '_unit', None) (124, 207): [su] is empty if the scale is a number;
    Map(out, copy=False, unit=unit), 153 and 236. *)
Definition qdistance shape center scale (su : unit_) idx : res operand := do d <- distance shape center scale idx; Ok (Qty d su []).
Definition qdistance2 shape center scale (su : unit_) idx : res operand := do d <- distance2 shape center scale idx; Ok (Qty d su []).

(** array[...] = array <= (diameter / 2) ** 2: the array keeps its unit (89-91). *)
Definition qaperture shape (diameter : operand) center scale su idx : res operand :=
  do a <- qdistance2 shape center scale su idx;
  do h <- uf True_divide [diameter; Plain 2];
  do h <- uf Power [h; Plain 2];
  do b <- uf Less_equal [a; h];
  Ok (Qty (magnitude b) (get_units a) []).

(** 56-65, up to the normalisation. *)
Definition qairy_pixel (fwhm r0 : option operand) (d : operand) : res operand :=
  do z <- uf Equal [d; Plain 0];
  let x := if Req_EM_T (magnitude z) 1 then / 10 ^ 30 else magnitude d in
  let d := match d with Plain _ => Plain x | Qty _ u loc => Qty x u loc end in
  do q <- match fwhm, r0 with
          | Some w, _ => do h <- uf True_divide [w; Plain 2]; uf True_divide [Plain 1.61633; h]
          | None, Some r => uf True_divide [Plain 3.8317; r]
          | None, None => Err ValueError
          end;
  do d <- uf Multiply [d; q];
  do b <- uf (Other 0) [Plain 1; d];
  do b <- uf Multiply [Plain 2; b];
  do e <- uf True_divide [b; d];
  uf Power [e; Plain 2].
Definition qairy (ny nx : Z) (fwhm r0 : option operand) center scale su : res (list operand) :=
  match fwhm, r0 with
  | None, None => Err ValueError
  | _, _ =>
      do l <- map_res (fun idx => do d <- qdistance [ny; nx] center scale su idx; qairy_pixel fwhm r0 d) (indices2 ny nx);
      match l with
      | [] => Ok []
      | a :: _ => map_res (fun d => uf True_divide [d; Qty (sum_python (map magnitude l)) (get_units a) []]) l
      end
  end.

(** profile: bin / scale and x *= scale; the Fortran function is given the magnitudes. *)
Definition qprofile (nan : num) share (nx : nat) input (bin : operand) (nbins : Z) (center : R * R) (scale : operand) : res (list (operand * num * Z)) :=
  do b <- uf True_divide [bin; scale];
  do r <- profile_axisymmetric nan center (magnitude b) (Z.to_nat nbins) (share (pixels_of input));
  map_res (fun t => let '(x, y, n) := t in do x <- uf Multiply [Plain x; scale]; Ok (x, y, n)) r.
End Qd.
