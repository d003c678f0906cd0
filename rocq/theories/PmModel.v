(** Pointing matrices: module_pointingmatrix.f90 (297-702), pointingmatrix_old.f90 and the
    Python classes PointingMatrix and ProjectionBaseOperator (operators.py 504-862).

    A matrix is the list, over the samples, of the stored (index, value); the index -1
    ends a sample.  Numbers are those of [ops]; [iszero] is the test "value == 0".
    An access outside of an array is an IndexError. *)
From Verif Require Import Base SparseModel NumModel.
Open Scope Z_scope.

Section Pm.
Context {K : Type} (o : ops K) (iszero : K -> bool).
Local Notation element := (Z * K)%type.
Local Notation matrix := (list (list element)).

(** pmatrix_direct, 300-321: one sample. *)
Fixpoint direct_row (row : list element) (map_ : list K) (acc : K) : res K :=
  match row with
  | [] => Ok acc
  | (i, v) :: r => if i =? -1 then Ok acc else do x <- get map_ i; direct_row r map_ (kadd o acc (kmul o x v))
  end.
Definition pmatrix_direct (m : matrix) (map_ : list K) : res (list K) := map_res (fun row => direct_row row map_ (k0 o)) m.

(** pmatrix_direct_one_pixel_per_sample, 327-344: samples without pixel are not written. *)
Fixpoint pmatrix_direct_one (m : list element) (map_ timeline : list K) : res (list K) :=
  match m, timeline with
  | (i, v) :: r, t :: ts =>
      do t <- (if 0 <=? i then do x <- get map_ i; Ok (kmul o x v) else Ok t);
      do ts <- pmatrix_direct_one r map_ ts; Ok (t :: ts)
  | _, _ => Ok []
  end.
(** matrix(1,:) *)
Definition first_column (m : matrix) : list element := flat_map (fun row => firstn 1 row) m.
(** direct, pointingmatrix_old.f90 47-63. *)
Definition fdirect (npixels_per_sample : Z) (m : matrix) (map_ signal : list K) : res (list K) :=
  if npixels_per_sample =? 1 then pmatrix_direct_one (first_column m) map_ signal else pmatrix_direct m map_.

(** ** Atomic additions, in any order. *)
Fixpoint run_events (mem : list K) (evs : list (Z * K)) : res (list K) :=
  match evs with
  | [] => Ok mem
  | (i, t) :: r => do x <- get mem i; run_events (set_at mem i (kadd o x t)) r
  end.
(** Those of a sample, until the index -1. *)
Fixpoint row_events (f : K -> K) (row : list element) : list (Z * K) :=
  match row with [] => [] | (i, v) :: r => if i =? -1 then [] else (i, f v) :: row_events f r end.

(** pmatrix_transpose, 350-370. *)
Definition transpose_events (m : matrix) (timeline : list K) : list (Z * K) :=
  flat_map (fun rt => row_events (fun v => kmul o v (snd rt)) (fst rt)) (combine m timeline).
(** pmatrix_transpose_one_pixel_per_sample, 376-393. *)
Definition transpose_one_events (m : list element) (timeline : list K) : list (Z * K) :=
  flat_map (fun et => let '((i, v), t) := et in if 0 <=? i then [(i, kmul o v t)] else []) (combine m timeline).
(** transpose, pointingmatrix_old.f90 273-290. *)
Definition ftranspose_events (npixels_per_sample : Z) (m : matrix) (signal : list K) : list (Z * K) :=
  if npixels_per_sample =? 1 then transpose_one_events (first_column m) signal else transpose_events m signal.

(** pmatrix_ptp, 399-427: the array (0:npixels-1, 0:npixels-1), i first in memory; both
    indices are checked. *)
Definition cell (npixels i j : Z) : Z := if (0 <=? i) && (i <? npixels) && (0 <=? j) && (j <? npixels) then i + j * npixels else -1.
Definition ptp_events (npixels : Z) (m : matrix) : list (Z * K) :=
  flat_map (fun row => flat_map (fun e => map (fun e' => (cell npixels (fst e) (fst e'), kmul o (snd e) (snd e'))) (row_events (fun v => v) row))
                                (row_events (fun v => v) row)) m.

(** ptp_one, pointingmatrix_old.f90 253-267. *)
Definition ptp_one_events (m : list element) : list (Z * K) := map (fun e => (fst e, kmul o (snd e) (snd e))) m.

(** pmatrix_mask, 433-455. *)
Fixpoint mask_row (row : list element) (mask : list bool) : res (list bool) :=
  match row with
  | [] => Ok mask
  | (i, v) :: r => if i =? -1 then Ok mask
                   else if iszero v then mask_row r mask
                   else do _ <- get mask i; mask_row r (set_at mask i false)
  end.
Fixpoint pmatrix_mask (m : matrix) (mask : list bool) : res (list bool) :=
  match m with [] => Ok mask | row :: r => do mask <- mask_row row mask; pmatrix_mask r mask end.

(** PointingMatrix.get_mask, operators.py 586-602: [shape_input]: the shape of the map;
    [out]: the optional mask, its type being boolean or not, its shape and content.  The matrix
    has no element if it has no sample or no element per sample. *)
Definition get_mask (shape_input : list Z) (m : matrix) (out : option (bool * list Z * list bool)) : res (list bool) :=
  do mask <- match out with
             | None => Ok (repeat true (Z.to_nat (prodZ shape_input)))
             | Some (boolean, shape, mask) =>
                 if negb boolean then Err TypeError
                 else if negb (if list_eq_dec Z.eq_dec shape shape_input then true else false) then Err ValueError
                 else Ok mask
             end;
  if Nat.eqb (length (concat m)) 0 then Ok mask else pmatrix_mask m mask.

(** pmatrix_pack, 461-500: the table of the packed indices ([None]: undefined). *)
Fixpoint pack_table (ipacked : Z) (mask : list bool) : list (option Z) :=
  match mask with [] => [] | true :: r => None :: pack_table ipacked r | false :: r => Some ipacked :: pack_table (ipacked + 1) r end.
(** The sample is [before ++ row], ipixel points to the head of [row]. *)
Fixpoint pack_row (fuel : nat) (table : list (option Z)) (mask : list bool) (before row : list element) : res (list element) :=
  match fuel with
  | O => Err RuntimeError (* does not end *)
  | S fuel =>
      match row with
      | [] => Ok before
      | (i, v) :: r =>
          if i =? -1 then Ok (before ++ row)
          else do b <- (if iszero v then Ok true else get mask i);
               if b then pack_row fuel table mask before (r ++ [(-1, k0 o)])
               else do t <- get table i;
                    match t with Some j => pack_row fuel table mask (before ++ [(j, v)]) r | None => Err KeyError (* undefined *) end
      end
  end.
Definition pmatrix_pack (m : matrix) (mask : list bool) : res matrix :=
  map_res (fun row => pack_row (S (length row)) (pack_table 0 mask) mask [] row) m.

(** backprojection_weight, 506-537: the events of the map and of the weights. *)
Definition unmasked_samples (m : matrix) (timeline : list K) (mask : option (list bool)) : list (list element * K) :=
  match mask with
  | None => combine m timeline
  | Some mk => map fst (filter (fun rb => negb (snd rb)) (combine (combine m timeline) mk))
  end.
Definition back_map_events (m : matrix) (timeline : list K) (mask : option (list bool)) : list (Z * K) :=
  flat_map (fun rt => row_events (fun v => kmul o v (snd rt)) (fst rt)) (unmasked_samples m timeline mask).
Definition back_weight_events (m : matrix) (timeline : list K) (mask : option (list bool)) : list (Z * K) :=
  flat_map (fun rt => row_events (fun v => v) (fst rt)) (unmasked_samples m timeline mask).

(** isvalid, pointingmatrix_old.f90 175-196 and operators.py 554-570. *)
Definition isvalid (npixels : Z) (m : matrix) : bool :=
  forallb (fun row => forallb (fun e => (fst e =? -1) || negb ((fst e <? 0) || (npixels <=? fst e))) row) m.

(** xy2pmatrix, module_pointingmatrix.f90 621-646: coordinates num/den. *)
Definition xy2pmatrix (nx ny : Z) (xy : list ((Z * Z) * (Z * Z))) (out : bool) : bool * list element :=
  fold_left (fun acc c =>
    let '(out, l) := acc in
    let ix := nint_up (fst (fst c)) (snd (fst c)) in let iy := nint_up (fst (snd c)) (snd (snd c)) in
    if (ix <? 0) || (nx - 1 <? ix) || (iy <? 0) || (ny - 1 <? iy) then (true, l ++ [(-1, k0 o)])
    else (out, l ++ [(ix + iy * nx, k1 o)])) xy (out, []).

(** roi2pmatrix_cartesian, 652-702, for one detector: [area ix iy] is the (single
    precision) intersection of its polygon and of the pixel. *)
Definition roi := ((Z * Z) * (Z * Z))%type. (* (xmin, xmax), (ymin, ymax) *)
Definition roi_pixels (r : roi) (nx ny : Z) : list (Z * Z) :=
  flat_map (fun iy => map (fun ix => (ix, iy)) (upto (Z.max (fst (fst r)) 0) (Z.min (snd (fst r)) (nx - 1))))
           (upto (Z.max (fst (snd r)) 0) (Z.min (snd (snd r)) (ny - 1))).
Fixpoint roi_loop (nx : Z) (abs : K -> K) (area : Z -> Z -> K) (pixels : list (Z * Z)) (npixels : Z) (row : list element) : res (Z * list element) :=
  match pixels with
  | [] => Ok (npixels, row)
  | (ix, iy) :: r =>
      let val := area ix iy in
      if iszero val then roi_loop nx abs area r npixels row
      else do row <- (if npixels <=? zlen row then do _ <- get row (npixels - 1); Ok (set_at row (npixels - 1) (ix + iy * nx, abs val)) else Ok row);
           roi_loop nx abs area r (npixels + 1) row
  end.
(** pmatrix(npixels:,icoord) = (-1, 0) *)
Definition clear_from (n : Z) (row : list element) : list element :=
  firstn (Z.to_nat (n - 1)) row ++ map (fun _ => (-1, k0 o)) (skipn (Z.to_nat (n - 1)) row).
Definition roi2row (nx ny : Z) (abs : K -> K) (r : roi) (area : Z -> Z -> K) (row : list element) : res (Z * list element) :=
  do nr <- roi_loop nx abs area (roi_pixels r nx ny) 1 row;
  Ok (fst nr - 1, clear_from (fst nr) (snd nr)).
Definition roi_out (nx ny : Z) (r : roi) : bool :=
  (fst (snd r) <? 0) || (ny - 1 <? snd (snd r)) || (fst (fst r) <? 0) || (nx - 1 <? snd (fst r)).
(** All detectors: new_npixels_per_sample, out and the matrix. *)
Fixpoint roi2pmatrix (nx ny : Z) (abs : K -> K) (dets : list (roi * (Z -> Z -> K))) (m : matrix) (new : Z) (out : bool) : res (Z * bool * matrix) :=
  match dets, m with
  | (r, area) :: ds, row :: rows =>
      let out := if roi_out nx ny r then true else out in
      do nr <- roi2row nx ny abs r area row;
      do rest <- roi2pmatrix nx ny abs ds rows (Z.max new (fst nr)) out;
      let '(new, out, rows) := rest in Ok (new, out, snd nr :: rows)
  | _, _ => Ok (new, out, [])
  end.

(** ** Python layer *)
(** PointingMatrix.zeros, 539-548. *)
Definition pm_zeros (nsamples npixels : nat) : matrix := repeat (repeat (-1, k0 o) npixels) nsamples.
(** matrix.size *)
Definition pm_size (m : matrix) : Z := sumZ (map zlen m).

(** ProjectionBaseOperator.direct, 646-660: [output] is what the array contained before. *)
Definition proj_direct (npixels_per_sample : Z) (m : matrix) (input output : list K) : res (list K) :=
  if pm_size m =? 0 then Ok output else fdirect npixels_per_sample m input output.
(** ProjectionBaseOperator.transpose, 662-677; [iadd]: in-place addition; [order]: an
    order of the atomic additions. *)
Definition proj_transpose (npixels_per_sample : Z) (m : matrix) (iadd : bool) (input output : list K)
    (order : list (Z * K) -> list (Z * K)) : res (list K) :=
  let output := if iadd then output else map (fun _ => k0 o) output in
  if pm_size m =? 0 then Ok output else run_events output (order (ftranspose_events npixels_per_sample m input)).

(** apply_mask, 846-855: matrix.value *= 1 - mask. *)
Definition apply_mask (m : matrix) (mask : list bool) : matrix :=
  map (fun rb => map (fun e : element => (fst e, kmul o (snd e) (if snd rb : bool then k0 o else k1 o))) (fst rb)) (combine m mask).

(** get_pTp, 701-720: [out] is None or the type and shape of the given array.  f2py
    refuses, for real(p), intent(inout), an array of another type (pointingmatrix_old.f90
    241). *)
Inductive array_type := bool_array | real_array.
Definition call_ptp (t : array_type) (m : matrix) (npixels : Z) (out : list K) : res (list K) :=
  match t with real_array => run_events out (ptp_events npixels m) | bool_array => Err ValueError end.
Definition get_pTp (m : matrix) (npixels : Z) (out : option (array_type * (Z * Z))) : res (list K) :=
  do t <- match out with
          | None => Ok bool_array
          | Some (real_array, _) => Err TypeError
          | Some (bool_array, (a, b)) => if (a =? npixels) && (b =? npixels) then Ok bool_array else Err ValueError
          end;
  let zeros := repeat (k0 o) (Z.to_nat (npixels * npixels)) in
  if pm_size m =? 0 then Ok zeros else call_ptp t m npixels zeros.

(** get_pTx_pT1, 718-749: the mask handed to Fortran; [xmask]: attribute mask of x. *)
Definition truth (mask : option (list bool)) : res bool :=
  match mask with
  | None => Ok false
  | Some [] => Ok false
  | Some [b] => Ok b
  | Some _ => Err ValueError (* the truth value of an array is ambiguous *)
  end.
Definition backprojection_mask (mask xmask : option (list bool)) : res (option (list bool)) :=
  do t <- truth mask;
  let mask := if t : bool then mask else xmask in
  match mask with
  | None => Ok None
  | Some _ => match xmask with Some mk => Ok (Some mk) | None => Err AttributeError end
  end.

(** intersects, 751-783: index of FITS coordinates (from 1) in a map whose FITS-ordered
    dimensions are [naxis]; any(matrix%index == pixel). *)
Fixpoint fits_index (naxis coords : list Z) (stride : Z) : Z :=
  match naxis, coords with
  | n :: ns, c :: cs => (c - 1) * stride + fits_index ns cs (stride * n)
  | _, _ => 0
  end.
Definition intersects (m : matrix) (pixel : Z) : bool := existsb (fun row => existsb (fun e => fst e =? pixel) row) m.
(** intersects_axis3: for each sample; [dets]: the matrices of the detectors. *)
Definition intersects_axis3 (dets : list matrix) (nsamples : nat) (pixel : Z) : list bool :=
  map (fun s => existsb (fun m => existsb (fun e => fst e =? pixel) (nth s m [])) dets) (seq 0 nsamples).
(** intersects_axis2: for each detector. *)
Definition intersects_axis2 (dets : list matrix) (pixel : Z) : list bool :=
  map (fun m => existsb (fun row => existsb (fun e => fst e =? pixel) row) m) dets.
End Pm.
