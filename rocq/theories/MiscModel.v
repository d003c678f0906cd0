(** C99: shift_medium 843-873, median_copy 566-597 and distance_3d 112-133 of module_math_old.f90; where_2d_1d, module_sort.f90
    744-758; airy_disk, datautils.py 33-66. *)
From Coq Require Import Reals.
From Verif Require Import Base MedianModel SortModel NumModel DataModel.
Open Scope Z_scope.

(** shift_medium: the lines of shift_fast, where an element is the column input(:,j,k), and a list of columns the plane k. *)
Definition shift_medium {T} (zero : T) (inplace : bool) (m n : Z) (input output : list (list (list T))) (offset : list Z) : res (list (list (list T))) :=
  shift_fast (repeat zero (Z.to_nat m)) inplace n input output offset.

(** median_copy: pack, then median_nocopy on the copy. *)
Fixpoint pack (l : list MedianModel.num) (keep : list bool) : list MedianModel.num :=
  match l, keep with x :: l, b :: keep => if b then x :: pack l keep else pack l keep | _, _ => [] end.
Definition median_copy (arr : list MedianModel.num) (remove_nan : bool) (mask : option (list bool)) : res MedianModel.num :=
  let array_copy :=
    match mask with
    | Some m => if remove_nan then pack arr (map (fun xb => negb (is_nan (fst xb)) && negb (snd xb)) (combine arr m)) else pack arr (map negb m)
    | None => if remove_nan then pack arr (map (fun x => negb (is_nan x)) arr) else arr
    end in
  do r <- median array_copy false None; Ok (fst r).

(** where_2d_1d: [reshape] gives the elements column after column; n is assigned, present or not. *)
Definition where_2d_1d (cols : list (list bool)) (n_present : bool) : res (list Z * Z) :=
  let mask := concat cols in
  let indices := map fst (filter snd (combine (map Z.of_nat (seq 1 (length mask))) mask)) in
  if n_present then Ok (indices, zlen indices) else Err RuntimeError (* assignment to an argument that is not there *).

Open Scope R_scope.
Definition distance_3d (origin resolution : R * R * R) (i j k : Z) : R :=
  let '(o1, o2, o3) := origin in let '(r1, r2, r3) := resolution in
  let tmpk := (r3 * (IZR k - o3)) * (r3 * (IZR k - o3)) in
  let tmpj := (r2 * (IZR j - o2)) * (r2 * (IZR j - o2)) in
  sqrt ((r1 * (IZR i - o1)) * (r1 * (IZR i - o1)) + tmpj + tmpk).

(** airy_disk; [j1]: the Bessel function of scipy.  A division by zero is not modelled. *)
Section Airy.
Variable j1 : R -> R.
Definition airy_value (fwhm r0 : option R) (d : R) : res R :=
  let d := if Req_EM_T d 0 then / 10 ^ 30 else d in
  do d <- match fwhm, r0 with
          | Some fwhm, _ => Ok (d * (1.61633 / (fwhm / 2)))
          | None, Some r0 => Ok (d * (3.8317 / r0))
          | None, None => Err ValueError
          end;
  Ok ((2 * j1 d / d) * (2 * j1 d / d)).
Definition indices2 (ny nx : Z) : list (list Z) := flat_map (fun j => map (fun i => [Z.of_nat j; Z.of_nat i]) (seq 0 (Z.to_nat nx))) (seq 0 (Z.to_nat ny)).
(** The values of the pixels, one line after the other. *)
Definition airy_disk (ny nx : Z) (fwhm r0 : option R) (center : option (list R)) (scale : scaling) : res (list R) :=
  do d <- map_res (fun idx => do d <- distance [ny; nx] center scale idx; airy_value fwhm r0 d) (indices2 ny nx);
  Ok (map (fun x => x / sum_python d) d).
End Airy.
