(** C119: the pointing matrices whose number of samples does not fit in 32 bits.  The kernels of
    module_pointingmatrix.f90 copy [size(pmatrix, 2)] to a default integer (305-309, 332-334,
    354-357, 380-382, 402-408, 513-518) and count with one, although pointingmatrix_old.f90 (12, 31,
    49, 240, 275) gets the number of samples as an integer*8.  The conversion keeps the 32 lowest
    bits, as gfortran does. *)
From Verif Require Import Base SparseModel PmModel.
Open Scope Z_scope.

Definition int4 (z : Z) : Z := (z + 2 ^ 31) mod 2 ^ 32 - 2 ^ 31.

Section Cnt.
Context {K : Type} (o : ops K).
Local Notation element := (Z * K)%type.

(** The samples of [do isample = 1, nsamples]. *)
Definition counted {A} (m : list A) : list A := firstn (Z.to_nat (int4 (zlen m))) m.

(** pmatrix_direct, 300-321, and pmatrix_direct_one_pixel_per_sample, 327-344: the rest of the
    timeline is not written. *)
Definition direct4 (npixels_per_sample : Z) (m : list (list element)) (map_ timeline : list K) : res (list K) :=
  do t <- fdirect o npixels_per_sample (counted m) map_ (firstn (length (counted m)) timeline);
  Ok (t ++ skipn (length (counted m)) timeline).
(** pmatrix_transpose, 350-370, and pmatrix_transpose_one_pixel_per_sample, 376-393. *)
Definition transpose4_events (npixels_per_sample : Z) (m : list (list element)) (timeline : list K) : list (Z * K) :=
  ftranspose_events o npixels_per_sample (counted m) (firstn (length (counted m)) timeline).
(** pmatrix_ptp, 399-427. *)
Definition ptp4_events (npixels : Z) (m : list (list element)) : list (Z * K) := ptp_events o npixels (counted m).
(** backprojection_weight, 506-537. *)
Definition back4_events (m : list (list element)) (timeline : list K) (mask : option (list bool)) : list (Z * K) :=
  back_map_events o (counted m) timeline mask.
Definition back4_weight_events (m : list (list element)) (timeline : list K) (mask : option (list bool)) : list (Z * K) :=
  back_weight_events (counted m) timeline mask.
End Cnt.

(** The index [ix + iy * nx] of xy2pmatrix, 642, in 32-bit integers. *)
Definition index4 (nx ix iy : Z) : Z := int4 (ix + int4 (iy * nx)).
