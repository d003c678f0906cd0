(** Special numbers: module_math.f90.j2 8-15 and module_math_old.f90 51-54 (the build defines
    PRECISION_REAL as 8). *)
From Coq Require Import Reals ZArith.
Open Scope R_scope.
(** A number of the machine. *)
Inductive num := NaN | Inf (negative : bool) | Fin (x : R).
(** real(z'...', real32) and real(z'...', real64): the number that has these bits; a literal
    that is too short is padded with zeros on the left (Fortran 2008, 13.3.3). *)
Definition decode (mantissa exponent : Z) (bits : Z) : num :=
  let m := (bits mod 2 ^ mantissa)%Z in
  let e := (bits / 2 ^ mantissa mod 2 ^ exponent)%Z in
  let s := (bits / 2 ^ (mantissa + exponent) mod 2 =? 1)%Z in
  if (e =? 2 ^ exponent - 1)%Z then (if (m =? 0)%Z then Inf s else NaN)
  else
    let bias := (2 ^ (exponent - 1) - 1)%Z in
    let v := if (e =? 0)%Z then IZR m * powerRZ 2 (1 - bias - mantissa) else IZR (2 ^ mantissa + m) * powerRZ 2 (e - bias - mantissa) in
    Fin (if s then - v else v).
Definition bits32 := decode 23 8.
Definition bits64 := decode 52 11.
(** module_math *)
Definition NAN_4 := bits32 0xFFFFFFFF.
Definition MINF_4 := bits32 0xFF700000.
Definition PINF_4 := bits32 0x7F700000.
Definition NAN_8 := bits64 0xFFF800000000000.
Definition MINF_8 := bits64 0xFFF000000000000.
Definition PINF_8 := bits64 0x7FF0000000000000.
(** module_math_old *)
Definition old_NaN := bits64 0xFFFFFFFF.
Definition old_mInf := bits64 0xFFFF0000.
Definition old_pInf := bits64 0x7FFF0000.
