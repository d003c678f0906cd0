(** floor(log10(dble(n))) of module_string.f90, 150-166 and 200-216, in double precision: the conversion and the logarithm are
    rounded to the nearest number.  The mathematical library is taken as correctly rounded. *)
From Coq Require Import ZArith Reals.
From Flocq Require Import Core.
Open Scope R_scope.
Definition fexp64 : Z -> Z := FLT_exp (-1074) 53.
Definition rnd64 (x : R) : R := round radix2 fexp64 ZnearestE x.
Definition log10_64 (x : R) : R := rnd64 (ln x / ln 10).
Definition flog10 (n : Z) : Z := Zfloor (log10_64 (rnd64 (IZR n))).
