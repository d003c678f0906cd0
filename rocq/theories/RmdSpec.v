(** Specification of means of angles: samples in an arc of 89 degrees, of which the mean is the arithmetic mean of the angles unrolled
    along the arc, up to turns. *)
From Coq Require Import ZArith Reals List.
From Verif Require Import Base WcsSpec.
Open Scope R_scope.
Definition close_together (a : R) (v u : R) : Prop := same_angle v u /\ a <= u < a + 89.
(** The angles x and y differ by at most e, up to a number of turns. *)
Definition angles_within (e x y : R) : Prop := exists k : Z, Rabs (x - y - 360 * IZR k) <= e.
