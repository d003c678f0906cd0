(** Independent descriptions for C90. *)
From Coq Require Import Reals List.
From Verif Require Import Base.
Open Scope R_scope.

(** The spectrum of a body of temperature T and emissivity nu^beta. *)
Definition spectrum (h c k beta T nu : R) : R := Rpower nu beta * (2 * h * nu ^ 3 / c ^ 2 / (exp (h * nu / (k * T)) - 1)).
(** Frequency given by one of its two descriptions. *)
Inductive tuned (c : R) : option R -> option R -> R -> Prop :=
| by_frequency nu : 0 < nu -> tuned c (Some nu) None nu
| by_wavelength w nu : 0 < nu -> nu * w = c -> tuned c None (Some w) nu.
