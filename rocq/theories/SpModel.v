(** C90: spectral operators, operators.py: BlackBodyOperator (233-331) and PowerLawOperator (427-501).

    Numbers are reals; an argument is a number or an array of one dimension (arrays of more
    dimensions follow the same path).  The constants h, c, k of scipy are parameters. *)
From Coq Require Import Reals List.
From Verif Require Import Base.
Open Scope R_scope.

Inductive arr := Sc (x : R) | Ar (l : list R).
Definition ndim (a : arr) : nat := match a with Sc _ => 0 | Ar _ => 1 end.
Definition amap (f : R -> R) (a : arr) : arr := match a with Sc x => Sc (f x) | Ar l => Ar (map f l) end.
(** Broadcasting: arrays of one element are repeated. *)
Definition zip (f : R -> R -> R) (a b : list R) : res (list R) :=
  if Nat.eqb (length a) (length b) then Ok (map (fun p => f (fst p) (snd p)) (combine a b))
  else match a, b with
       | [x], _ => Ok (map (f x) b)
       | _, [y] => Ok (map (fun x => f x y) a)
       | _, _ => Err ValueError
       end.
Definition abin (f : R -> R -> R) (a b : arr) : res arr :=
  match a, b with
  | Sc x, _ => Ok (amap (f x) b)
  | _, Sc y => Ok (amap (fun x => f x y) a)
  | Ar l, Ar m => do r <- zip f l m; Ok (Ar r)
  end.
(** [float] of an argument: of a number, or of an array of one element. *)
Definition to_float (a : arr) : res R := match a with Sc x => Ok x | Ar [x] => Ok x | Ar _ => Err TypeError end.

(** 288-331: the diagonal of the operator. *)
Definition black_body (h c k : R) (temperature : arr) (frequency frequency0 wavelength wavelength0 : option arr) (beta : arr) : res arr :=
  match frequency, wavelength with None, None => Err ValueError | _, _ =>
  match frequency0, wavelength0 with None, None => Err ValueError | _, _ =>
  match frequency, wavelength with Some _, Some _ => Err ValueError | _, _ =>
  match frequency0, wavelength0 with Some _, Some _ => Err ValueError | _, _ =>
    let nu := match frequency, wavelength with Some f, _ => f | None, Some w => amap (fun w => c / w) w | None, None => Sc 0 end in
    if negb (Nat.eqb (ndim nu) 0) then Err TypeError else
    let nu0 := match frequency0, wavelength0 with Some f, _ => f | None, Some w => amap (fun w => c / w) w | None, None => Sc 0 end in
    (* the check is made on nu, not on nu0 *)
    if negb (Nat.eqb (ndim nu) 0) then Err TypeError else
    do beta <- to_float beta;
    do a <- abin (fun nu nu0 => Rpower (nu / nu0) (3 + beta)) nu nu0;
    do e0 <- abin (fun nu0 T => exp (h * nu0 / (k * T)) - 1) nu0 temperature;
    do e <- abin (fun nu T => exp (h * nu / (k * T)) - 1) nu temperature;
    do n <- abin Rmult a e0;
    abin Rdiv n e
  end end end end.

(** 456-483 and the expression of line 474: the diagonal, for each slope. *)
Record power_law := PowerLaw { alpha : arr; x_ : R; x0_ : R; scalar : R }.
Definition new_power_law (alpha x x0 scalar : arr) : res power_law :=
  match x, x0, scalar with
  | Sc x, Sc x0, Sc s => Ok (PowerLaw alpha x x0 s)
  | _, _, _ => Err TypeError
  end.
Definition diagonal (p : power_law) : arr := amap (fun a => scalar p * Rpower (x_ p / x0_ p) a) (alpha p).
(** Rule of the composition by an homothety on the left, 479-483. *)
Definition scaled (k : R) (p : power_law) : res power_law := new_power_law (alpha p) (Sc (x_ p)) (Sc (x0_ p)) (Sc (k * scalar p)).
