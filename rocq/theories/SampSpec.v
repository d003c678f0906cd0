(** What the samplings should be (C78), without the definitions of the code. *)
From Coq Require Import Reals String.
From Verif Require Import Base PTModel SampModel.
Local Open Scope Z_scope.

(** Accepted values of an attribute of n samples. *)
Definition angle (n : Z) (v : value) : Prop :=
  match v with UVArr sh l => sh = [n] /\ zlen l = n | UV0 _ => True | _ => False end.
(** The value of sample i. *)
Definition sample (v : value) (i : nat) : option R :=
  match v with UVArr _ l => nth_error l i | UV0 x => Some x | _ => None end.
(** Keywords that can be used: new attributes and [time]. *)
Definition usable (k : string) : Prop :=
  ~ In k ["all"; "comm"; "index"; "ndim"; "removed"; "shape"; "cartesian"; "spherical"; "velocity"]%string.
Definition keywords_ok (n : Z) (kw : list (string * value)) : Prop :=
  NoDup (map fst kw) /\ Forall (fun kv => usable (fst kv) /\ angle n (snd kv)) kw.
Definition names_ok (a b c : string) : Prop := NoDup [a; b; c; "time"%string] /\ Forall usable [a; b; c].

(** The documented ways to give the angles a, b and c. *)
Inductive call (to_int : R -> res Z) (n0 n1 n2 : string) (n : Z) (a b c : value)
  : list value -> list (string * value) -> Prop :=
| Positional3 kw :
    ~ In n0 (map fst kw) -> ~ In n1 (map fst kw) -> ~ In n2 (map fst kw) -> call to_int n0 n1 n2 n a b c [a; b; c] kw
| Positional2 kw :
    ~ In n0 (map fst kw) -> ~ In n1 (map fst kw) -> ~ In n2 (map fst kw) -> c = UV0 0%R ->
    call to_int n0 n1 n2 n a b c [a; b] kw
| Keywords kw args :
    In (n0, a) kw -> In (n1, b) kw -> (In (n2, c) kw \/ ~ In n2 (map fst kw) /\ c = UV0 0%R) ->
    (args = [] \/ exists x, args = [UV0 x] /\ to_int x = Ok n) -> call to_int n0 n1 n2 n a b c args kw.

(** The samples that are not masked, and their mean. *)
Definition kept (mc : masked * list (R * R * R)) : list (R * R * R) :=
  match fst mc with
  | MScalar true => []
  | MScalar false => snd mc
  | MArray l => map snd (filter (fun bv => negb (fst bv)) (combine l (snd mc)))
  end.
Fixpoint total (f : R * R * R -> R) (l : list (R * R * R)) : R :=
  match l with [] => 0%R | v :: r => (f v + total f r)%R end.
Definition mean (l : list (R * R * R)) : R * R * R :=
  let n := INR (length l) in
  ((total (fun v => fst (fst v)) l / n)%R, (total (fun v => snd (fst v)) l / n)%R, (total snd l / n)%R).
Definition finite (v : R * R * R) : nvec := (Some (fst (fst v)), Some (snd (fst v)), Some (snd v)).
(** Angular distance travelled between two directions. *)
Definition chord (u v : R * R * R) : R :=
  let '(x, y, z) := u in let '(x', y', z') := v in
  sqrt ((x - x') ^ 2 + (y - y') ^ 2 + (z - z') ^ 2).
