(** packedtables/samplings.py: Sampling 25-52, SamplingSpherical 55-179.

    Simplifications: exact real numbers, None being a NaN in the coordinates; the special
    attributes are those of [PTModel] with elements in R ([masked] apart); dates and the
    conversions to other frames are not handled here (SkyModel).  The values given to the
    constructor have no dimension (UV0) or hold numbers in row-major order. *)
From Coq Require Import Reals String.
From Verif Require Import Base PTModel SkyModel.

Local Open Scope Z_scope.
Notation value := (uvalue R).

(** NumPy: shape of [np.broadcast] (environment); objects that are not arrays have no
    dimension. *)
Definition np_shape (v : value) : list Z := match v with UVArr sh _ => sh | _ => [] end.
Fixpoint broadcast_rev (a b : list Z) : res (list Z) :=
  match a, b with
  | [], l => Ok l
  | l, [] => Ok l
  | x :: a', y :: b' =>
      do r <- broadcast_rev a' b';
      if x =? y then Ok (x :: r) else if x =? 1 then Ok (y :: r) else if y =? 1 then Ok (x :: r) else Err ValueError
  end.
Fixpoint broadcast_shapes (l : list (list Z)) : res (list Z) :=
  match l with
  | [] => Ok []
  | s :: r => do t <- broadcast_shapes r; do u <- broadcast_rev (rev s) (rev t); Ok (rev u)
  end.

(** Python dictionaries: lookup and assignment. *)
Notation dict := (list (string * value)).
Fixpoint dict_get (d : dict) (k : string) : option value :=
  match d with [] => None | (k', v) :: r => if String.eqb k k' then Some v else dict_get r k end.
Fixpoint dict_set (d : dict) (k : string) (v : value) : dict :=
  match d with
  | [] => [(k, v)]
  | (k', v') :: r => if String.eqb k k' then (k, v) :: r else (k', v') :: dict_set r k v
  end.
Definition has (d : dict) (k : string) : bool := match dict_get d k with Some _ => true | None => false end.
Definition remove (d : dict) (k : string) : dict := filter (fun kv => negb (String.eqb k (fst kv))) d.

Open Scope string_scope.
(** Attributes of the objects of type dict, for [hasattr(keywords, ...)]. *)
Definition dict_attributes : list string :=
  ["clear"; "copy"; "fromkeys"; "get"; "items"; "keys"; "pop"; "popitem"; "setdefault"; "update"; "values"].
(** The class attributes of SamplingSpherical that are looked for in this file. *)
Definition class_attributes : list string :=
  ["DEFAULT_DATE_OBS"; "DEFAULT_PERIOD"; "time"; "cartesian"; "spherical"; "spherical2cartesian";
   "cartesian2spherical"; "velocity"; "get_center"].
Definition mem (k : string) (l : list string) : bool := existsb (String.eqb k) l.

Record sampling := Sampling { s_table : table R; s_period : R; s_names : string * string * string }.

Section Ctor.
Variable to_int : R -> res Z.                       (* tointtuple of a scalar *)
Variable median_diff : value -> res R.              (* np.median(np.diff(time)) *)

(** core.py 148-157: None is not assigned over a class attribute. *)
Definition not_inherited (kw : dict) : dict :=
  filter (fun kv => match snd kv with UVNone => negb (mem (fst kv) class_attributes) | _ => true end) kw.
(** Sampling.__init__, 29-49; [masked] is left to the caller. *)
Definition sampling_init (n : Z) (period : option R) (kw : dict) : res (table R * R) :=
  do p <- match period with
          | Some p => Ok p
          | None => if mem "time" dict_attributes                                        (* 40 *)
                    then match dict_get kw "time" with None => Err KeyError | Some t => median_diff t end
                    else Ok 1%R                                                          (* DEFAULT_PERIOD *)
          end;
  let time := match dict_get kw "time" with Some t => t | None => UVNone end in
  do t <- mk_table [n] SelNone None (not_inherited (("time", time) :: remove kw "time"));
  Ok (t, p).

(** SamplingSpherical.__init__, 56-114: the keywords of the angles, 78-97, and the shape,
    99-106. *)
Definition complete (n0 n1 n2 : string) (args : list value) (kw : dict) : res dict :=
  match args with
  | [] | [_] =>
      if (has kw n0 && negb (has kw n1)) || (has kw n1 && negb (has kw n0)) then Err ValueError
      else
        let kw := if has kw n0 then kw else dict_set kw n0 UVNone in
        let kw := if has kw n1 then kw else dict_set kw n1 UVNone in
        Ok (if has kw n2 then kw else dict_set kw n2 (UV0 0%R))
  | [a; b] => Ok (dict_set (dict_set (dict_set kw n0 a) n1 b) n2 (UV0 0%R))
  | [a; b; c] => Ok (dict_set (dict_set (dict_set kw n0 a) n1 b) n2 c)
  | _ => Err ValueError
  end.
Definition init_shape (n0 n1 n2 : string) (args : list value) (kw : dict) : res (list Z) :=
  match args with
  | [UV0 x] => do n <- to_int x; Ok [n]
  | [_] => Err ValueError
  | _ =>
      let get k := match dict_get kw k with Some v => np_shape v | None => [] end in
      broadcast_shapes [get n0; get n1; get n2; get "time"]
  end.
Definition spherical_init (names : string * string * string) (args : list value) (period : option R) (kw : dict)
  : res sampling :=
  let '(n0, n1, n2) := names in
  do kw <- complete n0 n1 n2 args kw;
  do shape <- init_shape n0 n1 n2 args kw;
  do n <- match shape with [] => Ok 1 | [n] => Ok n | _ => Err ValueError end;
  if has kw "cartesian" || has kw "spherical" || has kw "velocity" then Err TypeError else   (* 110-112 *)
  do tp <- sampling_init n period (("cartesian", UVNone) :: ("spherical", UVNone) :: ("velocity", UVNone) :: kw);
  Ok (Sampling (fst tp) (snd tp) names).
End Ctor.

(** time, 51-52, or the attribute given by the caller. *)
Definition times (s : sampling) : res (list R) :=
  match assoc "time" (t_attrs (s_table s)) with
  | Some (AtArr l) => Ok l
  | Some (At0 x) => Ok [x]
  | _ => do l <- t_indices (s_table s); Ok (map (fun i => (IZR i * s_period s)%R) l)
  end.
(** table[selection] keeps the other attributes (copy.copy, core.py 333). *)
Definition select (s : sampling) (sel : selection) : res sampling :=
  do t <- getitem (s_table s) sel; Ok (Sampling t (s_period s) (s_names s)).

(** spherical, 123-128: np.array([a, b]).T. *)
Inductive coordinates := Rows (l : list (R * R)) | Pair (a b : R) | Objects.
Definition spherical (s : sampling) : res coordinates :=
  let '(n0, n1, _) := s_names s in
  match assoc n0 (t_attrs (s_table s)), assoc n1 (t_attrs (s_table s)) with
  | Some (AtArr l), Some (AtArr l') => if (zlen l =? zlen l')%Z then Ok (Rows (combine l l')) else Err ValueError
  | Some (At0 a), Some (At0 b) => Ok (Pair a b)
  | Some AtNone, Some AtNone => Ok Objects
  | Some _, Some _ => Err ValueError                                     (* inhomogeneous shape *)
  | _, _ => Err AttributeError
  end.

(** velocity, 145-148: directions as vectors; a null difference is not a number. *)
Definition norm3 (v : vec) : R := sqrt (dot3 v v).
Definition minus3 (a b : vec) : vec :=
  let '(x, y, z) := a in let '(x', y', z') := b in ((x - x')%R, (y - y')%R, (z - z')%R).
Definition scale3 (k : R) (v : vec) : vec := let '(x, y, z) := v in ((k * x)%R, (k * y)%R, (k * z)%R).
Fixpoint differences (l : list vec) : list vec :=
  match l with
  | a :: ((b :: _) as r) => minus3 b a :: differences r
  | _ => []
  end.
Definition normalized (v : vec) : option vec :=
  if Req_EM_T (norm3 v) 0 then None else Some (scale3 (1 / norm3 v) v).
Definition velocity_vectors (period : R) (cartesian : list vec) : list (option vec) :=
  map (fun d => option_map (scale3 (1 / period)) (normalized d)) (differences cartesian).
Definition velocity (period : R) (cartesian : list vec) : res (list (option vec)) :=
  let v := velocity_vectors period cartesian in
  if mem "DEFAULT_VELOCITY_UNIT" class_attributes then Ok v else Err AttributeError.       (* 148 *)
Close Scope string_scope.

(** get_center, 150-174, on all ranks.  The coordinates are computed from the angles or are
    an attribute given by the user, which the method returns as it is. *)
Definition nvec := (option R * option R * option R)%type.
Inductive cart := Computed (l : list nvec) | Stored (l : list nvec).
Definition coords_of (c : cart) : list nvec := match c with Computed l | Stored l => l end.
Inductive masked := MScalar (b : bool) | MArray (l : list bool).

Definition nadd (a b : option R) : option R := match a, b with Some x, Some y => Some (x + y)%R | _, _ => None end.
Definition nscale (k : R) (a : option R) : option R := option_map (Rmult k) a.
Definition vadd (a b : nvec) : nvec :=
  let '(x, y, z) := a in let '(x', y', z') := b in (nadd x x', nadd y y', nadd z z').
Definition vscale (k : R) (a : nvec) : nvec := let '(x, y, z) := a in (nscale k x, nscale k y, nscale k z).
Definition vzero : nvec := (Some 0%R, Some 0%R, Some 0%R).
Definition vsum (l : list nvec) : nvec := fold_left vadd l vzero.

Section Center.
Context {P : Type} (cartesian2spherical : nvec -> P).
(** 155-167: the number of samples, the sum and the coordinates after the call. *)
Definition local_center (m : masked) (c : cart) : Z * nvec * cart :=
  match m with
  | MScalar true => (0, vsum [vzero], c)
  | MScalar false => (zlen (coords_of c), vsum (coords_of c), c)
  | MArray l =>
      let valid := map (fun b : bool => if b then 0 else 1) l in
      let coords := map (fun kv => vscale (IZR (fst kv)) (snd kv)) (combine valid (coords_of c)) in
      (sumZ valid, vsum coords, match c with Stored _ => Stored coords | Computed _ => c end)
  end.
(** 168-174. *)
Definition get_center (ranks : list (masked * cart)) : list (res P) * list cart :=
  let local := map (fun mc => local_center (fst mc) (snd mc)) ranks in
  let n := sumZ (map (fun x => fst (fst x)) local) in
  let center := vsum (map (fun x => snd (fst x)) local) in
  (map (fun _ => if n =? 0 then Err ValueError
                 else Ok (cartesian2spherical (vscale (/ IZR n) center))) ranks,
   map snd local).
End Center.
