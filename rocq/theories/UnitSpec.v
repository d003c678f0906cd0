(** Specification of units: exponents, equality, the grammar of unit strings, laws of
    magnitudes. *)
From Coq Require Import String Ascii QArith Qcanon.
From Verif Require Import Base TemplateModel UnitModel.
Open Scope nat_scope.

(** ** Units as functions from names to exponents *)
Fixpoint exponent (u : unit_) (k : text) : Qc :=
  match u with
  | [] => 0%Qc
  | (k', e) :: r => if list_eq_dec ascii_dec k' k then (e + exponent r k)%Qc else exponent r k
  end.
Definition distinct_names (u : unit_) : Prop := NoDup (map fst u).
Definition canonical (u : unit_) : Prop := distinct_names u /\ Forall (fun kv => snd kv <> 0%Qc) u.
(** Python's [==]: same items, in any order. *)
Definition same_items (u v : unit_) : Prop := forall kv, In kv u <-> In kv v.

(** ** Unit strings *)
Record factor := Factor {
  f_lead : nat; f_op : option bool; f_mid : nat;      (* blanks, '/' (true) or '*', blanks *)
  f_name : text;
  f_exp : option (bool * text * option text);         (* minus sign, digits, fraction *)
  f_trail : nat }.

Definition blanks (n : nat) : text := repeat " "%char n.
Definition render_exp (e : option (bool * text * option text)) : text :=
  match e with
  | None => []
  | Some (neg, i, fr) =>
      "^"%char :: (if neg then ["-"%char] else []) ++ i ++
      match fr with None => [] | Some f => "."%char :: f end
  end.
Definition render (f : factor) : text :=
  blanks (f_lead f) ++ match f_op f with None => [] | Some true => ["/"%char] | Some false => ["*"%char] end ++
  blanks (f_mid f) ++ f_name f ++ render_exp (f_exp f) ++ blanks (f_trail f).

(** Names: letters, underscores and quotes; or question marks. *)
Definition good_name (t : text) : Prop :=
  t <> [] /\ (Forall (fun c => is_name c = true) t \/ Forall (fun c => c = "?"%char) t).
Definition good_exp (e : option (bool * text * option text)) : Prop :=
  match e with
  | None => True
  | Some (_, i, fr) => i <> [] /\ Forall (fun c => is_digit c = true) i /\
                       match fr with None => True | Some f => Forall (fun c => is_digit c = true) f end
  end.
Definition good_factor (f : factor) : Prop :=
  good_name (f_name f) /\ good_exp (f_exp f) /\ (f_op f = None -> f_mid f = 0).

(** What follows a factor continues neither its trailing blanks nor its name. *)
Definition follows (f : factor) (rest : text) : Prop :=
  match rest with
  | [] => True
  | c :: _ => c <> " "%char /\
      (f_exp f = None -> f_trail f = 0 -> ~ good_name (f_name f ++ [c]))
  end.

Inductive spells : text -> list factor -> Prop :=
| spells_nil : spells [] []
| spells_cons f rest fs : good_factor f -> follows f rest -> spells rest fs -> spells (render f ++ rest) (f :: fs).

(** Value of a decimal: digits over a power of ten. *)
Fixpoint number (l : text) : Z :=     (* most significant digit first *)
  match l with [] => 0 | c :: r => (Z.of_nat (nat_of_ascii c) - 48) * 10 ^ Z.of_nat (length r) + number r end%Z.
Definition exp_value (e : option (bool * text * option text)) : Qc :=
  match e with
  | None => 1%Qc
  | Some (neg, i, fr) =>
      let f := match fr with None => [] | Some f => f end in
      let x := Q2Qc ((inject_Z (number i) + inject_Z (number f) / inject_Z (10 ^ Z.of_nat (length f)))%Q) in
      if neg then (- x)%Qc else x
  end.
Definition factor_value (f : factor) : Qc :=
  match f_op f with Some true => (- exp_value (f_exp f))%Qc | _ => exp_value (f_exp f) end.
(** Total exponent of a name in a product. *)
Fixpoint total (fs : list factor) (k : text) : Qc :=
  match fs with
  | [] => 0%Qc
  | f :: r => if list_eq_dec ascii_dec (f_name f) k then (factor_value f + total r k)%Qc else total r k
  end.

(** Exponents that [str] prints as themselves: integers, and those not taken for integers
    for which [repr] writes a plain decimal of that value. *)
Definition integer (v : Qc) : Prop := exists n : Z, v = Q2Qc (inject_Z n).
Definition printable (repr : Qc -> text) (v : Qc) : Prop :=
  integer v \/
  ((tenth_7 * Qc_abs v < Qc_abs (v - Q2Qc (inject_Z (trunc v))))%Qc /\
   exists neg i f, good_exp (Some (neg, i, Some f)) /\ exp_value (Some (neg, i, Some f)) = v /\
     repr v = (if neg then ["-"%char] else []) ++ i ++ "."%char :: f).

(** ** Magnitudes *)
Record mag_laws {K} (o : mag_ops K) : Prop := {
  ml_comm : forall a b, mmul o a b = mmul o b a;
  ml_assoc : forall a b c, mmul o a (mmul o b c) = mmul o (mmul o a b) c;
  ml_one : forall a, mmul o (m1 o) a = a;
  ml_inv : forall a, mmul o a (minv o a) = m1 o;
  ml_pow_mul : forall a b p, mpow o (mmul o a b) p = mmul o (mpow o a p) (mpow o b p);
  ml_pow_add : forall a p q, mpow o a (p + q)%Qc = mmul o (mpow o a p) (mpow o a q);
  ml_pow_pow : forall a p q, mpow o (mpow o a p) q = mpow o a (p * q)%Qc;
  ml_pow_one : forall a, mpow o a 1%Qc = a }.

(** Magnitudes multiply values. *)
Definition action {K V} (o : mag_ops K) (act : K -> V -> V) : Prop :=
  (forall v, act (m1 o) v = v) /\ (forall a b v, act a (act b v) = act (mmul o a b) v).

(** Decimal logarithms as magnitudes: an instance. *)
Definition log_ops : mag_ops Qc := MagOps Qc 0%Qc Qcplus Qcopp Qcmult.

(** A table without circular definition: derived units are defined from units of smaller
    rank. *)
Definition ranked {K} (rank : text -> nat) (t : @du_table K) : Prop :=
  Forall (fun e => match snd e with
                   | None => True
                   | Some q => Forall (fun kv => rank (fst kv) < rank (fst (fst e))) (snd q)
                   end) t.
(** A set of names closed under definitions, none of which has an entry for a power. *)
Definition closed_in {K} (P : text -> Prop) (t : @du_table K) : Prop :=
  Forall (fun e => P (fst (fst e)) -> snd (fst e) = None /\
     match snd e with None => True | Some q => Forall (fun kv => P (fst kv)) (snd q) end) t.

(** Product of powers: the [mag] of each name to its exponent. *)
Fixpoint powers {K} (o : mag_ops K) (mag : text -> K) (u : unit_) : K :=
  match u with [] => m1 o | (k, e) :: r => mmul o (mpow o (mag k) e) (powers o mag r) end.
(** Sum of exponents: the unit [un] of each name times its exponent. *)
Fixpoint combined (un : text -> unit_) (u : unit_) (j : text) : Qc :=
  match u with [] => 0%Qc | (k, e) :: r => (e * exponent (un k) j + combined un r j)%Qc end.
