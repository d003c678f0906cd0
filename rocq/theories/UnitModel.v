(** Units: quantities.py 229-372 (arithmetic, parsing, printing), 1002-1123 and 1208-1252
    (conversion).

    Simplifications: exponents are exact rationals (floats in the code); characters are
    ASCII; derived units are scalars (no broadcasting, see BuModel.v, and one product stands for the two
    that SI keeps apart) and there is no FITS header, so
    that the callable entries of the table are what they return without a header. *)
From Coq Require Import String Ascii QArith Qcanon.
From Verif Require Import Base TemplateModel.
Open Scope nat_scope.

(** A unit: a dictionary, in insertion order. *)
Definition unit_ := list (text * Qc).

Fixpoint u_get (u : unit_) (k : text) : option Qc :=
  match u with [] => None | (k', v) :: r => if text_eqb k' k then Some v else u_get r k end.
Fixpoint u_set (u : unit_) (k : text) (v : Qc) : unit_ :=
  match u with
  | [] => [(k, v)]
  | (k', v') :: r => if text_eqb k' k then (k', v) :: r else (k', v') :: u_set r k v
  end.
Fixpoint u_del (u : unit_) (k : text) : unit_ :=
  match u with [] => [] | (k', v') :: r => if text_eqb k' k then r else (k', v') :: u_del r k end.

Definition Qc_eqb (a b : Qc) : bool := if Qc_eq_dec a b then true else false.

(** [u1 == u2] for dictionaries: same length, same items. *)
Definition dict_eqb (u v : unit_) : bool :=
  Nat.eqb (length u) (length v) &&
  forallb (fun kv => match u_get v (fst kv) with Some x => Qc_eqb (snd kv) x | None => false end) u.

(** _multiply_unit_inplace, 268-283. *)
Definition mul1 (u : unit_) (k : text) (v : Qc) : unit_ :=
  match u_get u k with
  | Some x => if Qc_eqb x (- v) then u_del u k else u_set u k (x + v)
  | None => u_set u k v
  end.

(** _power_unit, 286-296. *)
Definition power_unit (u : unit_) (p : Qc) : unit_ :=
  if Nat.eqb (length u) 0 || Qc_eqb p 0%Qc then [] else map (fun kv => (fst kv, (snd kv * p)%Qc)) u.

(** _multiply_unit, 299-313. *)
Definition multiply_unit (u v : unit_) : unit_ := fold_left (fun u kv => mul1 u (fst kv) (snd kv)) v u.

(** _divide_unit, 316-330. *)
Definition div1 (u : unit_) (k : text) (v : Qc) : unit_ :=
  match u_get u k with
  | Some x => if Qc_eqb x v then u_del u k else u_set u k (x - v)
  | None => u_set u k (- v)
  end.
Definition divide_unit (u v : unit_) : unit_ := fold_left (fun u kv => div1 u (fst kv) (snd kv)) v u.

(** ** Parsing, 33 and 229-265 *)
Definition code (c : ascii) : nat := nat_of_ascii c.
Definition is_letter (c : ascii) : bool :=
  let n := code c in ((65 <=? n) && (n <=? 90)) || ((97 <=? n) && (n <=? 122)).
(** Letters, underscore, quotes. *)
Definition is_name (c : ascii) : bool :=
  is_letter c || Ascii.eqb c "_" || Ascii.eqb c (ascii_of_nat 34) || Ascii.eqb c "'".
Definition is_mark (c : ascii) : bool := Ascii.eqb c "?".
Definition is_digit (c : ascii) : bool := let n := code c in (48 <=? n) && (n <=? 57).
Definition is_blank (c : ascii) : bool := Ascii.eqb c " ".

(** The longest prefix whose characters satisfy [p], and the rest. *)
Fixpoint span (p : ascii -> bool) (s : text) : text * text :=
  match s with
  | c :: r => if p c then let '(a, b) := span p r in (c :: a, b) else ([], s)
  | [] => ([], [])
  end.
Definition skip_blanks (s : text) : text := snd (span is_blank s).

Definition digit_value (c : ascii) : Z := Z.of_nat (code c) - 48.
Definition digits_value (l : text) : Z := fold_left (fun a c => (10 * a + digit_value c)%Z) l 0%Z.
(** [float] of a decimal: sign, integer digits, fractional digits. *)
Definition decimal (neg : bool) (i f : text) : Qc :=
  let n := digits_value (i ++ f) in
  Q2Qc (Qmake (if neg then - n else n)%Z (Z.to_pos (10 ^ Z.of_nat (length f)))).

(** Group 3 of the regular expression: the exponent, and the rest. *)
Definition match_exponent (s : text) : option Qc * text :=
  match s with
  | "^"%char :: r =>
      let '(neg, r1) := match r with "-"%char :: q => (true, q) | _ => (false, r) end in
      let '(i, r2) := span is_digit r1 in
      match i with
      | [] => (None, s)
      | _ => match r2 with
             | "."%char :: q => let '(f, r3) := span is_digit q in (Some (decimal neg i f), r3)
             | _ => (Some (decimal neg i []), r2)
             end
      end
  | _ => (None, s)
  end.

(** Group 2: the name. *)
Definition match_name (s : text) : text * text :=
  match span is_name s with ([], _) => span is_mark s | x => x end.

(** [_RE_UNIT.match]: division?, name, exponent, rest. *)
Definition match_unit (s : text) : option (bool * text * option Qc * text) :=
  let s1 := skip_blanks s in
  let '(div, s2) := match s1 with
                    | "/"%char :: r => (true, r) | "*"%char :: r => (false, r) | _ => (false, s1) end in
  match match_name (skip_blanks s2) with
  | ([], _) => None
  | (name, s3) => let '(e, s4) := match_exponent s3 in Some (div, name, e, skip_blanks s4)
  end.

(** The loop 249-265; every match consumes at least one character, so that as many steps
    as characters are enough. *)
Fixpoint extract_loop (fuel : nat) (s : text) (u : unit_) : res unit_ :=
  match s with
  | [] => Ok u
  | _ => match fuel with
         | O => Err RuntimeError
         | S n =>
             match match_unit s with
             | None => Err ValueError
             | Some (div, name, e, rest) =>
                 let v := match e with None => 1%Qc | Some x => x end in
                 extract_loop n rest (mul1 u name (if div then (- v)%Qc else v))
             end
         end
  end.
Inductive uarg := UANone | UADict (u : unit_) | UAStr (s : text) | UAOther.
Definition extract_str (s : text) : res unit_ := let s' := strip s in extract_loop (length s') s' [].
Definition extract_unit (a : uarg) : res unit_ :=
  match a with
  | UANone => Ok []
  | UADict u => Ok u
  | UAStr s => extract_str s
  | UAOther => Err TypeError
  end.

(** ** Printing, 333-372 *)
(** [str] of an integer. *)
Definition digit_char (d : Z) : ascii := ascii_of_nat (48 + Z.to_nat d).
Fixpoint str_digits (fuel : nat) (n : Z) (acc : text) : text :=
  match fuel with
  | O => acc
  | S f => let acc' := digit_char (n mod 10) :: acc in if (n / 10 =? 0)%Z then acc' else str_digits f (n / 10) acc'
  end.
Definition str_nonneg (n : Z) : text := str_digits (S (Z.to_nat (Z.log2 n))) n [].
Definition str_int (n : Z) : text := if (n <? 0)%Z then "-"%char :: str_nonneg (- n) else str_nonneg n.

(** Order of the keys: code points, a prefix first. *)
Fixpoint text_leb (a b : text) : bool :=
  match a, b with
  | [], _ => true
  | _, [] => false
  | x :: a', y :: b' => if Ascii.eqb x y then text_leb a' b' else code x <? code y
  end.
Fixpoint insert_item (x : text * Qc) (l : unit_) : unit_ :=
  match l with [] => [x] | y :: r => if text_leb (fst x) (fst y) then x :: l else y :: insert_item x r end.
Definition sorted_items (u : unit_) : unit_ := fold_right insert_item [] u.

Definition Qc_leb (a b : Qc) : bool := Qle_bool a b.
Definition negative (v : Qc) : bool := negb (Qc_leb 0%Qc v).
Definition Qc_abs (v : Qc) : Qc := if negative v then (- v)%Qc else v.
(** [int(val)]: towards zero. *)
Definition trunc (v : Qc) : Z := Z.quot (Qnum v) (Zpos (Qden v)).
Definition tenth_7 : Qc := Q2Qc (1 # 10000000).

Section Print.
(** [str] of a float that is not printed as an integer. *)
Variable repr : Qc -> text.
Definition str_exponent (v : Qc) : text :=
  if Qc_eqb v 1%Qc then []
  else let i := trunc v in
       "^"%char ::
       (if Qc_leb (Qc_abs (v - Q2Qc (inject_Z i))) (tenth_7 * Qc_abs v)%Qc then str_int i else repr v).

Definition strunit (u : unit_) : text :=
  let has_pos := existsb (fun kv => negb (negative (snd kv))) u in
  let numer := flat_map (fun kv => if negative (snd kv) && has_pos then []
                                   else " "%char :: fst kv ++ str_exponent (snd kv)) (sorted_items u) in
  let denom := flat_map (fun kv => if negative (snd kv)
                                   then lit " / " ++ fst kv ++ str_exponent (- snd kv)%Qc else []) (sorted_items u) in
  match u with
  | [] => []
  | _ => tl (if has_pos then numer ++ denom else numer)
  end.
End Print.

(** ** Conversion *)
Section SI.
(** Magnitudes: product, inverse, powers. *)
Record mag_ops (K : Type) := MagOps { m1 : K; mmul : K -> K -> K; minv : K -> K; mpow : K -> Qc -> K }.
Context {K : Type} (o : mag_ops K).
Arguments m1 {K}. Arguments mmul {K}. Arguments minv {K}. Arguments mpow {K}.

Definition quantity := (K * unit_)%type.
(** Tables: 'name' or ('name', power), and a quantity, or None (1305-1360). *)
Definition du_key := (text * option Qc)%type.
Definition du_table := list (du_key * option quantity).

Definition du_key_eqb (a b : du_key) : bool :=
  text_eqb (fst a) (fst b) &&
  match snd a, snd b with None, None => true | Some x, Some y => Qc_eqb x y | _, _ => false end.
Fixpoint du_find (t : du_table) (k : du_key) : option (option quantity) :=
  match t with [] => None | (k', q) :: r => if du_key_eqb k' k then Some q else du_find r k end.

Definition q_mul (a b : quantity) : quantity := (mmul o (fst a) (fst b), multiply_unit (snd a) (snd b)).
Definition q_inv (a : quantity) : quantity := (minv o (fst a), divide_unit [] (snd a)).
Definition q_pow (a : quantity) (p : Qc) : quantity := (mpow o (fst a) p, power_unit (snd a) p).

(** _check_du, 1208-1224, before the final [.SI]: the factor, if the unit is derived. *)
Definition check_du (t : du_table) (k : text) (v : Qc) : option quantity :=
  match t with
  | [] => None
  | _ =>
      match du_find t (k, Some v) with
      | Some r => r
      | None =>
          match du_find t (k, Some (- v)%Qc) with
          | Some None => None
          | Some (Some q) => Some (q_inv q)
          | None =>
              match du_find t (k, None) with
              | Some (Some q) => if Qc_eqb v 1%Qc then Some q
                                 else if Qc_eqb v (- (1))%Qc then Some (q_inv q) else Some (q_pow q v)
              | _ => None
              end
          end
      end
  end.

(** SI, 1082-1123; [loc]: derived units of the quantity, [glob]: the table of the module;
    RecursionError when the table is circular. *)
Fixpoint si (fuel : nat) (loc glob : du_table) (q : quantity) : res quantity :=
  match fuel with
  | O => Err RuntimeError
  | S n =>
      match snd q with
      | [] => Ok q
      | _ =>
          do f <- fold_left (fun acc kv =>
              do a <- acc;
              match check_du loc (fst kv) (snd kv) with
              | Some d => do d' <- si n loc glob d; Ok (q_mul a d')
              | None =>
                  match check_du glob (fst kv) (snd kv) with
                  | Some d => do d' <- si n loc glob d; Ok (q_mul a d')
                  | None => Ok (fst a, mul1 (snd a) (fst kv) (snd kv))
                  end
              end) (snd q) (Ok (m1 o, []));
          Ok (mmul o (fst q) (fst f), snd f)
      end
  end.

(** inunit, 1028-1080, for a value of type V that magnitudes multiply. *)
Context {V : Type} (act : K -> V -> V).
Definition convert (fuel : nat) (loc glob : du_table) (x : V * unit_) (new : unit_) : res (V * unit_) :=
  match snd x, new with
  | [], _ | _, [] => Ok (fst x, new)                                    (* 1048-1050 *)
  | _, _ =>
      do q1 <- si fuel loc glob (m1 o, snd x);
      do q2 <- si fuel loc glob (m1 o, new);
      if dict_eqb (snd q1) (snd q2)
      then Ok (act (mmul o (fst q1) (minv o (fst q2))) (fst x), new)
      else Err UnitError
  end.
End SI.
Arguments m1 {K}. Arguments mmul {K}. Arguments minv {K}. Arguments mpow {K}.

(** The table of the module, 1305-1360; [num]: the value of a numeric expression of the
    source.  Without a header, 'pixel' is one reference pixel and 'pixel_reference' is
    not derived. *)
Section Table.
Context {K : Type} (num : string -> K).
Definition parsed (s : string) : unit_ := match extract_str (lit s) with Ok u => u | Err _ => [] end.
Definition base_ (s : string) : du_key * option (@quantity K) := ((lit s, None), None).
Definition derived (s v u : string) : du_key * option (@quantity K) := ((lit s, None), Some (num v, parsed u)).
Definition units_table : @du_table K := [
  base_ "A"; base_ "cd"; base_ "K"; base_ "kg"; base_ "m"; base_ "mol"; base_ "rad"; base_ "s"; base_ "sr";
  derived "'" "1" "arcmin"; derived """" "1" "arcsec"; derived "arcmin" "1 / 60.0" "deg";
  derived "arcsec" "1 / 3600.0" "deg"; derived "deg" "np.pi / 180.0" "rad";
  derived "uJy" "1.0e-6" "Jy"; derived "mJy" "1.0e-3" "Jy"; derived "Jy" "1.0e-26" "W/Hz/m^2"; derived "MJy" "1.0e6" "Jy";
  derived "N" "1.0" "kg m / s^2"; derived "Hz" "1.0" "s^-1"; derived "J" "1.0" "kg m^2 / s^2";
  derived "AU" "149597870700.0" "m"; derived "km" "1000.0" "m"; derived "mm" "1e-3" "m"; derived "um" "1e-6" "m";
  derived "pc" "30.857e15" "m"; derived "W" "1.0" "kg m^2 / s^3";
  derived "atm" "101325.0" "Pa"; derived "bar" "1e5" "Pa"; derived "mmHg" "1 / 760" "atm"; derived "cmHg" "10" "mmHg";
  derived "Pa" "1" "kg / m / s^2"; derived "Torr" "1" "mmHg"; derived "Ohm" "1.0" "V/A";
  ((lit "rad", Some (Q2Qc 2)), Some (num "1.0", parsed "sr"));
  derived "pixel" "1" "pixel_reference"; base_ "pixel_reference";
  derived "ms" "1e-3" "s"; derived "us" "1e-6" "s"; derived "C" "1.0" "A s"; derived "V" "1.0" "kg m^2 / A / s^3"
]%string.
End Table.
