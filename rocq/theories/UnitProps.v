(** Property theorems C27 (arithmetic of units), C28 (unit strings), C29 (conversions). *)
From Coq Require Import String Ascii QArith Qcanon Lia.
From Verif Require Import Base TemplateModel UnitModel UnitSpec UnitFacts UnitParseFacts UnitPrintFacts UnitSIFacts.
Open Scope nat_scope.

Definition q_ (n : Z) (d : positive) : Qc := Q2Qc (n # d).
Definition m_ := lit "m". Definition s_ := lit "s". Definition kg_ := lit "kg".

Ltac unit_eq := vm_compute;
  repeat (apply (f_equal2 cons); [apply (f_equal2 pair); [reflexivity|apply Qc_is_canon; reflexivity]|]); reflexivity.

(** ** C27 *)
Theorem C27_multiply : forall u v, canonical u -> canonical v ->
  canonical (multiply_unit u v) /\ forall k, exponent (multiply_unit u v) k = (exponent u k + exponent v k)%Qc.
Proof. intros u v U V. split; [apply canonical_multiply; auto|]. intros k. apply multiply_exponent, U. Qed.
Print Assumptions C27_multiply.
Theorem C27_divide : forall u v, canonical u -> canonical v ->
  canonical (divide_unit u v) /\ forall k, exponent (divide_unit u v) k = (exponent u k - exponent v k)%Qc.
Proof. intros u v U V. split; [apply canonical_divide; auto|]. intros k. apply divide_exponent, U. Qed.
Print Assumptions C27_divide.
Theorem C27_power : forall u p, canonical u ->
  canonical (power_unit u p) /\ forall k, exponent (power_unit u p) k = (p * exponent u k)%Qc.
Proof. intros u p U. split; [apply canonical_power; auto|]. intros k. apply power_exponent. Qed.
Print Assumptions C27_power.
(** Equality of dictionaries is equality of exponents. *)
Theorem C27_equality : forall u v, canonical u -> canonical v -> ((forall k, exponent u k = exponent v k) <-> dict_eqb u v = true).
Proof. exact canonical_eqb. Qed.
Print Assumptions C27_equality.

Lemma group_laws u v w p q : canonical u -> canonical v -> canonical w ->
  dict_eqb (multiply_unit u v) (multiply_unit v u) = true /\
  dict_eqb (multiply_unit u (multiply_unit v w)) (multiply_unit (multiply_unit u v) w) = true /\
  dict_eqb (multiply_unit u []) u = true /\
  dict_eqb (divide_unit (multiply_unit u v) v) u = true /\
  divide_unit u u = [] /\
  dict_eqb (power_unit (multiply_unit u v) p) (multiply_unit (power_unit u p) (power_unit v p)) = true /\
  dict_eqb (power_unit u (p + q)%Qc) (multiply_unit (power_unit u p) (power_unit u q)) = true /\
  dict_eqb (power_unit (power_unit u p) q) (power_unit u (p * q)%Qc) = true /\
  dict_eqb (divide_unit u v) (multiply_unit u (power_unit v (- (1))%Qc)) = true.
Proof.
  intros U V W. assert (N : forall x, canonical x -> NoDup (names x)) by (intros x [a _]; exact a).
  assert (E : canonical []) by (split; constructor).
  repeat split; try (apply canonical_eqb; [auto 6 using canonical_multiply, canonical_divide, canonical_power..|];
    intros k; rewrite ?multiply_exponent, ?divide_exponent, ?power_exponent by auto 6 using canonical_multiply, canonical_divide, canonical_power;
    rewrite ?multiply_exponent, ?divide_exponent, ?power_exponent by auto 6 using canonical_multiply, canonical_divide, canonical_power; cbn [exponent]; ring).
  assert (D : dict_eqb (divide_unit u u) [] = true).
  { apply canonical_eqb; auto using canonical_divide. intros k. rewrite divide_exponent by auto. cbn [exponent]. ring. }
  unfold dict_eqb in D. apply andb_prop in D. destruct D as [D _]. apply Nat.eqb_eq in D. destruct (divide_unit u u); [reflexivity|discriminate].
Qed.
(** Units form an abelian group with rational powers. *)
Theorem C27_group : forall u v w p q, canonical u -> canonical v -> canonical w ->
  dict_eqb (multiply_unit u v) (multiply_unit v u) = true /\
  dict_eqb (multiply_unit u (multiply_unit v w)) (multiply_unit (multiply_unit u v) w) = true /\
  dict_eqb (multiply_unit u []) u = true /\
  dict_eqb (divide_unit (multiply_unit u v) v) u = true /\
  divide_unit u u = [] /\
  dict_eqb (power_unit (multiply_unit u v) p) (multiply_unit (power_unit u p) (power_unit v p)) = true /\
  dict_eqb (power_unit u (p + q)%Qc) (multiply_unit (power_unit u p) (power_unit u q)) = true /\
  dict_eqb (power_unit (power_unit u p) q) (power_unit u (p * q)%Qc) = true /\
  dict_eqb (divide_unit u v) (multiply_unit u (power_unit v (- (1))%Qc)) = true.
Proof. exact group_laws. Qed.
Print Assumptions C27_group.
Example C27_case : let u := [(m_, q_ 1 1); (s_, q_ (-2) 1)] in let v := [(s_, q_ 2 1); (kg_, q_ 1 2)] in
  canonical u /\ canonical v /\ multiply_unit u v = [(m_, q_ 1 1); (kg_, q_ 1 2)] /\
  divide_unit v u = [(s_, q_ 4 1); (kg_, q_ 1 2); (m_, q_ (-1) 1)] /\ power_unit v (q_ 1 2) = [(s_, q_ 1 1); (kg_, q_ 1 4)].
Proof.
  split; [|split; [|split; [|split]]].
  - split; repeat constructor; cbn; intuition discriminate.
  - split; repeat constructor; cbn; intuition discriminate.
  - unit_eq.
  - unit_eq.
  - unit_eq.
Qed.

(** The characters of names and of exponents. *)
Definition name_characters : text := lit "ABCDEFGHIJKLMNOPQRSTUVWXYZabcdefghijklmnopqrstuvwxyz_'" ++ [ascii_of_nat 34].
Definition exponent_characters : text := lit "0123456789".
Theorem C28_characters : forall c, (is_name c = true <-> In c name_characters) /\ (is_digit c = true <-> In c exponent_characters).
Proof.
  intros c.
  assert (D : forall (a : ascii) l, In a l <-> existsb (Ascii.eqb a) l = true).
  { intros a l. rewrite existsb_exists. split; [intros H; exists a; split; [exact H|apply Ascii.eqb_refl]|intros (b & H & E); apply Ascii.eqb_eq in E; subst; exact H]. }
  rewrite !D. destruct c as [[] [] [] [] [] [] [] []]; vm_compute; split; split; intros H; exact H.
Qed.
Print Assumptions C28_characters.
(** ** C28 *)
(** A text is accepted when it spells a product of factors, and is read as the total
    exponent of each name; any other text raises ValueError. *)
Theorem C28_parse : forall s,
  (forall fs, spells (strip s) fs -> exists u, extract_str s = Ok u /\ distinct_names u /\ forall k, exponent u k = total fs k) /\
  ((forall fs, ~ spells (strip s) fs) -> extract_str s = Err ValueError).
Proof.
  intros s. destruct (extract_iff s) as [A B]. split; [exact B|]. intros H. destruct (extract_str s) as [u|e] eqn:E.
  - destruct (A u eq_refl) as [fs F]. exfalso. exact (H fs F).
  - destruct (extract_error s e E) as [-> _]. reflexivity.
Qed.
Print Assumptions C28_parse.
(** " kg*m^2 / s^1.5 " *)
Example C28_parse_case : let fs := [Factor 0 None 0 kg_ None 0; Factor 0 (Some false) 0 m_ (Some (false, lit "2", None)) 1;
     Factor 0 (Some true) 1 s_ (Some (false, lit "1", Some (lit "5"))) 0] in
  spells (strip (lit " kg*m^2 / s^1.5 ")) fs /\ total fs s_ = q_ (-3) 2 /\ extract_str (lit "m^") = Err ValueError.
Proof.
  assert (G : forall k, k = kg_ \/ k = m_ \/ k = s_ -> good_name k).
  { intros k [->|[-> | ->]]; (split; [discriminate|left; repeat constructor]). }
  split; [|split].
  - change (strip (lit " kg*m^2 / s^1.5 ")) with
      (render (Factor 0 None 0 kg_ None 0) ++ render (Factor 0 (Some false) 0 m_ (Some (false, lit "2", None)) 1) ++
       render (Factor 0 (Some true) 1 s_ (Some (false, lit "1", Some (lit "5"))) 0) ++ [])%list.
    constructor; [|cbn|constructor; [|cbn|constructor; [|cbn|constructor]]].
    + split; [apply G; auto|]. split; [exact I|reflexivity].
    + split; [discriminate|]. intros _ _ [_ [F|F]]; [apply (proj1 (Forall_forall _ _)) with (x := "*"%char) in F; [discriminate|cbn; auto]|inversion F; discriminate].
    + split; [apply G; auto|]. split; [repeat constructor; discriminate|discriminate].
    + split; discriminate.
    + split; [apply G; auto|]. split; [repeat constructor; discriminate|discriminate].
    + exact I.
  - apply Qc_is_canon. reflexivity.
  - reflexivity.
Qed.

(** The text of a unit with integer exponents (or that [str] writes as plain decimals) is
    read as an equal unit. *)
Theorem C28_round_trip : forall repr u, distinct_names u ->
  Forall (fun kv => good_name (fst kv) /\ printable repr (snd kv) /\ printable repr (- snd kv)%Qc) u ->
  exists u', extract_str (strunit repr u) = Ok u' /\ distinct_names u' /\ dict_eqb u u' = true.
Proof. exact round_trip. Qed.
Print Assumptions C28_round_trip.
Theorem C28_round_trip_integers : forall repr u, distinct_names u ->
  Forall (fun kv => good_name (fst kv) /\ integer (snd kv)) u ->
  exists u', extract_str (strunit repr u) = Ok u' /\ distinct_names u' /\ dict_eqb u u' = true.
Proof.
  intros repr u D F. apply round_trip; [exact D|]. eapply Forall_impl; [|exact F]. intros [k v] [G [n E]]. cbn [fst snd] in *. subst v.
  split; [exact G|]. split; left; [exists n; reflexivity|exists (- n)%Z; symmetry; apply inject_opp].
Qed.
Print Assumptions C28_round_trip_integers.
(** Equal units have equal texts. *)
Theorem C28_equal_texts : forall repr u v, distinct_names u -> distinct_names v -> dict_eqb u v = true -> strunit repr u = strunit repr v.
Proof. exact strunit_same. Qed.
Print Assumptions C28_equal_texts.
(** kg m^1.5 / s^2 *)
Definition repr15 (v : Qc) : text := if negative v then lit "-1.5" else lit "1.5".
Example C28_round_trip_case : let u := [(s_, q_ (-2) 1); (m_, q_ 3 2); (kg_, q_ 1 1)] in
  distinct_names u /\ Forall (fun kv => good_name (fst kv) /\ printable repr15 (snd kv) /\ printable repr15 (- snd kv)%Qc) u /\
  strunit repr15 u = lit "kg m^1.5 / s^2".
Proof.
  split; [repeat constructor; cbn; intuition discriminate|]. split; [|reflexivity].
  assert (I : forall n v, v = q_ n 1 -> printable repr15 v) by (intros n v ->; left; exists n; reflexivity).
  constructor; [|constructor; [|constructor; [|constructor]]]; cbn [fst snd]; (split; [split; [discriminate|left; repeat constructor]|]).
  - split; [apply (I (-2)%Z)|apply (I 2%Z)]; apply Qc_is_canon; reflexivity.
  - split; right; (split; [reflexivity|]).
    + exists false, (lit "1"), (lit "5"). split; [split; [discriminate|split; apply Forall_forall; intros c [<-|[]]; reflexivity]|]. split; [apply Qc_is_canon; reflexivity|reflexivity].
    + exists true, (lit "1"), (lit "5"). split; [split; [discriminate|split; apply Forall_forall; intros c [<-|[]]; reflexivity]|]. split; [apply Qc_is_canon; reflexivity|reflexivity].
  - split; [apply (I 1%Z)|apply (I (-1)%Z)]; apply Qc_is_canon; reflexivity.
Qed.

(** Small exponents print in scientific notation, which is not read back. *)
Theorem C28_small_refuted : exists u, canonical u /\ forall repr, repr (q_ 1 100000) = lit "1e-05" ->
  strunit repr u = lit "m^1e-05" /\ extract_str (strunit repr u) <> Ok u.
Proof.
  exists [(m_, q_ 1 100000)]. split; [split; repeat constructor; cbn; intuition discriminate|]. intros repr R.
  assert (E : strunit repr [(m_, q_ 1 100000)] = lit "m^1e-05").
  { assert (X : str_exponent repr (q_ 1 100000) = lit "^1e-05").
    { transitivity ("^"%char :: repr (q_ 1 100000)); [reflexivity|rewrite R; reflexivity]. }
    transitivity (tl (((" "%char :: m_ ++ str_exponent repr (q_ 1 100000)) ++ []) ++ []))%list; [reflexivity|rewrite X; reflexivity]. }
  split; [exact E|]. rewrite E. vm_compute. discriminate.
Qed.
Print Assumptions C28_small_refuted.
(** Exponents close to an integer print as that integer. *)
Theorem C28_close_refuted : exists u v, canonical u /\ (forall repr, extract_str (strunit repr u) = Ok v) /\ dict_eqb u v = false.
Proof.
  exists [(m_, q_ 200000001 100000000)], (match extract_str (lit "m^2") with Ok v => v | Err _ => [] end).
  split; [split; repeat constructor; cbn; intuition discriminate|]. split; [|reflexivity].
  intros repr. assert (E : strunit repr [(m_, q_ 200000001 100000000)] = lit "m^2") by reflexivity. rewrite E. reflexivity.
Qed.
Print Assumptions C28_close_refuted.
(** A null exponent is kept: 'm^0' is not the dimensionless unit. *)
Theorem C28_zero_refuted : exists s u, extract_str s = Ok u /\ (forall k, exponent u k = exponent [] k) /\ dict_eqb u [] = false.
Proof.
  exists (lit "m^0"), [(m_, 0%Qc)]. split; [|split; [|reflexivity]].
  - transitivity (Ok (parsed "m^0")); [reflexivity|]. apply (f_equal Ok). unit_eq.
  - intros k. cbn [exponent]. destruct (list_eq_dec ascii_dec m_ k); [ring|reflexivity].
Qed.
Print Assumptions C28_zero_refuted.

(** ** C29 *)
(** A conversion between units with units succeeds exactly when both have an SI form and
    these have the same units; it multiplies by the ratio of the magnitudes. *)
Theorem C29_meaning : forall K (o : mag_ops K) V (act : K -> V -> V) fuel loc glob x (u : unit_) y (v : unit_), u <> [] -> v <> [] ->
  (convert o act fuel loc glob (x, u) v = Ok y <->
   exists q1 q2, si o fuel loc glob (m1 o, u) = Ok q1 /\ si o fuel loc glob (m1 o, v) = Ok q2 /\ same_items (snd q1) (snd q2) /\
     y = (act (mmul o (fst q1) (minv o (fst q2))) x, v)).
Proof. intros K o V act. exact convert_spec. Qed.
Print Assumptions C29_meaning.
Theorem C29_back_partial : forall K (o : mag_ops K) V (act : K -> V -> V), mag_laws o -> action o act ->
  forall fuel loc glob x y (u v : unit_), u <> [] -> v <> [] ->
  convert o act fuel loc glob (x, u) v = Ok (y, v) -> convert o act fuel loc glob (y, v) u = Ok (x, u).
Proof. intros K o V act L A. exact (convert_back L A). Qed.
Print Assumptions C29_back_partial.
Theorem C29_compose_partial : forall K (o : mag_ops K) V (act : K -> V -> V), mag_laws o -> action o act ->
  forall fuel loc glob x y z (u v w : unit_), u <> [] -> v <> [] -> w <> [] ->
  convert o act fuel loc glob (x, u) v = Ok (y, v) -> convert o act fuel loc glob (y, v) w = Ok z ->
  convert o act fuel loc glob (x, u) w = Ok z.
Proof. intros K o V act L A. exact (convert_compose L A). Qed.
Print Assumptions C29_compose_partial.

(** Without circular definition, SI ends. *)
Theorem C29_terminates : forall K (o : mag_ops K) rank loc glob, ranked rank loc -> ranked rank glob ->
  forall n q, Forall (fun kv => rank (fst kv) < n) (snd q) -> exists r, si o (S n) loc glob q = Ok r.
Proof. intros K o. exact si_total. Qed.
Print Assumptions C29_terminates.

(** Where no power of a name has an entry of its own, SI is a product of powers. *)
Theorem C29_powers_partial : forall K (o : mag_ops K), mag_laws o -> forall P rank loc glob,
  closed_in P loc -> closed_in P glob -> ranked rank loc -> ranked rank glob ->
  exists mag un,
    (forall k fuel, P k -> S (S (rank k)) <= fuel -> si o fuel loc glob (m1 o, [(k, 1%Qc)]) = Ok (mag k, un k)) /\
    (forall n m (u : unit_), Forall (fun kv => P (fst kv)) u -> Forall (fun kv => rank (fst kv) < n) u ->
     exists r, si o (S n) loc glob (m, u) = Ok r /\ fst r = mmul o m (powers o mag u) /\
       forall j, exponent (snd r) j = combined un u j).
Proof.
  intros K o L P rank loc glob C1 C2 R1 R2.
  exists (@mag K o rank loc glob), (@un K o rank loc glob). split; [|exact (si_powers L P rank loc glob C1 C2 R1 R2)].
  intros k fuel Pk F. destruct (@si_total K o rank loc glob R1 R2 (S (rank k)) (m1 o, [(k, 1%Qc)])) as [r E].
  { repeat constructor. }
  unfold mag, un, si_of. assert (E' : si o (S (S (rank k))) loc glob (m1 o, [(k, 1%Qc)]) = Ok r) by exact E.
  rewrite E', <- surjective_pairing. apply (si_mono_le loc glob _ _ _ _ F). exact E'.
Qed.
Print Assumptions C29_powers_partial.

(** Then the SI form of a product is the product of the SI forms, and so for powers. *)
Theorem C29_products_partial : forall K (o : mag_ops K), mag_laws o -> forall P rank loc glob,
  closed_in P loc -> closed_in P glob -> ranked rank loc -> ranked rank glob ->
  forall n (u v : unit_) p q1 q2, canonical u -> Forall (fun kv => P (fst kv) /\ rank (fst kv) < n) u ->
    Forall (fun kv => P (fst kv) /\ rank (fst kv) < n) v ->
    si o (S n) loc glob (m1 o, u) = Ok q1 -> si o (S n) loc glob (m1 o, v) = Ok q2 ->
  (exists r, si o (S n) loc glob (m1 o, multiply_unit u v) = Ok r /\ fst r = mmul o (fst q1) (fst q2) /\
     forall j, exponent (snd r) j = (exponent (snd q1) j + exponent (snd q2) j)%Qc) /\
  (exists r, si o (S n) loc glob (m1 o, power_unit u p) = Ok r /\ fst r = mpow o (fst q1) p /\
     forall j, exponent (snd r) j = (p * exponent (snd q1) j)%Qc).
Proof.
  intros K o L P rank loc glob C1 C2 R1 R2 n u v p q1 q2 [Nu _] Fu Fv E1 E2.
  pose proof (si_powers L P rank loc glob C1 C2 R1 R2 n (m1 o)) as SP.
  assert (SP' : forall w, Forall (fun kv => P (fst kv) /\ rank (fst kv) < n) w -> exists r, si o (S n) loc glob (m1 o, w) = Ok r /\
     fst r = powers o (@mag K o rank loc glob) w /\ forall j, exponent (snd r) j = combined (@un K o rank loc glob) w j).
  { intros w Fw. destruct (SP w) as [r [A [B C]]].
    - eapply Forall_impl; [|exact Fw]. cbn. tauto.
    - eapply Forall_impl; [|exact Fw]. cbn. tauto.
    - exists r. split; [exact A|]. split; [|exact C]. rewrite B. apply (ml_one _ L). }
  destruct (SP' u Fu) as [r1 [A1 [B1 X1]]]. destruct (SP' v Fv) as [r2 [A2 [B2 X2]]].
  assert (Q1 : q1 = r1) by (cut (Ok q1 = Ok r1); [congruence|exact (eq_trans (eq_sym E1) A1)]).
  assert (Q2 : q2 = r2) by (cut (Ok q2 = Ok r2); [congruence|exact (eq_trans (eq_sym E2) A2)]). subst r1 r2. split.
  - destruct (SP' (multiply_unit u v)) as [r [A [B C]]].
    { apply (names_prop (fun k => P k /\ rank k < n) _ (u ++ v)%list).
      - intros x I. apply multiply_sub in I. unfold names. rewrite map_app. exact I.
      - apply Forall_app. auto. }
    exists r. split; [exact A|]. split.
    + rewrite B, B1, B2. apply (powers_multiply L), Nu.
    + intros j. rewrite C, X1, X2, !combined_powers. apply (powers_multiply log_laws), Nu.
  - destruct (SP' (power_unit u p)) as [r [A [B C]]].
    { apply (names_prop (fun k => P k /\ rank k < n) _ u); [|exact Fu]. exact (pow_sub (o := o) (m1 o, u) p). }
    exists r. split; [exact A|]. split.
    + rewrite B, B1. apply (powers_power L).
    + intros j. rewrite C, X1, !combined_powers. rewrite (powers_power log_laws). cbn. ring.
Qed.
Print Assumptions C29_products_partial.

(** The table of the module is not circular, and no power of a name has an entry of its
    own, but for the names defined from 'rad'. *)
Definition ranks : list (string * nat) := [("rad", 1); ("deg", 2); ("arcmin", 3); ("arcsec", 3); ("'", 4); ("""", 4); ("pixel", 1);
  ("N", 1); ("Hz", 1); ("J", 1); ("W", 1); ("C", 1); ("V", 1); ("Pa", 1); ("AU", 1); ("km", 1); ("mm", 1); ("um", 1); ("pc", 1); ("ms", 1); ("us", 1);
  ("Ohm", 2); ("atm", 2); ("bar", 2); ("Jy", 2); ("uJy", 3); ("mJy", 3); ("MJy", 3); ("mmHg", 3); ("cmHg", 4); ("Torr", 4)]%string.
Definition table_rank (k : text) : nat :=
  match find (fun e => text_eqb (lit (fst e)) k) ranks with Some e => snd e | None => 0 end.
Definition angular (k : text) : bool := existsb (fun s => text_eqb (lit s) k) ["rad"; "deg"; "arcmin"; "arcsec"; "'"; """"]%string.

Lemma table_ranked K (num : string -> K) : ranked table_rank (units_table num).
Proof.
  assert (B : forallb (fun e => match snd e with None => true
     | Some q => forallb (fun kv => Nat.ltb (table_rank (fst kv)) (table_rank (fst (fst e)))) (snd q) end) (units_table num) = true)
    by (vm_compute; reflexivity).
  apply Forall_forall. intros e I. rewrite forallb_forall in B. specialize (B e I). destruct (snd e) as [q|]; [|exact I0 || exact Logic.I].
  rewrite forallb_forall in B. apply Forall_forall. intros kv J. apply Nat.ltb_lt, B, J.
Qed.
Lemma table_closed K (num : string -> K) : closed_in (fun k => angular k = false) (units_table num).
Proof.
  assert (B : forallb (fun e => angular (fst (fst e)) || (match snd (fst e) with None => true | Some _ => false end &&
     match snd e with None => true | Some q => forallb (fun kv => negb (angular (fst kv))) (snd q) end)) (units_table num) = true)
    by (vm_compute; reflexivity).
  apply Forall_forall. intros e I H. rewrite forallb_forall in B. specialize (B e I). rewrite H in B. cbn [orb] in B.
  apply andb_prop in B. destruct B as [B1 B2]. split; [destruct (snd (fst e)); [discriminate|reflexivity]|].
  destruct (snd e) as [q|]; [|exact Logic.I]. rewrite forallb_forall in B2. apply Forall_forall. intros kv J. apply negb_true_iff, B2, J.
Qed.
Lemma rank_bound k : table_rank k < 5.
Proof.
  unfold table_rank. destruct (find _ ranks) as [e|] eqn:F; [|lia]. apply find_some in F. destruct F as [F _].
  assert (B : forallb (fun e => Nat.ltb (snd e) 5) ranks = true) by reflexivity. rewrite forallb_forall in B. apply Nat.ltb_lt, B, F.
Qed.
(** Every unit has an SI form, five definitions deep at most. *)
Theorem C29_table_terminates : forall K (o : mag_ops K) num q, exists r, si o 6 [] (units_table num) q = Ok r.
Proof.
  intros K o num q. apply (si_total table_rank [] (units_table num)); [constructor|apply table_ranked|].
  apply Forall_forall. intros kv _. apply rank_bound.
Qed.
Print Assumptions C29_table_terminates.
Theorem C29_table_powers_partial : forall K (o : mag_ops K), mag_laws o -> forall num,
  exists mag un, forall m (u : unit_), Forall (fun kv => angular (fst kv) = false) u ->
     exists r, si o 6 [] (units_table num) (m, u) = Ok r /\ fst r = mmul o m (powers o mag u) /\
       forall j, exponent (snd r) j = combined un u j.
Proof.
  intros K o L num. destruct (C29_powers_partial K o L (fun k => angular k = false) table_rank [] (units_table num)) as [mag [un [_ H]]];
    [constructor|apply table_closed|constructor|apply table_ranked|]. exists mag, un. intros m u F. apply (H 5 m u F).
  apply Forall_forall. intros kv _. apply rank_bound.
Qed.
Print Assumptions C29_table_powers_partial.

(** Decimal logarithms of the numbers of the table (those that are powers of ten). *)
Definition num10 (s : string) : Qc :=
  match s with
  | "1000.0" => q_ 3 1 | "1e-3" | "1.0e-3" => q_ (-3) 1 | "1e-6" | "1.0e-6" => q_ (-6) 1 | "1.0e-26" => q_ (-26) 1
  | "1.0e6" => q_ 6 1 | "10" => q_ 1 1 | "1e5" => q_ 5 1 | _ => 0%Qc
  end%string.
Definition convert10 (x : Qc) (u v : string) := convert log_ops Qcplus 6 [] (units_table num10) (x, parsed u) (parsed v).
Example C29_case : mag_laws log_ops /\ action log_ops Qcplus /\
  convert10 0 "km / ms" "m / s" = Ok (q_ 6 1, parsed "m / s") /\ convert10 (q_ 6 1) "m / s" "km / ms" = Ok (0%Qc, parsed "km / ms") /\
  convert10 0 "MJy" "W/Hz/m^2" = Ok (q_ (-20) 1, parsed "W/Hz/m^2") /\ convert10 0 "km" "s" = Err UnitError.
Proof.
  split; [exact log_laws|]. split; [split; cbn; intros; ring|]. repeat split; try reflexivity;
    (vm_compute; apply (f_equal Ok), (f_equal2 pair); [apply Qc_is_canon; reflexivity|unit_eq]).
Qed.

(** Because of the entry ('rad', 2), 'deg arcmin' and 'deg^2' are incompatible, and SI is
    not idempotent; 'rad^4' and 'sr^2' are incompatible. *)
Theorem C29_rad_refuted : forall num : string -> Qc,
  convert log_ops Qcplus 6 [] (units_table num) (0%Qc, parsed "deg arcmin") (parsed "deg^2") = Err UnitError /\
  convert log_ops Qcplus 6 [] (units_table num) (0%Qc, parsed "rad^4") (parsed "sr^2") = Err UnitError /\
  (exists y, convert log_ops Qcplus 6 [] (units_table num) (0%Qc, parsed "rad^2") (parsed "sr") = Ok y) /\
  exists r r', si log_ops 6 [] (units_table num) (0%Qc, parsed "deg arcmin") = Ok r /\ si log_ops 6 [] (units_table num) r = Ok r' /\
    dict_eqb (snd r) (snd r') = false.
Proof.
  intros num. split; [vm_compute; reflexivity|]. split; [vm_compute; reflexivity|]. split.
  - assert (B : match convert log_ops Qcplus 6 [] (units_table num) (0%Qc, parsed "rad^2") (parsed "sr") with Ok _ => true | Err _ => false end = true)
      by (vm_compute; reflexivity).
    destruct (convert log_ops Qcplus 6 [] (units_table num) (0%Qc, parsed "rad^2") (parsed "sr")) as [y|]; [exists y; reflexivity|discriminate].
  - assert (B : match si log_ops 6 [] (units_table num) (0%Qc, parsed "deg arcmin") with
                | Ok r => match si log_ops 6 [] (units_table num) r with Ok r' => dict_eqb (snd r) (snd r') | Err _ => true end
                | Err _ => true end = false) by (vm_compute; reflexivity).
    destruct (C29_table_terminates Qc log_ops num (0%Qc, parsed "deg arcmin")) as [r R].
    destruct (C29_table_terminates Qc log_ops num r) as [r' R']. exists r, r'.
    split; [exact R|]. split; [exact R'|].
    destruct (si log_ops 6 [] (units_table num) (0%Qc, parsed "deg arcmin")) as [r0|]; [|discriminate]. injection R as ->.
    rewrite R' in B. exact B.
Qed.
Print Assumptions C29_rad_refuted.
(** Conversion through the empty unit relabels. *)
Theorem C29_empty_refuted : forall K (o : mag_ops K) V (act : K -> V -> V) fuel loc glob x (u v : unit_),
  exists y, convert o act fuel loc glob (x, u) [] = Ok (y, []) /\ convert o act fuel loc glob (y, []) v = Ok (x, v).
Proof.
  intros. exists x. unfold convert. cbn [fst snd]. split; [destruct u; reflexivity|destruct v; reflexivity].
Qed.
Print Assumptions C29_empty_refuted.
