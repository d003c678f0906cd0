(** C29 (value) and C69-C71: quantities in numpy functions. *)
From Coq Require Import String Ascii QArith Qcanon Permutation Qround.
From Verif Require Import Base BaseFacts TemplateModel UnitModel UnitSpec UnitFacts UnitSIFacts UfModel UfSpec UfFacts UfFacts2 UfFacts3.
Open Scope nat_scope.

(** ** A small system of units for the examples
    Magnitudes are decimal logarithms; arrays are formal sums of c 10^e. *)
Definition m_ := lit "m". Definition km_ := lit "km". Definition s_ := lit "s".
Definition small : @du_table Qc := [((m_, None), None); ((s_, None), None); ((km_, None), Some (Q2Qc 3, [(m_, 1%Qc)]))].
Definition small_scale (k : text) : Qc := if text_eqb k km_ then Q2Qc 3 else 0%Qc.
Definition sums := list (Qc * Qc).
Definition shift (k : Qc) (l : sums) : sums := map (fun ce => (fst ce, (k + snd ce)%Qc)) l.
Definition term (c e : Z) : sums := [(Q2Qc (inject_Z c), Q2Qc (inject_Z e))].
Lemma small_interpreted : interprets log_ops small_scale small.
Proof. unfold interprets, small. repeat constructor. Qed.
Lemma shift_action : action log_ops shift.
Proof.
  split; [intros v|intros a b v].
  - unfold shift. rewrite <- (map_id v) at 2. apply map_ext. intros [c e]. cbn. rewrite Qcplus_0_l. reflexivity.
  - unfold shift. rewrite map_map. apply map_ext. intros [c e]. cbn. rewrite Qcplus_assoc. reflexivity.
Qed.
Definition km (c e : Z) : @operand Qc sums := Qty (term c e) [(km_, 1%Qc)] [].
Definition m (c e : Z) : @operand Qc sums := Qty (term c e) [(m_, 1%Qc)] [].
Ltac qc := repeat (first [apply (f_equal2 pair)|apply (f_equal2 cons)]); try reflexivity; try (apply Qc_is_canon; reflexivity).

(** ** C29: a conversion keeps the value *)
Theorem C29_value : forall K (o : mag_ops K) V (act : K -> V -> V) scale loc glob, mag_laws o -> action o act ->
  interprets o scale loc -> interprets o scale glob ->
  (forall n q r, si o n loc glob q = Ok r -> mmul o (fst r) (powers o scale (snd r)) = mmul o (fst q) (powers o scale (snd q))) /\
  (forall n x (u : unit_) y (v : unit_), u <> [] -> v <> [] -> convert o act n loc glob (x, u) v = Ok y ->
   snd y = v /\ act (powers o scale v) (fst y) = act (powers o scale u) x).
Proof.
  intros K o V act scale loc glob L A I J. split; [exact (si_value L scale loc glob I J)|].
  intros n x u y v Nu Nv. exact (convert_value L A scale loc glob n x u y v I J Nu Nv).
Qed.
Print Assumptions C29_value.
(** The whole table of the module has such magnitudes, with the entry of rad^2. *)
Fixpoint level {K} (o : mag_ops K) (num : string -> K) (n : nat) (k : text) : K :=
  match du_find (units_table num) (k, None), n with
  | Some (Some q), S n => mmul o (fst q) (powers o (level o num n) (snd q))
  | _, _ => if text_eqb k (lit "sr") then minv o (num "1.0"%string) else m1 o
  end.
Theorem C29_table_value : forall K (o : mag_ops K) (num : string -> K), mag_laws o -> interprets o (level o num 6) (units_table num).
Proof.
  intros K o num L. unfold interprets, units_table, base_, derived.
  Ltac table_entry := vm_compute; reflexivity.
  repeat apply Forall_cons; try exact I; try table_entry; [|constructor].
  change (mpow o (m1 o) (Q2Qc 2) = mmul o (num "1.0"%string) (mmul o (mpow o (minv o (num "1.0"%string)) (Q2Qc 1)) (m1 o))).
  rewrite (pow_1l L), (one_r L). change (Q2Qc 1) with 1%Qc. rewrite (ml_pow_one _ L), (ml_inv _ L). reflexivity.
Qed.
Print Assumptions C29_table_value.
Example C29_value_example : convert log_ops shift 3 [] small (term 5 0, [(km_, 1%Qc)]) [(m_, 1%Qc)] = Ok (term 5 3, [(m_, 1%Qc)]) /\
  shift (powers log_ops small_scale [(m_, 1%Qc)]) (term 5 3) = shift (powers log_ops small_scale [(km_, 1%Qc)]) (term 5 0).
Proof. split; vm_compute; [apply (f_equal Ok)|]; qc. Qed.

(** ** C69: units in the universal functions *)
Definition same_ufunc (f : ufunc) : Prop := In f [Add; Subtract; Maximum; Minimum; Hypot; Fmod].
Definition comparison (f : ufunc) : Prop := In f [Equal; Not_equal; Less; Less_equal; Greater; Greater_equal].
Section U.
Context {K : Type} (o : mag_ops K) {V : Type} (act : K -> V -> V) (scale : text -> K).
(** Units are dictionaries and the tables agree with the magnitudes. *)
Definition sound (glob : @du_table K) (l : list (@operand K V)) : Prop :=
  mag_laws o /\ action o act /\ interprets o scale glob /\ tables (interprets o scale) l /\ Forall is_dict l.
End U.

(** Sums, differences, extrema...: the result is that of the values; what has no unit is in
    the first unit there is. *)
Theorem C69_same : forall K (o : mag_ops K) V (act : K -> V -> V) scale fuel glob core expo f m inputs u r, sound o act scale glob inputs ->
  same_ufunc f -> degree_one act (core f m) -> first_unit inputs u ->
  array_ufunc o act core expo fuel glob f m inputs = Ok r ->
  value o act scale r = core f m (map (value_in o act scale u) inputs) /\
  (Forall has_unit inputs \/ Forall no_unit inputs -> value o act scale r = core f m (map (value o act scale) inputs)).
Proof.
  intros K o V act scale fuel glob core expo f mt inputs u r (L & A & I & T & D) Sf Dg FU E.
  assert (X : value o act scale r = core f mt (map (value_in o act scale u) inputs)).
  { unfold array_ufunc in E. destruct (handler inputs) as [[self loc]|] eqn:H.
    - assert (Y : exists l, common_units o act fuel glob inputs = Ok (l, u) /\ r = Qty (core f mt (map magnitude l)) u loc).
      { assert (Z : ufunc_units o act expo fuel glob self f inputs = do r <- common_units o act fuel glob inputs; Ok (fst r, Some (snd r))).
        { cbn in Sf. repeat (destruct Sf as [<-|Sf]; [reflexivity|]). destruct Sf. }
        rewrite Z in E. unfold common_units in *. rewrite (common_first inputs u FU) in *.
        destruct (map_res (homogenize o act fuel glob u) inputs) as [l|]; cbn [bind fst snd] in *; [|discriminate]. exists l. split; [reflexivity|congruence]. }
      destruct Y as (l & C & ->). unfold common_units in C. rewrite (common_first inputs u FU) in C.
      destruct (map_res (homogenize o act fuel glob u) inputs) as [l'|] eqn:M; cbn [bind] in C; [|discriminate]. injection C as <-.
      assert (Ne : map magnitude l' <> []) by (destruct inputs as [|a0 i0]; [discriminate|]; cbn in M; destruct (homogenize o act fuel glob u a0); [|discriminate]; cbn in M; destruct (map_res (homogenize o act fuel glob u) i0); [|discriminate]; injection M as <-; discriminate).
      cbn [value]. rewrite <- (Dg _ _ Ne). f_equal. apply (homogenize_values L A scale fuel glob u inputs l' I T D); auto; [eapply first_dict; eauto|apply (first_nonempty _ u FU)].
    - apply handler_none in H. assert (U : u = []).
      { clear -FU H. induction FU as [|x w loc r0 N|a r0 w N F IH]; [reflexivity| |]; inversion H as [|y z [x' Hx] Q2]; subst; [discriminate|auto]. }
      subst u. rewrite (value_in_none A scale). injection E as <-. cbn [value]. f_equal. apply map_ext_in. intros a Ia. rewrite Forall_forall in H. destruct (H a Ia) as [x ->]. reflexivity. }
  split; [exact X|]. intros [F|F]; rewrite X; f_equal.
  - apply (value_in_unit scale u inputs F).
  - assert (U : u = []).
    { clear -FU F. induction FU as [|x w loc r0 N|a r0 w N G IH]; [reflexivity| |]; inversion F as [|y z Hx Q2]; subst; [destruct w; cbn in Hx; [congruence|tauto]|auto]. }
    subst u. apply (value_in_none A scale).
Qed.
Print Assumptions C69_same.
(** They succeed exactly when the units can be converted. *)
Theorem C69_defined : forall K (o : mag_ops K) V (act : K -> V -> V) fuel glob core expo f m inputs u, same_ufunc f \/ comparison f -> first_unit inputs u ->
  ((exists r, array_ufunc o act core expo fuel glob f m inputs = Ok r) <->
   Forall (fun a => match a with
                    | Plain _ | Qty _ [] _ => True
                    | Qty x w loc => dict_eqb w u = true \/ exists y, convert o act fuel loc glob (x, w) u = Ok y
                    end) inputs).
Proof.
  intros K o V act fuel glob core expo f mt inputs u Sf FU. change (fun a => match a with Plain _ | Qty _ [] _ => True | Qty x w loc => dict_eqb w u = true \/ exists y, convert o act fuel loc glob (x, w) u = Ok y end)
    with (convertible (o:=o) (act:=act) fuel glob u). unfold array_ufunc. destruct (handler inputs) as [[self loc]|] eqn:H.
  - rewrite <- homogenize_all_ok. rewrite <- (common_first inputs u FU).
    assert (Z : exists ou, ufunc_units o act expo fuel glob self f inputs = do r <- common_units o act fuel glob inputs; Ok (fst r, ou (snd r))).
    { destruct Sf as [Sf|Sf]; cbn in Sf.
      - exists Some. repeat (destruct Sf as [<-|Sf]; [reflexivity|]). destruct Sf.
      - exists (fun _ => None). repeat (destruct Sf as [<-|Sf]; [reflexivity|]). destruct Sf. }
    destruct Z as [ou ->]. unfold common_units. split.
    + intros [r E]. destruct (map_res (homogenize o act fuel glob (common_of (map get_units inputs))) inputs); [eauto|discriminate].
    + intros [l ->]. cbn [bind]. eauto.
  - split; [intros _|eauto]. apply handler_none in H. eapply Forall_impl; [|exact H]. intros a [x ->]. exact I.
Qed.
Print Assumptions C69_defined.
Theorem C69_compare : forall K (o : mag_ops K) V (act : K -> V -> V) scale fuel glob core expo f m inputs u r, sound o act scale glob inputs ->
  comparison f -> degree_zero act (core f m) -> first_unit inputs u ->
  array_ufunc o act core expo fuel glob f m inputs = Ok r ->
  r = Plain (core f m (map (value_in o act scale u) inputs)) /\
  (Forall has_unit inputs -> r = Plain (core f m (map (value o act scale) inputs))).
Proof.
  intros K o V act scale fuel glob core expo f mt inputs u r (L & A & I & T & D) Sf Dg FU E.
  assert (X : r = Plain (core f mt (map (value_in o act scale u) inputs))).
  { unfold array_ufunc in E. destruct (handler inputs) as [[self loc]|] eqn:H.
    - assert (Z : ufunc_units o act expo fuel glob self f inputs = do r <- common_units o act fuel glob inputs; Ok (fst r, None)).
      { cbn in Sf. repeat (destruct Sf as [<-|Sf]; [reflexivity|]). destruct Sf. }
      rewrite Z in E. unfold common_units in E. rewrite (common_first inputs u FU) in E.
      destruct (map_res (homogenize o act fuel glob u) inputs) as [l|] eqn:M; cbn [bind fst snd] in E; [|discriminate]. injection E as <-. f_equal.
      assert (Ne : map magnitude l <> []) by (destruct inputs as [|a0 i0]; [discriminate|]; cbn in M; destruct (homogenize o act fuel glob u a0); [|discriminate]; cbn in M; destruct (map_res (homogenize o act fuel glob u) i0); [|discriminate]; injection M as <-; discriminate).
      rewrite <- (Dg (powers o scale u) _ Ne). f_equal. apply (homogenize_values L A scale fuel glob u inputs l I T D); auto; [eapply first_dict; eauto|apply (first_nonempty _ u FU)].
    - apply handler_none in H. injection E as <-. f_equal. destruct inputs as [|a0 i0]; [reflexivity|]. rewrite <- (Dg (powers o scale u)) by discriminate. f_equal. rewrite map_map. apply map_ext_in. intros a Ia. rewrite Forall_forall in H. destruct (H a Ia) as [x ->]. reflexivity. }
  split; [exact X|]. intros F. rewrite X. do 2 f_equal. apply (value_in_unit scale u inputs F).
Qed.
Print Assumptions C69_compare.
(** One argument. *)
Theorem C69_unary : forall K (o : mag_ops K) V (act : K -> V -> V) scale fuel glob core expo f a r, mag_laws o -> action o act ->
  array_ufunc o act core expo fuel glob f Call [a] = Ok r ->
  (In f [Absolute; Conjugate; Fabs; Negative] -> degree o act 1%Qc (fun x => core f Call [x]) -> value o act scale r = core f Call [value o act scale a]) /\
  (f = Square -> degree o act (Q2Qc 2) (fun x => core f Call [x]) -> value o act scale r = core f Call [value o act scale a]) /\
  (f = Reciprocal -> degree o act (- (1))%Qc (fun x => core f Call [x]) -> value o act scale r = core f Call [value o act scale a]) /\
  (f = Sqrt -> degree o act (Q2Qc (1 # 2)) (fun x => core f Call [x]) -> value o act scale r = core f Call [value o act scale a]) /\
  (f = Cbrt -> degree o act (Q2Qc (1 # 3)) (fun x => core f Call [x]) -> value o act scale r = core f Call [value o act scale a]) /\
  (In f [Exp; Expm1; Exp2; Log; Log10; Log2; Log1p] -> no_unit a -> value o act scale r = core f Call [value o act scale a]).
Proof.
  intros K o V act scale fuel glob core expo f a r L A E. unfold array_ufunc in E. destruct a as [x|x u loc].
  { cbn [handler] in E. injection E as <-. cbn [value map magnitude]. repeat split; auto. }
  cbn [handler] in E. cbn [value].
  repeat split.
  - intros If Dg. specialize (Dg (powers o scale u) x). rewrite (ml_pow_one _ L) in Dg. cbn beta in Dg. rewrite Dg. cbn in If. repeat (destruct If as [<-|If]; [cbn in E; injection E as <-; reflexivity|]). destruct If.
  - intros -> Dg. specialize (Dg (powers o scale u) x). cbn beta in Dg. rewrite Dg. cbn [ufunc_units map get_units nth_unit nth_error bind fst snd] in E. injection E as <-. cbn [value map magnitude]. rewrite (powers_power L scale). reflexivity.
  - intros -> Dg. specialize (Dg (powers o scale u) x). cbn beta in Dg. rewrite Dg. cbn [ufunc_units map get_units nth_unit nth_error bind fst snd] in E. injection E as <-. cbn [value map magnitude]. rewrite (powers_power L scale). reflexivity.
  - intros -> Dg. specialize (Dg (powers o scale u) x). cbn beta in Dg. rewrite Dg. cbn [ufunc_units map get_units nth_unit nth_error bind fst snd] in E. injection E as <-. cbn [value map magnitude]. rewrite (powers_power L scale). reflexivity.
  - intros -> Dg. specialize (Dg (powers o scale u) x). cbn beta in Dg. rewrite Dg. cbn [ufunc_units map get_units nth_unit nth_error bind fst snd] in E. injection E as <-. cbn [value map magnitude]. rewrite (powers_power L scale). reflexivity.
  - intros If N. destruct u as [|kv u]; [|destruct N]. cbn [powers]. rewrite (proj1 A). cbn in If. repeat (destruct If as [<-|If]; [cbn in E; injection E as <-; apply (proj1 A)|]). destruct If.
Qed.
Print Assumptions C69_unary.
(** Products, quotients and powers. *)
Theorem C69_binary : forall K (o : mag_ops K) V (act : K -> V -> V) scale fuel glob core expo f a b r, mag_laws o -> action o act -> is_dict a ->
  array_ufunc o act core expo fuel glob f Call [a; b] = Ok r ->
  (In f [Multiply; Matmul; Matvec; Vecdot; Vecmat] -> bilinear o act (fun x y => core f Call [x; y]) -> value o act scale r = core f Call [value o act scale a; value o act scale b]) /\
  (f = True_divide -> quotient o act (fun x y => core f Call [x; y]) -> value o act scale r = core f Call [value o act scale a; value o act scale b]) /\
  (forall p, f = Power -> no_unit b -> expo (magnitude b) = Some p -> degree o act p (fun x => core f Call [x; magnitude b]) -> value o act scale r = core f Call [value o act scale a; value o act scale b]).
Proof.
  intros K o V act scale fuel glob core expo f a b r L A D E.
  assert (Ex : handler [a; b] = None \/ exists self loc, handler [a; b] = Some (self, loc)) by (destruct (handler [a; b]) as [[? ?]|]; eauto).
  unfold array_ufunc in E. destruct Ex as [H|(self & loc & H)]; rewrite H in E.
  { apply handler_none in H. inversion H as [|? ? [x ->] H2]; subst. inversion H2 as [|? ? [y ->] H3]; subst. injection E as <-. cbn. repeat split; auto. }
  rewrite !(value_units A scale). repeat split.
  - intros If B. specialize (B (powers o scale (get_units a)) (powers o scale (get_units b)) (magnitude a) (magnitude b)). cbn beta in B. rewrite B.
    assert (Z : ufunc_units o act expo fuel glob self f [a; b] = Ok ([a; b], Some (multiply_unit (get_units a) (get_units b)))) by (cbn in If; repeat (destruct If as [<-|If]; [reflexivity|]); destruct If).
    rewrite Z in E. cbn [bind fst snd] in E. injection E as <-. cbn [get_units magnitude map]. rewrite (powers_multiply L scale) by (apply dict_units, D). reflexivity.
  - intros -> B. specialize (B (powers o scale (get_units a)) (powers o scale (get_units b)) (magnitude a) (magnitude b)). cbn beta in B. rewrite B.
    cbn [ufunc_units map nth_unit nth_error bind fst snd] in E. injection E as <-. cbn [get_units magnitude map]. rewrite (powers_divide L scale) by (apply dict_units, D). reflexivity.
  - intros p -> N Ep B. assert (Nb : act (powers o scale (get_units b)) (magnitude b) = magnitude b) by (rewrite <- (value_units A scale); apply (no_unit_value A scale b N)).
    rewrite Nb. specialize (B (powers o scale (get_units a)) (magnitude a)). cbn beta in B. rewrite B.
    cbn [ufunc_units map nth_unit nth_error bind fst snd] in E. rewrite Ep in E. unfold power_by in E. destruct (get_units a) as [|kv w] eqn:Ga; cbn [bind fst snd] in E; injection E as <-; cbn [get_units magnitude map powers].
    + rewrite (pow_1l L). reflexivity.
    + rewrite (powers_power L scale). reflexivity.
Qed.
Print Assumptions C69_binary.

(** The formal sums: addition joins, multiplication of single terms. *)
Definition core0 (f : ufunc) (mt : method) (l : list sums) : sums :=
  match f, l with
  | Multiply, [[(c, e)]; [(d, g)]] => [((c * d)%Qc, (e + g)%Qc)]
  | Square, [[(c, e)]] => [((c * c)%Qc, (e + e)%Qc)]
  | _, _ => concat l
  end.
Example C69_example : sound log_ops shift small_scale small [km 5 0; m 7 0] /\ degree_one shift (core0 Add Call) /\ first_unit [km 5 0; m 7 0] [(km_, 1%Qc)] /\ Forall has_unit [km 5 0; m 7 0] /\
  array_ufunc log_ops shift core0 (fun _ => None) 3 small Add Call [km 5 0; m 7 0] = Ok (Qty (term 5 0 ++ term 7 (-3)) [(km_, 1%Qc)] []) /\
  array_ufunc log_ops shift core0 (fun _ => None) 3 small Multiply Call [km 5 0; m 7 0] = Ok (Qty (term 35 0) [(km_, 1%Qc); (m_, 1%Qc)] []) /\
  array_ufunc log_ops shift core0 (fun _ => None) 3 small Square Call [km 5 0] = Ok (Qty (term 25 0) [(km_, Q2Qc 2)] []) /\
  array_ufunc log_ops shift core0 (fun _ => None) 3 small Add Call [km 5 0; Qty (term 1 0) [(s_, 1%Qc)] []] = Err UnitError.
Proof.
  split. { split; [exact log_laws|]. split; [exact shift_action|]. split; [exact small_interpreted|]. split; repeat constructor; cbn; intuition discriminate. }
  split. { intros k l _. cbn. unfold shift. symmetry. apply concat_map. }
  split; [constructor; discriminate|]. split; [repeat constructor|].
  split; [|split; [|split]]; vm_compute; try reflexivity; apply (f_equal Ok); match goal with |- Qty ?x ?u ?t = Qty ?y ?v ?t => cut (x = y); [intros ->; cut (u = v); [intros ->; reflexivity|]|] end; qc.
Qed.

(** *** Where the units are wrong
    Positive numbers by their logarithms: magnitudes add to them. *)
Definition kmL (e : Z) : @operand Qc Qc := Qty (Q2Qc (inject_Z e)) [(km_, 1%Qc)] [].
Definition mL (e : Z) : @operand Qc Qc := Qty (Q2Qc (inject_Z e)) [(m_, 1%Qc)] [].
Definition larger (x y : Qc) : Qc := if Qclt_le_dec x y then y else x.
Definition coreL (f : ufunc) (mt : method) (l : list Qc) : Qc :=
  match f, l with
  | Fmax, x :: r => fold_left larger r x
  | Float_power, [x; p] => (x * p)%Qc
  | Copysign, [x; _] => x
  | _, _ => 0%Qc
  end.
Definition expoL (p : Qc) : option Qc := Some p.
Lemma log_action : action log_ops Qcplus.
Proof. split; cbn; intros; ring. Qed.
Lemma larger_shift k x y : larger (k + x)%Qc (k + y)%Qc = (k + larger x y)%Qc.
Proof.
  unfold larger. destruct (Qclt_le_dec (k + x) (k + y)) as [H|H], (Qclt_le_dec x y) as [G|G]; auto; exfalso.
  - apply (Qclt_not_le _ _ H). apply Qcplus_le_compat; [apply Qcle_refl|exact G].
  - assert (E : (k + x <= k + y)%Qc) by (apply Qcplus_le_compat; [apply Qcle_refl|apply Qclt_le_weak, G]). assert (Q := Qcle_antisym _ _ E H).
    apply (Qclt_not_eq _ _ G). transitivity (- k + (k + x))%Qc; [ring|]. rewrite Q. ring.
Qed.
(** fmax and fmin convert nothing: the largest of 1 km and 100 km given as 10^5 m is 10^5 km. *)
Theorem C69_fmax_refuted : degree_one Qcplus (coreL Fmax Call) /\ interprets log_ops small_scale small /\
  exists r, array_ufunc log_ops Qcplus coreL expoL 3 small Fmax Call [kmL 0; mL 5] = Ok r /\
  value log_ops Qcplus small_scale r = Q2Qc 8 /\ coreL Fmax Call (map (value log_ops Qcplus small_scale) [kmL 0; mL 5]) = Q2Qc 5.
Proof.
  split; [|split; [exact small_interpreted|]].
  - intros k [|x l] Ne; [congruence|]. cbn [coreL map]. clear Ne. revert x. induction l as [|y l IH]; intros x; [reflexivity|]. cbn [map fold_left]. rewrite larger_shift. apply IH.
  - eexists. split; [vm_compute; reflexivity|]. split; vm_compute; apply Qc_is_canon; reflexivity.
Qed.
Print Assumptions C69_fmax_refuted.
(** float_power keeps the unit: 1 km to the power 2 is 1 km. *)
Theorem C69_float_power_refuted : (forall p, degree log_ops Qcplus p (fun x => coreL Float_power Call [x; p])) /\
  exists r, array_ufunc log_ops Qcplus coreL expoL 3 small Float_power Call [kmL 0; Plain (Q2Qc 2)] = Ok r /\
  value log_ops Qcplus small_scale r = Q2Qc 3 /\ coreL Float_power Call (map (value log_ops Qcplus small_scale) [kmL 0; Plain (Q2Qc 2)]) = Q2Qc 6.
Proof.
  split; [intros p k x; cbn; ring|]. eexists. split; [vm_compute; reflexivity|]. split; vm_compute; apply Qc_is_canon; reflexivity.
Qed.
Print Assumptions C69_float_power_refuted.
(** copysign gives a number the unit of the quantity the sign of which it takes. *)
Theorem C69_copysign_refuted : (forall k l x y, coreL Copysign Call [(k + x)%Qc; (l + y)%Qc] = (k + coreL Copysign Call [x; y])%Qc) /\
  exists r, array_ufunc log_ops Qcplus coreL expoL 3 small Copysign Call [Plain 0%Qc; kmL 0] = Ok r /\
  value log_ops Qcplus small_scale r = Q2Qc 3 /\ coreL Copysign Call (map (value log_ops Qcplus small_scale) [Plain 0%Qc; kmL 0]) = 0%Qc.
Proof. split; [reflexivity|]. eexists. split; [vm_compute; reflexivity|]. split; vm_compute; apply Qc_is_canon; reflexivity. Qed.
Print Assumptions C69_copysign_refuted.
(** Without rule, the unit is lost and nothing is converted: positive, remainder, arctan2, and
    the universal function clip, that is not np.clip. *)
Theorem C69_other_refuted : forall K (o : mag_ops K) V (act : K -> V -> V) core expo fuel glob f m inputs,
  match f with Positive | Remainder | Arctan2 | Clip_ufunc | Other _ => True | _ => False end ->
  array_ufunc o act core expo fuel glob f m inputs = Ok (Plain (core f m (map magnitude inputs))).
Proof. intros K o V act core expo fuel glob f m inputs H. unfold array_ufunc. destruct (handler inputs) as [[u loc]|]; [|reflexivity]. destruct f; try destruct H; reflexivity. Qed.
Print Assumptions C69_other_refuted.
(** The product of the elements of a quantity: IndexError. *)
Theorem C69_prod_refuted : forall K (o : mag_ops K) V (act : K -> V -> V) core expo fuel glob x u loc,
  array_ufunc o act core expo fuel glob Multiply Reduce [Qty x u loc] = Err IndexError.
Proof. reflexivity. Qed.
Print Assumptions C69_prod_refuted.
(** The argument out receives the values and keeps its unit. *)
Theorem C69_out_refuted : forall K (o : mag_ops K) V (act : K -> V -> V) core expo fuel glob f m inputs x u loc r out,
  ufunc_out o act core expo fuel glob f m inputs (x, u, loc) = Ok (r, out) -> magnitude out = magnitude r /\ get_units out = u.
Proof.
  intros K o V act core expo fuel glob f m inputs x u loc r out E. unfold ufunc_out in E. destruct (array_ufunc o act core expo fuel glob f m inputs); cbn [bind] in E; [|discriminate]. injection E as <- <-. auto.
Qed.
Print Assumptions C69_out_refuted.
Example C69_out_example : exists r out, ufunc_out log_ops shift core0 (fun _ => None) 3 small Multiply Call [km 5 0; km 7 0] (term 0 0, [(m_, 1%Qc)], []) = Ok (r, out) /\
  value log_ops shift small_scale r = term 35 6 /\ value log_ops shift small_scale out = term 35 0.
Proof. eexists; eexists. split; [vm_compute; reflexivity|]. split; vm_compute; qc. Qed.

(** Numbers: a magnitude k multiplies by 10^k. *)
Definition act10 (k v : Qc) : Qc := (v * Q2Qc (Qpower (10 # 1) (Qfloor k)))%Qc.
Definition num (n : Z) (d : positive) := Q2Qc (n # d).
Definition core10 (f : ufunc) (mt : method) (l : list Qc) : Qc :=
  match f, l with
  | Floor, [x] | Rint, [x] | Trunc, [x] | Ceil, [x] => Q2Qc (inject_Z (Qfloor x))
  | Floor_divide, [x; y] => Q2Qc (inject_Z (Qfloor (x / y)%Qc))
  | Add, [x; y] => (x + y)%Qc
  | _, _ => 0%Qc
  end.
(** Rounding depends on the unit: the same length in km and m has two floors; a quotient
    rounded down does not convert: 1500 m // 1 km is 1500 km for 1, in m / km. *)
Theorem C69_rounding_refuted :
  value log_ops act10 small_scale (Qty (num 3 2) [(km_, 1%Qc)] []) = value log_ops act10 small_scale (Qty (num 1500 1) [(m_, 1%Qc)] []) /\
  (exists r r', array_ufunc log_ops act10 core10 expoL 3 small Floor Call [Qty (num 3 2) [(km_, 1%Qc)] []] = Ok r /\ array_ufunc log_ops act10 core10 expoL 3 small Floor Call [Qty (num 1500 1) [(m_, 1%Qc)] []] = Ok r' /\
     value log_ops act10 small_scale r = num 1000 1 /\ value log_ops act10 small_scale r' = num 1500 1) /\
  (exists r r', array_ufunc log_ops act10 core10 expoL 3 small Floor_divide Call [Qty (num 3 2) [(km_, 1%Qc)] []; Qty (num 1 1) [(km_, 1%Qc)] []] = Ok r /\
     array_ufunc log_ops act10 core10 expoL 3 small Floor_divide Call [Qty (num 1500 1) [(m_, 1%Qc)] []; Qty (num 1 1) [(km_, 1%Qc)] []] = Ok r' /\
     value log_ops act10 small_scale r = num 1 1 /\ value log_ops act10 small_scale r' = num 3 2).
Proof.
  split; [vm_compute; apply Qc_is_canon; reflexivity|]. split; eexists; eexists; (split; [vm_compute; reflexivity|]; split; [vm_compute; reflexivity|]; split; vm_compute; apply Qc_is_canon; reflexivity).
Qed.
Print Assumptions C69_rounding_refuted.
(** A number is taken in the unit of the quantity: equal quantities have different sums. *)
Theorem C69_number_refuted :
  value log_ops act10 small_scale (Qty (num 1 1) [(km_, 1%Qc)] []) = value log_ops act10 small_scale (Qty (num 1000 1) [(m_, 1%Qc)] []) /\
  exists r r', array_ufunc log_ops act10 core10 expoL 3 small Add Call [Qty (num 1 1) [(km_, 1%Qc)] []; Plain (num 1 1)] = Ok r /\ array_ufunc log_ops act10 core10 expoL 3 small Add Call [Qty (num 1000 1) [(m_, 1%Qc)] []; Plain (num 1 1)] = Ok r' /\
     value log_ops act10 small_scale r = num 2000 1 /\ value log_ops act10 small_scale r' = num 1001 1.
Proof.
  split; [vm_compute; apply Qc_is_canon; reflexivity|]. eexists; eexists; (split; [vm_compute; reflexivity|]; split; [vm_compute; reflexivity|]; split; vm_compute; apply Qc_is_canon; reflexivity).
Qed.
Print Assumptions C69_number_refuted.
(** Exponentials and logarithms take the magnitude whatever the unit. *)
Theorem C69_exp_refuted : forall K (o : mag_ops K) V (act : K -> V -> V) core expo fuel glob f x u loc,
  In f [Exp; Expm1; Exp2; Log; Log10; Log2; Log1p] -> array_ufunc o act core expo fuel glob f Call [Qty x u loc] = Ok (Qty (core f Call [x]) [] loc).
Proof. intros K o V act core expo fuel glob f x u loc H. cbn in H. repeat (destruct H as [<-|H]; [reflexivity|]). destruct H. Qed.
Print Assumptions C69_exp_refuted.

(** ** C70: units in the other numpy functions *)
(** Functions of arguments of the same unit: the result is that of the values. *)
Theorem C70_same : forall K (o : mag_ops K) V (act : K -> V -> V) scale fuel glob name fn p r args u res,
  sound o act scale glob (operands_at p args) -> same_unit name p r -> follows_unit o act p r 1%Qc fn -> well_placed p args -> first_unit (operands_at p args) u ->
  np_function o act name fn fuel glob args = Some (Ok res) -> fits r res ->
  fout_value o act scale res = fn (values_at o act scale 0 p u args).
Proof.
  intros K o V act scale fuel glob name fn p r args u res (L & A & I & T & D) S Fn W FU E Ft.
  destruct (same_unit_conversion name p r S) as (c & C & S1 & S2 & S3). unfold np_function in E. rewrite C in E. injection E as E.
  exact (same_function L A scale fn fuel glob c p r args u res I S1 S2 S3 W FU T D Fn E Ft).
Qed.
Print Assumptions C70_same.
Theorem C70_defined : forall K (o : mag_ops K) V (act : K -> V -> V) fuel glob name fn p r args u,
  same_unit name p r -> well_placed p args -> first_unit (operands_at p args) u -> Forall is_dict (operands_at p args) ->
  ((exists res, np_function o act name fn fuel glob args = Some (Ok res)) <->
   Forall (fun a => match a with
                    | Plain _ | Qty _ [] _ => True
                    | Qty x w loc => dict_eqb w u = true \/ exists y, convert o act fuel loc glob (x, w) u = Ok y
                    end) (operands_at p args)).
Proof.
  intros K o V act fuel glob name fn p r args u S W FU D.
  destruct (same_unit_conversion name p r S) as (c & C & S1 & S2 & S3). unfold np_function. rewrite C.
  rewrite <- (same_defined (o:=o) (act:=act) fn fuel glob c p r args u S1 S2 S3 W FU D). split; intros [res E]; exists res; congruence.
Qed.
Print Assumptions C70_defined.
(** Products of the first two arguments. *)
Theorem C70_product : forall K (o : mag_ops K) V (act : K -> V -> V) scale fuel glob name fn a b rest, mag_laws o -> action o act -> is_dict a -> Forall no_unit_arg rest ->
  In name product_names ->
  (forall k l x y r z, fn (VOne x :: VOne y :: r) = VArr z -> fn (VOne (act k x) :: VOne (act l y) :: r) = VArr (act (mmul o k l) z)) ->
  forall q, np_function o act name fn fuel glob (One a :: One b :: rest) = Some (Ok (FArr q)) ->
  fn (map (farg_value o act scale) (One a :: One b :: rest)) = VArr (value o act scale q).
Proof.
  intros K o V act scale fuel glob name fn a b rest L A D N I Fn q E. unfold np_function in E. rewrite (product_conversion name I) in E. injection E as E.
  cbn [map farg_value]. rewrite (map_view_value A scale rest N). rewrite !(value_units A scale).
  unfold array_function in E. destruct (handler (operands (One a :: One b :: rest))) as [[self loc]|] eqn:H.
  - cbn [c_input c_action input_units nth_units nth_error units_of bind output_units fold_left convert_inputs c_output] in E.
    cbn [map view_arg] in E. destruct (fn (VOne (magnitude a) :: VOne (magnitude b) :: map view_arg rest)) as [z|l|] eqn:F; cbn [convert_outputs] in E; try discriminate.
    injection E as <-. rewrite (Fn _ _ _ _ _ _ F). cbn [get_units magnitude]. rewrite (powers_multiply L scale) by (apply dict_units, D). reflexivity.
  - apply handler_none in H. inversion H as [|? ? [x Ex] H2]; subst. inversion H2 as [|? ? [y Ey] H3]; subst. cbn [map view_arg magnitude] in E.
    destruct (fn (VOne x :: VOne y :: map view_arg rest)) as [z|l|] eqn:F; try discriminate. injection E as <-. cbn [get_units magnitude powers]. rewrite !(proj1 A). exact F.
Qed.
Print Assumptions C70_product.
(** einsum: the product of all the arguments after the first. *)
Theorem C70_einsum : forall K (o : mag_ops K) V (act : K -> V -> V) scale fuel glob fn l, mag_laws o -> action o act -> Forall is_dict l ->
  (forall ks xs z, length ks = length xs -> fn (VMisc :: map VOne xs) = VArr z -> fn (VMisc :: map VOne (map (fun kx => act (fst kx) (snd kx)) (combine ks xs))) = VArr (act (fold_right (mmul o) (m1 o) ks) z)) ->
  forall q, np_function o act "einsum"%string fn fuel glob (Misc :: map One l) = Some (Ok (FArr q)) ->
  fn (VMisc :: map VOne (map (value o act scale) l)) = VArr (value o act scale q).
Proof.
  intros K o V act scale fuel glob fn l L A D Fn q E. unfold np_function in E. change (conversion_of "einsum"%string) with (Some (Conversion SEQUENCE_EXCEPT_FIRST DEFAULT PROD)) in E. injection E as E.
  assert (Vl : map (value o act scale) l = map (fun kx => act (fst kx) (snd kx)) (combine (map (fun a => powers o scale (get_units a)) l) (map magnitude l))).
  { clear -A. induction l as [|a l IH]; [reflexivity|]. cbn [map combine fst snd]. rewrite IH, (value_units A scale). reflexivity. }
  assert (Mv : map view_arg (Misc :: map One l) = VMisc :: map VOne (map (@magnitude K V) l)) by (cbn; rewrite !map_map; reflexivity).
  unfold array_function in E. rewrite Mv in E. destruct (handler (operands (Misc :: map One l))) as [[self loc]|] eqn:H.
  - cbn [c_input c_action input_units tl output_units c_output bind] in E.
    assert (Mu : map units_of (map One l) = map (@get_units K V) l) by (rewrite map_map; reflexivity). rewrite Mu in E.
    destruct l as [|a l]; [discriminate|]. change (map get_units (a :: l)) with (get_units a :: map get_units l) in E. cbn [bind convert_inputs c_action] in E. rewrite Mv in E.
    destruct (fn (VMisc :: map VOne (map magnitude (a :: l)))) as [z|s|] eqn:F; cbn [convert_outputs] in E; try discriminate. injection E as <-.
    rewrite Vl. rewrite (Fn _ _ z); [|rewrite !map_length; reflexivity|exact F]. cbn [value]. inversion D as [|? ? Da Dl]; subst.
    destruct (prod_units L scale l (get_units a) Dl (dict_units a Da)) as [_ X]. rewrite X. reflexivity.
  - apply handler_none in H. assert (Pl : map (value o act scale) l = map magnitude l).
    { apply map_ext_in. intros a I. rewrite Forall_forall in H. destruct (H a) as [x ->]; [|reflexivity]. unfold operands. cbn [flat_map app]. apply in_flat_map. exists (One a). split; [apply in_map, I|left; reflexivity]. }
    rewrite Pl. destruct (fn (VMisc :: map VOne (map magnitude l))) as [z|s|]; try discriminate. injection E as <-. reflexivity.
Qed.
Print Assumptions C70_einsum.
(** Variances: the square of the unit. *)
Theorem C70_variance : forall K (o : mag_ops K) V (act : K -> V -> V) scale fuel glob name fn a rest, mag_laws o -> action o act -> Forall no_unit_arg rest ->
  In name ["var"; "nanvar"]%string -> follows_unit o act (At [0]) Array (Q2Qc 2) fn ->
  forall q, np_function o act name fn fuel glob (One a :: rest) = Some (Ok (FArr q)) ->
  fn (map (farg_value o act scale) (One a :: rest)) = VArr (value o act scale q).
Proof.
  intros K o V act scale fuel glob name fn a rest L A N I Fn q E. unfold np_function in E.
  assert (C : conversion_of name = Some (Conversion FIRST DEFAULT SQUARE)) by (destruct I as [<-|[<-|[]]]; reflexivity). rewrite C in E. injection E as E.
  cbn [map farg_value]. rewrite (map_view_value A scale rest N), (value_units A scale).
  unfold array_function in E. destruct (handler (operands (One a :: rest))) as [[self loc]|] eqn:H.
  - cbn [c_input c_action input_units nth_units nth_error units_of bind output_units nth_unit convert_inputs c_output] in E.
    cbn [map view_arg] in E. destruct (fn (VOne (magnitude a) :: map view_arg rest)) as [z|l|] eqn:F; cbn [convert_outputs] in E; try discriminate.
    injection E as <-. assert (X := Fn (powers o scale (get_units a)) (VOne (magnitude a) :: map view_arg rest)). rewrite F in X. specialize (X _ eq_refl). cbn [times_at existsb Nat.eqb orb] in X.
    assert (Y : forall n (l : list (@vin V)), times_at act (S n) (At [0]) (powers o scale (get_units a)) l = l).
    { intros n l. revert n. induction l as [|v l IH]; intros n; [reflexivity|]. cbn [times_at existsb Nat.eqb orb]. rewrite IH. destruct v; reflexivity. }
    rewrite Y in X. rewrite X. cbn [value]. rewrite (powers_power L scale). reflexivity.
  - apply handler_none in H. inversion H as [|? ? [x Ex] H2]; subst. cbn [map view_arg magnitude] in E.
    destruct (fn (VOne x :: map view_arg rest)) as [z|l|] eqn:F; try discriminate. injection E as <-. cbn [get_units magnitude powers]. rewrite (proj1 A). exact F.
Qed.
Print Assumptions C70_variance.
(** broadcast_arrays: each array keeps its unit. *)
Theorem C70_each : forall K (o : mag_ops K) V (act : K -> V -> V) scale fuel glob fn l, action o act -> (exists a, In a l /\ forall x, a <> Plain x) ->
  (forall ks xs, length ks = length xs -> exists zs, length zs = length xs /\ fn (map VOne xs) = VSeqOut zs /\
     fn (map VOne (map (fun kx => act (fst kx) (snd kx)) (combine ks xs))) = VSeqOut (map (fun kx => act (fst kx) (snd kx)) (combine ks zs))) ->
  exists res, np_function o act "broadcast_arrays"%string fn fuel glob (map One l) = Some (Ok res) /\ fout_value o act scale res = fn (map VOne (map (value o act scale) l)).
Proof.
  intros K o V act scale fuel glob fn l A Q Fn. unfold np_function. change (conversion_of "broadcast_arrays"%string) with (Some (Conversion SEQUENCE SEQUENCE_OUT EACH)).
  assert (Vl : map (value o act scale) l = map (fun kx => act (fst kx) (snd kx)) (combine (map (fun a => powers o scale (get_units a)) l) (map magnitude l))).
  { clear -A. induction l as [|a l IH]; [reflexivity|]. cbn [map combine fst snd]. rewrite IH, (value_units A scale). reflexivity. }
  assert (Mv : map view_arg (map One l) = map VOne (map (@magnitude K V) l)) by (rewrite !map_map; reflexivity).
  assert (Mu : map units_of (map One l) = map (@get_units K V) l) by (rewrite map_map; reflexivity).
  assert (Op : operands (map One l) = l) by (clear; induction l as [|a l IH]; [reflexivity|]; unfold operands in *; cbn [map flat_map app]; rewrite IH; reflexivity).
  unfold array_function. rewrite Op, Mv. destruct (handler l) as [[self loc]|] eqn:H.
  - cbn [c_input c_action input_units output_units c_output bind convert_inputs]. rewrite Mv, Mu.
    destruct (Fn (map (fun a => powers o scale (get_units a)) l) (map magnitude l)) as (zs & Lz & F1 & F2); [rewrite !map_length; reflexivity|].
    rewrite F1. cbn [convert_outputs c_output]. eexists. split; [reflexivity|]. rewrite Vl, F2. cbn [fout_value]. f_equal. rewrite map_map.
    rewrite map_length in Lz. clear -Lz. generalize 0 as n. revert zs Lz. induction l as [|a l IH]; intros [|z zs] Lz n; try discriminate; [reflexivity|].
    cbn [map length seq combine fst snd value]. f_equal. apply IH. cbn in Lz. lia.
  - exfalso. apply handler_none in H. destruct Q as (a & I & Na). rewrite Forall_forall in H. destruct (H a I) as [x ->]. apply (Na x). reflexivity.
Qed.
Print Assumptions C70_each.

(** concatenate, split, insert, var, dot and broadcast_arrays on formal sums. *)
Definition concat_fn (l : list (@vin sums)) : @vout sums := match l with VSeq s :: _ => VArr (concat s) | _ => VNone end.
Definition split_fn (l : list (@vin sums)) : @vout sums := match l with VOne s :: _ => VSeqOut (map (fun t => [t]) s) | _ => VNone end.
Definition insert_fn (l : list (@vin sums)) : @vout sums := match l with [VOne a; VMisc; VOne b] => VArr (b ++ a) | _ => VNone end.
Definition dot_fn (l : list (@vin sums)) : @vout sums := match l with VOne [(c, e)] :: VOne [(d, g)] :: _ => VArr [((c * d)%Qc, (e + g)%Qc)] | _ => VNone end.
Definition each_fn (l : list (@vin sums)) : @vout sums := VSeqOut (map (fun a => match a with VOne s => s | _ => [] end) l).
Ltac fout_eq := vm_compute; apply (f_equal Some), (f_equal Ok); repeat first [apply (f_equal FArr)|apply (f_equal FSeq)|apply (f_equal2 cons)]; try reflexivity;
  match goal with |- Qty ?x ?u ?t = Qty ?y ?v ?t => cut (x = y); [intros ->; cut (u = v); [intros ->; reflexivity|]|] end; qc.
Example C70_example : follows_unit log_ops shift (Inside 0) Array 1%Qc concat_fn /\ follows_unit log_ops shift (At [0]) Arrays 1%Qc split_fn /\ follows_unit log_ops shift (At [0; 2]) Array 1%Qc insert_fn /\
  well_placed (Inside 0) [Seq [km 5 0; m 7 0]] /\ well_placed (At [0; 2]) [One (km 5 0); Misc; One (m 7 0)] /\
  np_function log_ops shift "concatenate" concat_fn 3 small [Seq [km 5 0; m 7 0]] = Some (Ok (FArr (Qty (term 5 0 ++ term 7 (-3)) [(km_, 1%Qc)] []))) /\
  np_function log_ops shift "split" split_fn 3 small [One (km 5 0); Misc] = Some (Ok (FSeq [km 5 0])) /\
  np_function log_ops shift "insert" insert_fn 3 small [One (km 5 0); Misc; One (m 7 0)] = Some (Ok (FArr (Qty (term 7 (-3) ++ term 5 0) [(km_, 1%Qc)] []))) /\
  np_function log_ops shift "dot" dot_fn 3 small [One (km 5 0); One (m 7 0)] = Some (Ok (FArr (Qty (term 35 0) [(km_, 1%Qc); (m_, 1%Qc)] []))) /\
  np_function log_ops shift "broadcast_arrays" each_fn 3 small [One (km 5 0); One (m 7 0)] = Some (Ok (FSeq [km 5 0; m 7 0])) /\
  np_function log_ops shift "hstack" concat_fn 3 small [Seq [km 5 0; Qty (term 1 0) [(s_, 1%Qc)] []]] = Some (Err UnitError).
Proof.
  split; [|split; [|split; [|split; [|split]]]].
  - intros k args out. destruct args as [|[x|l|] r]; cbn; try discriminate. change (Qcmult k 1%Qc) with (k * 1)%Qc. rewrite Qcmult_1_r. intros E. injection E as <-. f_equal. unfold shift. symmetry. apply concat_map.
  - intros k args out. destruct args as [|[x|l|] r]; cbn; try discriminate. change (Qcmult k 1%Qc) with (k * 1)%Qc. rewrite Qcmult_1_r. intros E. injection E as <-. f_equal. unfold shift. rewrite !map_map. reflexivity.
  - intros k args out. destruct args as [|[x|l|] [|[y|s|] [|[z|t|] [|w r]]]]; cbn; try discriminate. change (Qcmult k 1%Qc) with (k * 1)%Qc. rewrite Qcmult_1_r. intros E. injection E as <-. f_equal. unfold shift. rewrite map_app. reflexivity.
  - split; [eexists; reflexivity|]. intros [|[|n]] a E N; cbn in E; try discriminate. congruence.
  - split; [repeat constructor; eexists; reflexivity|]. intros [|[|[|[|n]]]] a E N; cbn in E; try discriminate.
    + exfalso. apply N. left. reflexivity.
    + injection E as <-. exact I.
    + exfalso. apply N. right. left. reflexivity.
  - split; [fout_eq|]. split; [fout_eq|]. split; [fout_eq|]. split; [fout_eq|]. split; [fout_eq|]. reflexivity.
Qed.

(** *** Where the units are wrong *)
(** np.clip does not convert the bounds: 10^5 m limited to 1 km becomes 1 m. *)
Definition smaller (x y : Qc) : Qc := if Qclt_le_dec x y then x else y.
Definition clip_fn (l : list (@vin Qc)) : @vout Qc := match l with [VOne x; VOne lo; VOne hi] => VArr (smaller (larger x lo) hi) | _ => VNone end.
Theorem C70_clip_refuted : exists r, np_function log_ops Qcplus "clip" clip_fn 3 small [One (mL 5); One (mL 0); One (kmL 0)] = Some (Ok (FArr r)) /\
  value log_ops Qcplus small_scale r = 0%Qc /\ clip_fn (map (farg_value log_ops Qcplus small_scale) [One (mL 5); One (mL 0); One (kmL 0)]) = VArr (Q2Qc 3).
Proof. eexists. split; [vm_compute; reflexivity|]. split; vm_compute; [|apply (f_equal VArr)]; apply Qc_is_canon; reflexivity. Qed.
Print Assumptions C70_clip_refuted.
(** np.interp returns values of its third argument in the unit of the first; np.select does
    not convert its default value. *)
Theorem C70_interp_refuted : forall K (o : mag_ops K) V (act : K -> V -> V) fuel glob fn x u loc xp fp z,
  fn (map view_arg [One (Qty x u loc); One xp; One fp]) = VArr z ->
  np_function o act "interp" fn fuel glob [One (Qty x u loc); One xp; One fp] = Some (Ok (FArr (Qty z u loc))).
Proof. intros K o V act fuel glob fn x u loc xp fp z E. cbn in E. unfold np_function. cbn. rewrite E. destruct u; reflexivity. Qed.
Print Assumptions C70_interp_refuted.
Theorem C70_select_refuted : forall K (o : mag_ops K) V (act : K -> V -> V) fuel glob fn x kv w loc y v loc' z,
  distinct_names (kv :: w) -> fn [VMisc; VSeq [x]; VOne y] = VArr z ->
  np_function o act "select" fn fuel glob [Misc; Seq [Qty x (kv :: w) loc]; One (Qty y v loc')] = Some (Ok (FArr (Qty z (kv :: w) loc))).
Proof.
  intros K o V act fuel glob fn x kv w loc y v loc' z N E. assert (D := dict_eqb_refl (kv :: w) N).
  unfold np_function. change (conversion_of "select"%string) with (Some (Conversion SECOND_SEQUENCE DEFAULT SAME)).
  unfold array_function. cbn -[dict_eqb]. rewrite D. cbn. rewrite E. reflexivity.
Qed.
Print Assumptions C70_select_refuted.
(** np.cov and np.where with one argument: IndexError. *)
Theorem C70_one_argument_refuted : forall K (o : mag_ops K) V (act : K -> V -> V) fuel glob fn x u loc,
  np_function o act "cov" fn fuel glob [One (Qty x u loc)] = Some (Err IndexError) /\ np_function o act "where" fn fuel glob [One (Qty x u loc)] = Some (Err IndexError).
Proof. intros. split; reflexivity. Qed.
Print Assumptions C70_one_argument_refuted.
(** A function expected to return one array that returns several, such as atleast_1d of
    several arrays or average(returned=True), loses the units. *)
Theorem C70_several_refuted : forall K (o : mag_ops K) V (act : K -> V -> V) fuel glob name fn args c l,
  conversion_of name = Some c -> c_output c = DEFAULT -> np_function o act name fn fuel glob args = Some (Ok (FSeq l)) -> Forall (fun a => exists x, a = Plain x) l.
Proof.
  intros K o V act fuel glob name fn args c l C Co E. unfold np_function in E. rewrite C in E. injection E as E. unfold array_function in E.
  destruct (handler (operands args)) as [[self loc]|].
  - destruct (input_units (c_input c) args) as [us|]; cbn [bind] in E; [|discriminate]. destruct (output_units (c_action c) us) as [ou|]; cbn [bind] in E; [|discriminate].
    destruct (convert_inputs o act fuel glob c ou args) as [args'|]; cbn [bind] in E; [|discriminate]. rewrite Co in E.
    destruct (fn (map view_arg args')) as [x|s|]; cbn [convert_outputs] in E; [destruct ou; discriminate| |discriminate]. rewrite Co in E. injection E as <-.
    apply Forall_forall. intros a I. apply in_map_iff in I. destruct I as [[k [x u]] [<- _]]. eauto.
  - destruct (fn (map view_arg args)) as [x|s|]; try discriminate. injection E as <-. apply Forall_forall. intros a I. apply in_map_iff in I. destruct I as [x [<- _]]. eauto.
Qed.
Print Assumptions C70_several_refuted.

(** ** C71: broadcastable derived units of an item *)
Definition usual (k : kitem) : Prop := match k with KInt _ | KSlice _ _ => True | _ => False end.
Lemma usual_plain l : Forall usual l -> forallb plain_key l = true.
Proof. induction 1 as [|k l H F IH]; [reflexivity|]. cbn. rewrite IH. destruct k; cbn in H; tauto. Qed.
(** Each element of the item has the derived unit it had in the array: keys of integers and
    slices, with an ellipsis that is last or stands for no axis. *)
Theorem C71_item_partial : forall A ndim a b dir (v : barray A) key, Forall usual a -> Forall usual b -> length a + length b <= ndim -> 0 < b_rank v <= ndim ->
  (key = a /\ b = [] \/ key = a ++ KEllipsis :: b /\ (b = [] \/ length a + length b = ndim)) ->
  exists v', item_unit ndim key dir v = Ok v' /\
  forall idx, length idx = length (filter (fun k => match k with KSlice _ _ => true | _ => false end) (numpy_key ndim key)) ->
  element dir v' idx = element dir v (place (numpy_key ndim key) idx).
Proof.
  intros A ndim a b dir v key Pa Pb Le R Hk. apply usual_plain in Pa. apply usual_plain in Pb.
  assert (X : code_key ndim key = numpy_key ndim key /\ forallb plain_key (code_key ndim key) = true /\ length (code_key ndim key) = ndim).
  { destruct Hk as [[-> ->]|[-> Hb]]; [apply code_key_plain; [exact Pa|lia]|].
    destruct (code_key_ellipsis ndim a b Pa Pb Le) as (E1 & E2 & E3). rewrite E1. destruct (Nat.eq_dec (length a + length b) ndim) as [Eq|Ne].
    - rewrite (E2 Eq), Eq, Nat.sub_diag. cbn [repeat app]. split; [reflexivity|]. rewrite forallb_app, Pa, Pb, app_length. auto.
    - destruct Hb as [->|Hb]; [|contradiction]. cbn [length] in *. rewrite E3 by lia. cbn [app]. rewrite !app_nil_r.
      assert (Cs : repeat colon (ndim - (length a + 0) - 1) ++ [colon] = repeat colon (ndim - (length a + 0))).
      { replace (ndim - (length a + 0)) with (ndim - (length a + 0) - 1 + 1) at 2 by lia. rewrite repeat_app. reflexivity. }
      rewrite Cs. split; [reflexivity|]. rewrite forallb_app, Pa, colons_plain, app_length, repeat_length. split; [reflexivity|lia]. }
  destruct X as (X1 & X2 & X3). unfold item_unit.
  destruct (item_full (code_key ndim key) ndim dir v X2 X3 R) as (v' & E & _ & F). exists v'. split; [exact E|]. rewrite <- X1.
  intros idx Li. apply F. rewrite Li. unfold slices. f_equal. apply filter_ext_in. intros k I. rewrite forallb_forall in X2. specialize (X2 k I). destruct k; auto; discriminate.
Qed.
Print Assumptions C71_item_partial.
Definition row : barray Z := BArray 1 (fun i => hd 0%Z i).
Example C71_example : item_unit 2 [KInt 3; KSlice 1 2] Leftward row = Ok (BArray 1 (fun idx => b_at row (place [KSlice 1 2] idx))) /\
  element Leftward (BArray 1 (fun idx => b_at row (place [KSlice 1 2] idx))) [4%Z] = 9%Z /\ element Leftward row (place (numpy_key 2 [KInt 3; KSlice 1 2]) [4%Z]) = 9%Z.
Proof. repeat split. Qed.
(** q[..., 0]: the ellipsis is replaced by one slice too few, the derived unit of each column
    is that of another. *)
Theorem C71_ellipsis_refuted : exists v', item_unit 2 [KEllipsis; KInt 0] Leftward row = Ok v' /\ numpy_key 2 [KEllipsis; KInt 0] = [colon; KInt 0] /\
  element Leftward v' [5%Z] = 5%Z /\ element Leftward row (place (numpy_key 2 [KEllipsis; KInt 0]) [5%Z]) = 0%Z.
Proof. eexists. repeat split. Qed.
Print Assumptions C71_ellipsis_refuted.
(** None is counted as an axis of the array. *)
Theorem C71_newaxis_refuted : exists v', item_unit 2 [KNew; KInt 0] Rightward row = Ok v' /\
  element Rightward v' [0%Z; 5%Z] = 5%Z /\ element Rightward row (place (numpy_key 2 [KNew; KInt 0]) [0%Z; 5%Z]) = 0%Z.
Proof. eexists. repeat split. Qed.
Print Assumptions C71_newaxis_refuted.
(** A scalar declared leftward: key[-0:] is the whole key. *)
Theorem C71_scalar_refuted : forall A (x : A) ndim i, 0 < ndim -> item_unit ndim [KInt i] Leftward (BArray 0 (fun _ => x)) = Err IndexError.
Proof. intros A x [|n] i H; [lia|]. reflexivity. Qed.
Print Assumptions C71_scalar_refuted.
