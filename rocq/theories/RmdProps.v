(** C144: means of angles with rounded operations. *)
From Coq Require Import ZArith Reals Lra Lia List Bool.
From Flocq Require Import Core.
From Verif Require Import Base WcsModel WcsSpec RndModel RndSpec RndProps BirFacts RgnProps RanProps RmdModel RmdSpec.
Import ListNotations.
Open Scope R_scope.

Lemma total_app l l' : total (l ++ l') = total l + total l'.
Proof. unfold total. induction l as [|x l IH]; cbn [app fold_right]; [|rewrite IH]; ring. Qed.
Definition half (l : list R) : Z := Z.of_nat (length (filter (Rleb 180) l)).
Lemma half_app l l' : half (l ++ l') = (half l + half l')%Z.
Proof. unfold half. rewrite filter_app, app_length. lia. Qed.
Lemma valids_app {A} (l l' : list (option A)) : valids (l ++ l') = valids l ++ valids l'.
Proof. apply flat_map_app. Qed.

Lemma F2_length {A B} (P : A -> B -> Prop) l l' : Forall2 P l l' -> length l = length l'.
Proof. induction 1; cbn; congruence. Qed.
(** Angles unrolled. *)
Section Unroll.
Variables (e a : R).
Hypothesis E0 : 0 <= e <= / 4.
Definition sampled (x u : R) : Prop := exists k : Z, 0 <= u - 360 * IZR k < 360 /\ Rabs (x - (u - 360 * IZR k)) <= e /\ a <= u < a + 89.
Definition adjusted (b : bool) (x : R) : R := if b then x - (if Rleb 180 x then 360 else 0) else x.
Lemma adjusted_total b l : total (map (adjusted b) l) = total l - (if b then 360 * IZR (half l) else 0).
Proof.
  unfold half. induction l as [|x l IH]; cbn [map total fold_right filter length]; [destruct b; cbn; ring|].
  unfold total in IH. rewrite IH. destruct b; cbn [adjusted]; [|ring]. destruct (Rleb 180 x); cbn [length]; [|ring]. rewrite Nat2Z.inj_succ, succ_IZR. ring.
Qed.
Lemma shifted_total K b l us : Forall2 (fun x u => Rabs (adjusted b x - (u - 360 * IZR K)) <= e) l us ->
  Rabs (total (map (adjusted b) l) - (total us - 360 * IZR K * INR (length us))) <= e * INR (length us).
Proof.
  induction 1 as [|x u l us H _ IH]; [cbn; rewrite Rabs_pos_eq; lra|]. cbn [map total fold_right length]. rewrite S_INR. unfold total in IH.
  match goal with |- Rabs ?t <= _ => replace t with ((adjusted b x - (u - 360 * IZR K)) + (fold_right Rplus 0 (map (adjusted b) l) - (fold_right Rplus 0 us - 360 * IZR K * INR (length us)))) by ring end.
  eapply Rle_trans; [apply Rabs_triang|]. lra.
Qed.
Lemma adjusted_bound b l : Forall (fun x => 0 <= x <= 360) l -> Rabs (total (map (adjusted b) l)) <= 360 * INR (length l).
Proof.
  induction 1 as [|x l H _ IH]; [cbn; rewrite Rabs_R0; lra|]. cbn [map total fold_right length]. rewrite S_INR. unfold total in IH. eapply Rle_trans; [apply Rabs_triang|].
  assert (Rabs (adjusted b x) <= 360); [|lra]. apply Rabs_le. unfold adjusted. destruct b; [destruct (Rleb 180 x)|]; lra.
Qed.
Lemma floor_in x : exists K : Z, 0 <= x - 360 * IZR K < 360.
Proof. exists (Zfloor (x / 360)). pose proof (Zfloor_lb (x / 360)). pose proof (Zfloor_ub (x / 360)). lra. Qed.
Lemma existsb_F2 {A B} (P : A -> B -> Prop) f l l' : Forall2 P l l' -> existsb f l = true -> exists x y, P x y /\ f x = true.
Proof. induction 1 as [|x y l l' H _ IH]; [discriminate|]. cbn. destruct (f x) eqn:E; eauto. Qed.
Lemma existsb_F2r {A B} (P : A -> B -> Prop) f l l' : Forall2 P l l' -> existsb f l' = true -> exists x y, In x l /\ P x y /\ f y = true.
Proof. induction 1 as [|x y l l' H _ IH]; [discriminate|]. cbn. destruct (f y) eqn:E; [eauto 6|]. intros X. destruct (IH X) as [x' [y' [I [J Q]]]]. eauto 6. Qed.
Lemma F2_none {A B} (P : A -> B -> Prop) f l l' : Forall2 P l l' -> existsb f l' = false -> Forall2 (fun x y => P x y /\ f y = false) l l'.
Proof. induction 1 as [|x y l l' H _ IH]; [constructor|]. cbn. intros X. apply orb_false_iff in X. constructor; tauto. Qed.
Lemma F2_none_l {A B} (P : A -> B -> Prop) f l l' : Forall2 P l l' -> existsb f l = false -> Forall2 (fun x y => P x y /\ f x = false) l l'.
Proof. induction 1 as [|x y l l' H _ IH]; [constructor|]. cbn. intros X. apply orb_false_iff in X. constructor; tauto. Qed.
Lemma Rleb_spec x y : reflect (x <= y) (Rleb x y).
Proof. unfold Rleb. destruct (Rle_dec x y); constructor; assumption. Qed.
Lemma Rltb_spec x y : reflect (x < y) (Rltb x y).
Proof. unfold Rltb. destruct (Rlt_dec x y); constructor; assumption. Qed.
Lemma turns K k u : 0 <= a - 360 * IZR K < 360 -> 0 <= u - 360 * IZR k < 360 -> a <= u < a + 89 -> (k = K /\ u < 360 * IZR (K + 1)) \/ (k = (K + 1)%Z /\ 360 * IZR (K + 1) <= u).
Proof.
  intros A U B. assert (K - 1 < k)%Z by (apply lt_IZR; rewrite minus_IZR; lra). assert (k < K + 2)%Z by (apply lt_IZR; rewrite plus_IZR; lra).
  assert (H1 : k = K \/ k = (K + 1)%Z) by lia. destruct H1 as [->| ->]; [left|right]; (split; [reflexivity|]); rewrite plus_IZR in *; lra.
Qed.
Lemma unrolled l us : Forall2 sampled l us -> let b := existsb (Rltb 270) l && existsb (fun x => Rleb x 90) l in
  exists K : Z, Forall2 (fun x u => Rabs (adjusted b x - (u - 360 * IZR K)) <= e) l us.
Proof.
  intros F b. destruct (floor_in a) as [K HK].
  destruct (existsb (Rleb (360 * IZR (K + 1))) us) eqn:S.
  - exists (K + 1)%Z. destruct (existsb_F2r _ _ _ _ F S) as [x1 [u1 [I1 [[k1 [T1 [N1 B1]]] L1]]]]. destruct (Rleb_spec (360 * IZR (K + 1)) u1) as [L1'|]; [|discriminate]. clear L1.
    destruct (turns _ _ _ HK T1 B1) as [[_ X]|[-> _]]; [lra|]. rewrite plus_IZR in *.
    assert (P : existsb (fun x => Rleb x 90) l = true). { apply existsb_exists. exists x1. split; [exact I1|]. apply Rabs_le_inv in N1. destruct (Rleb_spec x1 90); [reflexivity|lra]. }
    unfold b. rewrite P, andb_true_r. destruct (existsb (Rltb 270) l) eqn:M.
    + clear - F HK L1' E0 B1 T1. induction F as [|x u l us [k [T [N B]]] F IH]; constructor; [|exact IH]. cbn [adjusted]. apply Rabs_le_inv in N. apply Rabs_le.
      destruct (turns _ _ _ HK T B) as [[-> X]|[-> X]]; rewrite plus_IZR in *; destruct (Rleb_spec 180 x); lra.
    + pose proof (F2_none_l _ _ _ _ F M) as F'. clear - F' HK L1' E0 B1 T1. induction F' as [|x u l us [[k [T [N B]]] Q] F IH]; constructor; [|exact IH]. cbn [adjusted]. apply Rabs_le_inv in N. apply Rabs_le.
      destruct (Rltb_spec 270 x); [discriminate|]. destruct (turns _ _ _ HK T B) as [[-> X]|[-> X]]; rewrite plus_IZR in *; lra.
  - exists K. pose proof (F2_none _ _ _ _ F S) as F'.
    assert (Eb : b = false).
    { unfold b. destruct (existsb (Rltb 270) l) eqn:M; [|reflexivity]. destruct (existsb (fun x => Rleb x 90) l) eqn:P; [|reflexivity]. exfalso.
      destruct (existsb_F2 _ _ _ _ F' M) as [x1 [u1 [[[k1 [T1 [N1 B1]]] Q1] G1]]]. destruct (existsb_F2 _ _ _ _ F' P) as [x2 [u2 [[[k2 [T2 [N2 B2]]] Q2] G2]]].
      destruct (Rltb_spec 270 x1); [|discriminate]. destruct (Rleb_spec x2 90); [|discriminate]. destruct (Rleb_spec (360 * IZR (K + 1)) u1); [discriminate|]. destruct (Rleb_spec (360 * IZR (K + 1)) u2); [discriminate|].
      apply Rabs_le_inv in N1. apply Rabs_le_inv in N2. destruct (turns _ _ _ HK T1 B1) as [[-> X1]|[-> X1]]; [|lra]. destruct (turns _ _ _ HK T2 B2) as [[-> X2]|[-> X2]]; lra. }
    rewrite Eb. clear - F' HK. induction F' as [|x u l us [[k [T [N B]]] Q] F IH]; constructor; [|exact IH]. cbn [adjusted].
    destruct (Rleb_spec (360 * IZR (K + 1)) u); [discriminate|]. destruct (turns _ _ _ HK T B) as [[-> X]|[-> X]]; [exact N|lra].
Qed.
End Unroll.

Section T.
Variables (emin prec : Z).
Notation rn := (rndp emin prec).
Notation u := (unit_of prec).
Notation eta := (tiny_of emin).
Notation fmt64 := (generic_format radix2 (FLT_exp emin prec)).
Hypothesis Pp : (24 <= prec)%Z.
Hypothesis Pe : (emin <= 1 - 2 * prec)%Z.
Lemma Q0 : (0 < prec)%Z. Proof. lia. Qed.
Lemma V0 : 0 < u. Proof. apply u_pos. Qed.
Lemma V2 : u <= / 16777216. Proof. unfold unit_of. rewrite pow2. apply Rle_trans with (bpow radix2 (-24)); [apply bpow_le; lia|]. unfold bpow. change (Z.pow_pos radix2 24) with 16777216%Z. lra. Qed.
Lemma Ht : eta <= u * u. Proof. exact (eta_uu emin prec Pe). Qed.
Lemma u_top : u * IZR (2 ^ prec) = 1.
Proof. unfold unit_of. rewrite pow2. replace (IZR (2 ^ prec)) with (bpow radix2 prec) by (rewrite <- IZR_Zpower by lia; reflexivity). rewrite <- bpow_plus. replace (- prec + prec)%Z with 0%Z by lia. reflexivity. Qed.
Lemma int_exact n : Rabs (IZR n) * u <= 1 -> rn (IZR n) = IZR n.
Proof.
  intros H. apply (integer_exact emin prec Q0); [lia|exists n; reflexivity|]. pose proof V0. apply (Rmult_le_reg_r u); [lra|]. rewrite (Rmult_comm (IZR (2 ^ prec))), u_top. exact H.
Qed.
Lemma rn_le x y : x <= y -> rn x <= rn y.
Proof. apply round_le; [apply FLT_exp_valid; exact Q0|apply valid_rnd_N]. Qed.
Lemma rn_360 : rn 360 = 360.
Proof. apply (int_exact 360). pose proof V2. rewrite Rabs_pos_eq; lra. Qed.
Lemma rn_0 : rn 0 = 0.
Proof. apply (int_exact 0). rewrite Rabs_R0. lra. Qed.
Lemma modulo_r_ok x : 0 <= modulo_r emin prec x <= 360 /\ fmt64 (modulo_r emin prec x) /\ exists k : Z, 0 <= x - 360 * IZR k < 360 /\ Rabs (modulo_r emin prec x - (x - 360 * IZR k)) <= 361 * u.
Proof.
  assert (G : exists k : Z, 0 <= x - 360 * IZR k < 360 /\ modulo_r emin prec x = rn (x - 360 * IZR k)).
  { unfold modulo_r. cbv zeta. destruct (Rle_dec 0 x) as [P|P].
    - rewrite Ztrunc_floor by lra. pose proof (Zfloor_lb (x / 360)). pose proof (Zfloor_ub (x / 360)). exists (Zfloor (x / 360)). destruct (Rlt_dec _ 0); [lra|]. split; [lra|reflexivity].
    - rewrite Ztrunc_ceil by lra. pose proof (Zceil_ub (x / 360)). pose proof (Zceil_lb (x / 360)). destruct (Rlt_dec _ 0).
      + exists (Zceil (x / 360) - 1)%Z. rewrite minus_IZR. split; [lra|]. f_equal. ring.
      + exists (Zceil (x / 360)). split; [lra|reflexivity]. }
  destruct G as [k [B E]]. rewrite E. split.
  - pose proof (rn_le 0 (x - 360 * IZR k) ltac:(lra)). pose proof (rn_le (x - 360 * IZR k) 360 ltac:(lra)). rewrite rn_0, rn_360 in *. lra.
  - split; [apply (format_round emin prec Q0)|]. exists k. split; [exact B|]. pose proof (rn_err emin prec Q0 (x - 360 * IZR k)) as R. rewrite (Rabs_pos_eq (x - 360 * IZR k)) in R by lra.
    pose proof V0. pose proof V2. pose proof Ht. assert (u * u <= / 16777216 * u) by (apply Rmult_le_compat_r; lra). assert (u * (x - 360 * IZR k) <= u * 360) by (apply Rmult_le_compat_l; lra). lra.
Qed.
(** Sums of numbers that are not negative. *)
Definition sum_near (k : nat) (c s : R) : Prop := fmt64 c /\ 0 <= s /\ Rabs (c - s) <= ((1 + u) ^ k - 1) * s.
Lemma g_1 k : 1 <= (1 + u) ^ k.
Proof. apply pow_R1_Rle. pose proof V0. lra. Qed.
Lemma sum_near_le k k' c s : (k <= k')%nat -> sum_near k c s -> sum_near k' c s.
Proof. intros L [F [P E]]. split; [exact F|]. split; [exact P|]. eapply Rle_trans; [exact E|]. apply Rmult_le_compat_r; [exact P|]. pose proof V0. pose proof (Rle_pow (1 + u) k k' ltac:(lra) L). lra. Qed.
Lemma sum_near_add k k' c s c' s' : sum_near k c s -> sum_near k' c' s' -> sum_near (S (Nat.max k k')) (rn (c + c')) (s + s').
Proof.
  intros A B. apply (sum_near_le _ (Nat.max k k')) in A; [|lia]. apply (sum_near_le _ (Nat.max k k')) in B; [|lia]. destruct A as [F [P E]], B as [F' [P' E']].
  split; [apply (format_round emin prec Q0)|]. split; [lra|]. pose proof (add_error emin prec Q0 c c' F F') as R. pose proof V0. set (m := Nat.max k k') in *. pose proof (g_1 m) as G. set (g := (1 + u) ^ m) in *.
  assert (D : Rabs (c + c' - (s + s')) <= (g - 1) * (s + s')). { replace (c + c' - (s + s')) with ((c - s) + (c' - s')) by ring. eapply Rle_trans; [apply Rabs_triang|]. lra. }
  assert (M : Rabs (c + c') <= g * (s + s')) by (pose proof (near_abs _ _ (s + s') _ D ltac:(rewrite Rabs_pos_eq; lra)); lra).
  assert (u * Rabs (c + c') <= u * (g * (s + s'))) by (apply Rmult_le_compat_l; lra).
  pose proof (tri (rn (c + c')) (c + c') (s + s')). change ((1 + u) ^ S m) with ((1 + u) * g). lra.
Qed.
Lemma sum_near_self c : fmt64 c -> 0 <= c -> sum_near 0 c c.
Proof. intros F P. split; [exact F|]. split; [exact P|]. rewrite Rminus_eq_0, Rabs_R0. cbn. lra. Qed.
Lemma fmt_0 : fmt64 0. Proof. apply generic_format_0. Qed.
(** The loop. *)
Definition state (k : nat) (s : degrees) (l : list R) : Prop :=
  sum_near k (d_mean s) (total l) /\ d_zero_minus s = existsb (Rltb 270) l /\ d_zero_plus s = existsb (fun x => Rleb x 90) l /\ d_n180 s = half l /\ d_nvalids s = Z.of_nat (length l).
Lemma state_start : state 0 start_r [].
Proof. split; [apply sum_near_self; [apply fmt_0|cbn; lra]|]. repeat split. Qed.
Notation remainders l := (map (modulo_r emin prec) (valids l)).
Lemma state_step k s l v : state k s l -> state (k + length (valids [v])) (mean_step_r emin prec s v) (l ++ remainders [v]).
Proof.
  destruct v as [v|]; cbn [valids flat_map app map length mean_step_r]; [|rewrite Nat.add_0_r, app_nil_r; tauto]. intros [A [B [C [D E]]]]. destruct (modulo_r_ok v) as [[L H] [F _]].
  set (x := modulo_r emin prec v) in *. unfold state. cbn [d_mean d_zero_minus d_zero_plus d_n180 d_nvalids]. rewrite total_app, !existsb_app, half_app, app_length, B, C, D, E. cbn [existsb total fold_right]. rewrite !orb_false_r, Rplus_0_r.
  split. { replace (k + 1)%nat with (S (Nat.max k 0)) by lia. apply sum_near_add; [exact A|apply sum_near_self; [exact F|exact L]]. }
  repeat split; [|cbn [length]; lia]. unfold half at 4. cbn [filter]. destruct (Rleb 180 x); cbn [length]; lia.
Qed.
Lemma state_fold chunk : forall k s l, state k s l -> state (k + length (valids chunk)) (fold_left (mean_step_r emin prec) chunk s) (l ++ remainders chunk).
Proof.
  induction chunk as [|v chunk IH]; intros k s l H; [cbn; rewrite Nat.add_0_r, app_nil_r; exact H|]. cbn [fold_left]. change (v :: chunk) with ([v] ++ chunk). rewrite valids_app, app_length, map_app, app_assoc, Nat.add_assoc. apply IH, state_step, H.
Qed.
Lemma state_combine k k' s l s' l' : state k s l -> state k' s' l' -> state (S (Nat.max k k')) (combine_r emin prec s s') (l ++ l').
Proof.
  intros [A [B [C [D E]]]] [A' [B' [C' [D' E']]]]. unfold state, combine_r. cbn [d_mean d_zero_minus d_zero_plus d_n180 d_nvalids]. rewrite total_app, !existsb_app, half_app, app_length, B, C, D, E, B', C', D', E'.
  split; [apply sum_near_add; assumption|]. repeat split. lia.
Qed.
Lemma state_loop threads : forall k s l, state k s l ->
  exists k', (k' <= k + length (valids (concat threads)) + length threads)%nat /\ state k' (fold_left (fun s l => combine_r emin prec s (fold_left (mean_step_r emin prec) l start_r)) threads s) (l ++ remainders (concat threads)).
Proof.
  induction threads as [|c threads IH]; intros k s l H; [exists k; cbn; rewrite app_nil_r; split; [lia|exact H]|]. cbn [fold_left concat]. rewrite valids_app, map_app, app_assoc, app_length.
  pose proof (state_combine _ _ _ _ _ _ H (state_fold c _ _ _ state_start)) as N. destruct (IH _ _ _ N) as [k' [L S]]. exists k'. cbn [app] in S. split; [cbn [length]; lia|exact S].
Qed.
Lemma g_bound k : INR k * u <= / 1024 -> (1 + u) ^ k - 1 <= 1.01 * (INR k * u).
Proof.
  pose proof V0. pose proof V2. induction k as [|k IH]; [intros _; change (INR 0) with 0; rewrite pow_O; lra|]. rewrite S_INR. intros L. specialize (IH ltac:(lra)). change ((1 + u) ^ S k) with ((1 + u) * (1 + u) ^ k). pose proof (pos_INR k). assert (P : 0 <= INR k * u) by (apply Rmult_le_pos; lra).
  assert ((1 + u) * (1 + u) ^ k <= (1 + u) * (1 + 1.01 * (INR k * u))) by (apply Rmult_le_compat_l; lra). assert (u * (INR k * u) <= u * / 1024) by (apply Rmult_le_compat_l; lra). lra.
Qed.
Lemma total_range l : Forall (fun x => 0 <= x <= 360) l -> 0 <= total l <= 360 * INR (length l).
Proof. induction 1 as [|x l H _ IH]; [cbn; lra|]. cbn [length total fold_right]. rewrite S_INR. unfold total in IH. lra. Qed.
Lemma half_le l : (0 <= half l <= Z.of_nat (length l))%Z.
Proof. unfold half. induction l as [|x l IH]; cbn [filter length]; [lia|]. destruct (Rleb 180 x); cbn [length]; lia. Qed.
Lemma mean_near threads a us : Forall2 (close_together a) (valids (concat threads)) us -> us <> [] -> INR (length us + length threads) * u <= / 1024 ->
  exists m, mean_degrees_r emin prec threads = Some m /\ 0 <= m <= 360 /\ angles_within ((364 * INR (length us + length threads) + 1500) * u) m (total us / INR (length us)).
Proof.
  intros F N D. pose proof V0 as u0. pose proof V2 as u2. pose proof Ht as e2. assert (uu : u * u <= / 16777216 * u) by (apply Rmult_le_compat_r; lra).
  destruct (state_loop threads _ _ _ state_start) as [k [Lk S]]. cbn [app Nat.add] in S. unfold mean_degrees_r, mean_loop_r. set (s := fold_left _ threads start_r) in *. clearbody s. set (l := remainders (concat threads)) in *.
  destruct S as [A [B [C [E G]]]].
  assert (F' : Forall2 (sampled (361 * u) a) l us).
  { unfold l. clear - F Pp Pe. induction F as [|v w vs ws [[j J] W] F IH]; constructor; [|exact IH]. destruct (modulo_r_ok v) as [_ [_ [i [I I']]]]. exists (i - j)%Z. rewrite minus_IZR. split; [lra|]. split; [|exact W].
    replace (w - 360 * (IZR i - IZR j)) with (v - 360 * IZR i) by lra. exact I'. }
  assert (Rg : Forall (fun x => 0 <= x <= 360) l) by (unfold l; apply Forall_forall; intros x X; apply in_map_iff in X; destruct X as [v [<- _]]; apply modulo_r_ok).
  destruct (unrolled (361 * u) a ltac:(lra) l us F') as [K H]. rewrite <- B, <- C in H. set (b := (d_zero_minus s && d_zero_plus s)%bool) in *.
  pose proof (shifted_total _ _ _ _ _ H) as Sh. pose proof (adjusted_bound b l Rg) as Ab. rewrite adjusted_total in Sh, Ab.
  pose proof (F2_length _ _ _ F') as Ln. pose proof (F2_length _ _ _ F) as Ln'. rewrite Ln' in Lk. rewrite Ln in Ab. rewrite Ln in G. pose proof (half_le l) as Hl. rewrite Ln in Hl. pose proof (total_range l Rg) as Tr. rewrite Ln in Tr.
  set (n := INR (length us)) in *. assert (n1 : 1 <= n) by (unfold n; destruct us; [congruence|]; cbn [length]; rewrite S_INR; pose proof (pos_INR (length us)); lra).
  set (d := INR (length us + length threads)) in *. assert (nd : n <= d) by (unfold n, d; rewrite plus_INR; pose proof (pos_INR (length threads)); lra).
  assert (nu : n * u <= / 1024) by (assert (n * u <= d * u) by (apply Rmult_le_compat_r; lra); lra).
  assert (Gd : (1 + u) ^ k - 1 <= 1.01 * (d * u)).
  { assert (kd : INR k <= d) by (apply le_INR; lia). assert (INR k * u <= d * u) by (apply Rmult_le_compat_r; lra). pose proof (g_bound k ltac:(lra)). lra. }
  destruct A as [_ [_ A]]. set (c := d_mean s) in *. set (t := total l) in *.
  assert (Ct : Rabs (c - t) <= 363.6 * (d * u) * n).
  { eapply Rle_trans; [exact A|]. pose proof (g_1 k). apply Rle_trans with (1.01 * (d * u) * (360 * n)); [apply Rmult_le_compat; lra|]. lra. }
  assert (Ct1 : 363.6 * (d * u) * n <= 0.5 * n) by (apply Rmult_le_compat_r; lra).
  assert (hn : Rabs (IZR (half l)) <= n). { rewrite Rabs_pos_eq by (apply IZR_le; lia). unfold n. rewrite INR_IZR_INZ. apply IZR_le. lia. }
  set (h := half l) in *.
  assert (Eh : rn (IZR h) = IZR h). { apply int_exact. assert (Rabs (IZR h) * u <= n * u) by (apply Rmult_le_compat_r; lra). lra. }
  assert (Eh2 : rn (360 * IZR h) = 360 * IZR h).
  { rewrite <- mult_IZR. apply int_exact. rewrite mult_IZR, Rabs_mult, (Rabs_pos_eq 360) by lra. assert (Rabs (IZR h) * u <= n * u) by (apply Rmult_le_compat_r; lra). lra. }
  assert (En : rn (IZR (d_nvalids s)) = n). { rewrite G, <- INR_IZR_INZ. fold n. unfold n. rewrite INR_IZR_INZ. apply int_exact. rewrite <- INR_IZR_INZ. fold n. rewrite Rabs_pos_eq; lra. }
  rewrite E. fold h. rewrite En, Eh, Eh2.
  replace (0 <? d_nvalids s)%Z with true by (symmetry; rewrite G; apply Z.ltb_lt; destruct us; [congruence|cbn; lia]).
  set (X := t - (if b then 360 * IZR h else 0)) in *. set (mean := if b then rn (c - 360 * IZR h) else c).
  assert (un : u * 1 <= u * n) by (apply Rmult_le_compat_l; lra).
  assert (M : Rabs (mean - X) <= (361.1 * u + 363.6 * (d * u)) * n).
  { unfold mean, X in *. destruct b; [|replace (c - (t - 0)) with (c - t) by ring; lra].
    assert (D1 : Rabs (c - 360 * IZR h - (t - 360 * IZR h)) <= 363.6 * (d * u) * n) by (replace (c - 360 * IZR h - (t - 360 * IZR h)) with (c - t) by ring; exact Ct).
    pose proof (near_abs _ _ _ _ D1 Ab) as D2. pose proof (rn_err emin prec Q0 (c - 360 * IZR h)) as R. assert (u * Rabs (c - 360 * IZR h) <= u * (361 * n)) by (apply Rmult_le_compat_l; lra).
    pose proof (tri (rn (c - 360 * IZR h)) (c - 360 * IZR h) (t - 360 * IZR h)). lra. }
  assert (i0 : 0 < / n) by (apply Rinv_0_lt_compat; lra). assert (i1 : n * / n = 1) by (apply Rinv_r; lra).
  assert (Q : Rabs (mean / n - X / n) <= 361.1 * u + 363.6 * (d * u)).
  { unfold Rdiv. rewrite <- Rmult_minus_distr_r, Rabs_mult, (Rabs_pos_eq (/ n)) by lra. apply Rle_trans with ((361.1 * u + 363.6 * (d * u)) * n * / n); [apply Rmult_le_compat_r; lra|]. rewrite Rmult_assoc, i1. lra. }
  assert (Xn : Rabs (X / n) <= 360).
  { unfold Rdiv. rewrite Rabs_mult, (Rabs_pos_eq (/ n)) by lra. apply Rle_trans with (360 * n * / n); [apply Rmult_le_compat_r; lra|]. rewrite Rmult_assoc, i1. lra. }
  pose proof (near_abs _ _ _ _ Q Xn) as Qb. pose proof (rn_err emin prec Q0 (mean / n)) as R. assert (u * Rabs (mean / n) <= u * 361) by (apply Rmult_le_compat_l; lra).
  assert (W : Rabs (X / n - (total us / n - 360 * IZR K)) <= 361 * u).
  { replace (X / n - (total us / n - 360 * IZR K)) with ((X - (total us - 360 * IZR K * n)) * / n) by (field; lra). rewrite Rabs_mult, (Rabs_pos_eq (/ n)) by lra. apply Rle_trans with (361 * u * n * / n); [apply Rmult_le_compat_r; lra|]. rewrite Rmult_assoc, i1. lra. }
  exists (modulo_r emin prec (rn (mean / n))). split; [reflexivity|]. destruct (modulo_r_ok (rn (mean / n))) as [I [_ [j [_ J]]]]. split; [exact I|].
  exists (- j - K)%Z. rewrite minus_IZR, opp_IZR. set (m := modulo_r emin prec (rn (mean / n))) in *.
  match goal with |- Rabs ?z <= _ => replace z with ((m - (rn (mean / n) - 360 * IZR j)) + ((rn (mean / n) - mean / n) + ((mean / n - X / n) + (X / n - (total us / n - 360 * IZR K))))) by ring end.
  eapply Rle_trans; [apply Rabs_triang|]. eapply Rle_trans; [apply Rplus_le_compat_l, Rabs_triang|]. eapply Rle_trans; [apply Rplus_le_compat_l, Rplus_le_compat_l, Rabs_triang|]. assert (0 <= d * u) by (apply Rmult_le_pos; lra). lra.
Qed.
End T.

(** Whatever the precision and the threads, the mean of samples in an arc of 89 degrees is the mean of the angles unrolled along the arc,
    within 364 (n + threads) + 1500 units of roundoff, in degrees. *)
Theorem C144_mean : forall emin prec, (24 <= prec)%Z -> (emin <= 1 - 2 * prec)%Z ->
  forall threads a us, Forall2 (close_together a) (valids (concat threads)) us -> us <> [] -> INR (length us + length threads) * unit_of prec <= / 1024 ->
  exists m, mean_degrees_r emin prec threads = Some m /\ 0 <= m <= 360 /\
    angles_within ((364 * INR (length us + length threads) + 1500) * unit_of prec) m (total us / INR (length us)).
Proof. exact mean_near. Qed.
Print Assumptions C144_mean.
Lemma unit_53 : unit_of 53 = / 9007199254740992.
Proof. unfold unit_of. rewrite pow2. reflexivity. Qed.
Example C144_example : Forall2 (close_together (-1)) (valids (concat [[Some 359; None]; [Some 1; Some (-358)]])) [-1; 1; 2] /\
  exists m, mean_degrees_r (-1074) 53 [[Some 359; None]; [Some 1; Some (-358)]] = Some m /\ angles_within (4000 * unit_of 53) m (2 / 3).
Proof.
  assert (F : Forall2 (close_together (-1)) (valids (concat [[Some 359; None]; [Some 1; Some (-358)]])) [-1; 1; 2]).
  { constructor; [split; [exists 1%Z; lra|lra]|]. constructor; [split; [exists 0%Z; lra|lra]|]. constructor; [split; [exists (-1)%Z; lra|lra]|]. constructor. }
  split; [exact F|]. destruct (C144_mean (-1074) 53 ltac:(lia) ltac:(lia) _ _ _ F ltac:(discriminate)) as [m [E [_ [k K]]]]; [rewrite unit_53; cbn; lra|].
  exists m. split; [exact E|]. exists k. replace (total [-1; 1; 2] / INR (length [-1; 1; 2])) with (2 / 3) in K by (unfold total; cbn; field). eapply Rle_trans; [exact K|]. rewrite unit_53. cbn. lra.
Qed.
(** No valid sample: NaN. *)
Theorem C144_none : forall emin prec threads, valids (concat threads) = [] <-> mean_degrees_r emin prec threads = None.
Proof.
  intros emin prec threads. unfold mean_degrees_r, mean_loop_r.
  assert (G : forall l s, d_nvalids (fold_left (mean_step_r emin prec) l s) = (d_nvalids s + Z.of_nat (length (valids l)))%Z).
  { induction l as [|[v|] l IH]; intros s; cbn [fold_left valids flat_map app length]; [lia| |]; rewrite IH; cbn [mean_step_r d_nvalids]; fold (valids l); lia. }
  assert (H : forall t s, d_nvalids (fold_left (fun s l => combine_r emin prec s (fold_left (mean_step_r emin prec) l start_r)) t s) = (d_nvalids s + Z.of_nat (length (valids (concat t))))%Z).
  { induction t as [|l t IH]; intros s; cbn [fold_left concat]; [cbn; lia|]. rewrite IH, valids_app, app_length. cbn [combine_r d_nvalids]. rewrite G. cbn [start_r d_nvalids]. lia. }
  rewrite H. cbn [start_r d_nvalids]. destruct (valids (concat threads)) as [|x l]; cbn [length].
  - split; reflexivity.
  - destruct (0 <? 0 + Z.of_nat (S (length l)))%Z eqn:E; [|apply Z.ltb_ge in E; lia]. split; discriminate.
Qed.
Print Assumptions C144_none.
Example C144_none_example : valids (concat [[None; None]; []]) = @nil R /\ mean_degrees_r (-1074) 53 [[None; None]; []] = None.
Proof. split; [reflexivity|]. apply C144_none. reflexivity. Qed.

(** Refuted in double precision. *)
Lemma rn_rep x : representable (-1074) 53 x -> rndp (-1074) 53 x = x.
Proof. intros H. apply round_generic; [apply valid_rnd_N|]. apply format_representable, H. Qed.
Lemma trunc_0 x : Rabs x < 1 -> Ztrunc x = 0%Z.
Proof.
  intros H. apply Rabs_def2 in H. destruct (Rle_dec 0 x).
  - rewrite Ztrunc_floor by lra. apply Zfloor_imp. cbn. lra.
  - rewrite Ztrunc_ceil by lra. apply Zceil_imp. cbn. lra.
Qed.
Lemma modulo_small x : 0 <= x < 360 -> modulo_r (-1074) 53 x = rndp (-1074) 53 x.
Proof. intros H. unfold modulo_r. rewrite trunc_0 by (apply Rabs_def1; lra). replace (x - 360 * 0) with x by ring. destruct (Rlt_dec x 0); [lra|reflexivity]. Qed.
Lemma modulo_minus x : -360 < x < 0 -> modulo_r (-1074) 53 x = rndp (-1074) 53 (x + 360).
Proof. intros H. unfold modulo_r. rewrite trunc_0 by (apply Rabs_def1; lra). replace (x - 360 * 0) with x by ring. destruct (Rlt_dec x 0); [reflexivity|lra]. Qed.
Definition below_360 : R := 360 - / 17592186044416.
Definition above_270 : R := -90 + / 70368744177664.
Ltac test := unfold Rltb, Rleb; repeat match goal with |- context [Rlt_dec ?a ?b] => destruct (Rlt_dec a b) as [?|?]; try (exfalso; lra) | |- context [Rle_dec ?a ?b] => destruct (Rle_dec a b) as [?|?]; try (exfalso; lra) end.
(** FINDING 241.  The mean of the number just below 360 and three zeros is 360: the result of modulo is not always below the divisor. *)
Theorem C144_range_refuted : mean_degrees_r (-1074) 53 [[Some below_360; Some 0; Some 0; Some 0]] = Some 360 /\
  Forall2 (close_together (-1)) (valids [Some below_360; Some 0; Some 0; Some 0]) [below_360 - 360; 0; 0; 0].
Proof.
  assert (Z0 : rndp (-1074) 53 0 = 0) by (apply (rndp_int 0); lia). assert (B : rndp (-1074) 53 below_360 = below_360).
  { unfold below_360. rewrite (rnd53 44 6333186975989759); [|lia| |apply Rabs_def1]; change (2 ^ 44)%Z with 17592186044416%Z; change (2 ^ 52)%Z with 4503599627370496%Z; change (2 ^ 53)%Z with 9007199254740992%Z; lra. }
  split.
  - unfold mean_degrees_r, mean_loop_r. cbn [fold_left mean_step_r start_r d_mean d_zero_minus d_zero_plus d_n180 d_nvalids].
    rewrite (modulo_small below_360), (modulo_small 0), Z0, B by (unfold below_360; lra). rewrite !Rplus_0_l, !Rplus_0_r, !B.
    cbn [combine_r d_mean d_zero_minus d_zero_plus d_n180 d_nvalids]. rewrite !Rplus_0_l, !B. unfold below_360. test. cbn [orb andb Z.add Z.ltb Z.compare].
    change (d_nvalids start_r + Z.pos (1 + 1 + 1 + 1))%Z with 4%Z. change (d_n180 start_r + 1)%Z with 1%Z. cbn [Z.ltb Z.compare d_zero_minus d_zero_plus start_r orb andb].
    rewrite (rndp_int 1), (rndp_int 4) by lia. replace (360 * 1) with (IZR 360) by ring. rewrite (rndp_int 360) by lia.
    assert (R1 : rndp (-1074) 53 (360 - / 17592186044416 - 360) = - / 17592186044416).
    { replace (360 - / 17592186044416 - 360) with (- / 17592186044416) by ring. apply rn_rep. exists (-1)%Z, (-44)%Z. split; [|lia]. rewrite pow2. unfold bpow. change (Z.pow_pos radix2 44) with 17592186044416%Z. lra. }
    rewrite R1. assert (R2 : rndp (-1074) 53 (- / 17592186044416 / 4) = - / 70368744177664).
    { replace (- / 17592186044416 / 4) with (- / 70368744177664) by lra. apply rn_rep. exists (-1)%Z, (-46)%Z. split; [|lia]. rewrite pow2. unfold bpow. change (Z.pow_pos radix2 46) with 70368744177664%Z. lra. }
    rewrite R2, modulo_minus by lra. f_equal.
    rewrite (rnd53 44 6333186975989760); [|lia| |apply Rabs_def1]; change (2 ^ 44)%Z with 17592186044416%Z; change (2 ^ 52)%Z with 4503599627370496%Z; change (2 ^ 53)%Z with 9007199254740992%Z; lra.
  - constructor; [split; [exists 1%Z; lra|unfold below_360; lra]|]. repeat (constructor; [split; [exists 0%Z; lra|lra]|]). constructor.
Qed.
Print Assumptions C144_range_refuted.
(** FINDING 242.  Samples in an arc of less than 90 degrees, of which one, negative, is rounded to 270: the mean is 135 instead of -45. *)
Theorem C144_arc_refuted : mean_degrees_r (-1074) 53 [[Some above_270; Some 0]] = Some 135 /\
  Forall2 (gathered above_270) (valids [Some above_270; Some 0]) [above_270; 0] /\ ~ angles_within 179 135 (total [above_270; 0] / 2).
Proof.
  assert (Z0 : rndp (-1074) 53 0 = 0) by (apply (rndp_int 0); lia). assert (B : rndp (-1074) 53 270 = 270) by (apply (rndp_int 270); lia). assert (C : rndp (-1074) 53 135 = 135) by (apply (rndp_int 135); lia).
  assert (M : modulo_r (-1074) 53 above_270 = 270).
  { rewrite modulo_minus by (unfold above_270; lra). unfold above_270. rewrite (rnd53 44 4749890231992320); [|lia| |apply Rabs_def1]; change (2 ^ 44)%Z with 17592186044416%Z; change (2 ^ 52)%Z with 4503599627370496%Z; change (2 ^ 53)%Z with 9007199254740992%Z; lra. }
  split; [|split].
  - unfold mean_degrees_r, mean_loop_r. cbn [fold_left mean_step_r start_r d_mean d_zero_minus d_zero_plus d_n180 d_nvalids].
    rewrite M, (modulo_small 0), Z0 by lra. rewrite !Rplus_0_l, !Rplus_0_r, !B.
    cbn [combine_r d_mean d_zero_minus d_zero_plus d_n180 d_nvalids]. rewrite !Rplus_0_l, !B. test.
    change (d_nvalids start_r + (0 + 1 + 1))%Z with 2%Z. cbn [Z.ltb Z.compare d_zero_minus d_zero_plus start_r orb andb].
    rewrite (rndp_int 2) by lia. replace (270 / 2) with 135 by lra. rewrite C, modulo_small, C by lra. reflexivity.
  - constructor; [split; [exists 0%Z; lra|lra]|]. constructor; [split; [exists 0%Z; lra|unfold above_270; lra]|]. constructor.
  - intros [k K]. unfold total, above_270 in K. cbn [fold_right] in K. apply Rabs_le_inv in K. assert (0 < k)%Z by (apply lt_IZR; lra). assert (k < 1)%Z by (apply lt_IZR; lra). lia.
Qed.
Print Assumptions C144_arc_refuted.
