(** Property C102: integers computed through double precision numbers. *)
From Coq Require Import ZArith Reals Lra Lia List Bool.
From Flocq Require Import Core Relative.
From Verif Require Import Base BaseFacts PTModel AcqModel MpiModel StrLogModel StrLogProps HpModel FloatModel.
Import ListNotations.
Open Scope R_scope.

(** ** Helpers *)
Local Instance prec_pos : Prec_gt_0 53. Proof. reflexivity. Qed.

Lemma rnd64_error x : bpow radix2 (-1022) <= Rabs x -> Rabs (rnd64 x - x) <= / IZR (2 ^ 53) * Rabs x.
Proof.
  intros H. replace (/ IZR (2 ^ 53)) with (/ 2 * bpow radix2 (- 53 + 1)).
  - exact (relative_error_N_FLT radix2 (-1074) 53 prec_pos (fun n => negb (Z.even n)) x H).
  - replace (bpow radix2 (- 53 + 1)) with (/ IZR (2 ^ 52)) by reflexivity.
    replace (2 ^ 53)%Z with (2 * 2 ^ 52)%Z by reflexivity. rewrite mult_IZR, Rinv_mult_distr.
    + reflexivity.
    + lra.
    + apply IZR_neq. discriminate.
Qed.

Lemma tiny_le x : / IZR (2 ^ 60) <= x -> bpow radix2 (-1022) <= x.
Proof.
  intros H. apply Rle_trans with (2 := H). change (/ IZR (2 ^ 60)) with (bpow radix2 (-60)). apply bpow_le. lia.
Qed.

Lemma quotient_small a b : (0 < a)%Z -> (1 <= b <= 2 ^ 60)%Z -> / IZR (2 ^ 60) <= IZR a / IZR b.
Proof.
  intros A B. assert (PB : 0 < IZR b) by (apply IZR_lt; lia).
  assert (A1 : 1 <= IZR a) by (apply IZR_le; lia).
  assert (BB : IZR b <= IZR (2 ^ 60)) by (apply IZR_le; lia).
  apply Rle_trans with (/ IZR b).
  - apply Rinv_le; [exact PB|exact BB].
  - unfold Rdiv. rewrite <- (Rmult_1_l (/ IZR b)) at 1.
    apply Rmult_le_compat_r; [left; now apply Rinv_0_lt_compat|exact A1].
Qed.

(** A rounded quotient stays above the integers below the quotient. *)
Lemma rnd64_gap a b k : (0 < a < 2 ^ 53)%Z -> (1 <= b <= 2 ^ 60)%Z -> (k * b < a)%Z -> IZR k < div64 a b.
Proof.
  intros A B K. unfold div64. set (q := IZR a / IZR b).
  assert (PB : 0 < IZR b) by (apply IZR_lt; lia).
  assert (PA : 0 < IZR a) by (apply IZR_lt; lia).
  assert (Q : 0 < q) by (apply Rmult_lt_0_compat; [exact PA|now apply Rinv_0_lt_compat]).
  assert (E := rnd64_error q). rewrite (Rabs_pos_eq q) in E by lra.
  specialize (E (tiny_le _ (quotient_small a b ltac:(lia) B))).
  assert (P53 : 0 < IZR (2 ^ 53)) by (apply IZR_lt; lia).
  assert (A53 : IZR a < IZR (2 ^ 53)) by (apply IZR_lt; lia).
  assert (S : / IZR (2 ^ 53) * q < / IZR b).
  { unfold q, Rdiv. rewrite <- Rmult_assoc. rewrite <- (Rmult_1_l (/ IZR b)) at 2.
    apply Rmult_lt_compat_r; [now apply Rinv_0_lt_compat|].
    apply (Rmult_lt_reg_l (IZR (2 ^ 53))); [exact P53|]. rewrite <- Rmult_assoc, Rinv_r, Rmult_1_l, Rmult_1_r; [exact A53|lra]. }
  assert (KQ : IZR k + / IZR b <= q).
  { unfold q. apply (Rmult_le_reg_r (IZR b)); [exact PB|].
    replace ((IZR k + / IZR b) * IZR b) with (IZR k * IZR b + 1) by (field; lra).
    replace (IZR a / IZR b * IZR b) with (IZR a) by (field; lra).
    rewrite <- mult_IZR, <- plus_IZR. apply IZR_le. lia. }
  apply Rabs_le_inv in E. lra.
Qed.

Lemma div64_le a b c : (0 <= c < 2 ^ 53)%Z -> (1 <= b)%Z -> (a <= c * b)%Z -> div64 a b <= IZR c.
Proof.
  intros C B A. assert (PB : 0 < IZR b) by (apply IZR_lt; lia).
  rewrite <- (rnd64_int c) by lia. apply rnd64_le.
  apply (Rmult_le_reg_r (IZR b)); [exact PB|].
  replace (IZR a / IZR b * IZR b) with (IZR a) by (field; lra). rewrite <- mult_IZR. now apply IZR_le.
Qed.

Lemma div64_0 b : div64 0 b = 0.
Proof. unfold div64, Rdiv. rewrite Rmult_0_l. change 0 with (IZR 0). now rewrite rnd64_int. Qed.

Lemma ceil_div64_ok a b : (0 <= a < 2 ^ 53)%Z -> (1 <= b <= 2 ^ 60)%Z -> ceil_div64 a b = cdiv a b.
Proof.
  intros A B. unfold ceil_div64. destruct (Z.eq_dec a 0) as [ -> |N].
  { rewrite div64_0. change 0 with (IZR 0). rewrite Zceil_IZR. unfold cdiv. reflexivity. }
  assert (C : (cdiv a b * b >= a /\ (cdiv a b - 1) * b < a)%Z).
  { unfold cdiv. pose proof (Z.div_mod (- a) b ltac:(lia)). pose proof (Z.mod_pos_bound (- a) b ltac:(lia)). lia. }
  destruct C as [C1 C2].
  assert (0 < cdiv a b)%Z by (destruct (Z_lt_le_dec 0 (cdiv a b)); [assumption|]; exfalso;
    assert (cdiv a b * b <= 0)%Z by (apply Z.mul_nonpos_nonneg; lia); lia).
  assert (cdiv a b <= a)%Z.
  { assert ((cdiv a b - 1) * 1 <= (cdiv a b - 1) * b)%Z by (apply Z.mul_le_mono_nonneg_l; lia). lia. }
  apply Zceil_imp. split.
  - apply rnd64_gap; lia.
  - apply div64_le; lia.
Qed.

Lemma differs64_ok a b : (0 <= a < 2 ^ 53)%Z -> (1 <= b <= 2 ^ 60)%Z -> differs64 a b = negb (a mod b =? 0)%Z.
Proof.
  intros A B. unfold differs64.
  pose proof (Z.div_mod a b ltac:(lia)) as D. pose proof (Z.mod_pos_bound a b ltac:(lia)) as M.
  assert (Q : (0 <= a / b <= a)%Z) by (split; [apply Z.div_pos; lia|apply Z.div_le_upper_bound; nia]).
  destruct (Z.eqb_spec (a mod b) 0) as [E|E]; cbn [negb].
  - destruct (Req_EM_T (div64 a b) (IZR (a / b))) as [_|N]; [reflexivity|]. exfalso. apply N.
    unfold div64. rewrite <- (rnd64_int (a / b)) by lia. f_equal.
    rewrite D at 1. rewrite E, Z.add_0_r, mult_IZR. field. apply IZR_neq. lia.
  - destruct (Req_EM_T (div64 a b) (IZR (a / b))) as [F|_]; [|reflexivity]. exfalso.
    assert (IZR (a / b) < div64 a b); [|lra]. apply rnd64_gap; nia.
Qed.

Lemma round_even_near z n : Rabs (z - IZR n) < / 2 -> round_even z = n.
Proof.
  intros H. apply Rabs_lt_inv in H. unfold round_even.
  assert (I : Int_part z = n \/ Int_part z = (n - 1)%Z).
  { destruct (base_Int_part z) as [I1 I2].
    assert (IZR (Int_part z) < IZR (n + 1)) by (rewrite plus_IZR; lra).
    assert (IZR (n - 2) < IZR (Int_part z)) by (rewrite minus_IZR; lra).
    apply lt_IZR in H0. apply lt_IZR in H1. lia. }
  destruct I as [ -> | -> ].
  - destruct (Rlt_dec (z - IZR n) (/ 2)); [reflexivity|lra].
  - rewrite minus_IZR. destruct (Rlt_dec (z - (IZR n - 1)) (/ 2)); [lra|].
    destruct (Rlt_dec (/ 2) (z - (IZR n - 1))); [lia|lra].
Qed.

Lemma sqrt_between x l u : 0 <= l -> 0 <= u -> l * l <= x <= u * u -> l <= sqrt x <= u.
Proof.
  intros L U [H1 H2]. split.
  - rewrite <- (sqrt_square l L). now apply sqrt_le_1_alt.
  - rewrite <- (sqrt_square u U). now apply sqrt_le_1_alt.
Qed.

Lemma nside64_square n : (0 <= n <= 2 ^ 50)%Z -> nside64 (12 * (n * n)) = n.
Proof.
  intros N. unfold nside64, div64.
  replace (IZR (12 * (n * n)) / 12) with (IZR n * IZR n) by (rewrite !mult_IZR; field).
  apply round_even_near.
  destruct (Z.eq_dec n 0) as [ -> |NZ].
  { rewrite Rmult_0_l. change 0 with (IZR 0). rewrite rnd64_int, sqrt_0 by lia.
    change 0 with (IZR 0). rewrite rnd64_int by lia. rewrite Rminus_0_r, Rabs_R0. lra. }
  assert (N1 : 1 <= IZR n) by (apply IZR_le; lia).
  assert (N2 : IZR n <= IZR (2 ^ 50)) by (apply IZR_le; lia).
  set (e := / IZR (2 ^ 53)).
  assert (EP : 0 < e < 1 / 1000).
  { unfold e. split; [apply Rinv_0_lt_compat, IZR_lt; lia|].
    apply (Rmult_lt_reg_l (IZR (2 ^ 53))); [apply IZR_lt; lia|].
    rewrite Rinv_r by (apply IZR_neq; discriminate). change (2 ^ 53)%Z with 9007199254740992%Z. lra. }
  assert (NE : IZR n * e <= 1 / 8).
  { unfold e. apply Rle_trans with (IZR (2 ^ 50) * / IZR (2 ^ 53)).
    - apply Rmult_le_compat_r; [lra|exact N2].
    - replace (2 ^ 53)%Z with (8 * 2 ^ 50)%Z by reflexivity. rewrite mult_IZR.
      apply Req_le. field. apply IZR_neq. discriminate. }
  set (m := IZR n) in *.
  assert (TINY : / IZR (2 ^ 60) <= 1).
  { rewrite <- Rinv_1 at 1. apply Rinv_le; [lra|]. change 1 with (IZR 1). apply IZR_le. lia. }
  assert (X := rnd64_error (m * m)). rewrite (Rabs_pos_eq (m * m)) in X by nra.
  assert (MM : 1 <= m * m) by nra.
  specialize (X (tiny_le _ (Rle_trans _ _ _ TINY MM))). fold e in X. apply Rabs_le_inv in X.
  set (x := rnd64 (m * m)) in *.
  assert (Y : m * (1 - e) <= sqrt x <= m * (1 + e)).
  { assert (M2 : 0 <= m * m) by nra.
    assert (E1 : (1 - e) * (1 - e) <= 1 - e) by nra. assert (E2 : 1 + e <= (1 + e) * (1 + e)) by nra.
    apply sqrt_between; [apply Rmult_le_pos; lra|apply Rmult_le_pos; lra|]. split.
    - replace (m * (1 - e) * (m * (1 - e))) with (m * m * ((1 - e) * (1 - e))) by ring.
      apply Rle_trans with (m * m * (1 - e)); [now apply Rmult_le_compat_l|lra].
    - replace (m * (1 + e) * (m * (1 + e))) with (m * m * ((1 + e) * (1 + e))) by ring.
      apply Rle_trans with (m * m * (1 + e)); [lra|now apply Rmult_le_compat_l]. }
  assert (ME : m * e <= 1 / 8) by exact NE.
  assert (Y1 : 1 / 2 <= sqrt x) by lra.
  assert (Z := rnd64_error (sqrt x)). rewrite (Rabs_pos_eq (sqrt x)) in Z by lra.
  assert (TINY2 : / IZR (2 ^ 60) <= 1 / 2).
  { unfold Rdiv. rewrite Rmult_1_l. apply Rinv_le; [lra|]. apply IZR_le. lia. }
  specialize (Z (tiny_le _ (Rle_trans _ _ _ TINY2 Y1))). fold e in Z. apply Rabs_le_inv in Z.
  set (z := rnd64 (sqrt x)) in *. set (y := sqrt x) in *. 
  assert (YE : e * y <= 1 / 8 + 1 / 1000).
  { apply Rle_trans with (e * (m * (1 + e))); [apply Rmult_le_compat_l; lra|].
    replace (e * (m * (1 + e))) with (m * e + m * e * e) by ring.
    assert (m * e * e <= 1 / 8 * (1 / 1000)) by (apply Rmult_le_compat; [apply Rmult_le_pos; lra|lra|lra|lra]). lra. }
  apply Rabs_lt. replace (m * (1 - e)) with (m - m * e) in Y by ring. replace (m * (1 + e)) with (m + m * e) in Y by ring. lra.
Qed.

Lemma nside64_nonneg s : (0 <= s)%Z -> (0 <= nside64 s)%Z.
Proof.
  intros S. unfold nside64. set (z := rnd64 _).
  assert (Z0 : 0 <= z). { change 0 with (IZR 0). rewrite <- (rnd64_int 0) by lia. apply rnd64_le. apply sqrt_pos. }
  unfold round_even. assert (I : (0 <= Int_part z)%Z).
  { destruct (base_Int_part z) as [_ I2]. assert (IZR (-1) < IZR (Int_part z)) by lra. apply lt_IZR in H. lia. }
  destruct (Rlt_dec _ _); [exact I|]. destruct (Rlt_dec _ _); [lia|]. destruct (Z.even _); lia.
Qed.

Lemma nside_exact n : (0 <= n)%Z -> round_even (sqrt (IZR (12 * (n * n)) / 12)) = n.
Proof.
  intros N. replace (IZR (12 * (n * n)) / 12) with (IZR n * IZR n) by (rewrite !mult_IZR; field).
  rewrite sqrt_square by (apply IZR_le; exact N). apply round_even_near. rewrite Rminus_eq_0, Rabs_R0. lra.
Qed.

Lemma round_even_nonneg z : 0 <= z -> (0 <= round_even z)%Z.
Proof.
  intros Z0. unfold round_even. assert (I : (0 <= Int_part z)%Z).
  { destruct (base_Int_part z) as [_ I2]. assert (IZR (-1) < IZR (Int_part z)) by lra. apply lt_IZR in H. lia. }
  destruct (Rlt_dec _ _); [exact I|]. destruct (Rlt_dec _ _); [lia|]. destruct (Z.even _); lia.
Qed.

(** ** C102 *)

(** Quotients rounded up and tests of divisibility are those of integers. *)
Theorem C102_division : forall a b, (0 <= a < 2 ^ 53)%Z -> (1 <= b <= 2 ^ 60)%Z ->
  (ceil_div64 a b * b >= a /\ (ceil_div64 a b - 1) * b < a)%Z /\
  (differs64 a b = false <-> (b | a)%Z).
Proof.
  intros a b A B. rewrite ceil_div64_ok, differs64_ok by assumption. split.
  - unfold cdiv. pose proof (Z.div_mod (- a) b ltac:(lia)). pose proof (Z.mod_pos_bound (- a) b ltac:(lia)). lia.
  - rewrite negb_false_iff, Z.eqb_eq. apply Z.mod_divide. lia.
Qed.
Print Assumptions C102_division.

(** Slices of a table, blocks of an acquisition, shares of the processes, numbers of sides:
    the functions with their divisions in double precision are those of the other models
    (C01, C49, C30, C87). *)
Theorem C102_slices : forall s n, (0 <= n < 2 ^ 52)%Z ->
  (forall k, sl_step s = Some k -> Z.abs k <= 2 ^ 60)%Z ->
  (forall k, sl_stop s = Some k -> - 2 ^ 51 <= k)%Z ->
  normalize_slice64 s n = normalize_slice s n.
Proof.
  intros s n N K V. unfold normalize_slice64, normalize_slice.
  set (step := match sl_step s with None => 1%Z | Some k => k end).
  destruct (Z.eqb_spec step 0) as [|NZ]; [reflexivity|].
  assert (SB : (1 <= Z.abs step <= 2 ^ 60)%Z).
  { split; [lia|]. unfold step. destruct (sl_step s) as [k|]; [now apply K|]. cbn. lia. }
  assert (G : forall start, (0 <= start <= n \/ start = n - 1)%Z ->
    (let stop := match sl_stop s with
      | None => if (0 <? step)%Z then n else (-1)%Z
      | Some v => if (v <? 0)%Z then (n + v)%Z else if (n <? v)%Z then n else v end in
     0 <= (if 0 <? step then Z.max (stop - start) 0 else Z.max (start - stop) 0) < 2 ^ 53)%Z).
  { intros start S. cbv zeta. destruct (sl_stop s) as [v|] eqn:E.
    - specialize (V v eq_refl). destruct (Z.ltb_spec v 0), (Z.ltb_spec n v), (0 <? step)%Z; lia.
    - destruct (0 <? step)%Z; lia. }
  cbv zeta in *.
  destruct (sl_start s) as [v|].
  - destruct (Z.ltb_spec v 0).
    + destruct (Z.ltb_spec (n + v) 0).
      * destruct (step <? 0)%Z; [reflexivity|]. rewrite ceil_div64_ok; [reflexivity|apply G; lia|exact SB].
      * rewrite ceil_div64_ok; [reflexivity|apply G; lia|exact SB].
    + destruct (Z.leb_spec n v).
      * destruct (0 <? step)%Z eqn:ST; [reflexivity|]. rewrite ceil_div64_ok; [reflexivity| |exact SB].
        specialize (G (n - 1)%Z ltac:(lia)). rewrite ?ST in G. exact G.
      * rewrite ceil_div64_ok; [reflexivity|apply G; lia|exact SB].
  - destruct (0 <? step)%Z eqn:ST.
    + rewrite ceil_div64_ok; [reflexivity| |exact SB]. specialize (G 0%Z ltac:(lia)). rewrite ?ST in G. exact G.
    + rewrite ceil_div64_ok; [reflexivity| |exact SB]. specialize (G (n - 1)%Z ltac:(lia)). rewrite ?ST in G. exact G.
Qed.
Print Assumptions C102_slices.

Theorem C102_blocks : forall n nbytes m, (nbytes < 2 ^ 53)%Z -> (forall k, m = Some k -> 1 <= k)%Z ->
  make_blocks64 n nbytes m = make_blocks n nbytes m.
Proof.
  intros n nbytes [k|] B K; [|reflexivity]. specialize (K k eq_refl). unfold make_blocks64, make_blocks.
  destruct (Z.ltb_spec k nbytes); [|reflexivity]. rewrite ceil_div64_ok by lia. reflexivity.
Qed.
Print Assumptions C102_blocks.

Lemma cdivn64_ok a b : (Z.of_nat a < 2 ^ 53)%Z -> (1 <= Z.of_nat b <= 2 ^ 60)%Z -> cdivn64 a b = cdivn a b.
Proof.
  intros A B. unfold cdivn64, cdivn. rewrite ceil_div64_ok by lia. unfold cdiv.
  apply Nat2Z.inj. rewrite Nat2Z.inj_div, Nat2Z.inj_sub, Nat2Z.inj_add by lia.
  assert (E : (- (- Z.of_nat a / Z.of_nat b) = (Z.of_nat a + Z.of_nat b - 1) / Z.of_nat b)%Z).
  { pose proof (Z.div_mod (- Z.of_nat a) (Z.of_nat b) ltac:(lia)) as D1.
    pose proof (Z.mod_pos_bound (- Z.of_nat a) (Z.of_nat b) ltac:(lia)) as D2.
    apply (Z.div_unique_pos _ _ _ (Z.of_nat b - 1 - (- Z.of_nat a) mod Z.of_nat b)); lia. }
  rewrite Z2Nat.id; [exact E|]. rewrite E. apply Z.div_pos; lia.
Qed.

Lemma for_x64_ok nx ny size bs xs last : (Z.of_nat nx < 2 ^ 53)%Z -> (Z.of_nat ny < 2 ^ 53)%Z ->
  (Z.of_nat bs < 2 ^ 53)%Z -> (forall x, In x xs -> 1 <= x <= bs)%nat ->
  for_x64 nx ny size bs xs last = for_x nx ny size bs xs last.
Proof.
  intros HX HY HB. revert last. induction xs as [|x xs IH]; intros last H; [reflexivity|].
  assert (Hx := H x (or_introl eq_refl)). cbn [for_x64 for_x].
  rewrite differs64_ok by lia.
  assert (E : (Z.of_nat bs mod Z.of_nat x =? 0)%Z = (bs mod x =? 0)%nat).
  { rewrite <- Nat2Z.inj_mod. destruct (Nat.eqb_spec (bs mod x) 0) as [ -> |N]; [reflexivity|].
    apply Z.eqb_neq. lia. }
  rewrite E. destruct (bs mod x =? 0)%nat; cbn [negb].
  - assert (Y : (1 <= bs / x <= bs)%nat).
    { split; [apply Nat.div_le_lower_bound; lia|apply Nat.div_le_upper_bound; nia]. }
    rewrite !cdivn64_ok by lia. destruct (fits size _); [reflexivity|].
    apply IH. intros y Hy. apply H. now right.
  - apply IH. intros y Hy. apply H. now right.
Qed.

Lemma find_blocks64_ok fuel nx ny size bs last : (Z.of_nat nx < 2 ^ 53)%Z -> (Z.of_nat ny < 2 ^ 53)%Z ->
  (Z.of_nat fuel + Z.of_nat bs < 2 ^ 53)%Z -> find_blocks64 fuel nx ny size bs last = find_blocks fuel nx ny size bs last.
Proof.
  intros HX HY. revert bs last. induction fuel as [|fuel IH]; intros bs last H; [reflexivity|].
  cbn [find_blocks64 find_blocks]. rewrite for_x64_ok; try lia.
  2:{ intros x Hx. apply in_seq in Hx. lia. }
  destruct (for_x _ _ _ _ _ _) as [l|]; [|reflexivity]. destruct (fits size l); [reflexivity|]. apply IH. lia.
Qed.

Lemma good_positions_length mask : (length (good_positions mask) <= length mask)%nat.
Proof.
  unfold good_positions. rewrite <- (seq_length (length mask) 0) at 2. generalize (seq 0 (length mask)). intros l.
  induction l as [|x l IH]; [apply le_n|]. cbn [filter]. destruct (negb _); cbn [length]; lia.
Qed.

Lemma cdivn_le a b : (1 <= b)%nat -> (cdivn a b <= a)%nat.
Proof.
  intros B. unfold cdivn. destruct a as [|a]; [rewrite Nat.div_small by lia; lia|].
  apply Nat.div_le_upper_bound; [lia|]. clear - B. destruct b as [|b]; [lia|]. cbn. nia.
Qed.

Theorem C102_distribution : forall O (mask : list bool) (obs : list O) size nthreads rank,
  (1 <= Z.of_nat size <= 2 ^ 60)%Z -> (1 <= Z.of_nat nthreads <= 2 ^ 60)%Z ->
  (Z.of_nat (length mask) < 2 ^ 51)%Z -> (Z.of_nat (length obs) < 2 ^ 51)%Z ->
  (Z.of_nat (length obs) * Z.of_nat (length mask) < 2 ^ 51)%Z ->
  distribute64 mask obs size nthreads rank = distribute mask obs size nthreads rank.
Proof.
  intros O mask obs size nthreads rank HS HT HM HO HP. unfold distribute64, distribute.
  destruct (size =? 1)%nat; [reflexivity|].
  pose proof (good_positions_length mask) as G.
  rewrite (cdivn64_ok (length (good_positions mask))) by lia.
  set (ny := cdivn (length (good_positions mask)) nthreads).
  assert (NY : (ny <= length mask)%nat).
  { unfold ny. apply Nat.le_trans with (2 := G). apply cdivn_le. lia. }
  assert (NN : (Z.of_nat (length obs * ny) < 2 ^ 51)%Z).
  { rewrite Nat2Z.inj_mul. apply Z.le_lt_trans with (2 := HP). apply Z.mul_le_mono_nonneg_l; lia. }
  rewrite cdivn64_ok by lia.
  assert (C : (cdivn (length obs * ny) size <= length obs * ny)%nat).
  { apply cdivn_le. lia. }
  rewrite find_blocks64_ok by lia. reflexivity.
Qed.
Print Assumptions C102_distribution.

Theorem C102_sides : forall shape, (forall s rest, shape = s :: rest -> 0 <= s <= 12 * 2 ^ 100)%Z ->
  validatein64 shape = validatein shape.
Proof.
  assert (G : forall s, (0 <= s <= 12 * 2 ^ 100)%Z ->
    (12 * (nside64 s * nside64 s) =? s)%Z =
    (let n := round_even (sqrt (IZR s / 12)) in 12 * (n * n) =? s)%Z).
  { intros s S. cbv zeta. apply Bool.eq_iff_eq_true. rewrite !Z.eqb_eq. split; intros E.
    - pose proof (nside64_nonneg s ltac:(lia)) as P. rewrite <- E at 1 2. rewrite nside_exact by exact P. exact E.
    - set (n := round_even (sqrt (IZR s / 12))) in *.
      assert (P : (0 <= n)%Z) by (apply round_even_nonneg, sqrt_pos).
      assert (Q : (n <= 2 ^ 50)%Z).
      { apply Z.square_le_simpl_nonneg; [lia|]. replace (2 ^ 50 * 2 ^ 50)%Z with (2 ^ 100)%Z by reflexivity. lia. }
      rewrite <- E. rewrite nside64_square by lia. reflexivity. }
  intros shape H. unfold validatein64, validatein.
  destruct shape as [|s [|t [|u r]]]; try reflexivity;
    (rewrite (G s) by (eapply H; reflexivity); reflexivity).
Qed.
Print Assumptions C102_sides.

(** FINDING 154.  From 2^53 on the sizes are rounded: the slice of everything loses the last
    element. *)
Lemma rnd64_odd : rnd64 (IZR (2 ^ 53 + 1)) = IZR (2 ^ 53).
Proof.
  unfold rnd64, round, F2R, scaled_mantissa, cexp.
  assert (M : mag radix2 (IZR (2 ^ 53 + 1)) = 54%Z :> Z).
  { apply mag_unique_pos. split.
    - change (bpow radix2 (54 - 1)) with (IZR (2 ^ 53)). apply IZR_le. lia.
    - change (bpow radix2 54) with (IZR (2 ^ 54)). apply IZR_lt. lia. }
  rewrite M. change (fexp64 54) with 1%Z. cbn [Defs.Fnum Defs.Fexp].
  change (bpow radix2 (- (1))) with (/ 2). change (bpow radix2 1) with 2.
  assert (X : IZR (2 ^ 53 + 1) * / 2 = IZR (2 ^ 52) + / 2).
  { replace (2 ^ 53 + 1)%Z with (2 * 2 ^ 52 + 1)%Z by reflexivity. rewrite plus_IZR, mult_IZR. field. }
  rewrite X. unfold ZnearestE, Znearest.
  assert (F : Zfloor (IZR (2 ^ 52) + / 2) = (2 ^ 52)%Z).
  { apply Zfloor_imp. rewrite plus_IZR. lra. }
  rewrite F. replace (IZR (2 ^ 52) + / 2 - IZR (2 ^ 52)) with (/ 2) by ring.
  rewrite Rcompare_Eq by reflexivity.
  replace (negb (Z.even (2 ^ 52))) with false by reflexivity.
  replace (2 ^ 53)%Z with (2 ^ 52 * 2)%Z by reflexivity. rewrite mult_IZR. reflexivity.
Qed.
Theorem C102_slices_refuted :
  normalize_slice64 (PySlice None None None) (2 ^ 53 + 1) = Ok (NS 0 (2 ^ 53) 1) /\
  normalize_slice (PySlice None None None) (2 ^ 53 + 1) = Ok NSEll.
Proof.
  split; [|reflexivity].
  assert (E : ceil_div64 (2 ^ 53 + 1) 1 = (2 ^ 53)%Z).
  { unfold ceil_div64, div64. replace (IZR (2 ^ 53 + 1) / 1) with (IZR (2 ^ 53 + 1)) by (unfold Rdiv; rewrite Rinv_1; ring).
    rewrite rnd64_odd. apply Zceil_IZR. }
  unfold normalize_slice64. cbn [sl_step sl_start sl_stop].
  change (Z.max (2 ^ 53 + 1 - 0) 0) with (2 ^ 53 + 1)%Z.
  change (1 =? 0)%Z with false. change (0 <? 1)%Z with true. cbv iota zeta.
  change (Z.max (2 ^ 53 + 1 - 0) 0) with (2 ^ 53 + 1)%Z. change (Z.abs 1) with 1%Z.
  rewrite E. reflexivity.
Qed.
Print Assumptions C102_slices_refuted.

Example C102_example :
  ceil_div64 7 2 = 4%Z /\ differs64 6 3 = false /\ differs64 7 3 = true /\ nside64 (12 * (1000 * 1000)) = 1000%Z /\
  normalize_slice64 (PySlice (Some 1) (Some (-1)) (Some 3))%Z 12 = Ok (NS 1 13 3)%Z /\
  make_blocks64 10 100 (Some 30)%Z = [(0, 3); (3, 6); (6, 8); (8, 10)]%Z.
Proof.
  split; [rewrite ceil_div64_ok by lia; reflexivity|]. split; [rewrite differs64_ok by lia; reflexivity|].
  split; [rewrite differs64_ok by lia; reflexivity|]. split; [apply nside64_square; lia|].
  split.
  - rewrite C102_slices; [reflexivity|lia| |]; cbn; intros k [= <-]; lia.
  - rewrite C102_blocks; [reflexivity|lia|]. intros k [= <-]. lia.
Qed.
