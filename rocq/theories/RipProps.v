(** C142: interpolation, folding and unfolding of spectra with rounded operations. *)
From Coq Require Import Reals ZArith Lra Lia List Sorted.
From Flocq Require Import Core.
From Verif Require Import Base SparseModel NoiseModel PsdModel RndModel RndSpec RndProps BirFacts RipModel RipSpec.
Import ListNotations.
Open Scope R_scope.

Section T.
Variables (emin prec : Z).
Notation rn := (rndp emin prec).
Notation u := (unit_of prec).
Notation eta := (tiny_of emin).
Notation fmt := (generic_format radix2 (FLT_exp emin prec)).
Hypothesis Pp : (8 <= prec)%Z.
Lemma P0 : (0 < prec)%Z. Proof. lia. Qed.
Lemma U0 : 0 < u. Proof. apply u_pos. Qed.
Lemma E0 : 0 < eta. Proof. apply eta_pos. Qed.
Lemma U1 : u <= / 256. Proof. unfold unit_of. rewrite pow2. apply Rle_trans with (bpow radix2 (-8)); [apply bpow_le; lia|]. unfold bpow. change (Z.pow_pos radix2 8) with 256%Z. lra. Qed.
Lemma sub_error a b : fmt a -> fmt b -> Rabs (rn (a - b) - (a - b)) <= u * Rabs (a - b).
Proof. intros Fa Fb. unfold Rminus at 1 3 4. apply (add_error emin prec P0); [exact Fa|]. apply (format_opp emin prec). exact Fb. Qed.
Lemma term X a y : Rabs (a - X) <= u * Rabs X -> Rabs (rn (a * y) - X * y) <= 2.01 * u * Rabs (X * y) + eta.
Proof.
  intros H. pose proof U0. pose proof U1. pose proof (mul_error emin prec P0 a y) as M.
  assert (D : Rabs (a * y - X * y) <= u * Rabs (X * y)).
  { replace (a * y - X * y) with ((a - X) * y) by ring. rewrite !Rabs_mult, <- Rmult_assoc. apply Rmult_le_compat_r; [apply Rabs_pos|exact H]. }
  assert (B : Rabs (a * y) <= (1 + u) * Rabs (X * y)).
  { replace (a * y) with (X * y + (a * y - X * y)) by ring. eapply Rle_trans; [apply Rabs_triang|]. lra. }
  assert (B2 : u * Rabs (a * y) <= u * ((1 + u) * Rabs (X * y))) by (apply Rmult_le_compat_l; lra).
  pose proof (tri (rn (a * y)) (a * y) (X * y)) as T. pose proof (Rabs_pos (X * y)) as P.
  assert (Q : u * (u * Rabs (X * y)) <= / 256 * (u * Rabs (X * y))) by (apply Rmult_le_compat_r; [apply Rmult_le_pos; lra|lra]).
  assert (0 <= u * Rabs (X * y)) by (apply Rmult_le_pos; lra). lra.
Qed.
Lemma numerator X Y a b y1 y2 : Rabs (a - X) <= u * Rabs X -> Rabs (b - Y) <= u * Rabs Y ->
  Rabs (rn (rn (a * y2) + rn (b * y1)) - (X * y2 + Y * y1)) <= 3.05 * u * (Rabs (X * y2) + Rabs (Y * y1)) + 2.01 * eta.
Proof.
  intros Ha Hb. pose proof U0. pose proof U1. pose proof E0. pose proof (term X a y2 Ha) as T1. pose proof (term Y b y1 Hb) as T2.
  pose proof (add_error emin prec P0 (rn (a * y2)) (rn (b * y1)) (format_round emin prec P0 _) (format_round emin prec P0 _)) as S.
  set (p := rn (a * y2)) in *. set (q := rn (b * y1)) in *. set (A := Rabs (X * y2)) in *. set (B := Rabs (Y * y1)) in *.
  assert (0 <= A) by apply Rabs_pos. assert (0 <= B) by apply Rabs_pos.
  assert (D : Rabs (p + q - (X * y2 + Y * y1)) <= 2.01 * u * A + eta + (2.01 * u * B + eta)).
  { replace (p + q - (X * y2 + Y * y1)) with (p - X * y2 + (q - Y * y1)) by ring. eapply Rle_trans; [apply Rabs_triang|]. lra. }
  assert (N : Rabs (p + q) <= A + B + (2.01 * u * A + eta + (2.01 * u * B + eta))).
  { replace (p + q) with (X * y2 + Y * y1 + (p + q - (X * y2 + Y * y1))) by ring. eapply Rle_trans; [apply Rabs_triang|]. pose proof (Rabs_triang (X * y2) (Y * y1)). fold A B in H4. lra. }
  assert (N2 : u * Rabs (p + q) <= u * (A + B + (2.01 * u * A + eta + (2.01 * u * B + eta)))) by (apply Rmult_le_compat_l; lra).
  assert (Q1 : u * (u * (A + B)) <= / 256 * (u * (A + B))) by (apply Rmult_le_compat_r; [apply Rmult_le_pos; lra|lra]).
  assert (Q2 : u * eta <= / 256 * eta) by (apply Rmult_le_compat_r; lra).
  assert (0 <= u * (A + B)) by (apply Rmult_le_pos; lra).
  pose proof (tri (rn (p + q)) (p + q) (X * y2 + Y * y1)). lra.
Qed.
Lemma value_near x1 x2 y1 y2 z : fmt x1 -> fmt x2 -> fmt z -> x1 < x2 ->
  exists r, value_r emin prec x1 x2 y1 y2 z = Some r /\
    Rabs (r - line x1 y1 x2 y2 z) <= 6 * u * size x1 y1 x2 y2 z + 3 * (eta / (x2 - x1)) + eta.
Proof.
  intros F1 F2 Fz L. pose proof U0. pose proof U1. pose proof E0. unfold value_r.
  pose proof (sub_error x2 x1 F2 F1) as Hd. set (D := x2 - x1) in *. set (d := rn D) in *. assert (D0 : 0 < D) by (unfold D; lra). rewrite (Rabs_pos_eq D) in Hd by lra.
  assert (uD : u * D <= / 256 * D) by (apply Rmult_le_compat_r; lra). assert (0 < u * D) by (apply Rmult_lt_0_compat; lra).
  apply Rabs_le_inv in Hd. assert (d0 : 0 < d) by lra. destruct (Req_EM_T d 0) as [E|_]; [lra|]. eexists. split; [reflexivity|].
  pose proof (numerator (z - x1) (x2 - z) _ _ y1 y2 (sub_error z x1 Fz F1) (sub_error x2 z F2 Fz)) as N.
  set (s := rn (rn (rn (z - x1) * y2) + rn (rn (x2 - z) * y1))) in *. set (n := (z - x1) * y2 + (x2 - z) * y1) in *.
  set (A := Rabs ((z - x1) * y2) + Rabs ((x2 - z) * y1)) in *. assert (A0 : 0 <= A) by (unfold A; pose proof (Rabs_pos ((z - x1) * y2)); pose proof (Rabs_pos ((x2 - z) * y1)); lra).
  assert (NA : Rabs n <= A) by apply Rabs_triang.
  assert (Z : line x1 y1 x2 y2 z = n / D) by (unfold line, n, D; field; unfold D in D0; lra).
  assert (ZA : size x1 y1 x2 y2 z = A / D) by (unfold size, A; rewrite !Rabs_mult; reflexivity). rewrite Z, ZA.
  (* relative to D *)
  set (k := A / D). set (h := eta / D). assert (Ek : A = k * D) by (unfold k; field; lra). assert (Eh : eta = h * D) by (unfold h; field; lra).
  assert (k0 : 0 <= k) by (apply Rmult_le_pos; [lra|left; apply Rinv_0_lt_compat; lra]). assert (h0 : 0 <= h) by (apply Rmult_le_pos; [lra|left; apply Rinv_0_lt_compat; lra]).
  assert (Q : Rabs (s / d - n / D) <= 4.1 * u * k + 2.05 * h).
  { replace (s / d - n / D) with (((s - n) - n * ((d - D) / D)) / d) by (field; lra).
    unfold Rdiv at 1. rewrite Rabs_mult, (Rabs_pos_eq (/ d)) by (left; apply Rinv_0_lt_compat; lra). apply (Rmult_le_reg_r d); [lra|]. rewrite Rmult_assoc, Rinv_l, Rmult_1_r by lra.
    assert (M : Rabs (n * ((d - D) / D)) <= A * u).
    { rewrite Rabs_mult. apply Rmult_le_compat; try apply Rabs_pos; [exact NA|]. unfold Rdiv. rewrite Rabs_mult, (Rabs_pos_eq (/ D)) by (left; apply Rinv_0_lt_compat; lra).
      apply (Rmult_le_reg_r D); [lra|]. rewrite Rmult_assoc, Rinv_l, Rmult_1_r by lra. apply Rabs_le. lra. }
    assert (T : Rabs (s - n - n * ((d - D) / D)) <= 3.05 * u * A + 2.01 * eta + A * u).
    { eapply Rle_trans; [unfold Rminus at 1; apply Rabs_triang|]. rewrite Rabs_Ropp. lra. }
    eapply Rle_trans; [exact T|]. assert (G : 255 / 256 * D <= d) by lra.
    assert (V : (4.1 * u * k + 2.05 * h) * (255 / 256 * D) <= (4.1 * u * k + 2.05 * h) * d).
    { apply Rmult_le_compat_l; [|exact G]. assert (0 <= u * k) by (apply Rmult_le_pos; lra). lra. }
    eapply Rle_trans; [|exact V]. rewrite Eh, Ek. assert (0 <= u * (k * D)) by (rewrite <- Ek; apply Rmult_le_pos; lra). assert (0 <= h * D) by lra.
    replace ((4.1 * u * k + 2.05 * h) * (255 / 256 * D)) with (4.1 * (255 / 256) * (u * (k * D)) + 2.05 * (255 / 256) * (h * D)) by ring. lra. }
  pose proof (mul_error emin prec P0 s (/ d)) as V. change (s * / d) with (s / d) in V.
  assert (Bn : Rabs (n / D) <= k) by (unfold Rdiv, k; rewrite Rabs_mult, (Rabs_pos_eq (/ D)) by (left; apply Rinv_0_lt_compat; lra); apply Rmult_le_compat_r; [left; apply Rinv_0_lt_compat; lra|exact NA]).
  assert (B : Rabs (s / d) <= k + (4.1 * u * k + 2.05 * h)).
  { replace (s / d) with (n / D + (s / d - n / D)) by ring. eapply Rle_trans; [apply Rabs_triang|]. lra. }
  assert (B2 : u * Rabs (s / d) <= u * (k + (4.1 * u * k + 2.05 * h))) by (apply Rmult_le_compat_l; lra).
  assert (uk : 0 <= u * k) by (apply Rmult_le_pos; lra). assert (Q1 : u * (u * k) <= / 256 * (u * k)) by (apply Rmult_le_compat_r; lra).
  assert (Q2 : u * h <= / 256 * h) by (apply Rmult_le_compat_r; lra).
  pose proof (tri (rn (s / d)) (s / d) (n / D)). lra.
Qed.
(** Between the nodes: rounding keeps the sign. *)
Lemma rn_nonneg x : 0 <= x -> 0 <= rn x.
Proof. intros H. unfold rndp. apply round_ge_generic; [apply FLT_exp_valid; exact P0|apply valid_rnd_N|apply generic_format_0|exact H]. Qed.
Lemma value_nonneg x1 x2 y1 y2 z r : x1 <= z <= x2 -> 0 <= y1 -> 0 <= y2 -> value_r emin prec x1 x2 y1 y2 z = Some r -> 0 <= r.
Proof.
  intros H H1 H2. unfold value_r. destruct (Req_EM_T (rn (x2 - x1)) 0) as [|D]; [discriminate|]. intros E. injection E as <-.
  assert (G : 0 <= rn (x2 - x1)) by (apply rn_nonneg; lra).
  apply rn_nonneg, Rmult_le_pos; [|left; apply Rinv_0_lt_compat; lra].
  apply rn_nonneg, Rplus_le_le_0_compat; apply rn_nonneg, Rmult_le_pos; try assumption; apply rn_nonneg; lra.
Qed.
Lemma size_between x1 x2 y1 y2 z : x1 < x2 -> x1 <= z <= x2 -> size x1 y1 x2 y2 z <= Rmax (Rabs y1) (Rabs y2).
Proof.
  intros L H. unfold size. apply (Rmult_le_reg_r (x2 - x1)); [lra|]. unfold Rdiv. rewrite Rmult_assoc, Rinv_l, Rmult_1_r by lra. rewrite (Rabs_pos_eq (z - x1)), (Rabs_pos_eq (x2 - z)) by lra.
  set (m := Rmax (Rabs y1) (Rabs y2)).
  assert (A : (z - x1) * Rabs y2 <= (z - x1) * m) by (apply Rmult_le_compat_l; [lra|apply Rmax_r]).
  assert (B : (x2 - z) * Rabs y1 <= (x2 - z) * m) by (apply Rmult_le_compat_l; [lra|apply Rmax_l]). lra.
Qed.
End T.

(** ** The loop over the abscissae *)
Lemma item_nth (l : list R) i : (i < length l)%nat -> exists v, item_at l i = Ok v /\ nth_error l i = Some v.
Proof. intros H. unfold item_at. destruct (nth_error l i) as [v|] eqn:E; [exists v; split; reflexivity|]. apply nth_error_None in E. lia. Qed.
Lemma rising_nth l i j a b : rising l -> (i < j)%nat -> nth_error l i = Some a -> nth_error l j = Some b -> a < b.
Proof.
  intros S. revert i j. induction S as [|c l S IH F]; intros i j L A B; [destruct i; discriminate|]. destruct j as [|j]; [lia|]. cbn in B. destruct i as [|i]; [|apply (IH i j); auto; lia].
  cbn in A. injection A as <-. rewrite Forall_forall in F. apply F, (nth_error_In _ _ B).
Qed.
Lemma advance_ok x z : forall fuel ix, (1 <= ix < length x)%nat -> (length x - ix < fuel)%nat -> (ix = 1%nat \/ exists x1, nth_error x (ix - 1) = Some x1 /\ x1 <= z) ->
  exists k, advance fuel x z ix = Ok k /\ (ix <= k < length x)%nat /\ (k = 1%nat \/ exists x1, nth_error x (k - 1) = Some x1 /\ x1 <= z) /\ (S k = length x \/ exists x2, nth_error x k = Some x2 /\ z <= x2).
Proof.
  induction fuel as [|f IH]; intros ix Hi Hf H; [lia|]. cbn [advance]. destruct (item_nth x ix) as [x2 [I N]]; [lia|]. rewrite I. cbn [bind]. unfold ltb.
  destruct (Rlt_dec x2 z) as [L|L]; cbn [andb].
  - destruct (Nat.ltb_spec ix (length x - 1)) as [Q|Q].
    + destruct (IH (S ix)) as [k [E [B [C D]]]]; [lia|lia|right; exists x2; split; [replace (S ix - 1)%nat with ix by lia; exact N|lra]|]. exists k. split; [exact E|]. split; [lia|]. split; assumption.
    + exists ix. split; [reflexivity|]. split; [lia|]. split; [exact H|left; lia].
  - exists ix. split; [reflexivity|]. split; [lia|]. split; [exact H|]. right. exists x2. split; [exact N|lra].
Qed.
Lemma interp_from_near (P : R -> option R -> Prop) emin prec x y :
  (forall z x1 y1 x2 y2, nodes x y z x1 y1 x2 y2 -> P z (value_r emin prec x1 x2 y1 y2 z)) -> length y = length x ->
  forall zs ix, not_falling zs -> (1 <= ix < length x)%nat -> (ix = 1%nat \/ exists x1, nth_error x (ix - 1) = Some x1 /\ Forall (fun z => x1 <= z) zs) ->
  exists v, interp_from_r emin prec x y ix zs = Ok v /\ Forall2 P zs v.
Proof.
  intros HP Ly. induction zs as [|z zs IH]; intros ix S Hi H; [exists []; split; [reflexivity|constructor]|]. cbn [interp_from_r]. inversion S as [|? ? S' F]; subst.
  destruct (advance_ok x z (Datatypes.S (length x)) ix) as [k [E [B [C D]]]]; [exact Hi|lia| |].
  { destruct H as [->|[x1 [N G]]]; [left; reflexivity|]. right. exists x1. split; [exact N|]. inversion G; assumption. }
  rewrite E. cbn [bind].
  destruct (item_nth x (k - 1)) as [x1 [I1 N1]]; [lia|]. destruct (item_nth x k) as [x2 [I2 N2]]; [lia|]. destruct (item_nth y (k - 1)) as [y1 [J1 M1]]; [lia|]. destruct (item_nth y k) as [y2 [J2 M2]]; [lia|].
  rewrite I1, I2, J1, J2. cbn [bind].
  destruct (IH k S' ltac:(lia)) as [v [Ev Fv]].
  { destruct C as [->|[x1' [N G]]]; [left; reflexivity|]. right. exists x1'. split; [exact N|]. apply Forall_forall. intros w W. rewrite Forall_forall in F. specialize (F w W). lra. }
  rewrite Ev. cbn [bind]. eexists. split; [reflexivity|]. constructor; [|exact Fv]. apply (HP z x1 y1 x2 y2). exists (k - 1)%nat.
  replace (Datatypes.S (k - 1)) with k by lia. repeat split; try assumption.
  - destruct C as [->|[x1' [N G]]]; [left; reflexivity|]. right. rewrite N1 in N. injection N as <-. exact G.
  - destruct D as [D|[x2' [N G]]]; [left; lia|]. right. rewrite N2 in N. injection N as <-. exact G.
Qed.
Lemma interp_near (P : R -> option R -> Prop) emin prec x y z :
  (forall z x1 y1 x2 y2, nodes x y z x1 y1 x2 y2 -> P z (value_r emin prec x1 x2 y1 y2 z)) -> length y = length x -> (2 <= length x)%nat -> not_falling z ->
  exists v, interp_r emin prec z x y = Ok v /\ Forall2 P z v.
Proof.
  intros HP Ly Lx S. unfold interp_r. destruct (item_nth x 0) as [a [Ia _]]; [lia|]. destruct (item_nth x 1) as [b [Ib _]]; [lia|]. rewrite Ia, Ib. cbn [bind].
  apply (interp_from_near P emin prec x y HP Ly z 1 S); [lia|left; reflexivity].
Qed.

(** ** The property *)
(** Every value is near the line through its two nodes, inside and outside of the table. *)
Theorem C142_interp : forall emin prec x y z, (8 <= prec)%Z -> Forall (representable emin prec) x -> Forall (representable emin prec) z ->
  rising x -> not_falling z -> (2 <= length x)%nat -> length y = length x ->
  exists v, interp_r emin prec z x y = Ok v /\
    Forall2 (fun z w => exists x1 y1 x2 y2 r, nodes x y z x1 y1 x2 y2 /\ w = Some r /\
      Rabs (r - line x1 y1 x2 y2 z) <= 6 * unit_of prec * size x1 y1 x2 y2 z + 3 * (tiny_of emin / (x2 - x1)) + tiny_of emin) z v.
Proof.
  intros emin prec x y z Pp Fx Fz Sx Sz Lx Ly.
  destruct (interp_near (fun z w => representable emin prec z -> exists x1 y1 x2 y2 r, nodes x y z x1 y1 x2 y2 /\ w = Some r /\
      Rabs (r - line x1 y1 x2 y2 z) <= 6 * unit_of prec * size x1 y1 x2 y2 z + 3 * (tiny_of emin / (x2 - x1)) + tiny_of emin) emin prec x y z) as [v [E F]]; try assumption.
  { intros w x1 y1 x2 y2 N Rw. pose proof N as [i [N1 [N2 _]]]. rewrite Forall_forall in Fx.
    destruct (value_near emin prec Pp x1 x2 y1 y2 w) as [r [Er B]].
    - apply (format_representable emin prec), Fx, (nth_error_In _ _ N1).
    - apply (format_representable emin prec), Fx, (nth_error_In _ _ N2).
    - apply (format_representable emin prec), Rw.
    - apply (rising_nth x i (S i)); auto.
    - exists x1, y1, x2, y2, r. auto. }
  exists v. split; [exact E|]. clear E Sz. induction F as [|w b zs v H F IH]; [constructor|]. inversion Fz; subst. constructor; auto.
Qed.
Print Assumptions C142_interp.

(** Inside of the table the error is a few units in the last place of the larger value of the two nodes, and a spectrum that is not
    negative stays so. *)
Theorem C142_between : forall emin prec x y z, (8 <= prec)%Z -> Forall (representable emin prec) x -> Forall (representable emin prec) z ->
  rising x -> not_falling z -> (2 <= length x)%nat -> length y = length x ->
  (forall w a b, In w z -> nth_error x 0 = Some a -> nth_error x (length x - 1) = Some b -> a <= w <= b) ->
  exists v, interp_r emin prec z x y = Ok v /\
    Forall2 (fun z w => exists x1 y1 x2 y2 r, nodes x y z x1 y1 x2 y2 /\ x1 <= z <= x2 /\ w = Some r /\
      Rabs (r - line x1 y1 x2 y2 z) <= 6 * unit_of prec * Rmax (Rabs y1) (Rabs y2) + 3 * (tiny_of emin / (x2 - x1)) + tiny_of emin /\
      (Forall (Rle 0) y -> 0 <= r)) z v.
Proof.
  intros emin prec x y z Pp Fx Fz Sx Sz Lx Ly Hz.
  destruct (interp_near (fun z w => representable emin prec z -> (forall a b, nth_error x 0 = Some a -> nth_error x (length x - 1) = Some b -> a <= z <= b) ->
      exists x1 y1 x2 y2 r, nodes x y z x1 y1 x2 y2 /\ x1 <= z <= x2 /\ w = Some r /\
      Rabs (r - line x1 y1 x2 y2 z) <= 6 * unit_of prec * Rmax (Rabs y1) (Rabs y2) + 3 * (tiny_of emin / (x2 - x1)) + tiny_of emin /\
      (Forall (Rle 0) y -> 0 <= r)) emin prec x y z) as [v [E F]]; try assumption.
  { intros w x1 y1 x2 y2 N Rw In. pose proof N as [i [N1 [N2 [M1 [M2 [Lo Hi]]]]]]. rewrite Forall_forall in Fx.
    assert (L12 : x1 < x2) by (apply (rising_nth x i (S i)); auto).
    destruct (value_near emin prec Pp x1 x2 y1 y2 w) as [r [Er B]]; [apply (format_representable emin prec), Fx, (nth_error_In _ _ N1)|apply (format_representable emin prec), Fx, (nth_error_In _ _ N2)|apply (format_representable emin prec), Rw|exact L12|].
    destruct (item_nth x 0) as [a [_ Na]]; [lia|]. destruct (item_nth x (length x - 1)) as [b [_ Nb]]; [lia|]. specialize (In a b Na Nb).
    assert (W : x1 <= w <= x2).
    { split.
      - destruct Lo as [->|Lo]; [|exact Lo]. rewrite Na in N1. injection N1 as <-. lra.
      - destruct Hi as [Hi|Hi]; [|exact Hi]. replace (length x - 1)%nat with (S i) in Nb by lia. rewrite Nb in N2. injection N2 as <-. lra. }
    exists x1, y1, x2, y2, r. split; [exact N|]. split; [exact W|]. split; [exact Er|]. split.
    - pose proof (size_between x1 x2 y1 y2 w L12 W) as S. pose proof (U0 prec) as U. apply (Rmult_le_compat_l (unit_of prec)) in S; lra.
    - intros Fy. rewrite Forall_forall in Fy. apply (value_nonneg emin prec Pp x1 x2 y1 y2 w r W); [apply Fy, (nth_error_In _ _ M1)|apply Fy, (nth_error_In _ _ M2)|exact Er]. }
  exists v. split; [exact E|]. clear E Sz. induction F as [|w b zs v H F IH]; [constructor|]. inversion Fz; subst. constructor; [|apply IH; auto; intros; apply (Hz w0); auto; right; assumption].
  apply H; [assumption|]. intros a' b'. apply Hz. left. reflexivity.
Qed.
Print Assumptions C142_between.
Lemma int_repr n : (Z.abs n < 2 ^ 24)%Z -> representable (-149) 24 (IZR n).
Proof. intros H. exists n, 0%Z. split; [cbn; ring|]. split; [exact H|lia]. Qed.
Example C142_between_example : let x := [1; 2; 4] in let z := [1; 3; 4] in
  Forall (representable (-149) 24) x /\ Forall (representable (-149) 24) z /\ rising x /\ not_falling z /\
  (forall w a b, In w z -> nth_error x 0 = Some a -> nth_error x (length x - 1) = Some b -> a <= w <= b).
Proof.
  cbn zeta. split; [repeat constructor; apply int_repr; lia|]. split; [repeat constructor; apply int_repr; lia|].
  split; [repeat constructor; lra|]. split; [repeat constructor; lra|]. intros w a b I A B. cbn in A, B. injection A as <-. injection B as <-. cbn in I. intuition lra.
Qed.

(** ** At the nodes *)
(** FINDING 239.  The value at a node need not be the value of the node, in double precision: with the nodes 0 and 5, the value at 5 of a
    spectrum that is y = (2^55 + 12) / 5 there is y + 1. *)
Definition ynode : Z := ((2 ^ 55 + 12) / 5)%Z.
Lemma rnd_at (e n : Z) x k : (53 <= k)%Z -> (k <= 1000)%Z -> bpow radix2 (k - 1) <= x < bpow radix2 k -> ZnearestE (x * bpow radix2 (- (k - 53))) = n -> rndp (-1074) 53 x = IZR n * bpow radix2 (k - 53).
Proof.
  intros K1 K2 B Z. unfold rndp, round, F2R, scaled_mantissa, cexp. rewrite (mag_unique_pos radix2 x k B).
  replace (FLT_exp (-1074) 53 k) with (k - 53)%Z by (unfold FLT_exp; lia). cbn [Defs.Fnum Defs.Fexp]. rewrite Z. reflexivity.
Qed.
Lemma node_product : rndp (-1074) 53 (IZR (2 ^ 55 + 12)) = IZR (2 ^ 55 + 16).
Proof.
  rewrite (rnd_at 0 (2 ^ 52 + 2) _ 56); [|lia|lia| |].
  - change (bpow radix2 (56 - 53)) with (IZR 8). rewrite <- mult_IZR. reflexivity.
  - split.
    + change (bpow radix2 (56 - 1)) with (IZR (2 ^ 55)). apply IZR_le. lia.
    + change (bpow radix2 56) with (IZR (2 ^ 56)). apply IZR_lt. lia.
  - change (bpow radix2 (- (56 - 53))) with (/ 8).
    assert (X : IZR (2 ^ 55 + 12) * / 8 = IZR (2 ^ 52 + 1) + / 2).
    { replace (2 ^ 55 + 12)%Z with (8 * (2 ^ 52 + 1) + 4)%Z by reflexivity. rewrite plus_IZR, mult_IZR. field. }
    rewrite X. unfold ZnearestE, Znearest. assert (F : Zfloor (IZR (2 ^ 52 + 1) + / 2) = (2 ^ 52 + 1)%Z) by (apply Zfloor_imp; rewrite (plus_IZR (2 ^ 52 + 1) 1); lra).
    rewrite F. replace (IZR (2 ^ 52 + 1) + / 2 - IZR (2 ^ 52 + 1)) with (/ 2) by ring. rewrite Rcompare_Eq by reflexivity.
    replace (negb (Z.even (2 ^ 52 + 1))) with true by reflexivity. rewrite (Zceil_floor_neq (IZR (2 ^ 52 + 1) + / 2)); [rewrite F; reflexivity|]. rewrite F. lra.
Qed.
Lemma node_quotient : rndp (-1074) 53 (IZR (2 ^ 55 + 16) / 5) = IZR (ynode + 1).
Proof.
  assert (X : IZR (2 ^ 55 + 16) / 5 = IZR (ynode + 1) - / 5).
  { replace (2 ^ 55 + 16)%Z with (5 * (ynode + 1) - 1)%Z by reflexivity. rewrite minus_IZR, mult_IZR. field. }
  rewrite X, (rnd_at 0 (ynode + 1) _ 53); [cbn [Z.sub]; change (bpow radix2 (53 - 53)) with 1; ring|lia|lia| |].
  - split.
    + change (bpow radix2 (53 - 1)) with (IZR (2 ^ 52)). apply Rle_trans with (IZR ynode); [apply IZR_le; unfold ynode; lia|rewrite plus_IZR; lra].
    + change (bpow radix2 53) with (IZR (2 ^ 53)). apply Rlt_trans with (IZR (ynode + 1)); [lra|apply IZR_lt; unfold ynode; lia].
  - change (bpow radix2 (- (53 - 53))) with 1. rewrite Rmult_1_r. apply Znearest_imp. rewrite Rabs_left; lra.
Qed.
Theorem C142_node_refuted : exists x y z, Forall (representable (-1074) 53) x /\ Forall (representable (-1074) 53) y /\ rising x /\ length y = length x /\
  nth_error x 1 = Some z /\ exists r w, interp_r (-1074) 53 [z] x y = Ok [Some r] /\ nth_error y 1 = Some w /\ r = w + 1.
Proof.
  assert (I : forall n, (Z.abs n < 2 ^ 53)%Z -> representable (-1074) 53 (IZR n)) by (intros n H; exists n, 0%Z; split; [cbn; ring|split; [exact H|lia]]).
  exists [0; 5], [0; IZR ynode], 5. split; [repeat constructor; apply I; lia|]. split; [repeat constructor; apply I; unfold ynode; lia|].
  split; [repeat constructor; lra|]. split; [reflexivity|]. split; [reflexivity|]. exists (IZR (ynode + 1)), (IZR ynode). split; [|split; [reflexivity|apply plus_IZR]].
  assert (R5 : rndp (-1074) 53 5 = 5) by (apply (rndp_int 5); lia). assert (R0 : rndp (-1074) 53 0 = 0) by (apply (rndp_int 0); lia).
  unfold interp_r. cbn [item_at nth_error bind interp_from_r length advance]. unfold item_at. cbn [nth_error bind]. unfold ltb. destruct (Rlt_dec 5 5) as [L|_]; [lra|]. cbn [andb bind Nat.sub nth_error].
  unfold value_r. replace (5 - 0) with 5 by ring. replace (5 - 5) with 0 by ring. rewrite R5, R0. destruct (Req_EM_T 5 0) as [L|_]; [lra|].
  replace (0 * 0) with 0 by ring. rewrite R0. replace (5 * IZR ynode) with (IZR (2 ^ 55 + 12)) by (rewrite <- (mult_IZR 5 ynode); reflexivity). rewrite node_product, Rplus_0_r.
  assert (G : rndp (-1074) 53 (IZR (2 ^ 55 + 16)) = IZR (2 ^ 55 + 16)).
  { rewrite <- node_product. apply round_generic; [apply valid_rnd_N|]. apply (format_round (-1074) 53). lia. }
  rewrite G, node_quotient. reflexivity.
Qed.
Print Assumptions C142_node_refuted.

(** ** Folding and unfolding *)
Lemma two_r emin prec : (2 <= prec)%Z -> (emin <= 0)%Z -> rndp emin prec (1 + 1) = 2.
Proof.
  intros P E. replace (1 + 1) with 2 by ring. apply integer_exact; [lia|exact E|exists 2%Z; reflexivity|]. rewrite Rabs_pos_eq by lra. apply IZR_le.
  change 2%Z with (2 ^ 1)%Z at 1. apply Z.pow_le_mono_r; lia.
Qed.
Lemma representable_rn emin prec x : (0 < prec)%Z -> representable emin prec x -> rndp emin prec x = x.
Proof. intros P H. apply round_generic; [apply valid_rnd_N|]. apply (format_representable emin prec), H. Qed.
Lemma double_r emin prec x : (0 < prec)%Z -> representable emin prec x -> rndp emin prec (x * 2) = x * 2.
Proof.
  intros P [m [e [E [A B]]]]. apply representable_rn; [exact P|]. exists m, (e + 1)%Z. split; [|split; [exact A|lia]].
  rewrite E, powerRZ_add, powerRZ_1 by lra. ring.
Qed.
Lemma halve_r emin prec x : (0 < prec)%Z -> representable emin prec x -> halvable emin prec x -> rndp emin prec (x * / 2) = x * / 2.
Proof.
  intros P H [->|N]; [rewrite Rmult_0_l; apply representable_rn; [exact P|]; exists 0%Z, emin; split; [ring|]; split; [cbn; apply Z.pow_pos_nonneg; lia|lia]|].
  destruct H as [m [e [E [A B]]]]. apply representable_rn; [exact P|]. exists m, (e - 1)%Z. split; [|split; [exact A|]].
  - rewrite E. replace (powerRZ 2 e) with (powerRZ 2 (e - 1 + 1)) by (f_equal; lia). rewrite powerRZ_add, powerRZ_1 by lra. field.
  - destruct (Z.eq_dec e emin) as [->|]; [|lia]. exfalso. rewrite E, Rabs_mult, (Rabs_pos_eq (powerRZ 2 emin)) in N by (left; apply powerRZ_lt; lra).
    rewrite powerRZ_add in N by lra. assert (Q : 0 < powerRZ 2 emin) by (apply powerRZ_lt; lra). rewrite Rmult_comm in N. apply Rmult_le_reg_r in N; [|exact Q].
    rewrite <- abs_IZR, pow2, <- IZR_Zpower in N by lia. apply le_IZR in N. change (radix_val radix2) with 2%Z in N. lia.
Qed.
(** Folding is exact, and unfolding is if no value is so small that it cannot be halved. *)
Theorem C142_fold : forall emin prec p, (2 <= prec)%Z -> (emin <= 0)%Z -> Forall (representable emin prec) p ->
  fold_psd (fp_ops emin prec) p = fold_psd exact_ops p.
Proof.
  intros emin prec p P E F. unfold fold_psd. cbv zeta. destruct (item_at p 0) as [a|]; [cbn [bind]|reflexivity]. destruct (item_at p (length p / 2 + 1)) as [b|]; [cbn [bind]|reflexivity].
  f_equal. f_equal. f_equal. apply map_ext_in. intros x I. cbn. rewrite two_r by assumption. replace (1 + 1) with 2 by ring. apply double_r; [lia|].
  rewrite Forall_forall in F. apply F. unfold part_of in I. rewrite <- (firstn_skipn 1 p). apply in_or_app. right.
  rewrite <- (firstn_skipn (length p / 2 + 1 - 1 - 1) (skipn 1 p)). apply in_or_app. left. exact I.
Qed.
Print Assumptions C142_fold.
Theorem C142_unfold : forall emin prec p, (2 <= prec)%Z -> Forall (representable emin prec) p -> Forall (halvable emin prec) p ->
  unfold_psd (fp_ops emin prec) (/ 2) p = unfold_psd exact_ops (/ 2) p.
Proof.
  intros emin prec p P F H. unfold unfold_psd. cbv zeta. destruct (length p =? 0)%nat; [reflexivity|]. destruct (length p =? 1)%nat; [reflexivity|].
  assert (M : map (fun x => kmul (fp_ops emin prec) x (/ 2)) (part_of p 1 (length p - 1)) = map (fun x => kmul exact_ops x (/ 2)) (part_of p 1 (length p - 1))).
  { apply map_ext_in. intros x I. cbn. rewrite Forall_forall in F, H.
    assert (J : In x p).
    { unfold part_of in I. rewrite <- (firstn_skipn 1 p). apply in_or_app. right. rewrite <- (firstn_skipn (length p - 1 - 1) (skipn 1 p)). apply in_or_app. left. exact I. }
    apply halve_r; [lia|apply F, J|apply H, J]. }
  rewrite M. reflexivity.
Qed.
Print Assumptions C142_unfold.
Example C142_unfold_example : Forall (representable (-149) 24) [4; 3; 0; 1] /\ Forall (halvable (-149) 24) [4; 3; 0; 1].
Proof.
  assert (X : powerRZ 2 (-149 + 24) <= 1). { rewrite pow2. change 1 with (bpow radix2 0). apply bpow_le. lia. }
  split; [repeat constructor; apply int_repr; lia|].
  apply Forall_cons; [right; rewrite Rabs_pos_eq; lra|]. apply Forall_cons; [right; rewrite Rabs_pos_eq; lra|]. apply Forall_cons; [left; reflexivity|].
  apply Forall_cons; [right; rewrite Rabs_pos_eq; lra|]. apply Forall_nil.
Qed.
(** The smallest positive number is halved to zero: its power is lost. *)
Theorem C142_small : forall emin prec a b, (0 < prec)%Z -> unfold_psd (fp_ops emin prec) (/ 2) [a; powerRZ 2 emin; b] = Ok [a; 0; b; 0].
Proof.
  intros emin prec a b P. assert (X : rndp emin prec (powerRZ 2 emin * / 2) = 0).
  { rewrite pow2. unfold rndp, round, F2R, scaled_mantissa, cexp.
    replace (bpow radix2 emin * / 2) with (bpow radix2 (emin - 1)) by (unfold Zminus; rewrite bpow_plus; reflexivity).
    rewrite mag_bpow. replace (FLT_exp emin prec (emin - 1 + 1)) with emin by (unfold FLT_exp; lia).
    rewrite <- bpow_plus. replace (emin - 1 + - emin)%Z with (-1)%Z by lia. change (bpow radix2 (-1)) with (/ 2).
    unfold ZnearestE, Znearest. assert (Z : Zfloor (/ 2) = 0%Z) by (apply Zfloor_imp; cbn; lra). rewrite Z.
    replace (/ 2 - IZR 0) with (/ 2) by ring. rewrite Rcompare_Eq by reflexivity. cbn. ring. }
  unfold unfold_psd. cbn. rewrite X. reflexivity.
Qed.
Print Assumptions C142_small.
