(** C145: barycentres of positions in the sky with rounded operations. *)
From Coq Require Import ZArith Reals Lra Lia List Bool.
From Flocq Require Import Core.
From Verif Require Import Base SkySpec WcsModel WcsSpec WcsFacts WcsFacts3 RndModel RndSpec RndProps BirFacts BirFacts2 GalFacts RgnModel RgnFacts RgnProps RanModel RanProps RmdModel RmdSpec RmdProps RbaModel RbaSpec RbaFacts.
Import ListNotations.
Open Scope R_scope.

Lemma positions_app l l' : positions (l ++ l') = positions l ++ positions l'.
Proof. apply flat_map_app. Qed.
Lemma add3_0 v : add3 (0, 0, 0) v = v.
Proof. destruct v as [[a b] c]. cbn. rewrite !Rplus_0_l. reflexivity. Qed.
Lemma add3_assoc a b c : add3 (add3 a b) c = add3 a (add3 b c).
Proof. destruct a as [[? ?] ?], b as [[? ?] ?], c as [[? ?] ?]. cbn. rewrite !Rplus_assoc. reflexivity. Qed.
Lemma sum3_app l l' : sum3 (l ++ l') = add3 (sum3 l) (sum3 l').
Proof. unfold sum3. induction l as [|v l IH]; cbn [app fold_right]; [rewrite add3_0; reflexivity|]. rewrite IH, add3_assoc. reflexivity. Qed.
Notation dirs l := (map (fun p => direction (fst p) (snd p)) (positions l)).

Section T.
Variables (emin prec : Z) (sn cs ac : R -> R) (at2 : R -> R -> R) (deg rad : R).
Notation rn := (rndp emin prec).
Notation u := (unit_of prec).
Notation eta := (tiny_of emin).
Notation fmt64 := (generic_format radix2 (FLT_exp emin prec)).
Hypothesis Pp : (24 <= prec)%Z.
Hypothesis Pe : (emin <= 1 - 2 * prec)%Z.
Hypothesis L : libm prec sn cs deg rad.
Hypothesis Sn : forall x, representable emin prec (sn x).
Hypothesis Ac : forall c, Rabs c <= 1 -> Rabs (ac c - acos c) <= 4 * u.
Hypothesis At : forall y x, Rabs (at2 y x - atan2 y x) <= 4 * u.
Let P0 : (0 < prec)%Z := RmdProps.Q0 prec Pp.
Let U0 : 0 < u := V0 prec.
Let U2 : u <= / 16777216 := RmdProps.V2 prec Pp.
Let U1 : u <= / 4096. Proof. lra. Qed.
Let He : eta <= u * u := Ht emin prec Pe.
Notation produ := (prod_e emin prec 1 u P0 w1 (uu prec) U1 He).
(** Sums. *)
Notation G k := ((1 + u) ^ k * (1 + 41 * u)).
Definition sum_mag (k : nat) (m : R) (c s : R) : Prop := fmt64 c /\ Rabs s <= m /\ Rabs (c - s) <= (G k - 1) * m.
Lemma G_1 k : 1 <= G k.
Proof. pose proof (g_1 prec k). assert (1 * 1 <= G k) by (apply Rmult_le_compat; lra). lra. Qed.
Lemma sum_mag_le k k' m c s : (k <= k')%nat -> sum_mag k m c s -> sum_mag k' m c s.
Proof.
  intros Lk [F [P E]]. split; [exact F|]. split; [exact P|]. eapply Rle_trans; [exact E|]. apply Rmult_le_compat_r; [pose proof (Rabs_pos s); lra|]. pose proof (Rle_pow (1 + u) k k' ltac:(lra) Lk).
  assert (G k <= G k') by (apply Rmult_le_compat_r; lra). lra.
Qed.
Lemma sum_mag_add k k' m m' c s c' s' : sum_mag k m c s -> sum_mag k' m' c' s' -> sum_mag (S (Nat.max k k')) (m + m') (rn (c + c')) (s + s').
Proof.
  intros A B. apply (sum_mag_le _ (Nat.max k k')) in A; [|lia]. apply (sum_mag_le _ (Nat.max k k')) in B; [|lia]. destruct A as [F [P E]], B as [F' [P' E']].
  split; [apply (format_round emin prec P0)|]. split; [eapply Rle_trans; [apply Rabs_triang|]; lra|]. pose proof (add_error emin prec P0 c c' F F') as R. set (j := Nat.max k k') in *. pose proof (G_1 j) as Gj. set (g := G j) in *.
  assert (D : Rabs (c + c' - (s + s')) <= (g - 1) * (m + m')). { replace (c + c' - (s + s')) with ((c - s) + (c' - s')) by ring. eapply Rle_trans; [apply Rabs_triang|]. lra. }
  assert (M : Rabs (c + c') <= g * (m + m')) by (pose proof (near_abs _ _ (m + m') _ D ltac:(eapply Rle_trans; [apply Rabs_triang|]; lra)); lra).
  assert (u * Rabs (c + c') <= u * (g * (m + m'))) by (apply Rmult_le_compat_l; lra).
  pose proof (tri (rn (c + c')) (c + c') (s + s')). replace (G (S j)) with ((1 + u) * g) by (unfold g; cbn [pow]; ring). lra.
Qed.
Lemma sum_mag_0 : sum_mag 0 0 0 0.
Proof. split; [apply generic_format_0|]. rewrite Rabs_R0, Rminus_eq_0, Rabs_R0. cbn. lra. Qed.
Lemma sum_mag_one c s : fmt64 c -> Rabs s <= 1 -> Rabs (c - s) <= 41 * u -> sum_mag 0 1 c s.
Proof. intros F B E. split; [exact F|]. split; [exact B|]. rewrite pow_O. lra. Qed.
Definition sums (k : nat) (m : R) (s v : R * R * R) : Prop :=
  sum_mag k m (fst (fst s)) (fst (fst v)) /\ sum_mag k m (snd (fst s)) (snd (fst v)) /\ sum_mag k m (snd s) (snd v).
Notation stp := (bary_step_r emin prec sn cs deg).
Lemma sums_step k m s v p : in_range p -> sums k m s v -> sums (k + length (positions [p])) (m + INR (length (positions [p]))) (stp s p) (add3 v (sum3 (dirs [p]))).
Proof.
  destruct p as [[lon|] [lat|]]; cbn [positions flat_map app length map bary_step_r sum3 fold_right];
    try (intros _ H; rewrite Nat.add_0_r; change (INR 0) with 0; rewrite Rplus_0_r; replace (add3 v (0, 0, 0)) with v by (destruct v as [[? ?] ?]; cbn; rewrite !Rplus_0_r; reflexivity); exact H).
  intros [Hl Hb] H. destruct s as [[x y] z], v as [[X Y] Z]. destruct H as [A [B C]]. cbn [fst snd] in *. unfold direction. cbn [add3 fst snd]. rewrite !Rplus_0_r. replace (k + 1)%nat with (S (Nat.max k 0)) by lia. change (INR 1) with 1.
  pose proof (lambda_near emin prec sn cs deg rad P0 L U1 He lon Hl) as Dl. pose proof (phi_near emin prec sn cs deg rad P0 L U1 He lat Hb) as Db.
  replace (lon * (PI / 180)) with (lon * PI / 180) in Dl by field. replace (lat * (PI / 180)) with (lat * PI / 180) in Db by field.
  pose proof (cos_near prec sn cs deg rad L _ _ _ Dl) as Cl. pose proof (sin_near prec sn cs deg rad L _ _ _ Dl) as Sl. pose proof (cos_near prec sn cs deg rad L _ _ _ Db) as Cb. pose proof (sin_near prec sn cs deg rad L _ _ _ Db) as Sb.
  set (l := lon * PI / 180) in *. set (b := lat * PI / 180) in *. pose proof (cos_1 l). pose proof (sin_1 l). pose proof (cos_1 b). pose proof (sin_1 b).
  assert (M : forall p q, Rabs p <= 1 -> Rabs q <= 1 -> Rabs (p * q) <= 1) by (intros p q Hp Hq; rewrite Rabs_mult; assert (Rabs p * Rabs q <= 1 * 1) by (apply Rmult_le_compat; try apply Rabs_pos; lra); lra).
  split; [|split]; cbn [fst snd]; apply sum_mag_add; try assumption; apply sum_mag_one; try apply (format_round emin prec P0); try (now apply M).
  - apply (produ _ _ _ _ (7 + 2) (26 + 2) 1 1 41); try lra; assumption.
  - apply (produ _ _ _ _ (7 + 2) (26 + 2) 1 1 41); try lra; assumption.
  - apply format_representable, Sn.
  - assumption.
  - lra.
Qed.
Lemma sums_fold l : Forall in_range l -> forall k m s v, sums k m s v -> sums (k + length (positions l)) (m + INR (length (positions l))) (fold_left stp l s) (add3 v (sum3 (dirs l))).
Proof.
  induction 1 as [|p l Hp _ IH]; intros k m s v H.
  - cbn [positions flat_map length map sum3 fold_right fold_left]. change (INR 0) with 0. rewrite Nat.add_0_r, Rplus_0_r. replace (add3 v (0, 0, 0)) with v by (destruct v as [[? ?] ?]; cbn; rewrite !Rplus_0_r; reflexivity). exact H.
  - cbn [fold_left]. change (p :: l) with ([p] ++ l). rewrite positions_app, app_length, map_app, sum3_app, <- add3_assoc, plus_INR, Nat.add_assoc, <- Rplus_assoc. apply IH, sums_step; assumption.
Qed.
Lemma sums_0 : sums 0 0 (0, 0, 0) (0, 0, 0).
Proof. repeat split; cbn [fst snd]; try apply generic_format_0; rewrite ?Rminus_eq_0, Rabs_R0; cbn; lra. Qed.
Lemma sums_add k k' m m' s v s' v' : sums k m s v -> sums k' m' s' v' -> sums (S (Nat.max k k')) (m + m') (add3_r emin prec s s') (add3 v v').
Proof. destruct s as [[? ?] ?], v as [[? ?] ?], s' as [[? ?] ?], v' as [[? ?] ?]. intros [A [B C]] [A' [B' C']]. cbn [fst snd] in *. split; [|split]; cbn [add3_r add3 fst snd]; apply sum_mag_add; assumption. Qed.
Lemma sums_loop threads : Forall (Forall in_range) threads -> forall k m s v, sums k m s v ->
  exists k', (k' <= k + length (positions (concat threads)) + length threads)%nat /\
    sums k' (m + INR (length (positions (concat threads)))) (fold_left (fun s l => add3_r emin prec s (fold_left stp l (0, 0, 0))) threads s) (add3 v (sum3 (dirs (concat threads)))).
Proof.
  induction 1 as [|l threads Hl _ IH]; intros k m s v H.
  - exists k. cbn [concat positions flat_map length map sum3 fold_right fold_left]. change (INR 0) with 0. rewrite Rplus_0_r. replace (add3 v (0, 0, 0)) with v by (destruct v as [[? ?] ?]; cbn; rewrite !Rplus_0_r; reflexivity). split; [lia|exact H].
  - cbn [fold_left concat]. rewrite positions_app, app_length, map_app, sum3_app, <- add3_assoc, plus_INR, <- Rplus_assoc.
    pose proof (sums_add _ _ _ _ _ _ _ _ H (sums_fold l Hl _ _ _ _ sums_0)) as N. rewrite add3_0, Rplus_0_l in N. destruct (IH _ _ _ _ N) as [k' [Lk S]]. exists k'. split; [cbn [length]; lia|exact S].
Qed.
(** Norms. *)
Lemma norm_sq v : norm3 v * norm3 v = fst (fst v) * fst (fst v) + snd (fst v) * snd (fst v) + snd v * snd v.
Proof. unfold norm3. apply sqrt_sqrt. pose proof (sq_pos (fst (fst v))). pose proof (sq_pos (snd (fst v))). pose proof (sq_pos (snd v)). lra. Qed.
Lemma part_le a n : 0 <= n -> a * a <= n * n -> Rabs a <= n.
Proof. intros N H. apply Rnot_lt_le. intros K. assert (n * n < Rabs a * Rabs a) by (apply Rmult_le_0_lt_compat; lra). rewrite <- Rabs_mult, (Rabs_pos_eq (a * a)) in * by apply sq_pos. lra. Qed.
Lemma norm_parts v : Rabs (fst (fst v)) <= norm3 v /\ Rabs (snd (fst v)) <= norm3 v /\ Rabs (snd v) <= norm3 v.
Proof.
  pose proof (sqrt_pos (fst (fst v) * fst (fst v) + snd (fst v) * snd (fst v) + snd v * snd v)) as N. fold (norm3 v) in N. pose proof (norm_sq v). pose proof (sq_pos (fst (fst v))). pose proof (sq_pos (snd (fst v))). pose proof (sq_pos (snd v)).
  repeat split; apply part_le; lra.
Qed.
Lemma norm_near d v w : 0 <= d -> 0 < norm3 w -> near3 d v w -> Rabs (norm3 v - norm3 w) <= 3 * d.
Proof.
  intros D0 W [A [B C]]. destruct (norm_parts v) as [V1 [V2 V3]]. destruct (norm_parts w) as [W1 [W2 W3]]. pose proof (Rabs_pos (fst (fst v))). set (p := norm3 v + norm3 w).
  assert (p0 : 0 < p) by (unfold p; lra).
  assert (E : Rabs (norm3 v - norm3 w) * p <= 3 * d * p).
  { rewrite <- (Rabs_pos_eq p) at 1 by lra. rewrite <- Rabs_mult. unfold p. replace ((norm3 v - norm3 w) * (norm3 v + norm3 w)) with (norm3 v * norm3 v - norm3 w * norm3 w) by ring. rewrite !norm_sq.
    match goal with |- Rabs ?t <= _ => replace t with ((fst (fst v) - fst (fst w)) * (fst (fst v) + fst (fst w)) + ((snd (fst v) - snd (fst w)) * (snd (fst v) + snd (fst w)) + (snd v - snd w) * (snd v + snd w))) by ring end.
    assert (M : forall a b, Rabs (a - b) <= d -> Rabs a <= norm3 v -> Rabs b <= norm3 w -> Rabs ((a - b) * (a + b)) <= d * p).
    { intros a b D Va Wb. rewrite Rabs_mult. apply Rmult_le_compat; try apply Rabs_pos; [exact D|]. eapply Rle_trans; [apply Rabs_triang|]. unfold p. lra. }
    eapply Rle_trans; [apply Rabs_triang|]. eapply Rle_trans; [apply Rplus_le_compat_l, Rabs_triang|]. pose proof (M _ _ A V1 W1). pose proof (M _ _ B V2 W2). pose proof (M _ _ C V3 W3). fold p. lra. }
  apply (Rmult_le_reg_r p); assumption.
Qed.
Lemma unit_near d a b n m : 0 <= d -> 0 < n -> 0 < m -> Rabs a <= n -> Rabs (a - b) <= d -> Rabs (n - m) <= 3 * d -> Rabs (a / n - b / m) <= 4 * d / m.
Proof.
  intros D0 N M A D E. replace (a / n - b / m) with (((a - b) + a / n * (m - n)) / m) by (field; split; lra). unfold Rdiv at 1 3. rewrite Rabs_mult, (Rabs_pos_eq (/ m)) by (left; apply Rinv_0_lt_compat; exact M).
  apply Rmult_le_compat_r; [left; apply Rinv_0_lt_compat; exact M|]. eapply Rle_trans; [apply Rabs_triang|]. rewrite Rabs_mult.
  assert (Q : Rabs (a / n) <= 1). { unfold Rdiv. rewrite Rabs_mult, (Rabs_pos_eq (/ n)) by (left; apply Rinv_0_lt_compat; exact N). apply (Rmult_le_reg_r n); [exact N|]. rewrite Rmult_assoc, Rinv_l by lra. lra. }
  rewrite (Rabs_minus_sym m n). assert (Rabs (a / n) * Rabs (n - m) <= 1 * (3 * d)) by (apply Rmult_le_compat; try apply Rabs_pos; lra). lra.
Qed.
Lemma bary_near threads : Forall (Forall in_range) threads -> let n := INR (length (positions (concat threads))) in let d := n + INR (length threads) in
  let v := sum3 (dirs (concat threads)) in let e := n * (1.02 * d + 42) * u in
  d * u <= / 1024 -> / 16 <= norm3 v -> e <= / 1000 ->
  exists lon lat, barycenter_r emin prec sn cs ac at2 deg rad threads = (lon, Some lat) /\ 0 <= lon <= 360 /\ near3 (4 * e / norm3 v + 6.2 * sqrt u) (direction lon lat) (scale3 (/ norm3 v) v).
Proof.
  intros F n d v e D V E. destruct (sums_loop threads F _ _ _ _ sums_0) as [k [Lk S]]. rewrite add3_0, Rplus_0_l in S. fold n v in S. unfold barycenter_r, bary_loop_r. set (s := fold_left _ threads (0, 0, 0)) in *. clearbody s.
  assert (n0 : 0 <= n) by apply pos_INR. assert (t0 := pos_INR (length threads)). assert (du : 0 <= d * u) by (apply Rmult_le_pos; unfold d; lra).
  assert (Gd : G k - 1 <= (1.02 * d + 42) * u).
  { assert (kd : INR k <= d) by (unfold d, n; rewrite <- plus_INR; apply le_INR; lia). assert (ku : INR k * u <= d * u) by (apply Rmult_le_compat_r; lra). pose proof (g_bound prec Pp k ltac:(lra)) as Gk. pose proof (g_1 prec k).
    assert (G k <= (1 + 1.01 * (d * u)) * (1 + 41 * u)) by (apply Rmult_le_compat_r; lra). assert (d * u * u <= / 1024 * u) by (apply Rmult_le_compat_r; lra). lra. }
  assert (N3 : near3 e s v).
  { assert (Q : forall c x, sum_mag k n c x -> Rabs (c - x) <= e). { intros c x [_ [_ H]]. eapply Rle_trans; [exact H|]. unfold e. rewrite Rmult_assoc, (Rmult_comm n). apply Rmult_le_compat_r; lra. }
    destruct S as [A [B C]]. split; [|split]; apply Q; assumption. }
  assert (e0 : 0 <= e) by (destruct N3 as [A _]; pose proof (Rabs_pos (fst (fst s) - fst (fst v))); lra).
  pose proof (norm_near e s v e0 ltac:(lra) N3) as NN. pose proof (norm_sq s) as Sq. destruct (norm_parts s) as [S1 [S2 S3]]. assert (ns : 0.05 <= norm3 s) by (apply Rabs_le_inv in NN; lra).
  destruct s as [[x y] z]. cbn [fst snd] in *. assert (big : / 1024 <= x * x + y * y + z * z) by (rewrite <- Sq; apply Rle_trans with (0.05 * 0.05); [lra|apply Rmult_le_compat; lra]).
  destruct (direction_near emin prec sn cs ac at2 deg rad Pp Pe L Ac At x y z big) as [t [Et [K1 [K2 K3]]]]. destruct (lon_near emin prec sn cs at2 deg rad Pp Pe L At x y) as [I _].
  exists (lon_r emin prec at2 rad x y), t. split; [rewrite Et; reflexivity|]. split; [exact I|]. change (sqrt (x * x + y * y + z * z)) with (norm3 (x, y, z)) in *. cbn [fst snd] in *. set (ns' := norm3 (x, y, z)) in *. set (dd := direction (lon_r emin prec at2 rad x y) t) in *.
  destruct N3 as [A [B C]]. destruct v as [[X Y] Z]. cbn [fst snd scale3] in *. set (nv := norm3 (X, Y, Z)) in *.
  split; [|split]; cbn [fst snd]; rewrite (Rmult_comm (/ nv)).
  - pose proof (unit_near e x X ns' nv e0 ltac:(lra) ltac:(lra) S1 A NN). pose proof (tri (fst (fst dd)) (x / ns') (X / nv)). unfold Rdiv in *. lra.
  - pose proof (unit_near e y Y ns' nv e0 ltac:(lra) ltac:(lra) S2 B NN). pose proof (tri (snd (fst dd)) (y / ns') (Y / nv)). unfold Rdiv in *. lra.
  - pose proof (unit_near e z Z ns' nv e0 ltac:(lra) ltac:(lra) S3 C NN). pose proof (tri (snd dd) (z / ns') (Z / nv)). unfold Rdiv in *. lra.
Qed.
End T.

(** The direction of the barycentre is that of the sum of the directions of the n valid positions, of norm [r], within
    4 n (1.02 (n + threads) + 42) u / r + 6.2 sqrt u. *)
Theorem C145_barycenter : forall emin prec sn cs ac at2 deg rad threads, (24 <= prec)%Z -> (emin <= 1 - 2 * prec)%Z -> libm prec sn cs deg rad ->
  (forall x, representable emin prec (sn x)) -> (forall c, Rabs c <= 1 -> Rabs (ac c - acos c) <= 4 * unit_of prec) -> (forall y x, Rabs (at2 y x - atan2 y x) <= 4 * unit_of prec) ->
  Forall (Forall in_range) threads ->
  let n := INR (length (positions (concat threads))) in let d := n + INR (length threads) in
  let v := sum3 (map (fun p => direction (fst p) (snd p)) (positions (concat threads))) in let e := n * (1.02 * d + 42) * unit_of prec in
  d * unit_of prec <= / 1024 -> / 16 <= norm3 v -> e <= / 1000 ->
  exists lon lat, barycenter_r emin prec sn cs ac at2 deg rad threads = (lon, Some lat) /\ 0 <= lon <= 360 /\
    near3 (4 * e / norm3 v + 6.2 * sqrt (unit_of prec)) (direction lon lat) (scale3 (/ norm3 v) v).
Proof. intros emin prec sn cs ac at2 deg rad threads Pp Pe L Sn Ac At F. exact (bary_near emin prec sn cs ac at2 deg rad Pp Pe L Sn Ac At threads F). Qed.
Print Assumptions C145_barycenter.
Lemma fmt_rep emin prec x : (0 < prec)%Z -> representable emin prec (rndp emin prec x).
Proof.
  intros P. destruct (FLT_format_generic radix2 emin prec (prec_gt_0_ := P) _ (format_round emin prec P x)) as [[m k] E B C]. exists m, k. rewrite pow2. split; [exact E|]. split; [exact B|exact C].
Qed.
Notation rn64 := (rndp (-1074) 53).
Example C145_example : let threads := [[(Some 0, Some 0)]; [(Some 90, Some 0); (None, Some 1)]] in
  exists lon lat, barycenter_r (-1074) 53 (fun x => rn64 (sin x)) (fun x => rn64 (cos x)) acos atan2 (rn64 (PI / 180)) (rn64 (180 / PI)) threads = (lon, Some lat) /\
    near3 (12 * sqrt (unit_of 53)) (direction lon lat) (scale3 (/ norm3 (1, 1, 0)) (1, 1, 0)).
Proof.
  intros threads. assert (V : sum3 (map (fun p => direction (fst p) (snd p)) (positions (concat threads))) = (1, 1, 0)).
  { cbn [threads concat app positions flat_map map sum3 fold_right fst snd]. unfold direction. replace (0 * PI / 180) with 0 by field. replace (90 * PI / 180) with (PI / 2) by field. rewrite cos_0, sin_0, cos_PI2, sin_PI2. cbn [add3]. f_equal; [f_equal|]; ring. }
  assert (U : unit_of 53 = / 9007199254740992) by apply unit_53. assert (N : 1 <= norm3 (1, 1, 0)) by (unfold norm3; cbn [fst snd]; rewrite <- sqrt_1 at 1; apply sqrt_le_1; lra).
  pose proof (C145_barycenter (-1074) 53 (fun x => rn64 (sin x)) (fun x => rn64 (cos x)) acos atan2 (rn64 (PI / 180)) (rn64 (180 / PI)) threads ltac:(lia) ltac:(lia)) as T.
  specialize (T ltac:(apply C132_rounded; lia) (fun x => fmt_rep (-1074) 53 (sin x) ltac:(lia))). specialize (T ltac:(intros; rewrite Rminus_eq_0, Rabs_R0, U; lra) ltac:(intros; rewrite Rminus_eq_0, Rabs_R0, U; lra)).
  specialize (T ltac:(repeat constructor; cbn; rewrite ?Rabs_R0; try lra; rewrite Rabs_pos_eq; lra)). cbv zeta in T. rewrite V in T. change (length (positions (concat threads))) with 2%nat in T. change (length threads) with 2%nat in T.
  specialize (T ltac:(rewrite U; cbn; lra) ltac:(lra) ltac:(rewrite U; cbn; lra)). destruct T as [lon [lat [E [_ [A [B C]]]]]]. exists lon, lat. split; [exact E|].
  match type of A with _ <= ?b => assert (W : b <= 12 * sqrt (unit_of 53)) end.
  { assert (R1 := sqrt_sqrt (unit_of 53) ltac:(rewrite U; lra)). assert (r0 := sqrt_pos (unit_of 53)). set (r := sqrt (unit_of 53)) in *.
    assert (r1 : r <= / 4096) by (apply Rnot_lt_le; intros G; assert (/ 4096 * / 4096 < r * r) by (apply Rmult_le_0_lt_compat; lra); lra).
    assert (r * r <= / 4096 * r) by (apply Rmult_le_compat_r; lra).
    match goal with |- ?p / ?q + _ <= _ => assert (D : forall t, 0 <= t -> t / q <= t) end.
    { intros t Ht0. unfold Rdiv. apply Rle_trans with (t * / 1); [apply Rmult_le_compat_l; [exact Ht0|apply Rinv_le_contravar; lra]|rewrite Rinv_1; lra]. }
    eapply Rle_trans; [apply Rplus_le_compat_r, D|]; change (INR 2) with (1 + 1); rewrite U in *; lra. }
  split; [|split]; lra.
Qed.

(** FINDING 243.  In double precision the barycentre of one position at the latitude of 2^-21 degrees, whatever the arctangent, is at the
    latitude 0, since the cosine and the sum of squares are rounded to 1. *)
Definition tiny_lat : R := / 2097152.
Theorem C145_equator_refuted : forall ac at2 rad, ac 1 = 0 ->
  snd (barycenter_r (-1074) 53 (fun x => rn64 (sin x)) (fun x => rn64 (cos x)) ac at2 (deg_r (-1074) 53) rad [[(Some 0, Some tiny_lat)]]) = Some 0.
Proof.
  intros ac at2 rad A1. set (th := IZR 5030569068109113 / IZR (2 ^ 79)).
  assert (Z0 : rn64 0 = 0) by (apply (rndp_int 0); lia). assert (O : rn64 1 = 1) by (apply (rndp_int 1); lia).
  assert (Th : rn64 (tiny_lat * deg_r (-1074) 53) = th).
  { rewrite deg_64. unfold tiny_lat. apply rnd53; [lia| |apply Rabs_def1]; change (2 ^ 79)%Z with 604462909807314587353088%Z; change (2 ^ 58)%Z with 288230376151711744%Z; change (2 ^ 52)%Z with 4503599627370496%Z; change (2 ^ 53)%Z with 9007199254740992%Z; lra. }
  assert (T0 : 0 < th < / 100000000) by (unfold th; change (2 ^ 79)%Z with 604462909807314587353088%Z; lra).
  assert (T2 : th * th <= 70 / 1000000000000000000). { assert (th <= 8.35 / 1000000000) by (unfold th; change (2 ^ 79)%Z with 604462909807314587353088%Z; lra). assert (th * th <= 8.35 / 1000000000 * (8.35 / 1000000000)) by (apply Rmult_le_compat; lra). lra. }
  pose proof pi_low. assert (S : 0 <= sin th <= th) by (split; [apply sin_ge_0; lra|left; apply sin_lt_x; lra]).
  assert (C : rn64 (cos th) = 1).
  { assert (B : 1 - th * th / 2 <= cos th <= 1).
    { split; [|pose proof (COS_bound th); lra]. replace th with (2 * (th / 2)) at 3 by field. rewrite cos_2a_sin. assert (Q : 0 <= sin (th / 2) <= th / 2) by (split; [apply sin_ge_0; lra|left; apply sin_lt_x; lra]). assert (sin (th / 2) * sin (th / 2) <= th / 2 * (th / 2)) by (apply Rmult_le_compat; lra). lra. }
    destruct (Req_dec (cos th) 1) as [->|Ne]; [exact O|]. rewrite (rnd53 53 9007199254740992); [|lia| |apply Rabs_def1]; change (2 ^ 52)%Z with 4503599627370496%Z; change (2 ^ 53)%Z with 9007199254740992%Z; lra. }
  assert (Ft : rn64 th = th) by (rewrite <- Th; apply round_generic; [apply valid_rnd_N|apply (format_round (-1074) 53); lia]).
  assert (mono : forall a b, a <= b -> rn64 a <= rn64 b) by (intros a b; exact (rn_le (-1074) 53 ltac:(lia) a b)).
  set (s := rn64 (sin th)). assert (s0 : 0 <= s <= th) by (pose proof (mono 0 (sin th) (proj1 S)); pose proof (mono (sin th) th (proj2 S)); unfold s; rewrite Z0 in *; rewrite Ft in *; lra).
  assert (Fs : rn64 s = s) by (apply round_generic; [apply valid_rnd_N|apply (format_round (-1074) 53); lia]).
  assert (W : 0 <= rn64 (s * s) <= 3 / 36028797018963968).
  { assert (0 <= s * s <= th * th) by (split; [apply Rmult_le_pos; lra|apply Rmult_le_compat; lra]). split; [pose proof (mono 0 (s * s) ltac:(lra)); rewrite Z0 in *; assumption|].
    assert (Fb : rn64 (3 / 36028797018963968) = 3 / 36028797018963968). { apply rn_rep. exists 3%Z, (-55)%Z. split; [|lia]. rewrite pow2. unfold bpow. change (Z.pow_pos radix2 55) with 36028797018963968%Z. lra. }
    pose proof (mono (s * s) (3 / 36028797018963968) ltac:(lra)). rewrite Fb in *. assumption. }
  set (w := rn64 (s * s)) in *. assert (N1 : rn64 (1 + w) = 1). { rewrite (rnd53 52 4503599627370496); [|lia| |apply Rabs_def1]; change (2 ^ 52)%Z with 4503599627370496%Z; change (2 ^ 53)%Z with 9007199254740992%Z; lra. }
  unfold barycenter_r, bary_loop_r. cbn [fold_left bary_step_r add3_r]. rewrite Rmult_0_l, Z0, Th, C, cos_0, sin_0, O, Z0. fold s. rewrite !Rmult_1_l, !Rplus_0_l, O, Z0, Fs, O, Z0, Fs.
  unfold lat_r. cbv zeta. cbn [snd]. rewrite ?O, ?Z0, ?Rmult_1_l, ?Rmult_0_l, ?O, ?Z0, Rplus_0_r, O. fold w. rewrite N1. destruct (Req_EM_T 1 0); [lra|]. unfold Rdiv. rewrite Rinv_1, Rmult_1_l, O, sqrt_1, O, Rabs_R1. destruct (Rle_dec 1 1); [|lra].
  rewrite A1, Rmult_0_l, Z0. unfold fsign. rewrite Rabs_R0. destruct (Rle_dec 0 s); [reflexivity|lra].
Qed.
Print Assumptions C145_equator_refuted.
