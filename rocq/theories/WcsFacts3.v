From Coq Require Import Reals Lra Lia String Permutation.
From Verif Require Import Base BaseFacts ConstModel SkyModel SkySpec SkyFacts WcsModel WcsSpec WcsFacts.
Open Scope R_scope.
(** ** Means of angles *)
Definition count (f : R -> bool) (l : list R) : Z := zlen (filter f l).
Definition mod360 (v : R) : R := modulo v 360.
Lemma count_cons f x l : count f (x :: l) = ((if f x then 1 else 0) + count f l)%Z.
Proof. unfold count. cbn [filter]. destruct (f x); [rewrite zlen_cons|]; lia. Qed.
Lemma mean_fold array : forall s, fold_left mean_step array s =
  Degrees (d_mean s + total (map mod360 (valids array))) (d_zero_minus s || existsb (fun v => Rltb 270 (mod360 v)) (valids array))
          (d_zero_plus s || existsb (fun v => Rleb (mod360 v) 90) (valids array)) (d_n180 s + count (fun v => Rleb 180 (mod360 v)) (valids array)) (d_nvalids s + zlen (valids array))%Z.
Proof.
  induction array as [|[v|] array IH]; intros s.
  - destruct s. cbn. rewrite !Bool.orb_false_r, Rplus_0_r. unfold count, zlen. cbn. f_equal; lia.
  - cbn [fold_left mean_step]. rewrite IH. cbn [d_mean d_zero_minus d_zero_plus d_n180 d_nvalids]. change (valids (Some v :: array)) with (v :: valids array).
    cbn [map existsb]. rewrite count_cons, zlen_cons. change (total (mod360 v :: map mod360 (valids array))) with (mod360 v + total (map mod360 (valids array))). change (modulo v 360) with (mod360 v).
    f_equal; [ring | now rewrite Bool.orb_assoc | now rewrite Bool.orb_assoc | destruct (Rleb 180 (mod360 v)); lia | lia].
  - cbn [fold_left mean_step]. rewrite IH. reflexivity.
Qed.
Lemma Rltb_true x y : Rltb x y = true <-> x < y.
Proof. unfold Rltb. destruct (Rlt_dec x y); split; intros; try discriminate; auto; contradiction. Qed.
Lemma Rleb_true x y : Rleb x y = true <-> x <= y.
Proof. unfold Rleb. destruct (Rle_dec x y); split; intros; try discriminate; auto; contradiction. Qed.
Definition neg (u : R) : bool := Rltb u 0.
(** Angles of [-90, 360) and their remainders. *)
Lemma mod360_of v u : same_angle v u -> -90 <= u < 360 -> mod360 v = u + (if neg u then 360 else 0).
Proof.
  intros [k E] H. unfold neg, Rltb, mod360. destruct (Rlt_dec u 0).
  - apply (modulo_unique v 360 (u + 360) (k - 1)); [lra | lra |]. rewrite minus_IZR. lra.
  - apply (modulo_unique v 360 (u + 0) k); lra.
Qed.
Lemma total_vals : forall vs us, Forall2 (fun v u => mod360 v = u + (if neg u then 360 else 0)) vs us -> total (map mod360 vs) = total us + 360 * IZR (count neg us).
Proof.
  induction 1 as [|v u vs us E F IH]; [unfold count, total; cbn; ring|]. rewrite count_cons. change (total (map mod360 (v :: vs))) with (mod360 v + total (map mod360 vs)). change (total (u :: us)) with (u + total us).
  rewrite IH, E, plus_IZR. destruct (neg u); ring.
Qed.
Lemma forall2_exists {A B} (P : A -> B -> Prop) (f : A -> bool) (g : B -> bool) : (forall x y, P x y -> f x = g y) -> forall l m, Forall2 P l m -> existsb f l = existsb g m.
Proof. intros H l m F. induction F; cbn; [reflexivity|]. now rewrite (H _ _ H0), IHF. Qed.
Lemma forall2_count (P : R -> R -> Prop) (f g : R -> bool) : (forall x y, P x y -> f x = g y) -> forall l m, Forall2 P l m -> count f l = count g m.
Proof. intros H l m F. induction F; [reflexivity|]. rewrite !count_cons, (H _ _ H0), IHF. reflexivity. Qed.
Lemma total_shift us c : total (map (fun u => u + c) us) = total us + c * INR (length us).
Proof. induction us as [|u us IH]; [cbn; ring|]. cbn [map length]. change (total (?x :: ?l)) with (x + total l). rewrite IH, S_INR. ring. Qed.
Lemma count_all f us : forallb f us = true -> count f us = zlen us.
Proof. induction us as [|u us IH]; [reflexivity|]. intros H. cbn [forallb] in H. apply andb_prop in H. destruct H as [A B]. rewrite count_cons, A, zlen_cons, IH by exact B. lia. Qed.
Lemma count_none f us : existsb f us = false -> count f us = 0%Z.
Proof. induction us as [|u us IH]; [reflexivity|]. intros H. cbn [existsb] in H. apply Bool.orb_false_elim in H. destruct H as [A B]. rewrite count_cons, A, IH by exact B. reflexivity. Qed.
Lemma mean_near nan array a us : Forall2 (gathered a) (valids array) us -> -90 <= a < 270 -> us <> [] ->
  exists k : Z, mean_degrees nan array = Fin (modulo (total us / INR (length us) + 360 * IZR k) 360).
Proof.
  intros F Ha Hn. assert (Len : length (valids array) = length us) by (clear - F; induction F; cbn; auto).
  assert (G : Forall2 (fun v u => mod360 v = u + (if neg u then 360 else 0) /\ a <= u < a + 90) (valids array) us).
  { clear - F Ha. induction F as [|v u vs us [S R] F IH]; constructor; [|exact IH]. split; [|exact R]. apply mod360_of; [exact S | lra]. }
  assert (G' : Forall2 (fun v u => mod360 v = u + (if neg u then 360 else 0)) (valids array) us) by (clear - G; induction G as [|v u vs us [E _] G IH]; constructor; auto).
  pose proof (total_vals _ _ G') as T. unfold mean_degrees. rewrite mean_fold. cbn [d_mean d_zero_minus d_zero_plus d_n180 d_nvalids]. rewrite !Bool.orb_false_l, !Z.add_0_l, Rplus_0_l, T.
  assert (N : zlen (valids array) = Z.of_nat (length us)) by (unfold zlen; lia). rewrite N. assert (P0 : (0 < length us)%nat) by (destruct us; [contradiction | cbn; lia]). replace (0 <? Z.of_nat (length us))%Z with true by lia.
  rewrite <- INR_IZR_INZ. assert (Pn : 0 < INR (length us)) by now apply lt_0_INR.
  assert (Bd : forall u, In u us -> a <= u < a + 90) by (clear - G; induction G as [|v u vs us [_ R] G IH]; [intros x [] | intros x [<-|Hx]; auto]).
  destruct (existsb neg us) eqn:EN.
  2:{ (* no negative angle: no sum to correct, or nothing of 180 and more *)
    rewrite (count_none _ _ EN). exists 0%Z. replace (360 * 0) with 0 by ring. rewrite !Rplus_0_r.
    destruct (existsb (fun v => Rltb 270 (mod360 v)) (valids array)) eqn:Zm; [|reflexivity]. destruct (existsb (fun v => Rleb (mod360 v) 90) (valids array)) eqn:Zp; [|reflexivity]. exfalso.
    rewrite (forall2_exists (fun v u => mod360 v = u + (if neg u then 360 else 0)) _ (fun u => Rltb 270 (u + (if neg u then 360 else 0)))) with (m := us) in Zm by (auto; intros; congruence).
    rewrite (forall2_exists (fun v u => mod360 v = u + (if neg u then 360 else 0)) _ (fun u => Rleb (u + (if neg u then 360 else 0)) 90)) with (m := us) in Zp by (auto; intros; congruence).
    apply existsb_exists in Zm, Zp. destruct Zm as [u [U1 U2]]. destruct Zp as [w [W1 W2]]. assert (neg u = false /\ neg w = false) as [Eu Ew].
    { split; apply Bool.not_true_is_false; intros Q; (assert (existsb neg us = true) by (apply existsb_exists; eauto)); congruence. }
    rewrite Eu in U2. rewrite Ew in W2. apply Rltb_true in U2. apply Rleb_true in W2. pose proof (Bd _ U1). pose proof (Bd _ W1). lra. }
  destruct (forallb neg us) eqn:AN.
  { (* all of them *)
    rewrite (count_all _ _ AN). assert (Zp : existsb (fun v => Rleb (mod360 v) 90) (valids array) = false).
    { rewrite (forall2_exists (fun v u => mod360 v = u + (if neg u then 360 else 0)) _ (fun u => Rleb (u + (if neg u then 360 else 0)) 90)) with (m := us) by (auto; intros; congruence).
      apply Bool.not_true_is_false. intros Q. apply existsb_exists in Q. destruct Q as [u [U1 U2]]. rewrite forallb_forall in AN. rewrite (AN u U1) in U2. apply Rleb_true in U2. pose proof (Bd _ U1). lra. }
    rewrite Zp, Bool.andb_false_r. exists 1%Z. unfold zlen. rewrite <- INR_IZR_INZ. do 2 f_equal. field. lra. }
  (* both signs *)
  assert (EP : existsb (fun u => negb (neg u)) us = true). { clear - AN. induction us as [|u us IH]; [discriminate|]. cbn in *. destruct (neg u); [cbn in *; auto | reflexivity]. }
  apply existsb_exists in EN, EP. destruct EN as [u [U1 U2]]. destruct EP as [w [W1 W2]]. apply Bool.negb_true_iff in W2. assert (U3 : u < 0) by (now apply Rltb_true in U2). assert (W3 : 0 <= w) by (unfold neg, Rltb in W2; destruct (Rlt_dec w 0); [discriminate | lra]).
  pose proof (Bd _ U1) as BU. pose proof (Bd _ W1) as BW.
  assert (Zm : existsb (fun v => Rltb 270 (mod360 v)) (valids array) = true).
  { rewrite (forall2_exists (fun v u => mod360 v = u + (if neg u then 360 else 0)) _ (fun u => Rltb 270 (u + (if neg u then 360 else 0)))) with (m := us) by (auto; intros; congruence). apply existsb_exists. exists u. split; [exact U1|]. rewrite U2. apply Rltb_true. lra. }
  assert (Zp : existsb (fun v => Rleb (mod360 v) 90) (valids array) = true).
  { rewrite (forall2_exists (fun v u => mod360 v = u + (if neg u then 360 else 0)) _ (fun u => Rleb (u + (if neg u then 360 else 0)) 90)) with (m := us) by (auto; intros; congruence). apply existsb_exists. exists w. split; [exact W1|]. rewrite W2. apply Rleb_true. lra. }
  rewrite Zm, Zp. cbn [andb]. rewrite (forall2_count (fun v u => mod360 v = u + (if neg u then 360 else 0) /\ a <= u < a + 90) (fun v => Rleb 180 (mod360 v)) neg) with (l := valids array) (m := us); [ | | exact G].
  2:{ intros v x [E R]. rewrite E. unfold neg, Rltb, Rleb. destruct (Rlt_dec x 0); destruct (Rle_dec 180 _); try reflexivity; exfalso; lra. }
  exists 0%Z. do 2 f_equal. field. lra.
Qed.
Lemma gathered_shift a K l us : Forall2 (gathered a) l us -> Forall2 (gathered (a - 360 * IZR K)) l (map (fun u => u + - (360 * IZR K)) us).
Proof.
  induction 1 as [|v u vs us [[k E] R] F IH]; constructor; auto. split; [|lra]. exists (k + K)%Z. rewrite plus_IZR. lra.
Qed.
Lemma mean_gathered nan array a us : Forall2 (gathered a) (valids array) us -> us <> [] ->
  exists m, mean_degrees nan array = Fin m /\ 0 <= m < 360 /\ same_angle m (total us / INR (length us)).
Proof.
  intros F Hn. set (K := Int_part ((a + 90) / 360)). pose proof (modulo_bounds (a + 90) 360 ltac:(lra)) as B. unfold modulo, npfloor in B. fold K in B.
  destruct (mean_near nan array (a - 360 * IZR K) (map (fun u => u + - (360 * IZR K)) us)) as [k E]; [now apply gathered_shift | lra | destruct us; [contradiction | discriminate]|].
  rewrite map_length in E. rewrite total_shift in E. eexists. split; [exact E|]. split; [apply modulo_bounds; lra|]. match goal with |- same_angle (modulo ?x 360) _ => destruct (modulo_equiv x 360) as [j ->] end.
  assert (Pn : 0 < INR (length us)) by (apply lt_0_INR; destruct us; [contradiction | cbn; lia]). exists (j + k - K)%Z. rewrite minus_IZR, plus_IZR. field. lra.
Qed.
Lemma total_bounds a us : us <> [] -> (forall u, In u us -> a <= u < a + 90) -> a <= total us / INR (length us) < a + 90.
Proof.
  intros N B. assert (Pn : 0 < INR (length us)) by (apply lt_0_INR; destruct us; [contradiction | cbn; lia]).
  assert (G : a * INR (length us) <= total us < (a + 90) * INR (length us)).
  { clear Pn. induction us as [|u us IH]; [contradiction|]. change (total (u :: us)) with (u + total us). cbn [length]. rewrite S_INR. pose proof (B u (or_introl eq_refl)). destruct us as [|w us].
    - cbn [total fold_right length INR]. unfold total. cbn. lra.
    - assert (a * INR (length (w :: us)) <= total (w :: us) < (a + 90) * INR (length (w :: us))) by (apply IH; [discriminate | intros; apply B; now right]). lra. }
  split.
  - apply (Rmult_le_reg_r (INR (length us))); [exact Pn|]. unfold Rdiv. rewrite Rmult_assoc, Rinv_l by lra. lra.
  - apply (Rmult_lt_reg_r (INR (length us))); [exact Pn|]. unfold Rdiv. rewrite Rmult_assoc, Rinv_l by lra. lra.
Qed.
(** ** Extrema of angles *)
Lemma near_ok m v t : 0 <= m < 360 -> same_angle v t -> -90 < t - m < 90 -> near m v = t.
Proof.
  intros Hm [k E] H. unfold near. pose proof (modulo_bounds v 360 ltac:(lra)) as B. destruct (modulo_equiv v 360) as [j Ej]. set (w := modulo v 360) in *.
  assert (W : w = t + 360 * IZR (k + j)) by (rewrite plus_IZR; lra). set (i := (k + j)%Z) in *.
  assert (L : (-2 < i)%Z) by (apply lt_IZR; lra). assert (U : (i < 2)%Z) by (apply lt_IZR; lra).
  assert (C : i = (-1)%Z \/ i = 0%Z \/ i = 1%Z) by lia. unfold Rltb.
  destruct C as [-> | [-> | ->]]; destruct (Rlt_dec m w); unfold Rabs; repeat (destruct (Rcase_abs _)); repeat (destruct (Rlt_dec _ _)); lra.
Qed.
Lemma minmax_fold m : forall array ts s0 s1 x0 x1, Forall2 (fun v t => near m v = t) (valids array) ts -> (s0, s1) = (Fin x0, Fin x1) ->
  exists lo hi, fold_left (minmax_step m) array (s0, s1) = (Fin lo, Fin hi) /\ least lo (x0 :: ts) /\ greatest hi (x1 :: ts).
Proof.
  induction array as [|[v|] array IH]; intros ts s0 s1 x0 x1 F E.
  - inversion F; subst. injection E as -> ->. exists x0, x1. split; [reflexivity|]. split; (split; [now left | intros x [<-|[]]; lra]).
  - inversion F as [|v' t vs ts' Ht F']; subst. injection E as -> ->. cbn [fold_left minmax_step fst snd num_min num_max].
    destruct (IH ts' (Fin (Rmin x0 (near m v))) (Fin (Rmax x1 (near m v))) (Rmin x0 (near m v)) (Rmax x1 (near m v)) F' eq_refl) as [lo [hi [E [[L1 L2] [G1 G2]]]]]. exists lo, hi. split; [exact E|]. split; split.
    + destruct L1 as [L1|L1]; [|right; now right]. rewrite <- L1. unfold Rmin. destruct (Rle_dec x0 (near m v)); [now left | right; now left].
    + assert (Q : lo <= Rmin x0 (near m v)) by (apply L2; now left). pose proof (Rmin_l x0 (near m v)). pose proof (Rmin_r x0 (near m v)). intros x [<-|[<-|Hx]]; [lra | lra | apply L2; now right].
    + destruct G1 as [G1|G1]; [|right; now right]. rewrite <- G1. unfold Rmax. destruct (Rle_dec x1 (near m v)); [right; now left | now left].
    + assert (Q : Rmax x1 (near m v) <= hi) by (apply G2; now left). pose proof (Rmax_l x1 (near m v)). pose proof (Rmax_r x1 (near m v)). intros x [<-|[<-|Hx]]; [lra | lra | apply G2; now right].
  - cbn [fold_left minmax_step]. apply (IH ts s0 s1 x0 x1 F E).
Qed.
Lemma minmax_fold0 m : forall array ts, Forall2 (fun v t => near m v = t) (valids array) ts -> ts <> [] ->
  exists lo hi, fold_left (minmax_step m) array (Inf false, Inf true) = (Fin lo, Fin hi) /\ least lo ts /\ greatest hi ts.
Proof.
  induction array as [|[v|] array IH]; intros ts F N.
  - inversion F; subst. contradiction.
  - inversion F as [|v' t vs ts' Ht F']; subst. cbn [fold_left minmax_step fst snd num_min num_max]. apply (minmax_fold m array ts' _ _ (near m v) (near m v) F' eq_refl).
  - cbn [fold_left minmax_step]. now apply IH.
Qed.
Lemma minmax_gathered nan array a us : Forall2 (gathered a) (valids array) us -> us <> [] ->
  exists lo hi lo' hi', minmax_degrees nan (Inf false) (Inf true) array = (Fin lo, Fin hi) /\ 0 <= lo < 360 /\ 0 <= hi < 360 /\ least lo' us /\ greatest hi' us /\ same_angle lo lo' /\ same_angle hi hi'.
Proof.
  intros F N. destruct (mean_gathered nan array a us F N) as [m [E [Bm [K Em]]]]. unfold minmax_degrees. rewrite E.
  assert (Bd : forall u, In u us -> a <= u < a + 90) by (clear - F; induction F as [|v u vs us [_ R] F IH]; [intros x [] | intros x [<-|Hx]; auto]).
  pose proof (total_bounds a us N Bd) as B.
  assert (Fn : Forall2 (fun v t => near m v = t) (valids array) (map (fun u => u + 360 * IZR K) us)).
  { clear E N. induction F as [|v u vs us' [[k S] R] F IH]; cbn [map]; constructor.
    - apply near_ok; [exact Bm | exists (k - K)%Z; rewrite minus_IZR; lra |]. lra.
    - clear IH. revert Em B Bd. generalize (total (u :: us') / INR (length (u :: us'))). intros mu Em B _. clear R S. induction F as [|v' u' vs' us'' [[k' S'] R'] F IH]; cbn [map]; constructor; [|exact IH]. apply near_ok; [exact Bm | exists (k' - K)%Z; rewrite minus_IZR; lra |]. lra. }
  destruct (minmax_fold0 m array _ Fn) as [lo [hi [-> [[L1 L2] [G1 G2]]]]]; [destruct us; [contradiction | discriminate]|]. cbn [fst snd num_modulo].
  apply in_map_iff in L1, G1. destruct L1 as [lo' [<- L1]]. destruct G1 as [hi' [<- G1]].
  do 4 eexists. split; [reflexivity|]. split; [apply modulo_bounds; lra|]. split; [apply modulo_bounds; lra|]. split; [|split; [|split]].
  - split; [exact L1|]. intros u Hu. assert (lo' + 360 * IZR K <= u + 360 * IZR K) by (apply L2, in_map_iff; eauto). lra.
  - split; [exact G1|]. intros u Hu. assert (u + 360 * IZR K <= hi' + 360 * IZR K) by (apply G2, in_map_iff; eauto). lra.
  - destruct (modulo_equiv (lo' + 360 * IZR K) 360) as [j ->]. exists (K + j)%Z. rewrite plus_IZR. ring.
  - destruct (modulo_equiv (hi' + 360 * IZR K) 360) as [j ->]. exists (K + j)%Z. rewrite plus_IZR. ring.
Qed.
(** ** Barycentre *)
Definition positions (l : list (option R * option R)) : list (R * R) := flat_map (fun p => match p with (Some a, Some b) => [(a, b)] | _ => [] end) l.
Lemma bary_fold l : forall s, fold_left bary_step l s = add3 s (sum3 (map (fun p => direction (fst p) (snd p)) (positions l))).
Proof.
  induction l as [|[[a|] [b|]] l IH]; intros [[x y] z].
  - cbn. repeat apply (f_equal2 pair); ring.
  - cbn [fold_left]. rewrite IH. change (positions ((Some a, Some b) :: l)) with ((a, b) :: positions l). cbn [map fst snd]. change (sum3 (?x :: ?m)) with (add3 x (sum3 m)).
    destruct (sum3 _) as [[u v] w]. unfold direction, bary_step. rewrite !deg. cbn [add3]. repeat apply (f_equal2 pair); ring.
  - cbn [fold_left bary_step]. now rewrite IH.
  - cbn [fold_left bary_step]. now rewrite IH.
  - cbn [fold_left bary_step]. now rewrite IH.
Qed.
Lemma bary_direction nan l x y z : l <> [] -> sum3 (map (fun p => direction (fst p) (snd p)) (positions l)) = (x, y, z) -> (x, y, z) <> (0, 0, 0) ->
  exists lon lat, barycenter_lonlat nan l = (Fin lon, Fin lat) /\ 0 <= lon < 360 /\ -90 <= lat <= 90 /\ scale3 (sqrt (x * x + y * y + z * z)) (direction lon lat) = (x, y, z).
Proof.
  intros N E NZ. unfold barycenter_lonlat. destruct l as [|p l]; [contradiction|]. rewrite bary_fold, E. cbn [add3]. rewrite !Rplus_0_l.
  assert (P0 : 0 < x * x + y * y + z * z). { destruct (Rlt_dec 0 (x * x + y * y + z * z)) as [|W]; [assumption|]. exfalso. apply NZ. assert (x = 0) by nra. assert (y = 0) by nra. assert (z = 0) by nra. congruence. }
  destruct (Req_EM_T (x * x + y * y + z * z) 0) as [|_]; [lra|]. set (n := x * x + y * y + z * z) in *. set (rho := sqrt (x * x + y * y)). set (c := sqrt ((x * x + y * y) / n)).
  pose proof pi_pos. assert (Q : 0 <= x * x + y * y) by nra. assert (Sn : 0 < sqrt n) by now apply sqrt_lt_R0. assert (Ec : c = rho / sqrt n) by (unfold c, rho; now rewrite sqrt_div_alt).
  assert (Hc : sqrt n * c = rho) by (rewrite Ec; field; lra).
  assert (C01 : 0 <= c <= 1). { split; [apply sqrt_pos|]. unfold c. rewrite <- sqrt_1. apply sqrt_le_1_alt. apply (Rmult_le_reg_r n); [lra|]. unfold Rdiv. rewrite Rmult_assoc, Rinv_l by lra. unfold n. nra. }
  assert (Ac : 0 <= acos c <= PI / 2). { split; [apply acos_bound|]. rewrite <- acos_0. destruct (Req_EM_T c 0) as [->|]; [lra|]. destruct (Rlt_dec (PI / 2) (acos c)) as [W|W]; [|rewrite acos_0; lra]. exfalso. pose proof (acos_bound c). assert (cos (acos c) < 0) by (apply cos_lt_0; lra). rewrite cos_acos in * by lra. lra. }
  assert (Sc : sqrt n * sin (acos c) = Rabs z). { rewrite sin_acos by lra. rewrite <- sqrt_mult_alt by lra. replace (n * (1 - c²)) with (z * z). { now rewrite <- (sqrt_Rsqr_abs z). } unfold Rsqr. assert (c * c = (x * x + y * y) / n) by (unfold c; apply sqrt_sqrt; apply Rmult_le_pos; [lra | apply Rlt_le, Rinv_0_lt_compat; lra]). rewrite H0. unfold n. field. fold n. lra. }
  do 2 eexists. split; [reflexivity|]. split; [apply modulo_bounds; lra|]. assert (A0 : 0 <= acos c * RAD2DEG <= 90).
  { unfold RAD2DEG. split; [apply Rmult_le_pos; [lra|]; apply Rmult_le_pos; [lra | apply Rlt_le, Rinv_0_lt_compat; lra]|]. apply (Rmult_le_reg_r (PI / 180)); [lra|]. replace (acos c * (180 / PI) * (PI / 180)) with (acos c) by (field; lra). lra. }
  unfold fsign. rewrite (Rabs_right (acos c * RAD2DEG)) by lra. split; [destruct (Rle_dec 0 z); lra|].
  match goal with |- context [modulo ?v 360] => destruct (modulo_equiv v 360) as [j ->]; replace (v + 360 * IZR j) with (atan2 y x * RAD2DEG + 360 * IZR (1 + j)) by (rewrite plus_IZR; ring) end.
  rewrite direction_turn. unfold direction. rewrite rad. pose proof (atan2_polar y x) as [PX PY]. fold rho in PX, PY.
  assert (L : cos ((if Rle_dec 0 z then acos c * RAD2DEG else - (acos c * RAD2DEG)) * PI / 180) = c /\ sqrt n * sin ((if Rle_dec 0 z then acos c * RAD2DEG else - (acos c * RAD2DEG)) * PI / 180) = z).
  { destruct (Rle_dec 0 z) as [Z|Z].
    - rewrite rad. split; [apply cos_acos; lra|]. rewrite Sc. apply Rabs_right. lra.
    - replace (- (acos c * RAD2DEG) * PI / 180) with (- (acos c * RAD2DEG * PI / 180)) by (field). rewrite rad, cos_neg, sin_neg. split; [apply cos_acos; lra|]. replace (sqrt n * - sin (acos c)) with (- (sqrt n * sin (acos c))) by ring. rewrite Sc, Rabs_left by lra. ring. }
  destruct L as [-> L]. cbn [scale3]. rewrite L. repeat apply (f_equal2 pair); [| |reflexivity].
  - rewrite <- Rmult_assoc, Hc. exact PX.
  - rewrite <- Rmult_assoc, Hc. exact PY.
Qed.
(** ** Separation *)
Lemma scalar_bound u v : scalar u u = 1 -> scalar v v = 1 -> -1 <= scalar u v <= 1 /\ (scalar u v = 1 <-> u = v).
Proof.
  destruct u as [[a b] c], v as [[x y] z]. unfold scalar. cbn [fst snd]. intros H1 H2. split.
  - pose proof (Rle_0_sqr (a - x)). pose proof (Rle_0_sqr (b - y)). pose proof (Rle_0_sqr (c - z)). pose proof (Rle_0_sqr (a + x)). pose proof (Rle_0_sqr (b + y)). pose proof (Rle_0_sqr (c + z)). unfold Rsqr in *. lra.
  - split; [|intros E; injection E as -> -> ->; lra]. intros E. pose proof (Rle_0_sqr (a - x)). pose proof (Rle_0_sqr (b - y)). pose proof (Rle_0_sqr (c - z)). unfold Rsqr in *.
    assert (a - x = 0) by nra. assert (b - y = 0) by nra. assert (c - z = 0) by nra. repeat apply (f_equal2 pair); lra.
Qed.
Lemma angle_ok lon1 lat1 lon2 lat2 : 0 <= angle_lonlat1 lon1 lat1 lon2 lat2 <= 180 /\ cos (angle_lonlat1 lon1 lat1 lon2 lat2 * PI / 180) = scalar (direction lon1 lat1) (direction lon2 lat2).
Proof.
  pose proof pi_pos. destruct (scalar_bound _ _ (direction_unit lon1 lat1) (direction_unit lon2 lat2)) as [B _].
  unfold angle_lonlat1. replace (cos (lat1 * DEG2RAD) * cos (lat2 * DEG2RAD) * cos ((lon2 - lon1) * DEG2RAD) + sin (lat1 * DEG2RAD) * sin (lat2 * DEG2RAD)) with (scalar (direction lon1 lat1) (direction lon2 lat2)).
  - rewrite rad. split; [|now apply cos_acos]. set (c := scalar _ _) in *. pose proof (acos_bound c). unfold RAD2DEG. split; [apply Rmult_le_pos; [lra|]; apply Rmult_le_pos; [lra | apply Rlt_le, Rinv_0_lt_compat; lra]|].
    apply (Rmult_le_reg_r (PI / 180)); [lra|]. replace (acos c * (180 / PI) * (PI / 180)) with (acos c) by (field; lra). lra.
  - unfold scalar, direction. cbn [fst snd]. rewrite !deg. replace ((lon2 - lon1) * PI / 180) with (lon2 * PI / 180 - lon1 * PI / 180) by field. rewrite cos_minus. ring.
Qed.
