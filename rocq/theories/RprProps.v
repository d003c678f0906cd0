(** C146: radial profiles with rounded operations. *)
From Coq Require Import ZArith Reals Lra Lia List Bool.
From Flocq Require Import Core.
From Verif Require Import Base ConstModel DataModel DataSpec RndModel RndSpec RndProps BirFacts RgnFacts RgnProps RanProps RmdModel RmdProps RbaFacts RprModel RprSpec.
Import ListNotations.
Open Scope R_scope.

Lemma rtotal_app l l' : rtotal (l ++ l') = rtotal l + rtotal l'.
Proof. unfold rtotal. induction l as [|x l IH]; cbn [app fold_right]; [|rewrite IH]; ring. Qed.
Lemma rtotal_abs l : Rabs (rtotal l) <= rtotal (map Rabs l).
Proof. unfold rtotal. induction l as [|x l IH]; cbn [map fold_right]; [rewrite Rabs_R0; lra|]. eapply Rle_trans; [apply Rabs_triang|]. lra. Qed.
Lemma rtotal_pos l : 0 <= rtotal (map Rabs l).
Proof. unfold rtotal. induction l as [|x l IH]; cbn [map fold_right]; [lra|]. pose proof (Rabs_pos x). lra. Qed.

Section T.
Variables (emin prec : Z) (ox oy bin : R).
Notation rn := (rndp emin prec).
Notation u := (unit_of prec).
Notation eta := (tiny_of emin).
Notation fmt64 := (generic_format radix2 (FLT_exp emin prec)).
Hypothesis Pp : (24 <= prec)%Z.
Hypothesis Pe : (emin <= 1 - 4 * prec)%Z.
Hypothesis Ox : representable emin prec ox.
Hypothesis Oy : representable emin prec oy.
Hypothesis Bn : 0 < bin.
Let Pe2 : (emin <= 1 - 2 * prec)%Z. Proof. lia. Qed.
Let P0 : (0 < prec)%Z := RmdProps.Q0 prec Pp.
Let U0 : 0 < u := V0 prec.
Let U2 : u <= / 16777216 := RmdProps.V2 prec Pp.
Lemma eta4 : 0 < eta <= u * u * (u * u).
Proof. split; [apply eta_pos|]. unfold tiny_of, unit_of. rewrite !pow2, <- !bpow_plus. apply bpow_le. lia. Qed.
Lemma uu_le : u * u <= / 16777216 * u. Proof. apply Rmult_le_compat_r; lra. Qed.
Lemma eta_small : eta <= / 16777216 * u * u.
Proof. pose proof eta4. pose proof uu_le. assert (0 <= u * u) by (apply Rmult_le_pos; lra). assert (u * u * (u * u) <= / 16777216 * (u * u)) by (apply Rmult_le_compat_r; lra). lra. Qed.
(** Distances. *)
Lemma side i o : representable emin prec o -> Rabs (IZR i) * u <= 1 -> let d := rn (rn (IZR i) - o) in Rabs (rn (d * d) - (IZR i - o) * (IZR i - o)) <= 3.01 * u * ((IZR i - o) * (IZR i - o)) + eta /\ 0 <= rn (d * d).
Proof.
  intros Ho Hi. cbv zeta. rewrite (int_exact emin prec Pp Pe2 i Hi). set (a := IZR i - o) in *. set (d := rn a).
  assert (Fi : fmt64 (IZR i)) by (rewrite <- (int_exact emin prec Pp Pe2 i Hi); apply (format_round emin prec P0)).
  assert (E : Rabs (d - a) <= u * Rabs a). { unfold d, a, Rminus. apply (add_error emin prec P0); [exact Fi|apply format_opp, format_representable, Ho]. }
  pose proof (sq_pos a) as A0. pose proof (sq_pos d) as D0. pose proof uu_le as UU.
  assert (S : Rabs (d * d - a * a) <= 2.001 * u * (a * a)).
  { replace (d * d - a * a) with ((d - a) * (d - a) + 2 * (a * (d - a))) by ring. eapply Rle_trans; [apply Rabs_triang|]. rewrite !Rabs_mult, (Rabs_pos_eq 2) by lra. pose proof (Rabs_pos (d - a)). pose proof (Rabs_pos a).
    assert (aa : Rabs a * Rabs a = a * a) by (rewrite <- Rabs_mult; apply Rabs_pos_eq; exact A0).
    assert (Rabs (d - a) * Rabs (d - a) <= u * Rabs a * (u * Rabs a)) by (apply Rmult_le_compat; lra). assert (Rabs a * Rabs (d - a) <= Rabs a * (u * Rabs a)) by (apply Rmult_le_compat_l; lra).
    replace (u * Rabs a * (u * Rabs a)) with (u * u * (a * a)) in * by (rewrite <- aa; ring). replace (Rabs a * (u * Rabs a)) with (u * (a * a)) in * by (rewrite <- aa; ring).
    assert (u * u * (a * a) <= / 16777216 * u * (a * a)) by (apply Rmult_le_compat_r; lra). assert (0 <= u * (a * a)) by (apply Rmult_le_pos; lra). lra. }
  split; [|apply (rn_pos emin prec Pp Pe2); exact D0].
  pose proof (rn_err emin prec P0 (d * d)) as R. rewrite (Rabs_pos_eq (d * d)) in R by exact D0. assert (Db : d * d <= 1.001 * (a * a)). { apply Rabs_le_inv in S. assert (u * (a * a) <= / 16777216 * (a * a)) by (apply Rmult_le_compat_r; lra). lra. }
  assert (u * (d * d) <= u * (1.001 * (a * a))) by (apply Rmult_le_compat_l; lra). assert (0 <= u * (a * a)) by (apply Rmult_le_pos; lra). pose proof (tri (rn (d * d)) (d * d) (a * a)). lra.
Qed.
Lemma root_near r d e : 0 <= r -> 0 <= d -> 0 <= e -> e <= 4 * (u * u * (u * u)) -> Rabs (r - d * d) <= 4.05 * u * (d * d) + e -> Rabs (sqrt r - d) <= 2.5 * u * d + u / 1000.
Proof.
  intros R0 D0 E0 Eu H. pose proof uu_le as UU. pose proof (sqrt_pos r) as S0. pose proof (sqrt_sqrt r R0) as SS. set (s := sqrt r) in *. apply Rabs_le_inv in H. set (w := u * u) in *. assert (w0 : 0 < w) by (apply Rmult_lt_0_compat; lra).
  assert (ud : 0 <= u * d) by (apply Rmult_le_pos; lra). assert (udd : 0 <= u * (d * d)) by (apply Rmult_le_pos; [lra|apply sq_pos]).
  assert (wd : 0 <= w * d) by (apply Rmult_le_pos; lra).
  assert (T : 0 <= 2.5 * (u * d) + 2 * w) by lra. set (t := 2.5 * (u * d) + 2 * w) in *.
  assert (dt : d * t = 2.5 * (u * (d * d)) + 2 * (w * d)) by (unfold t; ring).
  assert (t2 : 4 * (w * w) <= t * t). { replace (4 * (w * w)) with (2 * w * (2 * w)) by ring. apply Rmult_le_compat; unfold t; lra. }
  assert (Up : s <= d + t). { apply Rnot_lt_le. intros N. assert ((d + t) * (d + t) < s * s) by (apply Rmult_le_0_lt_compat; lra). replace ((d + t) * (d + t)) with (d * d + 2 * (d * t) + t * t) in * by ring. lra. }
  apply Rabs_le. split; [|unfold t in Up; lra].
  destruct (Rle_dec (100 * w) d) as [C|C]; [|lra].
  assert (td : t <= d / 10). { unfold t. assert (u * d <= / 16777216 * d) by (apply Rmult_le_compat_r; lra). lra. }
  assert (Lo : d - t <= s); [|unfold t in Lo; lra]. apply Rnot_lt_le. intros N. assert (s * s < (d - t) * (d - t)) by (apply Rmult_le_0_lt_compat; lra). replace ((d - t) * (d - t)) with (d * d - 2 * (d * t) + t * t) in * by ring.
  assert (t * t <= d / 10 * t) by (apply Rmult_le_compat_r; lra). assert (100 * w * w <= w * d) by (rewrite (Rmult_comm w d); apply Rmult_le_compat_r; lra). lra.
Qed.
Lemma distance_near i j : Rabs (IZR i) * u <= 1 -> Rabs (IZR j) * u <= 1 -> Rabs (distance_r emin prec ox oy i j - pixel_distance (ox, oy) i j) <= 4 * u * pixel_distance (ox, oy) i j + u / 100 /\ 0 <= distance_r emin prec ox oy i j.
Proof.
  intros Hi Hj. unfold distance_r. cbv zeta. destruct (side i ox Ox Hi) as [A A0]. destruct (side j oy Oy Hj) as [B B0]. cbv zeta in A, A0, B, B0.
  set (p := rn (rn (rn (IZR i) - ox) * rn (rn (IZR i) - ox))) in *. set (q := rn (rn (rn (IZR j) - oy) * rn (rn (IZR j) - oy))) in *. unfold pixel_distance. cbn [fst snd].
  set (a := IZR i - ox) in *. set (b := IZR j - oy) in *. pose proof (sq_pos a) as a0. pose proof (sq_pos b) as b0. set (d := sqrt (a * a + b * b)). assert (d0 : 0 <= d) by apply sqrt_pos. assert (dd : d * d = a * a + b * b) by (apply sqrt_sqrt; lra).
  pose proof eta4 as E4. pose proof eta_small as Es. pose proof uu_le as UU. assert (u3 : / 16777216 * u * u <= / 16777216 * u) by (rewrite Rmult_assoc; apply Rmult_le_compat_l; lra).
  assert (S : Rabs (p + q - d * d) <= 3.01 * u * (d * d) + 2 * eta) by (rewrite dd; apply Rabs_le_inv in A; apply Rabs_le_inv in B; apply Rabs_le; lra).
  pose proof (sq_pos d) as dd0. assert (ud : u * (d * d) <= / 16777216 * (d * d)) by (apply Rmult_le_compat_r; lra). assert (ud0 : 0 <= u * (d * d)) by (apply Rmult_le_pos; lra).
  pose proof (rn_err emin prec P0 (p + q)) as R. rewrite (Rabs_pos_eq (p + q)) in R by lra.
  assert (Pq : p + q <= 1.001 * (d * d) + 2 * eta) by (apply Rabs_le_inv in S; lra). assert (u * (p + q) <= u * (1.001 * (d * d) + 2 * eta)) by (apply Rmult_le_compat_l; lra). assert (u * eta <= / 16777216 * eta) by (apply Rmult_le_compat_r; lra).
  assert (r0 : 0 <= rn (p + q)) by (apply (rn_pos emin prec Pp Pe2); lra). set (r := rn (p + q)) in *.
  assert (N : Rabs (r - d * d) <= 4.05 * u * (d * d) + 3.5 * eta) by (pose proof (tri r (p + q) (d * d)); lra).
  pose proof (root_near r d (3.5 * eta) r0 d0 ltac:(lra) ltac:(lra) N) as Q. pose proof (sqrt_pos r) as s0. split; [|apply (rn_pos emin prec Pp Pe2); exact s0].
  pose proof (rn_err emin prec P0 (sqrt r)) as R2. rewrite (Rabs_pos_eq (sqrt r)) in R2 by exact s0. assert (u1 : u * d <= / 16777216 * d) by (apply Rmult_le_compat_r; lra). assert (u10 : 0 <= u * d) by (apply Rmult_le_pos; lra).
  assert (Sb : sqrt r <= 1.001 * d + u / 1000) by (apply Rabs_le_inv in Q; lra). assert (u * sqrt r <= u * (1.001 * d + u / 1000)) by (apply Rmult_le_compat_l; lra).
  pose proof (tri (rn (sqrt r)) (sqrt r) d). lra.
Qed.
Lemma trunc_in x : 0 <= x -> (0 <= trunc x)%Z /\ IZR (trunc x) <= x < IZR (trunc x) + 1.
Proof.
  intros H. unfold trunc. destruct (Rle_dec 0 x); [|lra]. destruct (base_Int_part x) as [A B]. split; [|lra]. assert (-1 < Int_part x)%Z by (apply lt_IZR; lra). lia.
Qed.
Lemma bin_near i j : Rabs (IZR i) * u <= 1 -> Rabs (IZR j) * u <= 1 -> let d := pixel_distance (ox, oy) i j in in_bin (6 * u * d + u / 50 + eta * bin) bin d (bin_r emin prec ox oy bin i j).
Proof.
  intros Hi Hj d. destruct (distance_near i j Hi Hj) as [E D0]. fold d in E. assert (d0 : 0 <= d) by apply sqrt_pos. unfold bin_r. set (h := distance_r emin prec ox oy i j) in *.
  assert (i0 : 0 < / bin) by (apply Rinv_0_lt_compat; exact Bn). assert (q0 : 0 <= h / bin) by (apply Rmult_le_pos; lra). pose proof (rn_pos emin prec Pp Pe2 _ q0) as r0. destruct (trunc_in _ r0) as [K0 [K1 K2]]. split; [exact K0|].
  set (k := trunc (rn (h / bin))) in *. pose proof (rn_err emin prec P0 (h / bin)) as R. rewrite (Rabs_pos_eq (h / bin)) in R by exact q0. set (r := rn (h / bin)) in *. set (q := h / bin) in *. assert (qb : q * bin = h) by (unfold q; field; lra).
  apply Rabs_le_inv in R. apply Rabs_le_inv in E. pose proof uu_le. assert (u * d <= / 16777216 * d) by (apply Rmult_le_compat_r; lra). assert (ud0 : 0 <= u * d) by (apply Rmult_le_pos; lra). assert (u * (u * d) <= / 16777216 * (u * d)) by (apply Rmult_le_compat_r; lra).
  assert (uh : u * h <= u * (d + (4 * u * d + u / 100))) by (apply Rmult_le_compat_l; lra).
  assert (Rb : IZR k * bin <= h + u * h + eta * bin). { apply Rle_trans with ((q + (u * q + eta)) * bin); [apply Rmult_le_compat_r; lra|]. rewrite <- qb. right. ring. }
  assert (Rb2 : h - u * h - eta * bin <= (IZR k + 1) * bin). { apply Rle_trans with ((q - (u * q + eta)) * bin); [rewrite <- qb; right; ring|]. apply Rmult_le_compat_r; lra. }
  lra.
Qed.
(** Sums. *)
Definition sum_abs (k : nat) (m : R) (c s : R) : Prop := fmt64 c /\ Rabs s <= m /\ Rabs (c - s) <= ((1 + u) ^ k - 1) * m.
Lemma sum_abs_le k k' m c s : (k <= k')%nat -> sum_abs k m c s -> sum_abs k' m c s.
Proof. intros Lk [F [P E]]. split; [exact F|]. split; [exact P|]. eapply Rle_trans; [exact E|]. apply Rmult_le_compat_r; [pose proof (Rabs_pos s); lra|]. pose proof (Rle_pow (1 + u) k k' ltac:(lra) Lk). lra. Qed.
Lemma sum_abs_add k k' m m' c s c' s' : sum_abs k m c s -> sum_abs k' m' c' s' -> sum_abs (S (Nat.max k k')) (m + m') (rn (c + c')) (s + s').
Proof.
  intros A B. apply (sum_abs_le _ (Nat.max k k')) in A; [|lia]. apply (sum_abs_le _ (Nat.max k k')) in B; [|lia]. destruct A as [F [P E]], B as [F' [P' E']].
  split; [apply (format_round emin prec P0)|]. split; [eapply Rle_trans; [apply Rabs_triang|]; lra|]. pose proof (add_error emin prec P0 c c' F F') as R. set (j := Nat.max k k') in *. pose proof (g_1 prec j) as Gj. set (g := (1 + u) ^ j) in *.
  assert (D : Rabs (c + c' - (s + s')) <= (g - 1) * (m + m')). { replace (c + c' - (s + s')) with ((c - s) + (c' - s')) by ring. eapply Rle_trans; [apply Rabs_triang|]. lra. }
  assert (M : Rabs (c + c') <= g * (m + m')) by (pose proof (near_abs _ _ (m + m') _ D ltac:(eapply Rle_trans; [apply Rabs_triang|]; lra)); lra).
  assert (u * Rabs (c + c') <= u * (g * (m + m'))) by (apply Rmult_le_compat_l; lra).
  pose proof (tri (rn (c + c')) (c + c') (s + s')). change ((1 + u) ^ S j) with ((1 + u) * g). lra.
Qed.
Lemma sum_abs_0 : sum_abs 0 0 0 0.
Proof. split; [apply generic_format_0|]. rewrite Rabs_R0, Rminus_eq_0, Rabs_R0. cbn. lra. Qed.
Lemma sum_abs_one c : fmt64 c -> sum_abs 0 (Rabs c) c c.
Proof. intros F. split; [exact F|]. rewrite Rminus_eq_0, Rabs_R0. cbn. lra. Qed.
Lemma sum_fold l : Forall (fun x => fmt64 x) l -> forall k m c s, sum_abs k m c s -> sum_abs (k + length l) (m + rtotal (map Rabs l)) (fold_left (fun s x => rn (s + x)) l c) (s + rtotal l).
Proof.
  induction 1 as [|x l F _ IH]; intros k m c s H; [cbn; rewrite Nat.add_0_r, !Rplus_0_r; exact H|]. cbn [fold_left length map rtotal fold_right].
  pose proof (IH _ _ _ _ (sum_abs_add _ _ _ _ _ _ _ _ H (sum_abs_one x F))) as N. unfold rtotal in N. rewrite !Rplus_assoc in N. eapply sum_abs_le; [|exact N]. lia.
Qed.
Notation seen k := (seen_r emin prec ox oy bin k).
Lemma reduce_fold f k threads : (forall t p, In t threads -> In p t -> Forall (fun x => fmt64 x) (map f (seen k p))) -> forall k0 m c s, sum_abs k0 m c s ->
  exists k', (k' <= k0 + length (flat_map (seen k) (concat threads)) + length threads)%nat /\
    sum_abs k' (m + rtotal (map Rabs (map f (flat_map (seen k) (concat threads))))) (fold_left (fun s x => rn (s + x)) (map (fun t => sum_r emin prec (map f (flat_map (seen k) t))) threads) c) (s + rtotal (map f (flat_map (seen k) (concat threads)))).
Proof.
  induction threads as [|t threads IH]; intros H k0 m c s A; [exists k0; cbn; rewrite !Rplus_0_r; split; [lia|exact A]|]. cbn [map fold_left concat]. rewrite flat_map_app, !map_app, !rtotal_app, app_length.
  assert (F : Forall (fun x => fmt64 x) (map f (flat_map (seen k) t))).
  { apply Forall_forall. intros x X. apply in_map_iff in X. destruct X as [y [<- Y]]. apply in_flat_map in Y. destruct Y as [p [P Q]]. pose proof (H t p (or_introl eq_refl) P) as G. rewrite Forall_forall in G. apply G, in_map, Q. }
  pose proof (sum_fold _ F _ _ _ _ sum_abs_0) as B. rewrite !Rplus_0_l in B. fold (sum_r emin prec (map f (flat_map (seen k) t))) in B.
  destruct (IH (fun t' p T P => H t' p (or_intror T) P) _ _ _ _ (sum_abs_add _ _ _ _ _ _ _ _ A B)) as [k' [Lk S]]. exists k'. rewrite map_length in Lk. rewrite <- !Rplus_assoc. split; [cbn [length]; lia|exact S].
Qed.
Lemma count_is k threads : count_r emin prec ox oy bin k threads = Z.of_nat (length (flat_map (seen k) (concat threads))).
Proof.
  unfold count_r. assert (G : forall z, fold_left Z.add (map (fun t => Z.of_nat (length (flat_map (seen k) t))) threads) z = (z + Z.of_nat (length (flat_map (seen k) (concat threads))))%Z); [|rewrite G; lia].
  induction threads as [|t threads IH]; intros z; cbn [map fold_left concat]; [cbn; lia|]. rewrite IH, flat_map_app, app_length. lia.
Qed.
(** Means. *)
Lemma quotient_near n d c m s : 1 <= n -> n <= d -> d * u <= / 1024 -> Rabs s <= m -> Rabs (c - s) <= 1.01 * (d * u) * m -> Rabs (rn (c / n) - s / n) <= 1.02 * (d + 1) * u * (m / n) + eta.
Proof.
  intros N1 Nd Du S E. assert (m0 : 0 <= m) by (pose proof (Rabs_pos s); lra). assert (i0 : 0 < / n) by (apply Rinv_0_lt_compat; lra). set (q := m / n). assert (q0 : 0 <= q) by (apply Rmult_le_pos; lra).
  assert (A : Rabs (c / n - s / n) <= 1.01 * (d * u) * q). { unfold Rdiv. rewrite <- Rmult_minus_distr_r, Rabs_mult, (Rabs_pos_eq (/ n)) by lra. unfold q, Rdiv. rewrite <- Rmult_assoc. apply Rmult_le_compat_r; lra. }
  assert (B : Rabs (s / n) <= q). { unfold Rdiv. rewrite Rabs_mult, (Rabs_pos_eq (/ n)) by lra. apply Rmult_le_compat_r; lra. }
  assert (d * u * q <= / 1024 * q) by (apply Rmult_le_compat_r; lra). pose proof (near_abs _ _ _ _ A B) as C. pose proof (rn_err emin prec P0 (c / n)) as R. assert (u * Rabs (c / n) <= u * (1.01 * q)) by (apply Rmult_le_compat_l; lra).
  pose proof (tri (rn (c / n)) (c / n) (s / n)). assert (0 <= u * q) by (apply Rmult_le_pos; lra). assert (0 <= d * u * q) by (apply Rmult_le_pos; [apply Rmult_le_pos; lra|lra]). lra.
Qed.
Notation bofs := (bin_r emin prec ox oy bin).
Definition small (p : pixel) : Prop := let '(i, j, v) := p in Rabs (IZR i) * u <= 1 /\ Rabs (IZR j) * u <= 1 /\ match v with Some v => representable emin prec v | None => True end.
Lemma seen_assigned k l : Forall small l -> map snd (flat_map (seen k) l) = map snd (assigned (ox, oy) bofs k l) /\
  Forall2 (fun h d => Rabs (h - d) <= 4 * u * d + u / 100 /\ 0 <= h /\ 0 <= d) (map fst (flat_map (seen k) l)) (map fst (assigned (ox, oy) bofs k l)).
Proof.
  induction 1 as [|[[i j] v] l [Hi [Hj Hv]] _ [IH1 IH2]]; [split; constructor|]. unfold assigned in *. cbn [flat_map seen_r]. destruct v as [v|]; [|split; [exact IH1|exact IH2]].
  destruct (bofs i j =? k)%Z; cbn [app map fst snd]; [|split; [exact IH1|exact IH2]]. split; [f_equal; exact IH1|]. constructor; [|exact IH2]. destruct (distance_near i j Hi Hj) as [E D]. split; [exact E|]. split; [exact D|apply sqrt_pos].
Qed.
Lemma totals_near (l l' : list R) : Forall2 (fun h d => Rabs (h - d) <= 4 * u * d + u / 100 /\ 0 <= h /\ 0 <= d) l l' -> Rabs (rtotal l - rtotal l') <= 4 * u * rtotal l' + INR (length l) * (u / 100) /\ 0 <= rtotal l' /\ rtotal (map Rabs l) = rtotal l /\ length l = length l'.
Proof.
  unfold rtotal. induction 1 as [|h d l l' [H [H0 D0]] _ [IH [P [A Ln]]]]; [cbn; rewrite Rminus_eq_0, Rabs_R0; repeat split; lra|]. cbn [fold_right map length]. rewrite S_INR, A, (Rabs_pos_eq h) by exact H0.
  split; [|repeat split; [lra|congruence]]. match goal with |- Rabs ?t <= _ => replace t with ((h - d) + (fold_right Rplus 0 l - fold_right Rplus 0 l')) by ring end. eapply Rle_trans; [apply Rabs_triang|]. lra.
Qed.
Lemma bin_ok k threads : (0 <= k)%Z -> Forall (Forall small) threads -> let cell := assigned (ox, oy) bofs k (concat threads) in let n := INR (length cell) in let d := n + INR (length threads) in d * u <= / 1024 ->
  exists x y, bin_result_r emin prec ox oy bin k threads = (x, y, Z.of_nat (length cell)) /\
    (cell = [] -> y = None) /\
    (cell <> [] -> Rabs (x - mean_of (map fst cell)) <= 1.03 * (d + 5) * u * (mean_of (map fst cell) + / 50) /\ exists m, y = Some m /\ Rabs (m - mean_of (map snd cell)) <= 1.02 * (d + 1) * u * mean_of (map Rabs (map snd cell)) + eta).
Proof.
  intros K0 F cell n d Du. pose proof (count_is k threads) as C. assert (F' : Forall small (concat threads)). { clear - F. induction F; [constructor|]. cbn. apply Forall_app. split; assumption. }
  destruct (seen_assigned k (concat threads) F') as [Es Ef]. fold cell in Es, Ef. destruct (totals_near _ _ Ef) as [Et [Tp [Ta Ln]]]. rewrite !map_length in Ln.
  assert (G : forall f, (f = fst \/ f = snd) -> forall t p, In t threads -> In p t -> Forall (fun x => fmt64 x) (map f (seen k p))).
  { intros f Hf t [[i j] [v|]] T P; cbn [seen_r]; [|constructor]. destruct (bofs i j =? k)%Z; [|constructor]. constructor; [|constructor]. rewrite Forall_forall in F. pose proof (F t T) as Ft. rewrite Forall_forall in Ft. destruct (Ft _ P) as [_ [_ R]].
    destruct Hf as [->| ->]; cbn [fst snd]; [apply (format_round emin prec P0)|apply format_representable, R]. }
  unfold bin_result_r. cbv zeta. rewrite C, Ln. destruct (Z.of_nat (length cell) =? 0)%Z eqn:Z0; cbn [negb].
  - apply Z.eqb_eq in Z0. do 2 eexists. split; [reflexivity|]. split; [reflexivity|]. intros N. destruct cell; [congruence|cbn in Z0; lia].
  - apply Z.eqb_neq in Z0. assert (N1 : 1 <= n) by (unfold n; replace 1 with (INR 1) by reflexivity; apply le_INR; lia). assert (t0 := pos_INR (length threads)).
    assert (En : rn (IZR (Z.of_nat (length cell))) = n). { rewrite <- INR_IZR_INZ. unfold n. rewrite INR_IZR_INZ. apply (int_exact emin prec Pp Pe2). rewrite <- INR_IZR_INZ. fold n. rewrite Rabs_pos_eq by lra. assert (n * u <= d * u) by (apply Rmult_le_compat_r; unfold d; lra). lra. }
    rewrite En. do 2 eexists. split; [reflexivity|]. split; [intros X; rewrite X in Z0; cbn in Z0; lia|]. intros _.
    assert (Q : forall f, (f = fst \/ f = snd) -> Rabs (rn (reduce_r emin prec ox oy bin f k threads / n) - rtotal (map f (flat_map (seen k) (concat threads))) / n) <= 1.02 * (d + 1) * u * (rtotal (map Rabs (map f (flat_map (seen k) (concat threads)))) / n) + eta).
    { intros f Hf. destruct (reduce_fold f k threads (G f Hf) _ _ _ _ sum_abs_0) as [k' [Lk S]]. rewrite !Rplus_0_l in S. destruct S as [_ [S1 S2]]. apply quotient_near; [exact N1|unfold d; lra|exact Du|exact S1|]. eapply Rle_trans; [exact S2|].
      apply Rmult_le_compat_r; [apply rtotal_pos|]. assert (kd : INR k' <= d) by (unfold d, n; rewrite <- plus_INR; apply le_INR; rewrite <- Ln; lia). assert (INR k' * u <= d * u) by (apply Rmult_le_compat_r; lra). pose proof (g_bound prec Pp k' ltac:(lra)). lra. }
    pose proof eta_small. pose proof uu_le.
    split.
    + pose proof (Q fst (or_introl eq_refl)) as X. rewrite Ta in X. unfold mean_of. rewrite map_length. fold n. set (h := rtotal (map fst (flat_map (seen k) (concat threads)))) in *. set (e := rtotal (map fst cell)) in *.
      rewrite map_length, Ln in Et. fold n in Et. assert (i0 : 0 < / n) by (apply Rinv_0_lt_compat; lra). assert (i1 : n * / n = 1) by (apply Rinv_r; lra).
      assert (q0 : 0 <= e / n) by (apply Rmult_le_pos; lra).
      assert (Y : Rabs (h / n - e / n) <= 4 * u * (e / n) + u / 100).
      { unfold Rdiv at 1 2. rewrite <- Rmult_minus_distr_r, Rabs_mult, (Rabs_pos_eq (/ n)) by lra. apply Rle_trans with ((4 * u * e + n * (u / 100)) * / n); [apply Rmult_le_compat_r; lra|]. right. unfold Rdiv. field. lra. }
      set (qe := e / n) in *. set (qh := h / n) in *. assert (u * qe <= / 16777216 * qe) by (apply Rmult_le_compat_r; lra). assert (uq : 0 <= u * qe) by (apply Rmult_le_pos; lra).
      assert (Hh : qh <= 1.001 * (qe + / 100)) by (apply Rabs_le_inv in Y; lra).
      assert (D1 : 0 <= 1.02 * (d + 1) * u) by (apply Rmult_le_pos; unfold d; lra). assert (1.02 * (d + 1) * u * qh <= 1.02 * (d + 1) * u * (1.001 * (qe + / 100))) by (apply Rmult_le_compat_l; lra).
      match goal with |- Rabs (?a - _) <= _ => pose proof (tri a qh qe) end. assert (0 <= (d + 1) * u * qe) by (apply Rmult_le_pos; [|lra]; apply Rmult_le_pos; unfold d; lra). assert (0 <= (d + 1) * u) by (apply Rmult_le_pos; unfold d; lra).
      assert (u * u <= / 16777216 * u) by assumption. assert (/ 16777216 * u * u <= / 16777216 * u) by (rewrite Rmult_assoc; apply Rmult_le_compat_l; lra). lra.
    + eexists. split; [reflexivity|]. pose proof (Q snd (or_intror eq_refl)) as X. rewrite Es in X. unfold mean_of. rewrite !map_length. fold n. exact X.
Qed.
End T.
Lemma half_fmt emin prec : (24 <= prec)%Z -> (emin <= 1 - 4 * prec)%Z -> generic_format radix2 (FLT_exp emin prec) (/ 2).
Proof. intros P E. change (/ 2) with (bpow radix2 (-1)). apply generic_format_bpow. unfold FLT_exp. lia. Qed.
Lemma centre_near emin prec bin k : (24 <= prec)%Z -> (emin <= 1 - 4 * prec)%Z -> 0 < bin -> (0 <= k)%Z -> (k < 2 ^ prec)%Z ->
  Rabs (rndp emin prec (bin * rndp emin prec (rndp emin prec (IZR (k + 1)) - / 2)) - (IZR k + / 2) * bin) <= 2.01 * unit_of prec * ((IZR k + / 2) * bin) + tiny_of emin.
Proof.
  intros Pp Pe B K0 K1. pose proof (V0 prec) as U0. pose proof (RmdProps.V2 prec Pp) as U2. pose proof (RmdProps.Q0 prec Pp) as P0. assert (Pe2 : (emin <= 1 - 2 * prec)%Z) by lia. set (u := unit_of prec) in *.
  assert (T : Rabs (IZR (k + 1)) * u <= 1). { rewrite <- abs_IZR. pose proof (u_top prec Pp) as T. fold u in T. rewrite <- T, Rmult_comm. apply Rmult_le_compat_l; [lra|]. apply IZR_le. lia. }
  pose proof (int_exact emin prec Pp Pe2 _ T) as En. assert (Fi : generic_format radix2 (FLT_exp emin prec) (IZR (k + 1))) by (rewrite <- En; apply (format_round emin prec P0)). rewrite En.
  pose proof (add_error emin prec P0 (IZR (k + 1)) (- / 2) Fi (format_opp _ _ _ (half_fmt emin prec Pp Pe))) as A. fold u in A. replace (IZR (k + 1) + - / 2) with (IZR k + / 2) in A by (rewrite plus_IZR; lra). replace (IZR (k + 1) - / 2) with (IZR k + / 2) by (rewrite plus_IZR; lra).
  apply IZR_le in K0. rewrite (Rabs_pos_eq (IZR k + / 2)) in A by lra. set (c := IZR k + / 2) in *. set (r := rndp emin prec c) in *. pose proof (rn_err emin prec P0 (bin * r)) as R. fold u in R. set (p := c * bin). assert (p0 : 0 <= p) by (apply Rmult_le_pos; unfold c; lra).
  assert (M : Rabs (bin * r - p) <= u * p). { unfold p. replace (bin * r - c * bin) with ((r - c) * bin) by ring. rewrite Rabs_mult, (Rabs_pos_eq bin) by lra. rewrite <- Rmult_assoc. apply Rmult_le_compat_r; lra. }
  assert (u * p <= / 16777216 * p) by (apply Rmult_le_compat_r; lra). assert (0 <= u * p) by (apply Rmult_le_pos; lra).
  assert (Bp : Rabs (bin * r) <= 1.001 * p) by (apply Rabs_le_inv in M; apply Rabs_le; lra). assert (u * Rabs (bin * r) <= u * (1.001 * p)) by (apply Rmult_le_compat_l; lra).
  pose proof (tri (rndp emin prec (bin * r)) (bin * r) p). lra.
Qed.

(** C146.  There is an assignment of the pixels to bins, right within 6 u d + u / 50 + eta bin for every valid pixel at the distance d of the centre,
    such that every bin of the profile has the number of the pixels assigned to it, the mean of their distances and the mean of their values,
    within errors in the number of additions; an empty bin has its centre and NaN. *)
Theorem C146_profile emin prec ox oy bin nbins threads : (24 <= prec)%Z -> (emin <= 1 - 4 * prec)%Z -> representable emin prec ox -> representable emin prec oy -> 0 < bin ->
  numbers_ok prec (representable emin prec) (concat threads) -> (Z.of_nat nbins <= 2 ^ prec)%Z ->
  (INR (length (concat threads)) + INR (length threads)) * unit_of prec <= / 1024 ->
  exists b : Z -> Z -> Z,
    (forall i j v, In (i, j, Some v) (concat threads) -> let d := pixel_distance (ox, oy) i j in in_bin (6 * unit_of prec * d + unit_of prec / 50 + tiny_of emin * bin) bin d (b i j)) /\
    length (profile_r emin prec ox oy bin nbins threads) = nbins /\
    forall k, (k < nbins)%nat -> let cell := assigned (ox, oy) b (Z.of_nat k) (concat threads) in let additions := INR (length cell) + INR (length threads) in
      exists x y, nth_error (profile_r emin prec ox oy bin nbins threads) k = Some (x, y, Z.of_nat (length cell)) /\
        (cell = [] -> y = None /\ Rabs (x - (INR k + / 2) * bin) <= 2.01 * unit_of prec * ((INR k + / 2) * bin) + tiny_of emin) /\
        (cell <> [] -> Rabs (x - mean_of (map fst cell)) <= 1.03 * (additions + 5) * unit_of prec * (mean_of (map fst cell) + / 50) /\
          exists m, y = Some m /\ Rabs (m - mean_of (map snd cell)) <= 1.02 * (additions + 1) * unit_of prec * mean_of (map Rabs (map snd cell)) + tiny_of emin).
Proof.
  intros Pp Pe Ox Oy B N Nb Du. pose proof (V0 prec) as U0.
  assert (I1 : forall i, (Z.abs i <= 2 ^ prec)%Z -> Rabs (IZR i) * unit_of prec <= 1). { intros i H. rewrite <- abs_IZR. pose proof (u_top prec Pp) as T. rewrite <- T, Rmult_comm. apply Rmult_le_compat_l; [lra|]. apply IZR_le, H. }
  exists (bin_r emin prec ox oy bin). split; [intros i j v H d; destruct (N i j _ H) as [Hi [Hj _]]; apply (bin_near emin prec ox oy bin Pp Pe Ox Oy B); apply I1; assumption|].
  split; [unfold profile_r; rewrite map_length, seq_length; reflexivity|]. intros k Hk cell additions.
  assert (F : Forall (Forall (small emin prec)) threads).
  { apply Forall_forall. intros t T. apply Forall_forall. intros [[i j] v] P. destruct (N i j v) as [Hi [Hj Hv]]; [apply in_concat; exists t; split; assumption|]. split; [apply I1, Hi|]. split; [apply I1, Hj|]. destruct v as [w|]; [apply Hv; reflexivity|exact I]. }
  assert (Lc : (length cell <= length (concat threads))%nat).
  { unfold cell. clear. induction (concat threads) as [|[[i j] v] l IH]; [cbn; lia|]. unfold assigned in *. cbn [flat_map length]. rewrite app_length. destruct v; [destruct (_ =? _)%Z; cbn [length]; lia|cbn [length]; lia]. }
  assert (Da : additions * unit_of prec <= / 1024). { eapply Rle_trans; [|exact Du]. apply Rmult_le_compat_r; [lra|]. unfold additions. apply le_INR in Lc. lra. }
  destruct (bin_ok emin prec ox oy bin Pp Pe Ox Oy (Z.of_nat k) threads ltac:(lia) F Da) as [x [y [E [E0 E1]]]]. fold cell additions in E, E0, E1. exists x, y. split; [|split; [|exact E1]].
  - unfold profile_r. rewrite nth_error_map. assert (S : nth_error (seq 0 nbins) k = Some k) by (rewrite (nth_error_nth' _ 0%nat) by (rewrite seq_length; exact Hk); f_equal; apply seq_nth; exact Hk). rewrite S. cbn [option_map]. f_equal. exact E.
  - intros C. split; [apply E0, C|]. unfold bin_result_r in E. cbv zeta in E. assert (n0 : count_r emin prec ox oy bin (Z.of_nat k) threads = 0%Z). { apply (f_equal snd) in E. cbn [snd] in E. transitivity (Z.of_nat (length cell)); [|rewrite C; reflexivity]. refine (eq_trans _ E). destruct (negb _); reflexivity. }
    rewrite n0 in E. cbn [Z.eqb negb] in E. injection E as E _ _. rewrite <- E, INR_IZR_INZ. apply centre_near; try assumption; lia.
Qed.
Print Assumptions C146_profile.

(** Two valid pixels at the distances 1/2 and 3/2 of the centre (1/2, 0), in two threads. *)
Example C146_case : let threads := [[(0, 0, Some 1%R); (1, 0, None)]; [(2, 0, Some 3%R)]]%Z in
  numbers_ok 53 (representable (-1074) 53) (concat threads) /\ representable (-1074) 53 (/ 2) /\ representable (-1074) 53 0 /\ (INR (length (concat threads)) + INR (length threads)) * unit_of 53 <= / 1024.
Proof.
  cbn [concat app length]. assert (R : forall z, (Z.abs z < 2 ^ 53)%Z -> representable (-1074) 53 (IZR z)) by (intros z H; exists z, 0%Z; split; [rewrite pow2; change (bpow radix2 0) with 1; lra|lia]).
  split; [|split; [exists 1%Z, (-1)%Z; split; [rewrite pow2; change (bpow radix2 (-1)) with (/ 2); lra|lia]|split; [exact (R 0%Z ltac:(lia))|rewrite unit_53; cbn [INR]; lra]]].
  intros i j v [H|[H|[H|[]]]]; injection H as <- <- <-; (split; [lia|split; [lia|]]); intros w W; try discriminate W; injection W as <-; [exact (R 1%Z ltac:(lia))|exact (R 3%Z ltac:(lia))].
Qed.

(** The double precision number nearest to 0.1 is above it: the pixel at the distance 3 is in the ring from 29 to 30 widths, but the rounded quotient is 30. *)
Definition tenth : R := IZR 3602879701896397 / IZR (2 ^ 55).
Theorem C146_ring_refuted : ring (0, 0) (29 * tenth) (30 * tenth) [(3, 0, Some 1%R)]%Z = [(3, 1)] /\
  exists x, nth_error (profile_r (-1074) 53 0 0 tenth 31 [[(3, 0, Some 1%R)]]%Z) 29 = Some (x, None, 0%Z).
Proof.
  assert (T : tenth = 3602879701896397 / 36028797018963968) by reflexivity.
  assert (S9 : sqrt 9 = 3) by (replace 9 with (3 * 3) by ring; apply sqrt_square; lra). split.
  - unfold ring. cbn [flat_map]. unfold pixel_distance. cbn [fst snd]. replace ((3 - 0) * (3 - 0) + (0 - 0) * (0 - 0)) with 9 by ring. rewrite S9. destruct (Rle_dec (29 * tenth) 3); [|exfalso; rewrite T in *; lra]. destruct (Rlt_dec 3 (30 * tenth)); [reflexivity|exfalso; rewrite T in *; lra].
  - assert (I : forall z, (Z.abs z < 2 ^ 53)%Z -> rndp (-1074) 53 (IZR z) = IZR z) by (intros z H; apply rndp_int; lia).
    assert (Q : bin_r (-1074) 53 0 0 tenth 3 0 = 30%Z).
    { unfold bin_r, distance_r. cbv zeta. rewrite (I 3%Z), (I 0%Z) by lia. rewrite !Rminus_0_r, (I 3%Z), (I 0%Z) by lia. rewrite Rmult_0_l, (I 0%Z), Rplus_0_r by lia. replace (3 * 3) with 9 by ring. rewrite (I 9%Z), (I 9%Z), S9, (I 3%Z) by lia.
      rewrite (rnd53 48 8444249301319680); [|lia| |apply Rabs_def1]; rewrite ?T; change (2 ^ 48)%Z with 281474976710656%Z; change (2 ^ 52)%Z with 4503599627370496%Z; change (2 ^ 53)%Z with 9007199254740992%Z; try lra.
      replace (8444249301319680 / 281474976710656) with (IZR 30) by lra. unfold trunc. destruct (Rle_dec 0 30); [|lra]. destruct (base_Int_part 30) as [A B]. assert (29 < Int_part 30 < 31)%Z by (split; apply lt_IZR; lra). lia. }
    unfold profile_r. cbn [seq map nth_error]. unfold bin_result_r, count_r. cbn [map fold_left flat_map seen_r]. rewrite Q. cbn. eexists. reflexivity.
Qed.
Print Assumptions C146_ring_refuted.
