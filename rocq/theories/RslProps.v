(** C153: distances to a centre on any number of axes with rounded operations. *)
From Coq Require Import ZArith Reals Lra Lia List.
From Flocq Require Import Core.
From Verif Require Import Base DataSpec RndModel RndSpec RndProps BirFacts RgnFacts RmdModel RmdProps RbaFacts RprProps RdsProps RslModel.
Import ListNotations.
Open Scope R_scope.

Section T.
Variables (emin prec : Z).
Notation rn := (rndp emin prec).
Notation u := (unit_of prec).
Notation eta := (tiny_of emin).
Hypothesis Pp : (24 <= prec)%Z.
Hypothesis Pe : (emin <= 1 - 4 * prec)%Z.
Let Pe2 : (emin <= 1 - 2 * prec)%Z. Proof. lia. Qed.
Let P0 : (0 < prec)%Z := RmdProps.Q0 prec Pp.
Let U0 : 0 < u := V0 prec.
Let U2 : u <= / 16777216 := RmdProps.V2 prec Pp.
Lemma term_near i o s : representable emin prec o -> (Z.abs i <= 2 ^ prec)%Z -> let q := s * (IZR i - o) * (s * (IZR i - o)) in
  Rabs (square_r emin prec (i, (o, s)) - q) <= 6.2 * u * q + 2 * eta /\ 0 <= square_r emin prec (i, (o, s)).
Proof.
  intros Ho Hi q. pose proof (shift_near emin prec Pp Pe i o Ho Hi) as A. unfold square_r. cbn [fst snd]. cbv zeta. set (a := IZR i - o) in *. set (g := rn (rn (IZR i) - o)) in *. set (x := s * a) in *. destruct (eta4 emin prec Pe) as [E0 E4]. pose proof (uu_le prec Pp) as UU. pose proof (eta_small emin prec Pp Pe) as Es.
  split; [|apply (rn_pos emin prec Pp Pe2), sq_pos]. pose proof (Rabs_pos x) as x0. assert (ux : 0 <= u * Rabs x) by (apply Rmult_le_pos; lra).
  assert (M : Rabs (s * g - x) <= u * Rabs x). { unfold x. rewrite <- Rmult_minus_distr_l, !Rabs_mult. apply Rle_trans with (Rabs s * (u * Rabs a)); [apply Rmult_le_compat_l; [apply Rabs_pos|exact A]|right; ring]. }
  pose proof (rn_err emin prec P0 (s * g)) as R. pose proof (near_abs _ _ (Rabs x) _ M (Rle_refl _)) as B. assert (u * Rabs (s * g) <= u * (Rabs x + u * Rabs x)) by (apply Rmult_le_compat_l; lra). assert (u * (u * Rabs x) <= / 16777216 * (u * Rabs x)) by (apply Rmult_le_compat_r; lra).
  set (h := rn (s * g)) in *. assert (Hx : Rabs (h - x) <= 2.01 * (u * Rabs x) + eta) by (pose proof (tri h (s * g) x); lra).
  assert (qq : q = Rabs x * Rabs x) by (rewrite <- Rabs_mult; symmetry; apply Rabs_pos_eq, sq_pos). set (y := Rabs x) in *. assert (q0 : 0 <= q) by apply sq_pos. assert (uq : 0 <= u * q) by (apply Rmult_le_pos; lra).
  assert (S : Rabs (h + x) <= 2.01 * y + eta). { replace (h + x) with (h - x + 2 * x) by ring. pose proof (Rabs_triang (h - x) (2 * x)) as T. rewrite (Rabs_mult 2), (Rabs_pos_eq 2) in T by lra. fold y in T. assert (u * y <= / 16777216 * y) by (apply Rmult_le_compat_r; lra). lra. }
  assert (G : Rabs (h * h - q) <= (2.01 * (u * y) + eta) * (2.01 * y + eta)). { unfold q. replace (h * h - x * x) with ((h - x) * (h + x)) by ring. rewrite Rabs_mult. apply Rmult_le_compat; try apply Rabs_pos; assumption. }
  (* 3 eta y <= u q + 3 eta^2 / u, and eta <= u^2 / 3 *)
  assert (ey : 3 * (eta * y) <= u * q + eta / 2).
  { assert (W : 0 <= u * ((y - 2 * u * u) * (y - 2 * u * u))) by (apply Rmult_le_pos; [lra|apply sq_pos]). assert (e2 : eta <= u * u * u / 1000) by (assert (u * u * (u * u) <= u * u * u / 1000); [replace (u * u * (u * u)) with (u * u * u * u) by ring; unfold Rdiv; apply Rmult_le_compat_l; [apply Rmult_le_pos; [apply sq_pos|lra]|lra]|lra]).
    destruct (Rle_dec y (/ 6)) as [L|L]; [assert (eta * y <= eta * / 6) by (apply Rmult_le_compat_l; lra); lra|]. assert (eu : eta <= u / 100) by (assert (/ 16777216 * u * u <= / 16777216 * (/ 16777216 * u)) by (rewrite Rmult_assoc; apply Rmult_le_compat_l; lra); lra).
    assert (eta * y <= u / 100 * y) by (apply Rmult_le_compat_r; lra). assert (u * y * / 6 <= u * y * y) by (apply Rmult_le_compat_l; lra). rewrite qq. lra. }
  assert (ee : eta * eta <= eta / 10) by (unfold Rdiv; apply Rmult_le_compat_l; [lra|]; assert (/ 16777216 * u * u <= / 16777216 * (/ 16777216 * u)) by (rewrite Rmult_assoc; apply Rmult_le_compat_l; lra); lra).
  assert (uey : u * (eta * y) <= / 16777216 * (eta * y)) by (apply Rmult_le_compat_r; [apply Rmult_le_pos; lra|lra]). assert (ey0 : 0 <= eta * y) by (apply Rmult_le_pos; lra).
  assert (G' : Rabs (h * h - q) <= 4.75 * (u * q) + 0.5 * eta) by (rewrite qq in *; lra).
  pose proof (rn_err emin prec P0 (h * h)) as N. rewrite (Rabs_pos_eq (h * h)) in N by apply sq_pos. pose proof G' as G2. apply Rabs_le_inv in G2. assert (u * (h * h) <= u * (q + 4.75 * (u * q) + 0.5 * eta)) by (apply Rmult_le_compat_l; lra). assert (u * (u * q) <= / 16777216 * (u * q)) by (apply Rmult_le_compat_r; lra). assert (u * eta <= / 16777216 * eta) by (apply Rmult_le_compat_r; lra).
  pose proof (tri (rn (h * h)) (h * h) q). lra.
Qed.
Lemma fold_near l : Forall (fun d => representable emin prec (fst (snd d)) /\ (Z.abs (fst d) <= 2 ^ prec)%Z) l -> forall k c Q, INR (k + length l) * u <= / 1024 -> 0 <= c -> 0 <= Q -> Rabs (c - Q) <= (6.3 + 1.02 * INR k) * u * Q + 2.2 * INR k * eta ->
  generic_format radix2 (FLT_exp emin prec) c ->
  let r := fold_left (fun s x => rn (s + x)) (map (square_r emin prec) l) c in let T := Q + fold_right Rplus 0 (map (fun d => snd (snd d) * (IZR (fst d) - fst (snd d)) * (snd (snd d) * (IZR (fst d) - fst (snd d)))) l) in
  0 <= r /\ 0 <= T /\ Rabs (r - T) <= (6.3 + 1.02 * INR (k + length l)) * u * T + 2.2 * INR (k + length l) * eta.
Proof.
  induction 1 as [|[i [o s]] l [Ho Hi] _ IH]; intros k c Q Hk C0 Q0 H F; [cbn [map fold_left fold_right length]; rewrite Nat.add_0_r, Rplus_0_r; repeat split; assumption|]. cbn [map fold_left fold_right length fst snd] in *. replace (k + S (length l))%nat with (S k + length l)%nat in * by lia.
  destruct (term_near i o s Ho Hi) as [A A0]. cbv zeta in A. set (q := s * (IZR i - o) * (s * (IZR i - o))) in *. set (t := square_r emin prec (i, (o, s))) in *. rewrite <- Rplus_assoc. assert (q0 : 0 <= q) by apply sq_pos. destruct (eta4 emin prec Pe) as [E0 E4].
  assert (Ft : generic_format radix2 (FLT_exp emin prec) t) by apply (format_round emin prec P0). assert (K : INR k * u + u <= / 1024). { eapply Rle_trans; [|exact Hk]. rewrite plus_INR, S_INR. pose proof (pos_INR (length l)). assert (0 <= INR (length l) * u) by (apply Rmult_le_pos; lra). lra. } pose proof (pos_INR k) as k0.
  apply IH; [exact Hk|apply (rn_pos emin prec Pp Pe2); lra|lra| |apply (format_round emin prec P0)].
  pose proof (add_error emin prec P0 c t F Ft) as R. rewrite (Rabs_pos_eq (c + t)) in R by lra. rewrite S_INR. set (n := INR k) in *. assert (nu : 0 <= n * u) by (apply Rmult_le_pos; lra). assert (D : Rabs (c + t - (Q + q)) <= (6.3 + 1.02 * n) * u * (Q + q) + 2.2 * n * eta + 2 * eta).
  { replace (c + t - (Q + q)) with ((c - Q) + (t - q)) by ring. eapply Rle_trans; [apply Rabs_triang|]. assert (0 <= u * q) by (apply Rmult_le_pos; lra). assert (0 <= n * u * q) by (apply Rmult_le_pos; lra). lra. }
  pose proof D as D'. apply Rabs_le_inv in D'. set (W := Q + q) in *. assert (W0 : 0 <= W) by (unfold W; lra). assert (W1 : (6.3 + 1.02 * n) * u * W <= 0.0015 * W) by (apply Rmult_le_compat_r; [exact W0|lra]).
  assert (ct : u * (c + t) <= u * (1.0015 * W + 2.2 * n * eta + 2 * eta)) by (apply Rmult_le_compat_l; lra). assert (ne : n * u * eta <= / 1024 * eta) by (apply Rmult_le_compat_r; lra). assert (ue : u * eta <= / 16777216 * eta) by (apply Rmult_le_compat_r; lra). assert (0 <= u * W) by (apply Rmult_le_pos; lra).
  pose proof (tri (rn (c + t)) (c + t) W). lra.
Qed.
End T.
Lemma triples_norm idx : forall c s, length idx = length c -> length idx = length s -> fold_right Rplus 0 (map (fun d : Z * (R * R) => snd (snd d) * (IZR (fst d) - fst (snd d)) * (snd (snd d) * (IZR (fst d) - fst (snd d)))) (combine idx (combine c s))) = norm2 s c idx.
Proof. induction idx as [|i idx IH]; intros [|c cs] [|s ss] C S; try discriminate; [reflexivity|]. cbn [combine map fold_right fst snd norm2]. rewrite IH by (cbn in C, S; lia). reflexivity. Qed.
(** C153.  On n axes, the distance is right within 0.53 n + 5 units of roundoff relative to it, if its square is not near the smallest numbers; the square is right within 1.02 n + 6.3 units and 2.2 n times the smallest number in all cases. *)
Theorem C153_distance emin prec center scale idx : (24 <= prec)%Z -> (emin <= 1 - 4 * prec)%Z -> length center = length idx -> length scale = length idx -> INR (length idx) * unit_of prec <= / 1024 ->
  (forall o, In o center -> representable emin prec o) -> (forall i, In i idx -> (Z.abs i <= 2 ^ prec)%Z) ->
  let n := INR (length idx) in let q := norm2 (rev scale) (rev center) idx in
  (exists q', distance_slow_r emin prec center scale idx = rndp emin prec (sqrt q') /\ 0 <= q' /\ Rabs (q' - q) <= (1.02 * n + 6.3) * unit_of prec * q + 2.2 * n * tiny_of emin) /\
  (2.2 * (n + 1) * tiny_of emin <= unit_of prec * q -> Rabs (distance_slow_r emin prec center scale idx - sqrt q) <= (0.53 * n + 5) * unit_of prec * sqrt q).
Proof.
  intros Pp Pe Lc Ls Hn Hc Hi n q. pose proof (V0 prec) as U0. pose proof (RmdProps.V2 prec Pp) as U2. assert (Pe2 : (emin <= 1 - 2 * prec)%Z) by lia. destruct (eta4 emin prec Pe) as [E0 E4].
  assert (L : length (combine idx (combine (rev center) (rev scale))) = length idx) by (rewrite !combine_length, !rev_length; lia). assert (n0 : 0 <= n) by apply pos_INR.
  assert (F : Forall (fun d => representable emin prec (fst (snd d)) /\ (Z.abs (fst d) <= 2 ^ prec)%Z) (combine idx (combine (rev center) (rev scale)))).
  { apply Forall_forall. intros [i [o s]] I. pose proof (in_combine_l _ _ _ _ I) as I1. apply in_combine_r in I. apply in_combine_l in I. apply in_rev in I. cbn [fst snd]. split; [apply Hc, I|apply Hi, I1]. }
  pose proof (fold_near emin prec Pp Pe _ F 0 0 0) as G. cbv zeta in G. rewrite Nat.add_0_l, L in G. rewrite triples_norm in G by (rewrite rev_length; lia). fold n q in G. rewrite Rplus_0_l in G. unfold distance_slow_r. set (r := fold_left _ _ 0) in *.
  destruct G as [r0 [q0 G]]; [exact Hn|lra|lra|rewrite Rminus_0_r, Rabs_R0; change (INR 0) with 0; lra|apply generic_format_0|].
  split; [exists r; split; [reflexivity|]; split; [exact r0|]; lra|]. intros T. set (u := unit_of prec) in *. set (eta := tiny_of emin) in *. fold n in Hn. assert (nu : 0 <= n * u) by (apply Rmult_le_pos; lra). assert (ne : 0 <= n * eta) by (apply Rmult_le_pos; lra).
  assert (E : Rabs (r - q) <= (1.02 * (n * u) + 7.3 * u) * q) by lra. assert (qp : 0 < q) by (apply (Rmult_lt_reg_l u); [exact U0|]; lra). pose proof (sqrt_pos r) as s0. pose proof (sqrt_sqrt r r0) as ss. assert (d0 : 0 < sqrt q) by (apply sqrt_lt_R0; exact qp). pose proof (sqrt_sqrt q q0) as dd. set (d := sqrt q) in *. set (s := sqrt r) in *.
  assert (rq : 0.99 * q <= r). { apply Rabs_le_inv in E. assert ((1.02 * (n * u) + 7.3 * u) * q <= 0.01 * q) by (apply Rmult_le_compat_r; lra). lra. }
  assert (s1 : 0.99 * d <= s). { destruct (Rle_dec (0.99 * d) s) as [Q|Q]; [exact Q|]. exfalso. assert (s * s <= 0.99 * d * (0.99 * d)) by (apply Rmult_le_compat; lra). rewrite <- dd in rq. assert (0 < d * d) by (apply Rmult_lt_0_compat; lra). lra. }
  assert (D : Rabs (s - d) <= (0.52 * (n * u) + 3.7 * u) * d).
  { apply (Rmult_le_reg_r (s + d)); [lra|]. replace (Rabs (s - d) * (s + d)) with (Rabs (r - q)) by (rewrite <- (Rabs_pos_eq (s + d)) by lra; rewrite <- Rabs_mult; f_equal; rewrite <- ss, <- dd; ring). eapply Rle_trans; [exact E|]. rewrite <- dd.
    assert (k0 : 0 <= (0.52 * (n * u) + 3.7 * u) * d) by (apply Rmult_le_pos; lra). assert ((0.52 * (n * u) + 3.7 * u) * d * (1.99 * d) <= (0.52 * (n * u) + 3.7 * u) * d * (s + d)) by (apply Rmult_le_compat_l; lra). assert (0 <= n * u * (d * d)) by (apply Rmult_le_pos; [lra|apply sq_pos]). assert (0 <= u * (d * d)) by (apply Rmult_le_pos; [lra|apply sq_pos]). lra. }
  pose proof (rn_err emin prec ltac:(lia) s) as N. fold u eta in N. rewrite (Rabs_pos_eq s) in N by lra. pose proof D as D'. apply Rabs_le_inv in D'. assert ((0.52 * (n * u) + 3.7 * u) * d <= 0.01 * d) by (apply Rmult_le_compat_r; lra). assert (u * s <= u * (1.01 * d)) by (apply Rmult_le_compat_l; lra).
  assert (ed : eta <= u * d / 10).
  { destruct (Rle_dec eta (u * d / 10)) as [Q|Q]; [exact Q|]. exfalso. assert (ud : 0 < u * d) by (apply Rmult_lt_0_compat; lra). assert (P1 : u * d * (u * d) <= 10 * eta * (10 * eta)) by (apply Rmult_le_compat; lra). assert (P2 : u * (2 * eta) <= u * (u * q)) by (apply Rmult_le_compat_l; lra). rewrite <- dd in P2.
    assert (P3 : u * u * (u * u) <= / 16777216 * u). { apply Rle_trans with (u * (u * (u * u))); [right; ring|]. rewrite (Rmult_comm (/ 16777216)). apply Rmult_le_compat_l; [lra|]. assert (u * u <= 1 * 1) by (apply Rmult_le_compat; lra). assert (u * (u * u) <= u * 1) by (apply Rmult_le_compat_l; lra). lra. }
    assert (P4 : eta * eta <= / 16777216 * u * eta) by (apply Rmult_le_compat_r; lra). assert (0 < u * eta) by (apply Rmult_lt_0_compat; lra). lra. }
  pose proof (tri (rndp emin prec s) s d). assert (0 <= n * u * d) by (apply Rmult_le_pos; lra). assert (0 <= u * d) by (apply Rmult_le_pos; lra). lra.
Qed.
Print Assumptions C153_distance.
(** At a centre which is a pixel, the distance is exactly zero. *)
Theorem C153_centre emin prec scale idx : (24 <= prec)%Z -> (emin <= 1 - 4 * prec)%Z -> (forall i, In i idx -> (Z.abs i <= 2 ^ prec)%Z) -> distance_slow_r emin prec (rev (map IZR idx)) scale idx = 0.
Proof.
  intros Pp Pe H. assert (Z0 : rndp emin prec 0 = 0) by (apply round_0; apply valid_rnd_N). unfold distance_slow_r. rewrite rev_involutive. assert (G : forall l, (forall i, In i l -> (Z.abs i <= 2 ^ prec)%Z) -> forall s, fold_left (fun s x => rndp emin prec (s + x)) (map (square_r emin prec) (combine l (combine (map IZR l) s))) 0 = 0).
  { induction l as [|i l IH]; intros Hl s; [reflexivity|]. destruct s as [|s ss]; [reflexivity|]. cbn [map combine fold_left]. assert (T : square_r emin prec (i, (IZR i, s)) = 0). { unfold square_r. cbn [fst snd]. cbv zeta. rewrite (int_exact emin prec Pp ltac:(lia) i) by (apply (idx_small prec Pp), Hl; left; reflexivity). rewrite Rminus_eq_0, Z0, Rmult_0_r, Z0, Rmult_0_r, Z0. reflexivity. }
    rewrite T, Rplus_0_r, Z0. apply IH. intros k Hk. apply Hl. right. exact Hk. }
  rewrite G by exact H. rewrite sqrt_0. exact Z0.
Qed.
Print Assumptions C153_centre.
(** Double precision, three axes, scales 1, 2 and 3, centre (0, 1/2, 1): the exact distance of the pixel of index [2, 1, 4] is the root of 26. *)
Example C153_example : norm2 (rev [1; 2; 3]) (rev [0; / 2; 1]) [2; 1; 4]%Z = 26 /\ Rabs (distance_slow_r (-1074) 53 [0; / 2; 1] [1; 2; 3] [2; 1; 4]%Z - sqrt 26) <= 6.6 * unit_of 53 * sqrt 26 /\
  distance_slow_r (-1074) 53 (rev (map IZR [2; 1; 4]%Z)) [1; 2; 3] [2; 1; 4]%Z = 0.
Proof.
  assert (Q : norm2 (rev [1; 2; 3]) (rev [0; / 2; 1]) [2; 1; 4]%Z = 26) by (cbn [rev app norm2]; lra). split; [exact Q|]. assert (I : forall i, In i [2; 1; 4]%Z -> (Z.abs i <= 2 ^ 53)%Z) by (intros i [<-|[<-|[<-|[]]]]; lia). split; [|apply C153_centre; [lia|lia|exact I]].
  pose proof (V0 53) as U0. pose proof (eta4 (-1074) 53 ltac:(lia)) as E4. pose proof (eta_small (-1074) 53 ltac:(lia) ltac:(lia)) as Es. assert (U53 := unit_53). assert (u1 : / 16777216 * unit_of 53 * unit_of 53 <= / 16777216 * 1 * unit_of 53) by (apply Rmult_le_compat_r; lra).
  assert (N : INR 3 = 3) by (cbn; ring). destruct (C153_distance (-1074) 53 [0; / 2; 1] [1; 2; 3] [2; 1; 4]%Z ltac:(lia) ltac:(lia) eq_refl eq_refl) as [_ D]; [change (length [2; 1; 4]%Z) with 3%nat; rewrite N, U53; lra| |exact I|].
  - intros o [<-|[<-|[<-|[]]]]; [exists 0%Z, 0%Z|exists 1%Z, (-1)%Z|exists 1%Z, 0%Z]; (split; [rewrite pow2; try change (bpow radix2 (-1)) with (/ 2); try change (bpow radix2 0) with 1; lra|lia]).
  - change (length [2; 1; 4]%Z) with 3%nat in D. cbv zeta in D. rewrite Q, N in D. specialize (D ltac:(lra)). assert (0 <= unit_of 53 * sqrt 26) by (apply Rmult_le_pos; [lra|apply sqrt_pos]). lra.
Qed.
