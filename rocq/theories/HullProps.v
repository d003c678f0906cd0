(** C96: hulls, circles and the uniform beam. *)
From Coq Require Import Reals Permutation Sorted Lia Lra Psatz.
From Coquelicot Require Import Coquelicot.
From Verif Require Import Base BaseFacts SkyModel SkyFacts WcsModel WcsFacts GeoModel GeoSpec GeoProps DataModel DataFacts2 HullModel HullSpec.
Open Scope R_scope.

(** ** Means *)
Lemma sum_shift d l c : sum_by (fun p => along d p - c) l = along d (sum_by fst l, sum_by snd l) - INR (length l) * c.
Proof. induction l as [|p l IH]; [unfold along; cbn; ring|]. cbn [sum_by fold_right length]. unfold sum_by in IH. rewrite IH, S_INR. unfold along, sum_by. cbn [fst snd]. ring. Qed.
Lemma mean_zero d l : l <> [] -> sum_by (fun p => along d p - along d (mean l)) l = 0.
Proof.
  intros H. rewrite sum_shift. assert (0 < INR (length l)) by (apply lt_0_INR; destruct l; [easy|cbn; lia]). unfold mean, along. cbn [fst snd]. field. lra.
Qed.
Lemma sum_nonpos f l : (forall p, In p l -> f p <= 0) -> sum_by f l <= 0 /\ (sum_by f l = 0 -> forall p, In p l -> f p = 0).
Proof.
  induction l as [|q l IH]; intros H; [cbn; split; [lra|easy]|]. destruct IH as [A B]; [intros p Hp; apply H; now right|].
  pose proof (H q (or_introl eq_refl)) as C. cbn [sum_by fold_right]. fold (sum_by f l). split; [lra|]. intros E p [<-|Hp]; [lra|]. apply B; [lra|exact Hp].
Qed.
(** The mean is strictly on the side of the points. *)
Lemma border_pos l d p : ~ aligned l -> In p l -> d <> (0, 0) -> (forall q, In q l -> along d q <= along d p) -> along d (mean l) < along d p.
Proof.
  intros A Hp Hd H. assert (N : l <> []) by (intros ->; easy). destruct (Rlt_le_dec (along d (mean l)) (along d p)) as [L|L]; [exact L|]. elim A.
  exists d, (along d (mean l)). split; [exact Hd|]. intros q Hq. pose proof (sum_nonpos (fun p => along d p - along d (mean l)) l) as [_ B].
  - intros r Hr. specialize (H r Hr). lra.
  - specialize (B (mean_zero d l N) q Hq). cbn beta in B. lra.
Qed.

(** ** Polar coordinates around the mean *)
Lemma polar v : exists rho, 0 <= rho /\ fst v = rho * cos (arctan2 v) /\ snd v = rho * sin (arctan2 v) /\ 0 <= arctan2 v < 2 * PI.
Proof.
  destruct v as [x y]. unfold arctan2. cbn [fst snd]. pose proof PI_RGT_0. destruct (modulo_equiv (atan2 y x + 2 * PI) (2 * PI)) as [k E].
  pose proof (modulo_bounds (atan2 y x + 2 * PI) (2 * PI) ltac:(lra)) as B. destruct (atan2_polar y x) as [C S].
  assert (T : forall (j : Z) t, cos (t + 2 * PI * IZR j) = cos t /\ sin (t + 2 * PI * IZR j) = sin t).
  { intros j t. destruct (Z_le_gt_dec 0 j).
    - replace (2 * PI * IZR j) with (2 * INR (Z.to_nat j) * PI) by (rewrite INR_IZR_INZ, Z2Nat.id by lia; ring). now rewrite cos_period, sin_period.
    - rewrite <- (cos_period (t + 2 * PI * IZR j) (Z.to_nat (- j))), <- (sin_period (t + 2 * PI * IZR j) (Z.to_nat (- j))).
      replace (t + 2 * PI * IZR j + 2 * INR (Z.to_nat (- j)) * PI) with t by (rewrite INR_IZR_INZ, Z2Nat.id, opp_IZR by lia; ring). easy. }
  exists (sqrt (x * x + y * y)). split; [apply sqrt_pos|]. set (M := modulo (atan2 y x + 2 * PI) (2 * PI)) in *.
  assert (EM : M = atan2 y x + 2 * PI * IZR (k + 1)) by (rewrite E, plus_IZR; ring). destruct (T (k + 1)%Z (atan2 y x)) as [CM SM]. rewrite <- EM in CM, SM. rewrite CM, SM.
  repeat split; try lra; cbv zeta in C, S; symmetry; assumption.
Qed.

Definition cross (u v : pt) : R := fst u * snd v - snd u * fst v.
Lemma along_vec d m p : along d (vec m p) = along d p - along d m.
Proof. unfold along, vec. cbn. ring. Qed.
Lemma turn_cross m u v p : turn u v p = cross (vec m u) (vec m v) - cross (vec m p) (vec m v) - cross (vec m u) (vec m p).
Proof. unfold turn, cross, vec. cbn. ring. Qed.
Lemma vec_inj m p q : vec m p = vec m q -> p = q.
Proof. destruct p, q, m. unfold vec. cbn. intros E. injection E as E1 E2. f_equal; lra. Qed.

Section Around.
Context (l : list pt) (NA : ~ aligned l) (B : forall p, In p l -> on_border l p).
Let m := mean l.
Lemma l_nonempty p : In p l -> l <> [].
Proof. intros H ->. easy. Qed.
(** Two points in the same direction are the same. *)
Lemma same_direction p q s t e : In p l -> In q l -> vec m p = (s * fst e, s * snd e) -> vec m q = (t * fst e, t * snd e) -> 0 <= s -> 0 <= t -> p = q.
Proof.
  enough (W : forall p q s t e, In p l -> In q l -> vec m p = (s * fst e, s * snd e) -> vec m q = (t * fst e, t * snd e) -> 0 <= s -> 0 <= t -> s < t -> False).
  { intros Hp Hq Ep Eq Hs Ht. destruct (Rtotal_order s t) as [L|[E|L]]; [elim (W p q s t e Hp Hq Ep Eq Hs Ht L)| |elim (W q p t s e Hq Hp Eq Ep Ht Hs L)].
    subst t. apply (vec_inj m). now rewrite Ep, Eq. }
  clear p q s t e. intros p q s t e Hp Hq Ep Eq Hs Ht L. destruct (B p Hp) as (d & Hd & S).
  pose proof (border_pos l d p NA Hp Hd S) as P. pose proof (S q Hq) as Q. fold m in P.
  pose proof (along_vec d m p) as Ap. pose proof (along_vec d m q) as Aq. rewrite Ep in Ap. rewrite Eq in Aq.
  assert (A1 : along d (s * fst e, s * snd e) = s * along d e) by (unfold along; cbn; ring). assert (A2 : along d (t * fst e, t * snd e) = t * along d e) by (unfold along; cbn; ring).
  rewrite A1 in Ap. rewrite A2 in Aq. set (k := along d e) in *. assert (0 < s * k) by lra. assert (t * k <= s * k) by lra.
  assert (0 < s) by (destruct (Req_dec s 0); [subst; lra|lra]). assert (0 < k) by (apply Rmult_lt_reg_l with s; lra). nra.
Qed.
Lemma direction_pos p : In p l -> exists rho, 0 < rho /\ vec m p = (rho * cos (arctan2 (vec m p)), rho * sin (arctan2 (vec m p))).
Proof.
  intros Hp. destruct (polar (vec m p)) as (rho & R0 & C & S & _). exists rho. split; [|rewrite (surjective_pairing (vec m p)) at 1; now rewrite C, S at 1].
  destruct (B p Hp) as (d & Hd & Sp). pose proof (border_pos l d p NA Hp Hd Sp) as P. fold m in P. destruct (Req_dec rho 0) as [->|]; [|lra].
  pose proof (along_vec d m p) as Ap. unfold along in Ap at 1. rewrite C, S in Ap. lra.
Qed.
Lemma distinct_angles p q : In p l -> In q l -> arctan2 (vec m p) = arctan2 (vec m q) -> p = q.
Proof.
  intros Hp Hq E. destruct (direction_pos p Hp) as (s & Hs & Ep), (direction_pos q Hq) as (t & Ht & Eq). rewrite <- E in Eq.
  apply (same_direction p q s t (cos (arctan2 (vec m p)), sin (arctan2 (vec m p)))); try assumption; lra.
Qed.

(** Two points u, v at the angles a < b between which there is no other: all points are on the left of the edge, the mean
    strictly. *)
Lemma edge_left u v a b : In u l -> In v l -> (exists s, 0 < s /\ vec m u = (s * cos a, s * sin a)) -> (exists t, 0 < t /\ vec m v = (t * cos b, t * sin b)) -> a < b ->
  (forall p, In p l -> exists r c, 0 < r /\ vec m p = (r * cos c, r * sin c) /\ b - 2 * PI <= c <= a) ->
  0 < turn u v m /\ forall p, In p l -> 0 <= turn u v p.
Proof.
  intros Hu Hv (s & Hs & Eu) (t & Ht & Ev) Hab G. pose proof PI_RGT_0 as HP.
  assert (X : forall r c r' c', cross (r * cos c, r * sin c) (r' * cos c', r' * sin c') = r * r' * sin (c' - c)) by (intros; unfold cross; cbn; rewrite sin_minus; ring).
  assert (Gap : b < a + PI).
  { destruct (Rlt_le_dec b (a + PI)) as [L|L]; [exact L|]. elim NA. exists (- sin a, cos a), (along (- sin a, cos a) m). split.
    { intros E. injection E as E1 E2. pose proof (sin2_cos2 a) as T. unfold Rsqr in T. nra. }
    pose proof (sum_nonpos (fun p => along (- sin a, cos a) p - along (- sin a, cos a) m) l) as [_ Z].
    - intros p Hp. destruct (G p Hp) as (r & c & Hr & Ep & Hc). rewrite <- along_vec, Ep. unfold along. cbn [fst snd].
      replace (- sin a * (r * cos c) + cos a * (r * sin c)) with (- (r * sin (a - c))) by (rewrite sin_minus; ring).
      assert (0 <= sin (a - c)) by (apply sin_ge_0; lra). nra.
    - intros q Hq. specialize (Z (mean_zero _ l (l_nonempty _ Hu)) q Hq). cbn beta in Z. lra. }
  assert (D : 0 < cross (vec m u) (vec m v)).
  { rewrite Eu, Ev, X. apply Rmult_lt_0_compat; [nra|]. apply sin_gt_0; lra. }
  split.
  { rewrite (turn_cross m). assert (E : vec m m = (0, 0)) by (unfold vec; f_equal; ring). rewrite E. unfold cross at 2 3. cbn [fst snd]. lra. }
  intros p Hp. destruct (Rlt_le_dec (turn u v p) 0) as [L|L]; [exfalso|exact L].
  rewrite (turn_cross m) in L. set (DD := cross (vec m u) (vec m v)) in *. set (A := cross (vec m p) (vec m v)) in *. set (BB := cross (vec m u) (vec m p)) in *.
  assert (Comb : forall d, DD * along d (vec m p) = A * along d (vec m u) + BB * along d (vec m v)) by (intros d; unfold DD, A, BB, cross, along; ring).
  assert (Neg : A < 0 \/ BB < 0 \/ p = u \/ p = v).
  { destruct (G p Hp) as (r & c & Hr & Ep & Hc). unfold A, BB. rewrite Ep, Eu, Ev, !X.
    destruct (Req_dec c a) as [->|Nca]; [right; right; left; apply (same_direction p u r s (cos a, sin a)); try assumption; lra|].
    destruct (Req_dec c (b - 2 * PI)) as [Ecb|Ncb].
    { right; right; right. apply (same_direction p v r t (cos b, sin b)); try assumption; try lra. rewrite Ep. cbn [fst snd].
      rewrite <- (cos_period c 1), <- (sin_period c 1). replace (c + 2 * INR 1 * PI) with b by (cbn; lra). reflexivity. }
    destruct (Rle_lt_dec PI (a - c)) as [Q|Q].
    - left. assert (sin (b - c) < 0) by (apply sin_lt_0; lra). assert (0 < r * t) by nra. nra.
    - right; left. assert (0 < sin (a - c)) by (apply sin_gt_0; lra). replace (c - a) with (- (a - c)) by ring. rewrite sin_neg. assert (0 < s * r) by nra. nra. }
  destruct Neg as [N|[N|[E|E]]].
  - destruct (B v Hv) as (d & Hd & S). pose proof (border_pos l d v NA Hv Hd S) as P. fold m in P. specialize (Comb d). rewrite !along_vec in Comb.
    pose proof (S u Hu). pose proof (S p Hp). set (x := along d u - along d m) in *. set (y := along d v - along d m) in *. set (z := along d p - along d m) in *.
    assert (x <= y) by (unfold x, y; lra). assert (z <= y) by (unfold z, y; lra). assert (0 < y) by (unfold y; lra). assert (A * y <= A * x) by nra. assert (DD * z <= DD * y) by nra. nra.
  - destruct (B u Hu) as (d & Hd & S). pose proof (border_pos l d u NA Hu Hd S) as P. fold m in P. specialize (Comb d). rewrite !along_vec in Comb.
    pose proof (S v Hv). pose proof (S p Hp). set (x := along d u - along d m) in *. set (y := along d v - along d m) in *. set (z := along d p - along d m) in *.
    assert (y <= x) by (unfold x, y; lra). assert (z <= x) by (unfold z, x; lra). assert (0 < x) by (unfold x; lra). assert (BB * x <= BB * y) by nra. assert (DD * z <= DD * x) by nra. nra.
  - subst p. unfold A, BB in L. fold DD in L. unfold cross in L at 1. unfold DD in L. lra.
  - subst p. unfold A, BB in L. fold DD in L. unfold cross in L at 1. unfold DD in L. lra.
Qed.
End Around.

(** ** Sorting *)
Lemma insert_perm key p l : Permutation (insert_by key p l) (p :: l).
Proof.
  induction l as [|q l IH]; [reflexivity|]. cbn [insert_by]. destruct (Rle_dec (key p) (key q)); [reflexivity|]. rewrite IH. apply perm_swap.
Qed.
Lemma sort_perm key l : Permutation (sort_by key l) l.
Proof. induction l as [|p l IH]; [reflexivity|]. cbn [sort_by fold_right]. fold (sort_by key l). rewrite insert_perm. now constructor. Qed.
Lemma insert_sorted key p l : StronglySorted (fun p q => key p <= key q) l -> StronglySorted (fun p q => key p <= key q) (insert_by key p l).
Proof.
  induction 1 as [|q l S IH F]; [repeat constructor|]. cbn [insert_by]. destruct (Rle_dec (key p) (key q)) as [L|L].
  - constructor; [now constructor|]. constructor; [exact L|]. eapply Forall_impl; [|exact F]. cbn. intros r Hr. lra.
  - constructor; [exact IH|]. rewrite Forall_forall in *. intros r Hr. apply (Permutation_in _ (insert_perm key p l)) in Hr. destruct Hr as [<-|Hr]; [lra|now apply F].
Qed.
Lemma sort_sorted key l : StronglySorted (fun p q => key p <= key q) (sort_by key l).
Proof. induction l as [|p l IH]; [constructor|]. now apply insert_sorted. Qed.
Lemma sorted_split key l1 (u v : pt) l2 : StronglySorted (fun p q => key p <= key q) (l1 ++ u :: v :: l2) ->
  key u <= key v /\ (forall p, In p l1 -> key p <= key u) /\ (forall p, In p l2 -> key v <= key p).
Proof.
  induction l1 as [|q l1 IH]; cbn [app]; intros S; apply StronglySorted_inv in S as [S F]; rewrite Forall_forall in F.
  - apply StronglySorted_inv in S as [S F']. rewrite Forall_forall in F'. split; [apply F; now left|]. split; [easy|exact F'].
  - destruct (IH S) as (A & B & C). repeat split; try assumption. intros p [<-|Hp]; [|now apply B]. apply F. apply in_app_iff. right. now left.
Qed.
Lemma edges_split (l : list pt) e : In e (edges l) -> (exists p q, l = p :: q /\ e = (last l (0, 0), p)) \/ (exists l1 l2, l = l1 ++ fst e :: snd e :: l2).
Proof.
  unfold edges. destruct l as [|p q]; [easy|]. cbn [combine]. intros [E|H]; [left; exists p, q; split; [reflexivity|now rewrite <- E]|]. right.
  revert p H. induction q as [|r q IH]; intros p H; [easy|]. cbn [combine In] in H. destruct H as [<-|H]; [exists [], q; reflexivity|].
  destruct (IH r H) as (l1 & l2 & E). exists (p :: l1), l2. cbn [app]. now rewrite E.
Qed.
Lemma sorted_ends key (d : pt) p q : StronglySorted (fun p q => key p <= key q) (p :: q) -> forall r, In r (p :: q) -> key p <= key r <= key (last (p :: q) d).
Proof.
  revert p. induction q as [|s q IH]; intros p S r Hr.
  - destruct Hr as [<-|[]]. cbn. lra.
  - apply StronglySorted_inv in S as [S F]. rewrite Forall_forall in F. change (last (p :: s :: q) d) with (last (s :: q) d).
    pose proof (F s (or_introl eq_refl)) as Ps. pose proof (IH s S s (or_introl eq_refl)) as Q. destruct Hr as [<-|Hr]; [lra|]. pose proof (IH s S r Hr). specialize (F r Hr). lra.
Qed.
Lemma last_in (p : pt) q d : In (last (p :: q) d) (p :: q).
Proof. revert p. induction q as [|s q IH]; intros p; [now left|]. right. apply IH. Qed.

(** Sorting the points of a border around their mean. *)
Lemma sort_hull_facts l : NoDup l -> ~ aligned l -> (forall p, In p l -> on_border l p) ->
  let r := sort_hull l in Permutation r l /\ once_around (mean l) r /\ strictly_inside r (mean l) /\ forall p, In p l -> inside r p.
Proof.
  intros ND NA B r. set (m := mean l). set (key := fun p : pt => arctan2 (vec m p)). assert (Pm : Permutation r l) by apply sort_perm. assert (S : StronglySorted (fun p q => key p <= key q) r) by apply sort_sorted. clearbody r.
  assert (ND' : NoDup r) by (now apply (Permutation_NoDup (Permutation_sym Pm))).
  assert (Hin : forall p, In p r -> In p l) by (intros p; now apply Permutation_in).
  assert (Hin' : forall p, In p l -> In p r) by (intros p; now apply Permutation_in, Permutation_sym).
  assert (KB : forall p, 0 <= key p < 2 * PI) by (intros p; unfold key; now destruct (polar (vec m p)) as (_ & _ & _ & _ & H)).
  assert (Dir : forall p, In p l -> exists rho, 0 < rho /\ vec m p = (rho * cos (key p), rho * sin (key p))) by (intros p Hp; now apply direction_pos).
  assert (Inj : forall p q, In p l -> In q l -> key p = key q -> p = q) by (intros p q Hp Hq; now apply distinct_angles).
  split; [exact Pm|]. split; [|].
  - exists (map key r), (map (fun p => sqrt (fst (vec m p) * fst (vec m p) + snd (vec m p) * snd (vec m p))) r). rewrite !map_length. split; [reflexivity|]. split; [reflexivity|]. split.
    + unfold pt in *. intros i j Hij. assert (M : forall k, (k < length r)%nat -> nth k (map key r) 0 = key (nth k r (0, 0))).
      { intros k Hk. rewrite nth_indep with (d' := key (0, 0)) by now rewrite map_length. apply map_nth. }
      rewrite (M i), (M j) by lia.
      assert (L : key (nth i r (0, 0)) <= key (nth j r (0, 0))).
      { clear - S Hij. revert i j Hij. induction S as [|q t S IH F]; intros i j Hij; [cbn in Hij; lia|]. rewrite Forall_forall in F. destruct j as [|j]; [lia|]. destruct i as [|i].
        - cbn [nth]. apply F, nth_In. cbn in Hij. lia.
        - cbn [nth]. apply IH. cbn in Hij. lia. }
      destruct L as [L|L]; [exact L|]. apply Inj in L; [|apply Hin, nth_In; lia|apply Hin, nth_In; lia].
      pose proof (proj1 (NoDup_nth r (0, 0)) ND' i j ltac:(lia) ltac:(lia) L). lia.
    + unfold pt in *. intros i Hi. rewrite nth_indep with (d' := key (0, 0)) by now rewrite map_length. rewrite map_nth.
      match goal with |- context [nth i (map ?f r) 0] => rewrite nth_indep with (d' := f (0, 0)) by (now rewrite map_length); rewrite (map_nth f) end.
      set (p := nth i r (0, 0)). assert (Hp : In p l) by (apply Hin, nth_In; lia). split; [apply KB|]. destruct (Dir p Hp) as (rho & Hr & E).
      assert (Er : sqrt (fst (vec m p) * fst (vec m p) + snd (vec m p) * snd (vec m p)) = rho).
      { rewrite E. cbn [fst snd]. replace (rho * cos (key p) * (rho * cos (key p)) + rho * sin (key p) * (rho * sin (key p))) with (rho * rho * (Rsqr (sin (key p)) + Rsqr (cos (key p)))) by (unfold Rsqr; ring).
        rewrite sin2_cos2, Rmult_1_r. apply sqrt_square. lra. }
      rewrite Er. split; [exact Hr|]. unfold vec in E. injection E as E1 E2. rewrite (surjective_pairing p) at 1. apply f_equal2; [rewrite <- E1|rewrite <- E2]; symmetry; apply Rplus_minus.
  - assert (Edge : forall e, In e (edges r) -> 0 < turn (fst e) (snd e) m /\ forall p, In p l -> 0 <= turn (fst e) (snd e) p).
    { intros e He. pose proof PI_RGT_0. destruct (edges_split r e He) as [(p & q & Er & ->)|(l1 & l2 & Er)].
      - cbn [fst snd]. pose proof S as S'. rewrite Er in S'. pose proof (sorted_ends key (0, 0) p q S') as Ends. rewrite <- Er in Ends.
        assert (Hp : In p l) by (apply Hin; rewrite Er; now left). assert (Hl : In (last r (0, 0)) l) by (apply Hin; rewrite Er at 2; rewrite Er; apply last_in).
        apply (edge_left l NA B _ _ (key (last r (0, 0))) (key p + 2 * PI)); try assumption.
        + now apply Dir.
        + destruct (Dir p Hp) as (t & Ht & Et). exists t. split; [exact Ht|]. fold m. rewrite Et. replace (key p + 2 * PI) with (key p + 2 * INR 1 * PI) by (cbn; ring). now rewrite cos_period, sin_period.
        + pose proof (KB p). pose proof (KB (last r (0, 0))). lra.
        + intros x Hx. destruct (Dir x Hx) as (t & Ht & Et). exists t, (key x). split; [exact Ht|]. split; [exact Et|]. specialize (Ends x (Hin' x Hx)). lra.
      - destruct e as [u v]. cbn [fst snd] in *. pose proof S as S'. rewrite Er in S'. destruct (sorted_split key _ _ _ _ S') as (Luv & L1 & L2).
        assert (Hu : In u l) by (apply Hin; rewrite Er; apply in_app_iff; right; now left). assert (Hv : In v l) by (apply Hin; rewrite Er; apply in_app_iff; right; right; now left).
        assert (u <> v) by (intros ->; rewrite Er in ND'; apply NoDup_remove_2 in ND'; apply ND', in_app_iff; right; now left).
        apply (edge_left l NA B u v (key u) (key v)); try assumption.
        + now apply Dir.
        + now apply Dir.
        + destruct Luv as [L|L]; [exact L|]. apply Inj in L; easy.
        + intros x Hx. destruct (Dir x Hx) as (t & Ht & Et). pose proof (KB x). pose proof (KB u). pose proof (KB v). pose proof (Hin' x Hx) as Hx'. rewrite Er in Hx'. apply in_app_iff in Hx'.
          assert (C : key x <= key u \/ key v <= key x) by (destruct Hx' as [Hx'|[<-|[<-|Hx']]]; [left; now apply L1|left; lra|right; lra|right; now apply L2]).
          destruct C as [C|C]; [exists t, (key x); repeat split; try assumption; lra|].
          exists t, (key x - 2 * PI). split; [exact Ht|]. split; [|lra]. fold m. rewrite Et. rewrite <- (cos_period (key x - 2 * PI) 1), <- (sin_period (key x - 2 * PI) 1).
          replace (key x - 2 * PI + 2 * INR 1 * PI) with (key x) by (cbn; ring). reflexivity. }
    split; [intros e He; now apply Edge|]. intros p Hp e He. now apply Edge.
Qed.

(** Whatever the order in which the triangulation gives the points of the hull: the result is made of these points, once,
    counter-clockwise and once around from the X axis, seen from their mean, and all the points are inside. *)
Theorem C96_hull delaunay_hull shape values ihull : last shape 0%nat = 2%nat -> delaunay_hull (pairs values) = Ok ihull ->
  let points := pairs values in let hull := map (fun i => nth i points (0, 0)) ihull in hull_of points hull ->
  exists r, convex_hull delaunay_hull shape values = Ok r /\ Permutation r hull /\
    (exists c, once_around c r /\ strictly_inside r c) /\ forall p, In p points -> inside r p.
Proof.
  intros Hs Hd points hull (I & ND & NA & Bd & Far). unfold convex_hull.
  replace (match shape with [] => [1%nat] | _ => shape end) with shape by (destruct shape; [discriminate|reflexivity]). rewrite Hs. cbn [Nat.eqb negb]. rewrite Hd. cbn [bind].
  assert (B : forall p, In p hull -> on_border hull p).
  { intros p Hp. destruct (Bd p Hp) as (d & N & S). exists d. split; [exact N|]. intros q Hq. now apply S, I. }
  destruct (sort_hull_facts hull ND NA B) as (P & O & Si & Ins). eexists. split; [reflexivity|]. fold points. fold hull. split; [exact P|]. split; [exists (mean hull); now split|].
  intros p Hp e He. set (u := fst e). set (v := snd e). destruct (Far p (snd v - snd u, - (fst v - fst u)) Hp) as (h & Hh & L). specialize (Ins h Hh e He). fold u v in Ins.
  unfold turn, along in *. cbn [fst snd] in L. lra.
Qed.
Print Assumptions C96_hull.
Definition corners : list R := [0; 1; 0; 0; / 2; / 2; 1; 1; 1; 0; / 2; 0].
Example C96_hull_case : hull_of (pairs corners) (map (fun i => nth i (pairs corners) (0, 0)) [3; 0; 1; 4; 5]%nat) /\
  exists r, convex_hull (fun _ => Ok [3; 0; 1; 4; 5]%nat) [2; 3; 2]%nat corners = Ok r /\ inside r (/ 2, / 2) /\ length r = 5%nat.
Proof.
  assert (H : hull_of (pairs corners) (map (fun i => nth i (pairs corners) (0, 0)) [3; 0; 1; 4; 5]%nat)).
  { cbn. split; [intros p Hp; cbn in *; tauto|]. split.
    { repeat constructor; cbn; intros H; repeat (destruct H as [H|H]; [injection H; intros; lra|]); exact H. }
    split.
    { intros (d & c & N & A). pose proof (A (0, 0)) as A1. pose proof (A (1, 0)) as A2. pose proof (A (0, 1)) as A3. cbn in A1, A2, A3. unfold along in *. cbn in A1, A2, A3.
      specialize (A1 ltac:(tauto)). specialize (A2 ltac:(tauto)). specialize (A3 ltac:(tauto)). destruct d as [x y]. cbn in *. apply N. f_equal; lra. }
    split.
    { intros p Hp. destruct Hp as [<-|[<-|[<-|[<-|[<-|[]]]]]]; [exists (1, 1)|exists (-1, 1)|exists (-1, -1)|exists (1, -1)|exists (0, -1)]; (split; [intros E; injection E; intros; lra|]);
        intros q Hq; unfold along; repeat (destruct Hq as [<-|Hq]; [cbn; lra|]); destruct Hq. }
    { intros p d Hp. unfold along. repeat (destruct Hp as [<-|Hp]; [try (eexists; split; [|apply Rle_refl]; cbn; tauto)|]); try destruct Hp.
      cbn [fst snd]. destruct (Rle_dec 0 (fst d)), (Rle_dec 0 (snd d)); [exists (1, 1)|exists (1, 0)|exists (0, 1)|exists (0, 0)]; (split; [cbn; tauto|cbn; lra]). } }
  split; [exact H|]. destruct (C96_hull (fun _ => Ok [3; 0; 1; 4; 5]%nat) [2; 3; 2]%nat corners [3; 0; 1; 4; 5]%nat eq_refl eq_refl H) as (r & E & P & _ & Ins).
  exists r. split; [exact E|]. split; [apply Ins; cbn; tauto|]. now rewrite (Permutation_length P).
Qed.
(** Points of another dimension are refused. *)
Theorem C96_dimension delaunay_hull shape values : last shape 0%nat <> 2%nat -> convex_hull delaunay_hull shape values = Err ValueError.
Proof.
  intros H. unfold convex_hull. destruct shape as [|n s]; [reflexivity|]. destruct (Nat.eqb_spec (last (n :: s) 0%nat) 2); [easy|reflexivity].
Qed.
Print Assumptions C96_dimension.

(** Circles: n distinct points at the distance of the radius from the centre, the first one on the X axis, counter-clockwise. *)
Theorem C96_circle radius center n : (0 < n)%nat -> let r := create_circle radius center n in
  length r = n /\ (forall p, In p r -> dist center p = Rabs radius) /\ nth 0 r (0, 0) = (radius + fst center, snd center) /\ (radius <> 0 -> convex r).
Proof.
  intros Hn r. destruct (C60_regular n radius center 0 Hn) as (L & D & C & _). repeat split; try assumption.
  unfold r, create_circle, create_regular_polygon. destruct n as [|n]; [lia|]. cbn [seq map nth]. change (INR 0) with 0. rewrite Rmult_0_r, Rmult_0_l, Rplus_0_r, cos_0, sin_0. f_equal; ring.
Qed.
Print Assumptions C96_circle.
Example C96_circle_case : nth 0 (create_circle 2 (3, 4) 72) (0, 0) = (5, 4).
Proof. destruct (C96_circle 2 (3, 4) 72 ltac:(lia)) as (_ & _ & -> & _). cbn [fst snd]. f_equal; lra. Qed.

(** ** Beams *)
Lemma solid_angle_one a b : is_solid_angle (fun t => uniform_value t 0) a b (2 * PI * (cos a - cos b)).
Proof.
  unfold is_solid_angle, uniform_value. set (F := fun t => - (2 * PI) * cos t). replace (2 * PI * (cos a - cos b)) with (minus (F b) (F a)) by (unfold minus, plus, opp, F; cbn; ring).
  apply (is_RInt_derive F).
  - intros x _. unfold F. auto_derive; [easy|]. ring.
  - intros x _. apply (ex_derive_continuous (V := R_NormedModule)). auto_derive. easy.
Qed.
(** The uniform beam: its solid angle is that of the half space, but its value is one in the whole space. *)
Theorem C96_uniform_refuted : is_solid_angle (fun t => uniform_value t 0) 0 (PI / 2) uniform_solid_angle /\
  (forall t phi, PI / 2 < t <= PI -> uniform_value t phi = 1) /\
  is_solid_angle (fun t => uniform_value t 0) 0 PI (4 * PI) /\ 4 * PI <> uniform_solid_angle.
Proof.
  pose proof PI_RGT_0. split; [|split; [easy|split]].
  - replace uniform_solid_angle with (2 * PI * (cos 0 - cos (PI / 2))) by (unfold uniform_solid_angle; rewrite cos_0, cos_PI2; ring). apply solid_angle_one.
  - replace (4 * PI) with (2 * PI * (cos 0 - cos PI)) by (rewrite cos_0, cos_PI; ring). apply solid_angle_one.
  - unfold uniform_solid_angle. lra.
Qed.
Print Assumptions C96_uniform_refuted.
(** The solid angle of the gaussian beam is that of the plane: on the sphere the integral of its value is smaller. *)
Theorem C96_gaussian_refuted fwhm s : 0 < fwhm -> is_solid_angle (fun t => beam_gaussian fwhm false t 0) 0 PI s -> s < beam_solid_angle fwhm.
Proof.
  intros Hf Hi. pose proof PI_RGT_0 as HP. assert (L8 : 0 < sqrt (8 * ln 2)) by (apply sqrt_lt_R0; pose proof ln_lt_2; lra).
  unfold beam_solid_angle. set (sg := beam_sigma fwhm). assert (Hs : 0 < sg) by (unfold sg, beam_sigma; apply Rdiv_lt_0_compat; assumption).
  pose proof (beam_integral sg PI Hs) as G.
  assert (Cf : forall t, continuous (fun t => 2 * PI * sin t * beam_gaussian fwhm false t 0) t) by (intros t; apply (ex_derive_continuous (V := R_NormedModule)); unfold beam_gaussian; auto_derive; fold sg; nra).
  assert (Cg : forall t, continuous (fun t => 2 * PI * t * exp (- / 2 / (sg * sg) * (t * t))) t) by (intros t; apply (ex_derive_continuous (V := R_NormedModule)); auto_derive; nra).
  assert (L : RInt (fun t => 2 * PI * sin t * beam_gaussian fwhm false t 0) 0 PI < RInt (fun t => 2 * PI * t * exp (- / 2 / (sg * sg) * (t * t))) 0 PI).
  { apply RInt_lt; [exact HP|intros; apply Cg|intros; apply Cf|]. intros t Ht. unfold beam_gaussian. fold sg. pose proof (sin_lt_x t ltac:(lra)) as X. set (e := exp _). assert (0 < e) by apply exp_pos.
    apply Rmult_lt_compat_r; [assumption|]. apply Rmult_lt_compat_l; lra. }
  rewrite (is_RInt_unique _ _ _ _ Hi), (is_RInt_unique _ _ _ _ G) in L. pose proof (exp_pos (- (PI * PI) / (2 * (sg * sg)))) as X.
  set (e := exp (- (PI * PI) / (2 * (sg * sg)))) in *. assert (Q : 0 < 2 * PI * (sg * sg)) by (apply Rmult_lt_0_compat; [apply Rmult_lt_0_compat; [apply Rlt_0_2|exact HP]|now apply Rmult_lt_0_compat]).
  set (k := 2 * PI * (sg * sg)) in *. clearbody k e. clear - L X Q. nra.
Qed.
Print Assumptions C96_gaussian_refuted.
Example C96_gaussian_case : exists s, is_solid_angle (fun t => beam_gaussian 1 false t 0) 0 PI s.
Proof.
  assert (L8 : 0 < sqrt (8 * ln 2)) by (apply sqrt_lt_R0; pose proof ln_lt_2; lra). assert (Hs : 0 < beam_sigma 1) by (unfold beam_sigma; apply Rdiv_lt_0_compat; lra).
  apply (ex_RInt_continuous (V := R_CompleteNormedModule)). intros t _. apply (ex_derive_continuous (V := R_NormedModule)). unfold beam_gaussian. auto_derive. nra.
Qed.
