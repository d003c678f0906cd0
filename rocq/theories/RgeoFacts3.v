From Coq Require Import Reals ZArith Lra Lia Bool.
From Flocq Require Import Core.
From Coquelicot Require Import Coquelicot.
From Verif Require Import Base SparseModel GeoModel GeoSpec GeoFacts RndModel RndSpec RndProps BirFacts RgeoModel RgeoFacts RgeoFacts2.
Open Scope R_scope.
(** The abscissa where a line of rounded coefficients crosses c, and where the chord of the
    computed ordinates does. *)
Section Cross.
Variables (emin prec : Z).
Hypothesis Pp : (0 < prec)%Z.
Notation rn := (rndp emin prec).
Notation u := (unit_of prec).
Notation eta := (tiny_of emin).
Notation fm := (generic_format radix2 (FLT_exp emin prec)).
Hypothesis U1 : u <= / 64.
Hypothesis He : eta <= u * u.
Lemma rn_mono x y : x <= y -> rn x <= rn y.
Proof. apply (@round_le radix2 (FLT_exp emin prec) (@FLT_exp_valid emin prec Pp) ZnearestE _). Qed.
Lemma rn_id x : fm x -> rn x = x.
Proof. apply round_generic, valid_rnd_N. Qed.
Lemma rn_best x g : fm g -> Rabs (rn x - x) <= Rabs (g - x).
Proof. intros G. destruct (@round_N_pt radix2 (FLT_exp emin prec) (@FLT_exp_valid emin prec Pp) (fun n => negb (Z.even n)) x) as [_ H]. exact (H g G). Qed.
Variables (M a b x y c : R).
Hypothesis M1 : 1 <= M.
Hypothesis Fa : fm a.
Hypothesis Fb : fm b.
Hypothesis Fc : fm c.
Hypothesis C : c = 0 \/ c = 1.
Hypothesis X : 0 <= x <= 1.
Hypothesis Y : 0 <= y <= 1.
Let qx := rn (a * x).
Let qy := rn (a * y).
Let sx := qx + b.
Let sy := qy + b.
Let fx := rn sx.
Let fy := rn sy.
Hypothesis D : fy - fx <= 214 / 10 * M.
Hypothesis Lo : fx < c.
Hypothesis Hi : c < fy.
Lemma u00 : 0 < u. Proof. apply u_pos. Qed.
Lemma eu' : eta <= / 64 * u. Proof. pose proof u00. apply Rle_trans with (1 := He). apply Rmult_le_compat_r; lra. Qed.
Lemma sx_lt : sx < c.
Proof. destruct (Rlt_le_dec sx c) as [H|H]; [exact H|]. apply rn_mono in H. rewrite (rn_id c Fc) in H. fold fx in H. lra. Qed.
Lemma sy_gt : c < sy.
Proof. destruct (Rlt_le_dec c sy) as [H|H]; [exact H|]. apply rn_mono in H. rewrite (rn_id c Fc) in H. fold fy in H. lra. Qed.
Lemma a_not_0 : a <> 0.
Proof. intros Z. pose proof sx_lt as A. pose proof sy_gt as B. unfold sx, sy, qx, qy in A, B. rewrite Z, !Rmult_0_l in A, B. lra. Qed.
Lemma a_eta : 2 * eta <= Rabs a.
Proof.
  destruct (apart emin prec Pp 0 a (format_is _ _ _ Pp (zero_format _ _ Pp)) (format_is _ _ _ Pp Fa) (not_eq_sym a_not_0)) as [_ H]. rewrite Rminus_0_r in H. exact H.
Qed.
Lemma q_err z : 0 <= z <= 1 -> Rabs (rn (a * z) - a * z) <= u * Rabs a + eta.
Proof.
  intros Z. pose proof (rn_err emin prec Pp (a * z)) as E. assert (Rabs (a * z) <= Rabs a). { rewrite Rabs_mult, (Rabs_right z) by lra. rewrite <- (Rmult_1_r (Rabs a)) at 2. apply Rmult_le_compat_l; [apply Rabs_pos | lra]. }
  pose proof u00. assert (u * Rabs (a * z) <= u * Rabs a) by (apply Rmult_le_compat_l; lra). lra.
Qed.
Lemma rise : sy - sx <= 21 / 10 * Rabs a.
Proof.
  pose proof (q_err x X) as A. pose proof (q_err y Y) as B. fold qx in A. fold qy in B. pose proof a_eta as E. pose proof u00. assert (u * Rabs a <= / 64 * Rabs a) by (apply Rmult_le_compat_r; [apply Rabs_pos | lra]).
  assert (Rabs (a * (y - x)) <= Rabs a). { rewrite Rabs_mult. rewrite <- (Rmult_1_r (Rabs a)) at 2. apply Rmult_le_compat_l; [apply Rabs_pos | apply Rabs_le; lra]. }
  replace (sy - sx) with ((qy - a * y) + (- (qx - a * x) + a * (y - x))) by (unfold sy, sx; ring).
  eapply Rle_trans; [apply Rle_abs|]. eapply Rle_trans; [apply Rabs_triang|]. pose proof (Rabs_triang (- (qx - a * x)) (a * (y - x))) as T. rewrite Rabs_Ropp in T. pose proof (Rabs_pos a). lra.
Qed.
Lemma fx_far : c - fx <= 2 * (c - sx).
Proof. pose proof (rn_best sx c Fc) as H. fold fx in H. pose proof sx_lt. rewrite (Rabs_right (c - sx)) in H by lra. apply Rabs_le_inv in H. lra. Qed.
Lemma fy_far : fy - c <= 2 * (sy - c).
Proof. pose proof (rn_best sy c Fc) as H. fold fy in H. pose proof sy_gt. rewrite (Rabs_left (c - sy)) in H by lra. apply Rabs_le_inv in H. lra. Qed.
Lemma delta_a : fy - fx <= 42 / 10 * Rabs a.
Proof. pose proof fx_far. pose proof fy_far. pose proof rise. lra. Qed.
Lemma c_01 : 0 <= c <= 1. Proof. destruct C; lra. Qed.
(** The errors of the two ordinates with respect to the line. *)
Definition es := u * Rabs a + eta + u * (c + 21 / 10 * Rabs a).
Lemma err_x : Rabs (fx - (a * x + b)) <= es.
Proof.
  pose proof (q_err x X) as A. fold qx in A. pose proof (add_error emin prec Pp qx b (format_round emin prec Pp _) Fb) as B. fold sx fx in B. pose proof sx_lt. pose proof sy_gt. pose proof rise. pose proof c_01. pose proof u00.
  assert (Rabs sx <= c + 21 / 10 * Rabs a) by (apply Rabs_le; lra). assert (u * Rabs sx <= u * (c + 21 / 10 * Rabs a)) by (apply Rmult_le_compat_l; lra).
  replace (fx - (a * x + b)) with ((fx - sx) + (qx - a * x)) by (unfold sx; ring). eapply Rle_trans; [apply Rabs_triang|]. unfold es. lra.
Qed.
Lemma err_y : Rabs (fy - (a * y + b)) <= es.
Proof.
  pose proof (q_err y Y) as A. fold qy in A. pose proof (add_error emin prec Pp qy b (format_round emin prec Pp _) Fb) as B. fold sy fy in B. pose proof sx_lt. pose proof sy_gt. pose proof rise. pose proof c_01. pose proof u00.
  assert (Rabs sy <= c + 21 / 10 * Rabs a) by (apply Rabs_le; lra). assert (u * Rabs sy <= u * (c + 21 / 10 * Rabs a)) by (apply Rmult_le_compat_l; lra).
  replace (fy - (a * y + b)) with ((fy - sy) + (qy - a * y)) by (unfold sy; ring). eapply Rle_trans; [apply Rabs_triang|]. unfold es. lra.
Qed.
Definition xi := x + (c - fx) * ((y - x) / (fy - fx)).
Lemma xi_in : 0 <= xi <= 1.
Proof.
  unfold xi. set (l := (c - fx) / (fy - fx)). assert (L : 0 <= l <= 1).
  { unfold l. split; [apply Rdiv_le_0_compat; lra|]. apply (Rmult_le_reg_r (fy - fx)); [lra|]. unfold Rdiv. rewrite Rmult_assoc, Rinv_l; lra. }
  replace (x + (c - fx) * ((y - x) / (fy - fx))) with ((1 - l) * x + l * y) by (unfold l; field; lra).
  assert (0 <= (1 - l) * x <= (1 - l) * 1) by (split; [apply Rmult_le_pos; lra | apply Rmult_le_compat_l; lra]). assert (0 <= l * y <= l * 1) by (split; [apply Rmult_le_pos; lra | apply Rmult_le_compat_l; lra]). lra.
Qed.
Definition kst := (c - b) / a.
Lemma kst_near : Rabs a * Rabs (kst - xi) <= es.
Proof.
  rewrite <- Rabs_mult. set (l := (c - fx) / (fy - fx)). assert (L : 0 <= l <= 1).
  { unfold l. split; [apply Rdiv_le_0_compat; lra|]. apply (Rmult_le_reg_r (fy - fx)); [lra|]. unfold Rdiv. rewrite Rmult_assoc, Rinv_l; lra. }
  assert (E : a * (kst - xi) = (1 - l) * (fx - (a * x + b)) + l * (fy - (a * y + b))).
  { unfold kst, xi, l. field. split; [lra | exact a_not_0]. }
  rewrite E. pose proof err_x as A. pose proof err_y as B. eapply Rle_trans; [apply Rabs_triang|]. rewrite !Rabs_mult, (Rabs_right (1 - l)), (Rabs_right l) by lra.
  assert ((1 - l) * Rabs (fx - (a * x + b)) <= (1 - l) * es) by (apply Rmult_le_compat_l; lra). assert (l * Rabs (fy - (a * y + b)) <= l * es) by (apply Rmult_le_compat_l; lra). lra.
Qed.
Lemma es_ratio : es <= 27 / 10 * Rabs a.
Proof.
  pose proof u00. pose proof a_eta as E. pose proof (Rabs_pos a). assert (u * Rabs a <= / 64 * Rabs a) by (apply Rmult_le_compat_r; lra). unfold es.
  assert (UC : u * c <= 214 / 100 * Rabs a); [|lra]. destruct C as [->| C1]; [lra|].
  assert (Rx : representable emin prec fx) by (apply format_is; [exact Pp | apply format_round, Pp]). assert (Ry : representable emin prec fy) by (apply format_is; [exact Pp | apply format_round, Pp]).
  assert (Rc : representable emin prec c) by (apply format_is; [exact Pp | exact Fc]).
  destruct (apart emin prec Pp c fy Rc Ry ltac:(lra)) as [A _]. destruct (apart emin prec Pp c fx Rc Rx ltac:(lra)) as [B _]. rewrite (Rabs_right (fy - c)) in A by lra. rewrite (Rabs_left (fx - c)) in B by lra. rewrite (Rabs_right c) in A, B by lra.
  pose proof delta_a as G. assert ((1 + u) * (fy - c) <= (1 + / 64) * (fy - c)) by (apply Rmult_le_compat_r; lra). assert ((1 + u) * - (fx - c) <= (1 + / 64) * - (fx - c)) by (apply Rmult_le_compat_r; lra).
  lra.
Qed.
Lemma kst_in : Rabs kst <= 37 / 10.
Proof.
  pose proof kst_near as K. pose proof es_ratio as E. pose proof xi_in as X'. assert (A : 0 < Rabs a) by (apply Rabs_pos_lt, a_not_0).
  assert (Rabs (kst - xi) <= 27 / 10) by (apply (Rmult_le_reg_l (Rabs a)); lra).
  replace kst with (xi + (kst - xi)) by ring. eapply Rle_trans; [apply Rabs_triang|]. rewrite (Rabs_right xi) by lra. lra.
Qed.
Lemma kst_area : Rabs (kst - xi) * (fy - fx) <= 90 * u * M.
Proof.
  pose proof kst_near as K. assert (A : 0 < Rabs a) by (apply Rabs_pos_lt, a_not_0). pose proof delta_a as G. pose proof u00. pose proof eu'. pose proof c_01.
  assert (UM : u <= u * M) by (rewrite <- (Rmult_1_r u) at 1; apply Rmult_le_compat_l; lra).
  assert (Uc : u * c <= u) by (rewrite <- (Rmult_1_r u) at 2; apply Rmult_le_compat_l; lra).
  assert (E : es <= 31 / 10 * (u * Rabs a) + 102 / 100 * u) by (unfold es; lra).
  destruct (Rle_lt_dec 1 (Rabs a)) as [Ha1|Ha1].
  - assert (Rabs (kst - xi) <= 412 / 100 * u).
    { apply (Rmult_le_reg_l (Rabs a)); [exact A|]. assert (u <= u * Rabs a) by (rewrite <- (Rmult_1_r u) at 1; apply Rmult_le_compat_l; lra). lra. }
    apply Rle_trans with (412 / 100 * u * (214 / 10 * M)); [apply mult_le; try lra; apply Rabs_pos|]. assert (0 <= u * M) by lra. lra.
  - assert (Rabs (kst - xi) * (fy - fx) <= Rabs (kst - xi) * (42 / 10 * Rabs a)) by (apply Rmult_le_compat_l; [apply Rabs_pos | exact G]).
    assert (u * Rabs a <= u) by (rewrite <- (Rmult_1_r u) at 2; apply Rmult_le_compat_l; lra). lra.
Qed.
(** Any value near the exact crossing. *)
Lemma near_cross k : Rabs (k - kst) <= 21 / 10 * u * Rabs kst + eta -> Rabs k <= 4 /\ Rabs (k - xi) * (fy - fx) <= 260 * u * M.
Proof.
  intros H. pose proof kst_in as K. pose proof kst_area as A. pose proof u00. pose proof eu'.
  assert (21 / 10 * u * Rabs kst <= 21 / 10 * u * (37 / 10)) by (apply Rmult_le_compat_l; lra).
  assert (N : Rabs (k - kst) <= 79 / 10 * u) by lra. split.
  - replace k with (kst + (k - kst)) by ring. eapply Rle_trans; [apply Rabs_triang|]. lra.
  - assert (T : Rabs (k - xi) * (fy - fx) <= (Rabs (k - kst) + Rabs (kst - xi)) * (fy - fx)) by (apply Rmult_le_compat_r; [lra | apply tri]).
    assert (Rabs (k - kst) * (fy - fx) <= 79 / 10 * u * (214 / 10 * M)) by (apply mult_le; try lra; apply Rabs_pos). assert (0 <= u * M) by (apply Rmult_le_pos; lra). lra.
Qed.
End Cross.
