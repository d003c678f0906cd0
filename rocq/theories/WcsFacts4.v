From Coq Require Import Reals Lra Lia String Permutation.
From Verif Require Import Base BaseFacts ConstModel SkyModel SkySpec SkyFacts WcsModel WcsSpec WcsFacts WcsFacts2 WcsFacts3.
Open Scope R_scope.
(** ** Pixels of one map seen in another *)
Lemma dot3_scalar u v : dot3 u v = scalar u v.
Proof. destruct u as [[a b] c], v as [[x y] z]. reflexivity. Qed.
Lemma pix2world_tangent a x y : pix2world a x y = let '(xsi, eta) := intermediate (cdm a) (crpix a) x y in tangent (fst (crval a)) (snd (crval a)) xsi eta.
Proof.
  unfold pix2world, intermediate. destruct (cdm a) as [[c11 c12] [c21 c22]]. rewrite basis_ok. unfold tangent. destruct (centre _ _) as [[c0 c1] c2], (east _ _) as [[e0 e1] e2], (north _ _) as [[n0 n1] n2]. cbn [add3 scale3]. rewrite !deg. repeat apply (f_equal2 pair); ring.
Qed.
Lemma pix_affine a l : exists p q r, forall x y, dot3 l (pix2world a x y) = p + q * x + r * y.
Proof.
  destruct l as [[l0 l1] l2]. unfold pix2world. destruct (cdm a) as [[c11 c12] [c21 c22]]. destruct (basis a) as [[[[c0 c1] c2] [[e0 e1] e2]] [[n0 n1] n2]]. cbn [dot3].
  set (D := DEG2RAD). set (P1 := fst (crpix a)). set (P2 := snd (crpix a)). set (lc := l0 * c0 + l1 * c1 + l2 * c2). set (le := l0 * e0 + l1 * e1 + l2 * e2). set (ln := l0 * n0 + l1 * n1 + l2 * n2).
  exists (lc - D * (c11 * P1 + c12 * P2) * le - D * (c21 * P1 + c22 * P2) * ln), (D * (c11 * le + c21 * ln)), (D * (c12 * le + c22 * ln)). intros x y. unfold lc, le, ln. ring.
Qed.
Lemma affine_rectangle p q r x1 x2 y1 y2 x y : x1 <= x <= x2 -> y1 <= y <= y2 ->
  (forall cx cy, cx = x1 \/ cx = x2 -> cy = y1 \/ cy = y2 -> 0 <= p + q * cx + r * cy) -> 0 <= p + q * x + r * y.
Proof.
  intros Hx Hy H. destruct (Rle_dec 0 q) as [Q|Q], (Rle_dec 0 r) as [P|P].
  - pose proof (H x1 y1 (or_introl eq_refl) (or_introl eq_refl)). nra.
  - pose proof (H x1 y2 (or_introl eq_refl) (or_intror eq_refl)). nra.
  - pose proof (H x2 y1 (or_intror eq_refl) (or_introl eq_refl)). nra.
  - pose proof (H x2 y2 (or_intror eq_refl) (or_intror eq_refl)). nra.
Qed.
Lemma affine_rectangle_strict p q r x1 x2 y1 y2 x y : x1 <= x <= x2 -> y1 <= y <= y2 ->
  (forall cx cy, cx = x1 \/ cx = x2 -> cy = y1 \/ cy = y2 -> 0 < p + q * cx + r * cy) -> 0 < p + q * x + r * y.
Proof.
  intros Hx Hy H. destruct (Rle_dec 0 q) as [Q|Q], (Rle_dec 0 r) as [P|P].
  - pose proof (H x1 y1 (or_introl eq_refl) (or_introl eq_refl)). nra.
  - pose proof (H x1 y2 (or_introl eq_refl) (or_intror eq_refl)). nra.
  - pose proof (H x2 y1 (or_intror eq_refl) (or_introl eq_refl)). nra.
  - pose proof (H x2 y2 (or_intror eq_refl) (or_intror eq_refl)). nra.
Qed.
(** The ratio of two linear forms between bounds at the corners is between them. *)
Lemma ratio_between a (l g : vec) x1 x2 y1 y2 m M x y : x1 <= x <= x2 -> y1 <= y <= y2 ->
  (forall cx cy, cx = x1 \/ cx = x2 -> cy = y1 \/ cy = y2 -> 0 < dot3 g (pix2world a cx cy) /\ m <= dot3 l (pix2world a cx cy) / dot3 g (pix2world a cx cy) <= M) ->
  0 < dot3 g (pix2world a x y) /\ m <= dot3 l (pix2world a x y) / dot3 g (pix2world a x y) <= M.
Proof.
  intros Hx Hy H. destruct (pix_affine a l) as [p [q [r L]]]. destruct (pix_affine a g) as [p' [q' [r' G]]].
  assert (Pg : 0 < dot3 g (pix2world a x y)). { rewrite G. apply (affine_rectangle_strict p' q' r' x1 x2 y1 y2); auto. intros cx cy Cx Cy. rewrite <- G. now apply H. }
  assert (Lo : 0 <= (p - m * p') + (q - m * q') * x + (r - m * r') * y).
  { apply (affine_rectangle _ _ _ x1 x2 y1 y2); auto. intros cx cy Cx Cy. destruct (H cx cy Cx Cy) as [Pc [A _]]. apply (Rmult_le_compat_r (dot3 g (pix2world a cx cy))) in A; [|lra]. unfold Rdiv in A. rewrite Rmult_assoc, Rinv_l in A by lra. rewrite L, G in A. lra. }
  assert (Hi : 0 <= (M * p' - p) + (M * q' - q) * x + (M * r' - r) * y).
  { apply (affine_rectangle _ _ _ x1 x2 y1 y2); auto. intros cx cy Cx Cy. destruct (H cx cy Cx Cy) as [Pc [_ A]]. apply (Rmult_le_compat_r (dot3 g (pix2world a cx cy))) in A; [|lra]. unfold Rdiv in A. rewrite Rmult_assoc, Rinv_l in A by lra. rewrite L, G in A. lra. }
  split; [exact Pg|]. split.
  - apply (Rmult_le_reg_r (dot3 g (pix2world a x y))); [exact Pg|]. unfold Rdiv. rewrite Rmult_assoc, Rinv_l by lra. rewrite L, G. lra.
  - apply (Rmult_le_reg_r (dot3 g (pix2world a x y))); [exact Pg|]. unfold Rdiv. rewrite Rmult_assoc, Rinv_l by lra. rewrite L, G. lra.
Qed.
Definition lin (k1 : R) (u : vec) (k2 : R) (v : vec) (k3 : R) (w : vec) : vec := add3 (scale3 k1 u) (add3 (scale3 k2 v) (scale3 k3 w)).
Lemma dot3_lin k1 u k2 v k3 w x : dot3 (lin k1 u k2 v k3 w) x = k1 * dot3 u x + k2 * dot3 v x + k3 * dot3 w x.
Proof. destruct u as [[? ?] ?], v as [[? ?] ?], w as [[? ?] ?], x as [[? ?] ?]. unfold lin. cbn [scale3 add3 dot3]. ring. Qed.
Lemma dot3_comm u v : dot3 u v = dot3 v u.
Proof. destruct u as [[? ?] ?], v as [[? ?] ?]. cbn. ring. Qed.
Lemma world2pix_form a : let '(c, e, n) := basis a in exists lx ly : vec, forall w, dot3 c w <> 0 -> world2pix a w = (dot3 lx w / dot3 c w, dot3 ly w / dot3 c w).
Proof.
  unfold world2pix. destruct (basis a) as [[c e] n]. unfold xy2xy_rotation. destruct (cdinv (cdm a)) as [[i11 i12] [i21 i22]]. destruct (crpix a) as [p1 p2]. cbn [fst snd].
  exists (lin (i11 * RAD2DEG) e (i12 * RAD2DEG) n p1 c), (lin (i21 * RAD2DEG) e (i22 * RAD2DEG) n p2 c). intros w H. rewrite !dot3_lin, !(dot3_comm w). f_equal; field; exact H.
Qed.
(** Vectors in the basis of a tangent plane. *)
Lemma in_basis ra dec w : w = add3 (scale3 (scalar w (centre ra dec)) (centre ra dec)) (add3 (scale3 (scalar w (east ra dec)) (east ra dec)) (scale3 (scalar w (north ra dec)) (north ra dec))).
Proof.
  pose proof (columns _ _ _ (basis_orthonormal ra dec)) as C. destruct (centre ra dec) as [[c0 c1] c2], (east ra dec) as [[e0 e1] e2], (north ra dec) as [[n0 n1] n2], w as [[x y] z]. unfold orthonormal, scalar in *. cbn [fst snd scale3 add3] in *.
  destruct C as [H1 [H2 [H3 [H4 [H5 H6]]]]]. repeat apply (f_equal2 pair).
  - transitivity (x * (c0 * c0 + e0 * e0 + n0 * n0) + y * (c0 * c1 + e0 * e1 + n0 * n1) + z * (c0 * c2 + e0 * e2 + n0 * n2)); [rewrite H1, H4, H5; ring | ring].
  - transitivity (x * (c0 * c1 + e0 * e1 + n0 * n1) + y * (c1 * c1 + e1 * e1 + n1 * n1) + z * (c1 * c2 + e1 * e2 + n1 * n2)); [rewrite H2, H4, H6; ring | ring].
  - transitivity (x * (c0 * c2 + e0 * e2 + n0 * n2) + y * (c1 * c2 + e1 * e2 + n1 * n2) + z * (c2 * c2 + e2 * e2 + n2 * n2)); [rewrite H3, H5, H6; ring | ring].
Qed.
Lemma world2pix_seen a w : determinant (cdm a) <> 0 -> 0 < scalar w (centre (fst (crval a)) (snd (crval a))) -> let '(x, y) := world2pix a w in seen (cdm a) (crpix a) (crval a) x y w.
Proof.
  intros D P. unfold world2pix. rewrite basis_ok. rewrite !dot3_scalar. set (c := centre _ _) in *. set (e := east _ _). set (n := north _ _). set (k := scalar w c) in *.
  pose proof (rotation_inverse a (RAD2DEG * (scalar w e / k)) (RAD2DEG * (scalar w n / k)) D) as RI. destruct (xy2xy_rotation a _ _) as [x y]. exists k. split; [exact P|]. rewrite RI.
  rewrite (in_basis (fst (crval a)) (snd (crval a)) w) at 1. fold c e n k. unfold tangent. fold c e n. pose proof pi_pos.
  replace (RAD2DEG * (scalar w e / k) * PI / 180) with (scalar w e / k) by (unfold RAD2DEG; field; split; lra). replace (RAD2DEG * (scalar w n / k) * PI / 180) with (scalar w n / k) by (unfold RAD2DEG; field; split; lra).
  destruct c as [[c0 c1] c2], e as [[e0 e1] e2], n as [[n0 n1] n2]. cbn [scale3 add3]. repeat apply (f_equal2 pair); field; lra.
Qed.
(** ** The enlarged map *)
Lemma minimum_le l : forall x, In x l -> minimum l <= x.
Proof.
  induction l as [|a l IH]; [intros x []|]. destruct l as [|b l].
  - intros x [<-|[]]. cbn. lra.
  - change (minimum (a :: b :: l)) with (Rmin a (minimum (b :: l))). intros x [<-|Hx]; [apply Rmin_l|]. pose proof (Rmin_r a (minimum (b :: l))). pose proof (IH x Hx). lra.
Qed.
Lemma maximum_ge l : forall x, In x l -> x <= maximum l.
Proof.
  induction l as [|a l IH]; [intros x []|]. destruct l as [|b l].
  - intros x [<-|[]]. cbn. lra.
  - change (maximum (a :: b :: l)) with (Rmax a (maximum (b :: l))). intros x [<-|Hx]; [apply Rmax_l|]. pose proof (Rmax_r a (maximum (b :: l))). pose proof (IH x Hx). lra.
Qed.
Lemma minimum2_le (f : R * R -> R) (ls : list (list (R * R))) l p : In l ls -> In p l -> minimum (map (fun l => minimum (map f l)) ls) <= f p <= maximum (map (fun l => maximum (map f l)) ls).
Proof.
  intros Hl Hp. split.
  - apply Rle_trans with (minimum (map f l)); [apply minimum_le, (in_map (fun l => minimum (map f l))), Hl | apply minimum_le, in_map, Hp].
  - apply Rle_trans with (maximum (map f l)); [apply maximum_ge, in_map, Hp | apply maximum_ge, (in_map (fun l => maximum (map f l))), Hl].
Qed.
Lemma corners_in a nx ny cx cy : cx = / 2 \/ cx = IZR nx + / 2 -> cy = / 2 \/ cy = IZR ny + / 2 -> In (pix2world a cx cy) (edges a nx ny).
Proof. intros [-> | ->] [-> | ->]; unfold edges; cbn [combine map fst snd In]; tauto. Qed.
Lemma world2pix_shift p1 p2 q1 q2 v cd w : let '(x, y) := world2pix (Astrometry (p1, p2) v cd) w in world2pix (Astrometry (q1, q2) v cd) w = (x - p1 + q1, y - p2 + q2).
Proof.
  unfold world2pix, basis. cbn [crval]. unfold xy2xy_rotation. cbn [cdm crpix fst snd]. destruct (cdinv cd) as [[i11 i12] [i21 i22]]. f_equal; ring.
Qed.
Definition nearest (round : R -> Z) : Prop := forall x, x - / 2 <= IZR (round x) <= x + / 2.
Lemma enlarge_encompasses round v cd headers a nx ny a' nx' ny' : nearest round -> determinant cd <> 0 -> combine_enlarge round (Astrometry (1, 1) v cd) headers = (a', nx', ny') -> In (a, nx, ny) headers ->
  (forall cx cy, cx = / 2 \/ cx = IZR nx + / 2 -> cy = / 2 \/ cy = IZR ny + / 2 -> 0 < scalar (pix2world a cx cy) (centre (fst v) (snd v))) ->
  forall x y, / 2 <= x <= IZR nx + / 2 -> / 2 <= y <= IZR ny + / 2 ->
  0 < scalar (pix2world a x y) (centre (fst v) (snd v)) /\ let '(X, Y) := world2pix a' (pix2world a x y) in / 2 <= X <= IZR nx' + / 2 /\ / 2 <= Y <= IZR ny' + / 2.
Proof.
  intros HR HD HE HI HF x y Hx Hy. unfold combine_enlarge in HE. cbn [crval cdm] in HE. set (a0 := Astrometry (1, 1) v cd) in *. set (xy0 := map _ headers) in HE.
  set (x0 := minimum (map (fun l => minimum (map fst l)) xy0)) in HE. set (x1 := maximum (map (fun l => maximum (map fst l)) xy0)) in HE. set (y0 := minimum (map (fun l => minimum (map snd l)) xy0)) in HE. set (y1 := maximum (map (fun l => maximum (map snd l)) xy0)) in HE.
  injection HE as <- <- <-.
  pose proof (world2pix_form a0) as WF. rewrite basis_ok in WF. change (crval a0) with v in WF. destruct WF as [lx [ly WF]]. set (c := centre (fst v) (snd v)) in *.
  assert (Corner : forall cx cy, cx = / 2 \/ cx = IZR nx + / 2 -> cy = / 2 \/ cy = IZR ny + / 2 -> 0 < dot3 c (pix2world a cx cy) /\ x0 <= fst (world2pix a0 (pix2world a cx cy)) <= x1 /\ y0 <= snd (world2pix a0 (pix2world a cx cy)) <= y1).
  { intros cx cy Cx Cy. split; [rewrite dot3_comm, dot3_scalar; now apply HF|]. assert (Hl : In (map (world2pix a0) (edges a nx ny)) xy0) by (unfold xy0; apply in_map_iff; exists (a, nx, ny); auto). assert (Hp : In (world2pix a0 (pix2world a cx cy)) (map (world2pix a0) (edges a nx ny))) by (apply in_map; now apply corners_in).
    split; [exact (minimum2_le fst xy0 _ _ Hl Hp) | exact (minimum2_le snd xy0 _ _ Hl Hp)]. }
  destruct (ratio_between a lx c (/ 2) (IZR nx + / 2) (/ 2) (IZR ny + / 2) x0 x1 x y Hx Hy) as [Pc BX].
  { intros cx cy Cx Cy. destruct (Corner cx cy Cx Cy) as [P [B _]]. split; [exact P|]. rewrite WF in B by lra. exact B. }
  destruct (ratio_between a ly c (/ 2) (IZR nx + / 2) (/ 2) (IZR ny + / 2) y0 y1 x y Hx Hy) as [_ BY].
  { intros cx cy Cx Cy. destruct (Corner cx cy Cx Cy) as [P [_ B]]. split; [exact P|]. rewrite WF in B by lra. exact B. }
  split; [now rewrite <- dot3_scalar, dot3_comm|]. pose proof (world2pix_shift 1 1 (2 - IZR (round x0)) (2 - IZR (round y0)) v cd (pix2world a x y)) as WS. fold a0 in WS. rewrite (WF (pix2world a x y)) in WS by lra. rewrite WS.
  rewrite !plus_IZR, !minus_IZR. pose proof (HR x0). pose proof (HR x1). pose proof (HR y0). pose proof (HR y1). lra.
Qed.
