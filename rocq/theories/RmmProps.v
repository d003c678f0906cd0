(** C147: extrema of angles with rounded operations. *)
From Coq Require Import ZArith Reals Lra Lia List Bool.
From Flocq Require Import Core.
From Verif Require Import Base ConstModel WcsModel WcsSpec WcsProps RndModel RndSpec RndProps BirFacts RgnFacts RgnProps RanProps RmdModel RmdSpec RmdProps RmmModel.
Import ListNotations.
Open Scope R_scope.

Definition low_of (a : num) (l : list R) : Prop := (l = [] /\ a = Inf false) \/ exists x, a = Fin x /\ least x l.
Definition high_of (a : num) (l : list R) : Prop := (l = [] /\ a = Inf true) \/ exists x, a = Fin x /\ greatest x l.
Lemma low_step a l x : low_of a l -> low_of (num_min a x) (l ++ [x]).
Proof.
  intros [[-> ->]|[y [-> [I B]]]]; right.
  - exists x. split; [reflexivity|]. split; [now left|]. intros z [<-|[]]. lra.
  - exists (Rmin y x). split; [reflexivity|]. split; [unfold Rmin; destruct (Rle_dec y x); apply in_or_app; [now left|right; now left]|].
    intros z Hz. apply in_app_or in Hz. pose proof (Rmin_l y x). pose proof (Rmin_r y x). destruct Hz as [Hz|[<-|[]]]; [specialize (B z Hz); lra|lra].
Qed.
Lemma high_step a l x : high_of a l -> high_of (num_max a x) (l ++ [x]).
Proof.
  intros [[-> ->]|[y [-> [I B]]]]; right.
  - exists x. split; [reflexivity|]. split; [now left|]. intros z [<-|[]]. lra.
  - exists (Rmax y x). split; [reflexivity|]. split; [unfold Rmax; destruct (Rle_dec y x); apply in_or_app; [right; now left|now left]|].
    intros z Hz. apply in_app_or in Hz. pose proof (Rmax_l y x). pose proof (Rmax_r y x). destruct Hz as [Hz|[<-|[]]]; [specialize (B z Hz); lra|lra].
Qed.
Lemma low_join a l b l' : low_of a l -> low_of b l' -> low_of (match b with Fin x => num_min a x | _ => a end) (l ++ l').
Proof.
  intros A [[-> ->]|[x [-> [I B]]]]; [rewrite app_nil_r; exact A|]. destruct (low_step a l x A) as [[E _]|[m [-> [J C]]]]; [destruct l; discriminate E|]. right. exists m. split; [reflexivity|]. split.
  - apply in_or_app. apply in_app_or in J. destruct J as [J|[<-|[]]]; [now left|now right].
  - intros z Hz. apply in_app_or in Hz. destruct Hz as [Hz|Hz]; [apply C, in_or_app; now left|]. specialize (B z Hz). assert (m <= x) by (apply C, in_or_app; right; now left). lra.
Qed.
Lemma high_join a l b l' : high_of a l -> high_of b l' -> high_of (match b with Fin x => num_max a x | _ => a end) (l ++ l').
Proof.
  intros A [[-> ->]|[x [-> [I B]]]]; [rewrite app_nil_r; exact A|]. destruct (high_step a l x A) as [[E _]|[m [-> [J C]]]]; [destruct l; discriminate E|]. right. exists m. split; [reflexivity|]. split.
  - apply in_or_app. apply in_app_or in J. destruct J as [J|[<-|[]]]; [now left|now right].
  - intros z Hz. apply in_app_or in Hz. destruct Hz as [Hz|Hz]; [apply C, in_or_app; now left|]. specialize (B z Hz). assert (x <= m) by (apply C, in_or_app; right; now left). lra.
Qed.
Lemma has_least (l : list R) : l <> [] -> exists x, least x l.
Proof.
  induction l as [|x l IH]; [contradiction|]. intros _. destruct l as [|y l]; [exists x; split; [now left|intros z [<-|[]]; lra]|]. destruct IH as [m [I B]]; [discriminate|]. destruct (Rle_dec x m).
  - exists x. split; [now left|]. intros z [<-|Hz]; [lra|]. specialize (B z Hz). lra.
  - exists m. split; [now right|]. intros z [<-|Hz]; [lra|]. apply B, Hz.
Qed.
Lemma has_greatest (l : list R) : l <> [] -> exists x, greatest x l.
Proof.
  induction l as [|x l IH]; [contradiction|]. intros _. destruct l as [|y l]; [exists x; split; [now left|intros z [<-|[]]; lra]|]. destruct IH as [m [I B]]; [discriminate|]. destruct (Rle_dec m x).
  - exists x. split; [now left|]. intros z [<-|Hz]; [lra|]. specialize (B z Hz). lra.
  - exists m. split; [now right|]. intros z [<-|Hz]; [lra|]. apply B, Hz.
Qed.
Lemma F2_in {A B} (P : A -> B -> Prop) l l' : Forall2 P l l' -> (forall x, In x l -> exists y, In y l' /\ P x y) /\ (forall y, In y l' -> exists x, In x l /\ P x y).
Proof.
  induction 1 as [|x y l l' H _ [IH1 IH2]]; [split; intros x []|]. split.
  - intros z [<-|Hz]; [exists y; split; [now left|exact H]|]. destruct (IH1 z Hz) as [w [I Q]]. exists w. split; [now right|exact Q].
  - intros z [<-|Hz]; [exists x; split; [now left|exact H]|]. destruct (IH2 z Hz) as [w [I Q]]. exists w. split; [now right|exact Q].
Qed.
(** Extrema of lists of which the elements are close. *)
Lemma least_near c e l us lo x0 : Forall2 (fun h x => Rabs (h - (x - c)) <= e) l us -> least lo l -> least x0 us -> Rabs (lo - (x0 - c)) <= e.
Proof.
  intros F [I B] [J C]. destruct (F2_in _ _ _ F) as [F1 F2]. destruct (F1 lo I) as [x [X Hx]]. destruct (F2 x0 J) as [h [Hh Hy]]. specialize (B h Hh). specialize (C x X). apply Rabs_le_inv in Hx. apply Rabs_le_inv in Hy. apply Rabs_le. lra.
Qed.
Lemma greatest_near c e l us hi x1 : Forall2 (fun h x => Rabs (h - (x - c)) <= e) l us -> greatest hi l -> greatest x1 us -> Rabs (hi - (x1 - c)) <= e.
Proof.
  intros F [I B] [J C]. destruct (F2_in _ _ _ F) as [F1 F2]. destruct (F1 hi I) as [x [X Hx]]. destruct (F2 x1 J) as [h [Hh Hy]]. specialize (B h Hh). specialize (C x X). apply Rabs_le_inv in Hx. apply Rabs_le_inv in Hy. apply Rabs_le. lra.
Qed.

Section T.
Variables (emin prec : Z).
Notation rn := (rndp emin prec).
Notation u := (unit_of prec).
Hypothesis Pp : (24 <= prec)%Z.
Hypothesis Pe : (emin <= 1 - 2 * prec)%Z.
Let P0 : (0 < prec)%Z := RmdProps.Q0 prec Pp.
Let U0 : 0 < u := V0 prec.
Let U2 : u <= / 16777216 := RmdProps.V2 prec Pp.
Lemma rn_1000 x : Rabs x <= 1000 -> Rabs (rn x - x) <= u * Rabs x + / 16777216 * u.
Proof.
  intros _. pose proof (rn_err emin prec P0 x). pose proof (RmdProps.Ht emin prec Pe). assert (u * u <= / 16777216 * u) by (apply Rmult_le_compat_r; lra). lra.
Qed.
Lemma rn_500 x : -500 <= x <= 500 -> Rabs (rn x - x) <= 501 * u.
Proof.
  intros H. assert (A : Rabs x <= 500) by (apply Rabs_le; lra). pose proof (rn_1000 x ltac:(lra)). assert (u * Rabs x <= u * 500) by (apply Rmult_le_compat_l; lra). lra.
Qed.
Lemma rn_451 x : 0 <= x <= 451 -> Rabs (rn x - x) <= 452 * u.
Proof.
  intros H. assert (A : Rabs x <= 451) by (apply Rabs_le; lra). pose proof (rn_1000 x ltac:(lra)). assert (u * Rabs x <= u * 451) by (apply Rmult_le_compat_l; lra). lra.
Qed.
(** An angle next to the mean. *)
Lemma near_r_ok m v x K : 0 <= m <= 360 -> same_angle v x -> Rabs (x - 360 * IZR K - m) <= 90 -> Rabs (near_r emin prec m v - (x - 360 * IZR K)) <= 870 * u.
Proof.
  intros M [k S] W. destruct (modulo_r_ok emin prec Pp Pe v) as [V [_ [k' [V' E]]]]. set (val := modulo_r emin prec v) in *. set (w := x - 360 * IZR K) in *. apply Rabs_le_inv in W. apply Rabs_le_inv in E.
  set (J := (k - k' + K)%Z). assert (EJ : v - 360 * IZR k' = w + 360 * IZR J) by (unfold w, J; rewrite S, plus_IZR, minus_IZR; ring). rewrite EJ in E.
  assert (JB : (-2 < J < 2)%Z) by (split; apply lt_IZR; lra). unfold near_r. fold val. cbv zeta.
  assert (X1 : Rabs (rn (val - 360) - (val - 360)) <= 501 * u) by (apply rn_500; lra). assert (X2 : Rabs (rn (val - m) - (val - m)) <= 501 * u) by (apply rn_500; lra).
  assert (X3 : val <= 91 -> Rabs (rn (val + 360) - (val + 360)) <= 452 * u). { intros C. apply rn_451; lra. }
  assert (X4 : Rabs (rn (val + 360) - (val + 360)) <= 721 * u). { pose proof (rn_1000 (val + 360) ltac:(apply Rabs_le; lra)) as Q. rewrite (Rabs_pos_eq (val + 360)) in Q by lra. assert (u * (val + 360) <= u * 720) by (apply Rmult_le_compat_l; lra). lra. }
  apply Rabs_le_inv in X1. apply Rabs_le_inv in X2. apply Rabs_le_inv in X4.
  assert (Y1 : Rabs (rn (rn (val - 360) - m) - (rn (val - 360) - m)) <= 1001 * u). { pose proof (rn_1000 (rn (val - 360) - m) ltac:(apply Rabs_le; lra)). assert (Rabs (rn (val - 360) - m) <= 1000) by (apply Rabs_le; lra). assert (u * Rabs (rn (val - 360) - m) <= u * 1000) by (apply Rmult_le_compat_l; lra). lra. }
  assert (Y2 : Rabs (rn (rn (val + 360) - m) - (rn (val + 360) - m)) <= 1001 * u). { pose proof (rn_1000 (rn (val + 360) - m) ltac:(apply Rabs_le; lra)). assert (Rabs (rn (val + 360) - m) <= 1000) by (apply Rabs_le; lra). assert (u * Rabs (rn (val + 360) - m) <= u * 1000) by (apply Rmult_le_compat_l; lra). lra. }
  apply Rabs_le_inv in Y1. apply Rabs_le_inv in Y2. set (a := rn (rn (val - 360) - m)) in *. set (b := rn (rn (val + 360) - m)) in *. set (c := rn (val - m)) in *.
  assert (D : J = 0%Z \/ J = 1%Z \/ J = (-1)%Z) by lia.
  destruct (Rltb_spec m val); [destruct (Rltb_spec (Rabs a) (Rabs c)) as [L|L]|destruct (Rltb_spec (Rabs b) (Rabs c)) as [L|L]]; destruct D as [D|[D|D]]; rewrite D in E; try lra.
  all: try (apply Rabs_le; lra).
  all: try (specialize (X3 ltac:(lra)); apply Rabs_le_inv in X3; apply Rabs_le; lra).
  all: exfalso; revert L; unfold Rabs; repeat match goal with |- context [Rcase_abs ?t] => destruct (Rcase_abs t) end; intros; lra.
Qed.
Notation nears m l := (map (near_r emin prec m) (valids l)).
Lemma step_fold m l : forall s ll lh, low_of (fst s) ll -> high_of (snd s) lh -> low_of (fst (fold_left (minmax_step_r emin prec m) l s)) (ll ++ nears m l) /\ high_of (snd (fold_left (minmax_step_r emin prec m) l s)) (lh ++ nears m l).
Proof.
  induction l as [|[v|] l IH]; intros s ll lh A B; cbn [fold_left valids flat_map map app]; [rewrite !app_nil_r; split; assumption| |apply IH; assumption]. fold (valids l).
  destruct (IH (minmax_step_r emin prec m s (Some v)) _ _ (low_step _ _ (near_r emin prec m v) A) (high_step _ _ (near_r emin prec m v) B)) as [C D]. rewrite <- !app_assoc in C, D. split; assumption.
Qed.
Lemma loop_fold m threads : forall s ll lh, low_of (fst s) ll -> high_of (snd s) lh -> let r := fold_left (fun s l => minmax_combine s (fold_left (minmax_step_r emin prec m) l (Inf false, Inf true))) threads s in
  low_of (fst r) (ll ++ nears m (concat threads)) /\ high_of (snd r) (lh ++ nears m (concat threads)).
Proof.
  induction threads as [|t threads IH]; intros s ll lh A B; cbn [fold_left concat]; [cbn; rewrite !app_nil_r; split; assumption|]. rewrite valids_app, map_app, !app_assoc.
  destruct (step_fold m t (Inf false, Inf true) [] [] (or_introl (conj eq_refl eq_refl)) (or_introl (conj eq_refl eq_refl))) as [C D]. apply IH; [exact (low_join _ _ _ _ A C)|exact (high_join _ _ _ _ B D)].
Qed.
Lemma total_arc a us : Forall (fun x => a <= x < a + 89) us -> a * INR (length us) <= total us <= (a + 89) * INR (length us).
Proof. unfold total. induction 1 as [|x us H _ IH]; [cbn; lra|]. cbn [fold_right length]. rewrite S_INR. lra. Qed.
(** The samples next to the mean are the angles unrolled, of which a number of turns is subtracted. *)
Lemma nears_ok threads a us : Forall2 (close_together a) (valids (concat threads)) us -> us <> [] -> INR (length us + length threads) * u <= / 1024 ->
  exists m K, mean_degrees_r emin prec threads = Some m /\ (forall x, In x us -> Rabs (x - 360 * IZR K - m) <= 90) /\ Forall2 (fun h x => Rabs (h - (x - 360 * IZR K)) <= 870 * u) (nears m (concat threads)) us.
Proof.
  intros F N D. destruct (mean_near emin prec Pp Pe threads a us F N D) as [m [Em [M [k Hk]]]]. exists m, (- k)%Z. split; [exact Em|].
  assert (A : Forall (fun x => a <= x < a + 89) us). { clear - F. induction F as [|v x l l' [_ H] _ IH]; constructor; assumption. }
  pose proof (total_arc a us A) as T. assert (n1 : 1 <= INR (length us)) by (destruct us; [contradiction|]; cbn [length]; rewrite S_INR; pose proof (pos_INR (length us)); lra).
  assert (i0 : 0 < / INR (length us)) by (apply Rinv_0_lt_compat; lra). assert (i1 : INR (length us) * / INR (length us) = 1) by (apply Rinv_r; lra).
  set (q := total us / INR (length us)) in *. assert (Q : a <= q <= a + 89).
  { unfold q, Rdiv. split; [apply Rle_trans with (a * INR (length us) * / INR (length us))|apply Rle_trans with ((a + 89) * INR (length us) * / INR (length us))]; try (apply Rmult_le_compat_r; lra); rewrite Rmult_assoc, i1; lra. }
  assert (E : (364 * INR (length us + length threads) + 1500) * u <= 0.4) by lra. apply Rabs_le_inv in Hk.
  assert (W : forall x, In x us -> Rabs (x - 360 * IZR (- k) - m) <= 90). { intros x X. rewrite Forall_forall in A. specialize (A x X). rewrite opp_IZR. apply Rabs_le. lra. }
  split; [exact W|]. generalize dependent (valids (concat threads)). intros l0 F. clear - F W M Pp Pe P0 U0 U2. induction F as [|v x l l' [S _] _ IH]; cbn [map]; [constructor|]. constructor; [apply near_r_ok; [exact M|exact S|apply W; now left]|apply IH; intros y Y; apply W; now right].
Qed.
Lemma modulo_within e x y : Rabs (x - y) <= e * u -> angles_within ((e + 361) * u) (modulo_r emin prec x) y.
Proof.
  intros H. destruct (modulo_r_ok emin prec Pp Pe x) as [_ [_ [k [_ E]]]]. exists (- k)%Z. rewrite opp_IZR. apply Rabs_le_inv in H. apply Rabs_le_inv in E. apply Rabs_le. lra.
Qed.
End T.

(** C147.  Were the constants infinities, the extrema of samples in an arc of 89 degrees would be those of the angles unrolled along the arc,
    within 1300 units of roundoff in degrees, whatever the number of samples, the threads and the precision. *)
Theorem C147_minmax_partial : forall emin prec, (24 <= prec)%Z -> (emin <= 1 - 2 * prec)%Z ->
  forall nan threads a us, Forall2 (close_together a) (valids (concat threads)) us -> us <> [] -> INR (length us + length threads) * unit_of prec <= / 1024 ->
  exists lo hi lo' hi', minmax_degrees_r emin prec nan (Inf false) (Inf true) threads = (Fin lo, Fin hi) /\ 0 <= lo <= 360 /\ 0 <= hi <= 360 /\
    least lo' us /\ greatest hi' us /\ angles_within (1300 * unit_of prec) lo lo' /\ angles_within (1300 * unit_of prec) hi hi'.
Proof.
  intros emin prec Pp Pe nan threads a us F N D. destruct (nears_ok emin prec Pp Pe threads a us F N D) as [m [K [Em [_ S]]]]. unfold minmax_degrees_r. rewrite Em. cbv zeta. unfold minmax_loop_r.
  destruct (loop_fold emin prec m threads (Inf false, Inf true) [] [] (or_introl (conj eq_refl eq_refl)) (or_introl (conj eq_refl eq_refl))) as [A B]. cbn [app] in A, B. set (r := fold_left _ threads _) in *.
  assert (Nn : map (near_r emin prec m) (valids (concat threads)) <> []) by (intros E; rewrite E in S; inversion S; congruence).
  destruct A as [[E _]|[lo [E L]]]; [contradiction|]. destruct B as [[E' _]|[hi [E' G]]]; [contradiction|]. rewrite E, E'. cbn [num_modulo_r].
  destruct (has_least us N) as [x0 X0]. destruct (has_greatest us N) as [x1 X1]. do 2 eexists. exists x0, x1. split; [reflexivity|].
  split; [apply (modulo_r_ok emin prec Pp Pe)|]. split; [apply (modulo_r_ok emin prec Pp Pe)|]. split; [exact X0|]. split; [exact X1|]. pose proof (V0 prec) as U0.
  pose proof (least_near _ _ _ _ _ _ S L X0) as Y0. pose proof (greatest_near _ _ _ _ _ _ S G X1) as Y1.
  assert (T : forall h x, angles_within ((870 + 361) * unit_of prec) h (x - 360 * IZR K) -> angles_within (1300 * unit_of prec) h x). { intros h x [k Hk]. exists (k - K)%Z. rewrite minus_IZR. apply Rabs_le_inv in Hk. apply Rabs_le. lra. }
  split; apply T, modulo_within; assumption.
Qed.
Print Assumptions C147_minmax_partial.
Example C147_example : Forall2 (close_together (-1)) (valids (concat [[Some 359; None]; [Some 1; Some (-358)]])) [-1; 1; 2] /\
  exists lo hi, minmax_degrees_r (-1074) 53 NaN (Inf false) (Inf true) [[Some 359; None]; [Some 1; Some (-358)]] = (Fin lo, Fin hi) /\ angles_within (1300 * unit_of 53) lo (-1) /\ angles_within (1300 * unit_of 53) hi 2.
Proof.
  destruct C144_example as [F _]. split; [exact F|]. destruct (C147_minmax_partial (-1074) 53 ltac:(lia) ltac:(lia) NaN _ _ _ F ltac:(discriminate)) as [lo [hi [x0 [x1 [E [_ [_ [[I0 L0] [[I1 L1] [A B]]]]]]]]]]; [rewrite unit_53; cbn; lra|].
  exists lo, hi. split; [exact E|]. assert (x0 = -1) by (pose proof (L0 (-1) (or_introl eq_refl)); destruct I0 as [<-|[<-|[<-|[]]]]; lra). assert (x1 = 2) by (pose proof (L1 2 (or_intror (or_intror (or_introl eq_refl)))); destruct I1 as [<-|[<-|[<-|[]]]]; lra). subst x0 x1. split; assumption.
Qed.
(** What the code computes: its constants, numbers, are among the samples, the angles being taken within 90 degrees of the mean. *)
Theorem C147_constants : forall emin prec, (24 <= prec)%Z -> (emin <= 1 - 2 * prec)%Z ->
  forall nan p q threads a us, Forall2 (close_together a) (valids (concat threads)) us -> us <> [] -> INR (length us + length threads) * unit_of prec <= / 1024 ->
  exists m K lo hi lo' hi', mean_degrees_r emin prec threads = Some m /\ (forall x, In x us -> Rabs (x - 360 * IZR K - m) <= 90) /\
    minmax_degrees_r emin prec nan (Fin p) (Fin q) threads = (Fin lo, Fin hi) /\ least lo' us /\ greatest hi' us /\
    angles_within (1300 * unit_of prec) lo (Rmin p (lo' - 360 * IZR K)) /\ angles_within (1300 * unit_of prec) hi (Rmax q (hi' - 360 * IZR K)).
Proof.
  intros emin prec Pp Pe nan p q threads a us F N D. destruct (nears_ok emin prec Pp Pe threads a us F N D) as [m [K [Em [W S]]]]. unfold minmax_degrees_r. rewrite Em. cbv zeta. unfold minmax_loop_r.
  assert (Lp : low_of (Fin p) [p]) by (right; exists p; split; [reflexivity|split; [now left|intros z [<-|[]]; lra]]). assert (Gq : high_of (Fin q) [q]) by (right; exists q; split; [reflexivity|split; [now left|intros z [<-|[]]; lra]]).
  destruct (loop_fold emin prec m threads (Fin p, Fin q) [p] [q] Lp Gq) as [A B]. set (r := fold_left _ threads _) in *.
  destruct A as [[E _]|[lo [E L]]]; [discriminate E|]. destruct B as [[E' _]|[hi [E' G]]]; [discriminate E'|]. rewrite E, E'. cbn [num_modulo_r].
  destruct (has_least us N) as [x0 X0]. destruct (has_greatest us N) as [x1 X1]. exists m, K. do 2 eexists. exists x0, x1. split; [reflexivity|]. split; [exact W|]. split; [reflexivity|]. split; [exact X0|]. split; [exact X1|]. pose proof (V0 prec) as U0.
  assert (Z0 : forall c, Rabs (c - (c + 360 * IZR K - 360 * IZR K)) <= 870 * unit_of prec) by (intros c; replace (c - (c + 360 * IZR K - 360 * IZR K)) with 0 by ring; rewrite Rabs_R0; lra).
  assert (X0' : least (Rmin (p + 360 * IZR K) x0) ((p + 360 * IZR K) :: us)). { destruct X0 as [I0 B0]. split; [unfold Rmin; destruct (Rle_dec _ _); [now left|now right]|]. pose proof (Rmin_l (p + 360 * IZR K) x0). pose proof (Rmin_r (p + 360 * IZR K) x0). intros z [<-|Hz]; [lra|]. specialize (B0 z Hz). lra. }
  assert (X1' : greatest (Rmax (q + 360 * IZR K) x1) ((q + 360 * IZR K) :: us)). { destruct X1 as [I1 B1]. split; [unfold Rmax; destruct (Rle_dec _ _); [now right|now left]|]. pose proof (Rmax_l (q + 360 * IZR K) x1). pose proof (Rmax_r (q + 360 * IZR K) x1). intros z [<-|Hz]; [lra|]. specialize (B1 z Hz). lra. }
  assert (SS : forall c, Forall2 (fun h x => Rabs (h - (x - 360 * IZR K)) <= 870 * unit_of prec) ([c] ++ map (near_r emin prec m) (valids (concat threads))) ((c + 360 * IZR K) :: us)) by (intros c; constructor; [apply Z0|exact S]).
  pose proof (least_near _ _ _ _ _ _ (SS p) L X0') as Y0. pose proof (greatest_near _ _ _ _ _ _ (SS q) G X1') as Y1.
  assert (T : forall h x, angles_within ((870 + 361) * unit_of prec) h x -> angles_within (1300 * unit_of prec) h x) by (intros h x [k Hk]; exists k; lra).
  replace (Rmin p (x0 - 360 * IZR K)) with (Rmin (p + 360 * IZR K) x0 - 360 * IZR K) by (unfold Rmin; destruct (Rle_dec (p + 360 * IZR K) x0), (Rle_dec p (x0 - 360 * IZR K)); lra).
  replace (Rmax q (x1 - 360 * IZR K)) with (Rmax (q + 360 * IZR K) x1 - 360 * IZR K) by (unfold Rmax; destruct (Rle_dec (q + 360 * IZR K) x1), (Rle_dec q (x1 - 360 * IZR K)); lra).
  split; apply T, modulo_within; assumption.
Qed.
Print Assumptions C147_constants.
(** Refuted: in double precision, with the constants of the code, the minimum of the single angle 10 is at most 1. *)
Theorem C147_minmax_refuted : exists lo hi, minmax_degrees_r (-1074) 53 old_NaN old_pInf old_mInf [[Some 10]] = (Fin lo, hi) /\ lo <= 1.
Proof.
  destruct old_pInf_small as [z [Z Lz]]. assert (F : Forall2 (close_together 0) (valids (concat [[Some 10]])) [10]) by (constructor; [split; [exists 0%Z; lra|lra]|constructor]).
  destruct (C144_mean (-1074) 53 ltac:(lia) ltac:(lia) _ _ _ F ltac:(discriminate)) as [m [Em [M [k Hk]]]]; [rewrite unit_53; cbn; lra|].
  replace (total [10] / INR (length [10])) with 10 in Hk by (unfold total; cbn; field). rewrite unit_53 in Hk. cbn [length Nat.add INR] in Hk. apply Rabs_le_inv in Hk.
  assert (k = 0%Z) by (assert (-1 < k < 1)%Z by (split; apply lt_IZR; lra); lia). subst k.
  pose proof (near_r_ok (-1074) 53 ltac:(lia) ltac:(lia) m 10 10 0 M ltac:(exists 0%Z; lra) ltac:(apply Rabs_le; lra)) as H. rewrite unit_53 in H. apply Rabs_le_inv in H.
  unfold minmax_degrees_r. rewrite Em. unfold minmax_loop_r. cbn [fold_left minmax_step_r fst snd num_min num_max]. unfold minmax_combine. cbn [fst snd]. rewrite Z. cbn [num_min num_modulo_r]. do 2 eexists. split; [reflexivity|].
  rewrite Rmin_left by lra. rewrite modulo_small by lra. assert (O : rndp (-1074) 53 1 = 1) by (apply (rndp_int 1); lia). pose proof (rn_le (-1074) 53 ltac:(lia) z 1 ltac:(lra)) as Q. rewrite O in Q. exact Q.
Qed.
Print Assumptions C147_minmax_refuted.
(** No valid sample: the constant NaN, twice. *)
Theorem C147_none : forall emin prec nan pinf minf threads, valids (concat threads) = [] -> minmax_degrees_r emin prec nan pinf minf threads = (nan, nan).
Proof. intros emin prec nan pinf minf threads H. apply (C144_none emin prec) in H. unfold minmax_degrees_r. rewrite H. reflexivity. Qed.
Print Assumptions C147_none.
Example C147_none_example : valids (concat [[None; None]; []]) = @nil R /\ minmax_degrees_r (-1074) 53 NaN (Inf false) (Inf true) [[None; None]; []] = (NaN, NaN).
Proof. split; [reflexivity|]. apply C147_none. reflexivity. Qed.
