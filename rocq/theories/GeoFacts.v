(** Lemmas for geometry: the integral of a clamped line. *)
From Coq Require Import Reals List Lia Lra Bool.
From Coquelicot Require Import Coquelicot.
From Verif Require Import Base SparseModel PmModel GeoModel GeoSpec.
Open Scope R_scope.

Lemma ltb_spec x y : reflect (x < y) (ltb x y).
Proof. unfold ltb. destruct (Rlt_dec x y); constructor; assumption. Qed.
Lemma leb_spec x y : reflect (x <= y) (leb x y).
Proof. unfold leb. destruct (Rle_dec x y); constructor; assumption. Qed.
Lemma eqb_spec x y : reflect (x = y) (eqb x y).
Proof. unfold eqb. destruct (Req_EM_T x y); constructor; assumption. Qed.

Ltac mm := unfold clamp, Rmax, Rmin in *; repeat match goal with
  | |- context[Rle_dec ?a ?b] => destruct (Rle_dec a b)
  | H : context[Rle_dec ?a ?b] |- _ => destruct (Rle_dec a b) end.

Lemma clamp_cont lo hi (f : R -> R) x : continuous f x -> continuous (fun x => clamp lo hi (f x)) x.
Proof.
  intros C. unfold clamp.
  apply (continuous_ext (fun x => / 2 * ((lo + / 2 * ((hi + f x) - Rabs (hi - f x))) + Rabs (lo - / 2 * ((hi + f x) - Rabs (hi - f x)))))).
  { intros y. assert (Q : Rmin hi (f y) = / 2 * (hi + f y - Rabs (hi - f y))) by (unfold Rmin, Rabs; destruct (Rle_dec hi (f y)), (Rcase_abs (hi - f y)); lra).
    rewrite <- Q. generalize (Rmin hi (f y)). intros z. unfold Rmax, Rabs. destruct (Rle_dec lo z), (Rcase_abs (lo - z)); lra. }
  assert (C1 : continuous (fun x => / 2 * ((hi + f x) - Rabs (hi - f x))) x).
  { apply (continuous_mult (fun _ => / 2)); [apply continuous_const|]. apply (continuous_minus (fun x => hi + f x)).
    - apply (continuous_plus (fun _ => hi)); [apply continuous_const | exact C].
    - apply continuous_Rabs_comp. apply (continuous_minus (fun _ => hi)); [apply continuous_const | exact C]. }
  apply (continuous_mult (fun _ => / 2)); [apply continuous_const|]. apply (continuous_plus (fun x => lo + / 2 * ((hi + f x) - Rabs (hi - f x)))).
  - apply (continuous_plus (fun _ => lo)); [apply continuous_const | exact C1].
  - apply continuous_Rabs_comp. apply (continuous_minus (fun _ => lo)); [apply continuous_const | exact C1].
Qed.
Lemma lin_cont a b x : continuous (fun x => a * x + b) x.
Proof.
  apply (continuous_plus (fun x => a * x)); [|apply continuous_const].
  apply (continuous_mult (fun _ => a)); [apply continuous_const | apply continuous_id].
Qed.

Section F.
Variables a b : R.
Let F x := clamp 0 1 (a * x + b).
Lemma F_ex u v : ex_RInt F u v.
Proof. apply (@ex_RInt_continuous R_CompleteNormedModule). intros z _. apply clamp_cont, lin_cont. Qed.
Lemma F_chasles u v w : RInt F u v + RInt F v w = RInt F u w.
Proof. apply (RInt_Chasles F u v w); apply F_ex. Qed.
Lemma between_lin u v x : Rmin u v < x < Rmax u v -> Rmin (a * u + b) (a * v + b) <= a * x + b <= Rmax (a * u + b) (a * v + b).
Proof. intros H. destruct (Rle_dec 0 a); mm; nra. Qed.
Lemma F_below u v : a * u + b <= 0 -> a * v + b <= 0 -> RInt F u v = 0.
Proof.
  intros U V. rewrite (RInt_ext F (fun _ => 0)).
  - rewrite RInt_const. unfold scal; cbn. unfold mult; cbn. ring.
  - intros x H. apply between_lin in H. unfold F. mm; lra.
Qed.
Lemma F_above u v : 1 <= a * u + b -> 1 <= a * v + b -> RInt F u v = v - u.
Proof.
  intros U V. rewrite (RInt_ext F (fun _ => 1)).
  - rewrite RInt_const. unfold scal; cbn. unfold mult; cbn. ring.
  - intros x H. apply between_lin in H. unfold F. mm; lra.
Qed.
Lemma lin_RInt u v : RInt (fun x => a * x + b) u v = / 2 * (v - u) * ((a * u + b) + (a * v + b)).
Proof.
  apply is_RInt_unique.
  replace (/ 2 * (v - u) * (a * u + b + (a * v + b))) with (minus (a * (v * v) / 2 + b * v) (a * (u * u) / 2 + b * u)) by (unfold minus, plus, opp; cbn; field).
  apply (is_RInt_derive (fun x => a * (x * x) / 2 + b * x)).
  - intros x _. auto_derive; [trivial | field].
  - intros x _. apply lin_cont.
Qed.
Lemma F_middle u v : 0 <= a * u + b <= 1 -> 0 <= a * v + b <= 1 -> RInt F u v = / 2 * (v - u) * ((a * u + b) + (a * v + b)).
Proof.
  intros U V. rewrite (RInt_ext F (fun x => a * x + b)); [apply lin_RInt|].
  intros x H. apply between_lin in H. unfold F. mm; lra.
Qed.
End F.

Lemma segment_ok x1 y1 x2 y2 out :
  intersection_segment x1 y1 x2 y2 out = out + RInt (fun x => clamp 0 1 (line (x1, y1) (x2, y2) x)) (clamp 0 1 x1) (clamp 0 1 x2).
Proof.
  unfold intersection_segment. destruct (eqb_spec x1 x2) as [E|N].
  { subst x2. rewrite RInt_point. unfold zero; cbn. ring. }
  set (a := (y2 - y1) / (x2 - x1)). set (b := y1 - a * x1).
  rewrite (RInt_ext _ (fun x => clamp 0 1 (a * x + b))) by (intros x _; unfold line, b; cbn [fst snd]; fold a; f_equal; ring).
  assert (C : match clip_x x1 x2 with None => clamp 0 1 x1 = clamp 0 1 x2 | Some (u, v) => u = clamp 0 1 x1 /\ v = clamp 0 1 x2 end).
  { unfold clip_x. destruct (ltb_spec x1 x2).
    - destruct (leb_spec 1 x1); cbn [orb]; [mm; lra|]. destruct (leb_spec x2 0); [mm; lra|]. split; mm; lra.
    - destruct (leb_spec 1 x2); cbn [orb]; [mm; lra|]. destruct (leb_spec x1 0); [mm; lra|]. split; mm; lra. }
  destruct (clip_x x1 x2) as [[u v]|]; [|rewrite C, RInt_point; unfold zero; cbn; ring].
  destruct C as [-> ->]. set (u := clamp 0 1 x1). set (v := clamp 0 1 x2). clearbody a b u v. clear N. clear x1 x2 y1 y2.
  set (F := fun x => clamp 0 1 (a * x + b)).
  assert (S2 : forall u v, 0 <= a * u + b -> 0 <= a * v + b ->
    (if leb 1 (a * u + b) && leb 1 (a * v + b) then out + v - u
     else let tmp := (1 - b) / a in
      let '(out, x1_, y1_, x2_, y2_) :=
        if ltb 1 (a * u + b) then (out + tmp - u, tmp, 1, v, a * v + b)
        else if ltb 1 (a * v + b) then (out + v - tmp, u, a * u + b, tmp, 1)
        else (out, u, a * u + b, v, a * v + b) in
      out + / 2 * (x2_ - x1_) * (y1_ + y2_)) = out + RInt F u v).
  { clear u v. intros u v U V. destruct (leb_spec 1 (a * u + b)) as [U1|U1], (leb_spec 1 (a * v + b)) as [V1|V1]; cbn [andb].
    - unfold F. rewrite F_above by assumption. ring.
    - cbv zeta. destruct (ltb_spec 1 (a * u + b)) as [W|W].
      + assert (A : a <> 0) by (intros ->; lra). assert (T : a * ((1 - b) / a) + b = 1) by (field; exact A).
        unfold F. rewrite <- (F_chasles a b u ((1 - b) / a) v). rewrite F_above, F_middle by lra. rewrite T. ring.
      + destruct (ltb_spec 1 (a * v + b)); [lra|]. unfold F. rewrite F_middle by lra. reflexivity.
    - cbv zeta. destruct (ltb_spec 1 (a * u + b)) as [W|W]; [lra|]. destruct (ltb_spec 1 (a * v + b)) as [W'|W'].
      + assert (A : a <> 0) by (intros ->; lra). assert (T : a * ((1 - b) / a) + b = 1) by (field; exact A).
        unfold F. rewrite <- (F_chasles a b u ((1 - b) / a) v). rewrite (F_middle a b u), (F_above a b _ v) by lra. rewrite T. ring.
      + unfold F. rewrite F_middle by lra. reflexivity.
    - cbv zeta. destruct (ltb_spec 1 (a * u + b)) as [W|W]; [lra|]. destruct (ltb_spec 1 (a * v + b)) as [W'|W']; [lra|].
      unfold F. rewrite F_middle by lra. reflexivity. }
  cbv zeta in S2 |- *. destruct (leb_spec (a * u + b) 0) as [U0|U0], (leb_spec (a * v + b) 0) as [V0|V0]; cbn [andb].
  - unfold F. rewrite F_below by assumption. ring.
  - destruct (ltb_spec (a * u + b) 0) as [W|W].
    + assert (A : a <> 0) by (intros ->; lra). assert (T : a * (- b / a) + b = 0) by (field; exact A).
      unfold F. rewrite <- (F_chasles a b u (- b / a) v). rewrite F_below by lra. rewrite Rplus_0_l. fold F. rewrite <- S2 by lra. rewrite T. reflexivity.
    + destruct (ltb_spec (a * v + b) 0); [lra|]. fold F. rewrite <- S2 by lra. reflexivity.
  - destruct (ltb_spec (a * u + b) 0) as [W|W]; [lra|]. destruct (ltb_spec (a * v + b) 0) as [W'|W'].
    + assert (A : a <> 0) by (intros ->; lra). assert (T : a * (- b / a) + b = 0) by (field; exact A).
      unfold F. rewrite <- (F_chasles a b u (- b / a) v). rewrite (F_below a b _ v) by lra. rewrite Rplus_0_r. fold F. rewrite <- S2 by lra. rewrite T. reflexivity.
    + fold F. rewrite <- S2 by lra. reflexivity.
  - destruct (ltb_spec (a * u + b) 0) as [W|W]; [lra|]. destruct (ltb_spec (a * v + b) 0) as [W'|W']; [lra|]. fold F. rewrite <- S2 by lra. reflexivity.
Qed.

(** ** Sums over edges *)
Lemma rsum_app l r : rsum (l ++ r) = rsum l + rsum r.
Proof. unfold rsum. induction l as [|x l IH]; cbn; [ring|]. rewrite IH. ring. Qed.
Lemma rsum_ext {A} (f g : A -> R) l : (forall a, In a l -> f a = g a) -> rsum (map f l) = rsum (map g l).
Proof. intros H. f_equal. now apply map_ext_in. Qed.
Lemma rsum_plus {A} (f g : A -> R) l : rsum (map (fun a => f a + g a) l) = rsum (map f l) + rsum (map g l).
Proof. unfold rsum. induction l as [|x l IH]; cbn; [ring|]. rewrite IH. ring. Qed.
Lemma rsum_scal {A} k (f : A -> R) l : rsum (map (fun a => k * f a) l) = k * rsum (map f l).
Proof. unfold rsum. induction l as [|x l IH]; cbn; [ring|]. rewrite IH. ring. Qed.
Lemma rsum_0 {A} (f : A -> R) l : (forall a, In a l -> f a = 0) -> rsum (map f l) = 0.
Proof. unfold rsum. intros H. induction l as [|x l IH]; cbn; [ring|]. rewrite H, IH by (try (now left); intros; apply H; now right). ring. Qed.
Lemma rsum_swap {A B} (f : A -> B -> R) l r : rsum (map (fun a => rsum (map (f a) r)) l) = rsum (map (fun b => rsum (map (fun a => f a b) l)) r).
Proof.
  induction l as [|a l IH]; cbn [map].
  - symmetry. apply rsum_0. reflexivity.
  - unfold rsum at 1. cbn [fold_right]. fold (rsum (map (fun a => rsum (map (f a) r)) l)). rewrite IH.
    rewrite <- rsum_plus. apply rsum_ext. reflexivity.
Qed.
Lemma rsum_ge_0 l : Forall (fun x => 0 <= x) l -> 0 <= rsum l.
Proof. unfold rsum. induction 1; cbn; lra. Qed.
Lemma combine_cons {A B} (a : A) (b : B) l r : combine (a :: l) (b :: r) = (a, b) :: combine l r.
Proof. reflexivity. Qed.
Lemma telescope_open (f : R * R -> R) xy : forall p, rsum (map (fun e => f (fst e) - f (snd e)) (combine (p :: xy) xy)) = f p - f (last xy p).
Proof.
  unfold rsum. induction xy as [|q xy IH]; intros p; [cbn; ring|]. rewrite combine_cons. cbn [map fold_right fst snd]. rewrite IH.
  replace (last (q :: xy) p) with (last xy q); [ring|]. clear IH. revert p q. induction xy as [|r xy IH]; intros p q; [reflexivity|].
  change (last (q :: r :: xy) p) with (last (r :: xy) p). change (last (r :: xy) q = last (r :: xy) p). now rewrite <- !(IH _ r).
Qed.
Lemma last_default {A} (l : list A) d d' : l <> [] -> last l d = last l d'.
Proof. induction l as [|a l IH]; [contradiction|]. intros _. destruct l as [|b l]; [reflexivity|]. apply IH. discriminate. Qed.
Lemma edges_telescope (f : R * R -> R) xy : rsum (map (fun e => f (fst e) - f (snd e)) (edges xy)) = 0.
Proof.
  unfold edges. rewrite telescope_open. destruct xy as [|p xy]; [cbn; ring|].
  rewrite (last_default (p :: xy) (last (p :: xy) (0, 0)) (0, 0)) by discriminate. ring.
Qed.
Lemma edges_map (g : R * R -> R * R) xy : xy <> [] -> edges (map g xy) = map (fun e => (g (fst e), g (snd e))) (edges xy).
Proof.
  intros N. unfold edges. assert (L : last (map g xy) (0, 0) = g (last xy (0, 0))).
  { rewrite (last_default _ _ (g (0, 0))) by (destruct xy; [contradiction | discriminate]). clear N. induction xy as [|a xy IH]; [reflexivity|]. destruct xy; [reflexivity | exact IH]. }
  rewrite L. change (g (last xy (0, 0)) :: map g xy) with (map g (last xy (0, 0) :: xy)). generalize (last xy (0, 0) :: xy). clear.
  intros l. revert l. induction xy as [|a xy IH]; intros [|b l]; cbn; try reflexivity. now rewrite IH.
Qed.
Lemma edges_in xy e : In e (edges xy) -> In (fst e) xy /\ In (snd e) xy.
Proof.
  intros H. destruct e as [p q]. destruct xy as [|a xy]; [destruct H|]. unfold edges in H. split.
  - apply in_combine_l in H. destruct H as [<-|H]; [|exact H]. cbn [fst].
    rewrite (last_default _ (0, 0) a) by discriminate. clear. revert a. induction xy as [|b xy IH]; intros a; [now left|].
    change (last (a :: b :: xy) a) with (last (b :: xy) a). rewrite (last_default _ a b) by discriminate. right. apply IH.
  - now apply in_combine_r in H.
Qed.
Lemma edges_length xy : length (edges xy) = length xy.
Proof. unfold edges. rewrite combine_length. cbn [length]. apply Nat.min_r. lia. Qed.

Lemma polygon_loop_ok xy : forall j out, intersection_loop j xy out =
  out + rsum (map (fun e => RInt (fun x => clamp 0 1 (line (snd e) (fst e) x)) (clamp 0 1 (fst (snd e))) (clamp 0 1 (fst (fst e)))) (combine (j :: xy) xy)).
Proof.
  unfold rsum. induction xy as [|i xy IH]; intros j out; [cbn; ring|]. rewrite combine_cons. cbn [intersection_loop map fold_right fst snd].
  rewrite IH, segment_ok. destruct i, j. cbn [fst snd]. ring.
Qed.
Lemma line_shift p q x0 y0 x : line (fst p - x0, snd p - y0) (fst q - x0, snd q - y0) x = line p q (x + x0) - y0.
Proof.
  unfold line. cbn [fst snd]. replace (snd q - y0 - (snd p - y0)) with (snd q - snd p) by ring. replace (fst q - x0 - (fst p - x0)) with (fst q - fst p) by ring. ring.
Qed.
Lemma line_lin p q x : line p q x = (snd q - snd p) / (fst q - fst p) * x + (snd p - fst p * ((snd q - snd p) / (fst q - fst p))).
Proof. unfold line. ring. Qed.
Lemma line_cont p q x : continuous (line p q) x.
Proof. apply (continuous_ext (fun x => (snd q - snd p) / (fst q - fst p) * x + (snd p - fst p * ((snd q - snd p) / (fst q - fst p))))); [intros y; now rewrite line_lin | apply lin_cont]. Qed.
Lemma sub_cont (f : R -> R) k x : continuous f x -> continuous (fun x => f x - k) x.
Proof. intros C. apply (continuous_minus f); [exact C | apply continuous_const]. Qed.
Lemma under_ex lo hi y0 p q u v : ex_RInt (fun x => clamp lo hi (line p q x - y0)) u v.
Proof. apply (@ex_RInt_continuous R_CompleteNormedModule). intros z _. apply clamp_cont, sub_cont, line_cont. Qed.

Lemma intersection_ok x0 y0 xy : intersection_polygon (shifted (x0, y0) xy) = rsum (map (under x0 y0) (edges xy)).
Proof.
  unfold intersection_polygon. rewrite polygon_loop_ok, Rplus_0_l. destruct xy as [|p xy]; [reflexivity|].
  unfold shifted. cbn [fst snd].
  change (combine (last (map (fun v => (fst v - x0, snd v - y0)) (p :: xy)) (0, 0) :: map (fun v => (fst v - x0, snd v - y0)) (p :: xy)) (map (fun v => (fst v - x0, snd v - y0)) (p :: xy)))
    with (edges (map (fun v => (fst v - x0, snd v - y0)) (p :: xy))).
  rewrite edges_map by discriminate. rewrite map_map. apply rsum_ext. intros [a b] _. cbn [fst snd]. unfold under. cbn [fst snd].
  assert (C : forall x, clamp x0 (x0 + 1) x = 1 * clamp 0 1 (x - x0) + x0) by (intros x; mm; lra). rewrite !C.
  rewrite <- (RInt_comp_lin (fun x => clamp 0 1 (line b a x - y0)) 1 x0) by apply under_ex.
  apply RInt_ext. intros x _. rewrite line_shift. unfold scal; cbn. unfold mult; cbn. rewrite !Rmult_1_l. reflexivity.
Qed.

(** ** Flux *)
Lemma clamp_step n t : 0 <= n -> clamp 0 n t + clamp 0 1 (t - n) = clamp 0 (n + 1) t.
Proof. intros H. mm; lra. Qed.
Lemma column_sum y0 p q u v n : rsum (map (fun j => RInt (fun x => clamp 0 1 (line p q x - (y0 + INR j))) u v) (seq 0 n)) = RInt (fun x => clamp 0 (INR n) (line p q x - y0)) u v.
Proof.
  induction n as [|n IH].
  - cbn [seq map]. unfold rsum; cbn [fold_right]. rewrite (RInt_ext _ (fun _ => 0)).
    + rewrite RInt_const. unfold scal; cbn. unfold mult; cbn. ring.
    + intros x _. cbn [INR]. mm; lra.
  - rewrite seq_S, map_app, rsum_app, IH. cbn [Nat.add map]. unfold rsum at 1; cbn [fold_right]. rewrite Rplus_0_r.
    rewrite <- (RInt_plus (fun x => clamp 0 (INR n) (line p q x - y0)) (fun x => clamp 0 1 (line p q x - (y0 + INR n)))) by apply under_ex.
    apply RInt_ext. intros x _. unfold plus; cbn [AbelianGroup.plus]. rewrite S_INR.
    replace (line p q x - (y0 + INR n)) with (line p q x - y0 - INR n) by ring. apply clamp_step, pos_INR.
Qed.
Lemma row_sum (f : R -> R) x0 u v n : (forall x, continuous f x) ->
  rsum (map (fun i => RInt f (clamp (x0 + INR i) (x0 + INR i + 1) u) (clamp (x0 + INR i) (x0 + INR i + 1) v)) (seq 0 n)) = RInt f (clamp x0 (x0 + INR n) u) (clamp x0 (x0 + INR n) v).
Proof.
  intros C. assert (E : forall u v, ex_RInt f u v) by (intros; apply (@ex_RInt_continuous R_CompleteNormedModule); auto).
  assert (Ch : forall u v w, RInt f u v + RInt f v w = RInt f u w) by (intros; apply (RInt_Chasles f); apply E).
  assert (P : forall u, RInt f u u = 0) by (intros w; apply (RInt_point w f)).
  assert (S : forall u v, RInt f u v = - RInt f v u) by (intros a b; specialize (Ch a b a); rewrite P in Ch; lra).
  induction n as [|n IH].
  - cbn [seq map INR]. unfold rsum; cbn [fold_right]. replace (clamp x0 (x0 + 0) u) with x0 by (mm; lra). replace (clamp x0 (x0 + 0) v) with x0 by (mm; lra). now rewrite P.
  - rewrite seq_S, map_app, rsum_app, IH. cbn [Nat.add map]. unfold rsum; cbn [fold_right]. rewrite Rplus_0_r, S_INR. pose proof (pos_INR n) as N. set (m := x0 + INR n).
    replace (x0 + (INR n + 1)) with (m + 1) by (unfold m; ring). assert (M : x0 <= m) by (unfold m; lra). clearbody m. clear N IH.
    assert (K : forall w, (clamp x0 m w = m /\ clamp m (m + 1) w = clamp x0 (m + 1) w) \/ (clamp x0 m w = clamp x0 (m + 1) w /\ clamp m (m + 1) w = m)).
    { intros w. destruct (Rle_dec m w); [left | right]; mm; lra. }
    destruct (K u) as [[U1 U2]|[U1 U2]], (K v) as [[V1 V2]|[V1 V2]]; rewrite U1, U2, V1, V2.
    + rewrite P. ring.
    + rewrite Rplus_comm. apply Ch.
    + apply Ch.
    + rewrite P. ring.
Qed.
Lemma edge_flux x0 y0 n m e :
  grid_sum n m (fun i j => under (x0 + INR i) (y0 + INR j) e) =
  RInt (fun x => clamp 0 (INR m) (line (snd e) (fst e) x - y0)) (clamp x0 (x0 + INR n) (fst (snd e))) (clamp x0 (x0 + INR n) (fst (fst e))).
Proof.
  unfold grid_sum, under. rewrite <- row_sum by (intros x; apply clamp_cont, sub_cont, line_cont). apply rsum_ext. intros i _. apply column_sum.
Qed.
Lemma edge_area x0 y0 n m p q : x0 <= fst p <= x0 + n -> x0 <= fst q <= x0 + n -> y0 <= snd p <= y0 + m -> y0 <= snd q <= y0 + m ->
  RInt (fun x => clamp 0 m (line p q x - y0)) (clamp x0 (x0 + n) (fst p)) (clamp x0 (x0 + n) (fst q)) = / 2 * (fst q - fst p) * (snd p + snd q - 2 * y0).
Proof.
  intros P1 Q1 P2 Q2. replace (clamp x0 (x0 + n) (fst p)) with (fst p) by (mm; lra). replace (clamp x0 (x0 + n) (fst q)) with (fst q) by (mm; lra).
  destruct (Req_dec (fst p) (fst q)) as [E|N].
  { rewrite E, RInt_point. change (@eq R 0 (/ 2 * (fst q - fst q) * (snd p + snd q - 2 * y0))). ring. }
  set (a := (snd q - snd p) / (fst q - fst p)). set (b := snd p - fst p * a - y0).
  assert (A : a * fst p + b = snd p - y0) by (unfold b; ring). assert (B : a * fst q + b = snd q - y0) by (unfold b, a; field; lra).
  rewrite (RInt_ext _ (fun x => a * x + b)).
  - rewrite lin_RInt, A, B. match goal with |- @eq _ ?a ?b => change (@eq R a b) end. ring.
  - intros x H. apply (between_lin a b) in H. rewrite A, B in H. rewrite line_lin. fold a.
    replace (a * x + (snd p - fst p * a) - y0) with (a * x + b) by (unfold b; ring). mm; lra.
Qed.
Lemma trapezoids y0 xy : rsum (map (fun e => / 2 * (fst (fst e) - fst (snd e)) * (snd (snd e) + snd (fst e) - 2 * y0)) (edges xy)) = shoelace xy.
Proof.
  unfold shoelace. rewrite <- rsum_scal.
  pose proof (edges_telescope (fun p => / 2 * (fst p * snd p) - fst p * y0) xy) as T.
  rewrite (rsum_ext _ (fun e => / 2 * (fst (fst e) * snd (snd e) - snd (fst e) * fst (snd e)) + ((fun p : R * R => / 2 * (fst p * snd p) - fst p * y0) (fst e) - (fun p : R * R => / 2 * (fst p * snd p) - fst p * y0) (snd e)))).
  - rewrite rsum_plus, T, Rplus_0_r. reflexivity.
  - intros e _. cbv beta. field.
Qed.
Lemma grid_sum_edges n m (f : nat -> nat -> (R * R) * (R * R) -> R) l :
  grid_sum n m (fun i j => rsum (map (f i j) l)) = rsum (map (fun e => grid_sum n m (fun i j => f i j e)) l).
Proof.
  unfold grid_sum. rewrite <- (rsum_swap (fun i e => rsum (map (fun j => f i j e) (seq 0 m)))). apply rsum_ext. intros i _. apply (rsum_swap (f i)).
Qed.
Lemma flux x0 y0 n m xy : (forall p, In p xy -> x0 <= fst p <= x0 + INR n /\ y0 <= snd p <= y0 + INR m) ->
  grid_sum n m (fun i j => intersection_polygon (shifted (x0 + INR i, y0 + INR j) xy)) = shoelace xy.
Proof.
  intros H. unfold grid_sum.
  rewrite (rsum_ext _ (fun i => rsum (map (fun j => rsum (map (under (x0 + INR i) (y0 + INR j)) (edges xy))) (seq 0 m)))).
  2:{ intros i _. apply rsum_ext. intros j _. apply intersection_ok. }
  fold (grid_sum n m (fun i j => rsum (map (under (x0 + INR i) (y0 + INR j)) (edges xy)))). rewrite grid_sum_edges.
  rewrite <- (trapezoids y0). apply rsum_ext. intros e He. apply edges_in in He as [H1 H2]. apply H in H1, H2. rewrite edge_flux, edge_area by lra. ring.
Qed.
(** The loop of the surface. *)
Lemma surface_loop_ok xy : forall j out, surface_loop j xy out = out + rsum (map (fun e => fst (fst e) * snd (snd e) - snd (fst e) * fst (snd e)) (combine (j :: xy) xy)).
Proof.
  unfold rsum. induction xy as [|i xy IH]; intros j out; [cbn; ring|]. rewrite combine_cons. cbn [surface_loop map fold_right fst snd]. rewrite IH. ring.
Qed.
Lemma surface_ok xy : surface_simple_polygon xy = shoelace xy.
Proof. unfold surface_simple_polygon, shoelace, edges. now rewrite surface_loop_ok, Rplus_0_l. Qed.
