(** Lemmas for geometry: points in polygons. *)
From Coq Require Import Reals List ZArith Lia Lra Bool.
From Coquelicot Require Import Coquelicot.
From Verif Require Import Base BaseFacts SparseModel PmModel GeoModel GeoSpec GeoFacts GeoFacts2 GeoFacts3.
Open Scope R_scope.

(** ** The loop over the edges *)
Definition crossing (p : R * R) (e : (R * R) * (R * R)) : bool := xorb (ltb (snd p) (snd (snd e))) (ltb (snd p) (snd (fst e))).
Definition offset (p : R * R) (e : (R * R) * (R * R)) : R := (fst (fst e) - fst (snd e)) * (snd p - snd (snd e)) / (snd (fst e) - snd (snd e)).
Definition hit (p : R * R) (e : (R * R) * (R * R)) : bool :=
  if crossing p e then eqb (fst p - fst (snd e)) (offset p e)
  else eqb (snd (snd e)) (snd (fst e)) && eqb (snd p) (snd (snd e)) && xorb (ltb (fst p) (fst (snd e))) (ltb (fst p) (fst (fst e))).
Definition flip (p : R * R) (e : (R * R) * (R * R)) : bool := crossing p e && ltb (fst p - fst (snd e)) (offset p e).
Lemma edges_loop_ok p l : forall j out, edges_loop p j l out =
  if existsb (hit p) (combine (j :: l) l) then 0%Z
  else if Nat.even (length (filter (flip p) (combine (j :: l) l))) then out else (- out)%Z.
Proof.
  induction l as [|i l IH]; intros j out; [reflexivity|]. rewrite combine_cons. cbn [edges_loop existsb filter].
  unfold hit at 1, flip at 1, crossing, offset. cbn [fst snd].
  destruct (xorb (ltb (snd p) (snd i)) (ltb (snd p) (snd j))) eqn:X; cbn [andb].
  - destruct (eqb (fst p - fst i) _); [reflexivity|]. cbn [orb]. rewrite IH. destruct (existsb _ _); [reflexivity|].
    destruct (ltb (fst p - fst i) _); [|reflexivity]. cbn [length]. rewrite Nat.even_succ, <- Nat.negb_even. destruct (Nat.even _); cbn [negb]; lia.
  - destruct (eqb (snd i) (snd j) && eqb (snd p) (snd i) && _); [reflexivity|]. cbn [orb]. apply IH.
Qed.
Lemma in_polygon_ok p xy : point_in_polygon p xy =
  if existsb (fun v => eqb (fst v) (fst p) && eqb (snd v) (snd p)) xy || existsb (hit p) (edges xy) then 0%Z
  else if Nat.even (length (filter (flip p) (edges xy))) then (-1)%Z else 1%Z.
Proof. unfold point_in_polygon. destruct (existsb (fun v => eqb (fst v) (fst p) && eqb (snd v) (snd p)) xy); [reflexivity|]. cbn [orb]. apply edges_loop_ok. Qed.

(** ** Boundary *)
Lemma hit_on p e : hit p e = true -> on_segment (fst e) (snd e) p.
Proof.
  unfold hit, crossing, offset, on_segment. destruct e as [[xj yj] [xi yi]], p as [x y]. cbn [fst snd].
  destruct (ltb_spec y yi) as [A|A], (ltb_spec y yj) as [B|B]; cbn [xorb].
  1,4: destruct (eqb_spec yi yj) as [E1|]; [|discriminate]; destruct (eqb_spec y yi) as [E2|]; [|discriminate]; destruct (ltb_spec x xi), (ltb_spec x xj); cbn [xorb andb]; try discriminate; intros _;
    subst; exists ((x - xj) / (xi - xj)); (split; [|f_equal; field; lra]).
  1-4: (split; [|apply Rmult_le_reg_r with (Rabs (xi - xj)); [apply Rabs_pos_lt; lra|]]); unfold Rabs in *; try (destruct (Rcase_abs (xi - xj)));
     try (apply Rmult_le_reg_r with (xi - xj); [lra|]; unfold Rdiv; rewrite Rmult_assoc, Rinv_l by lra; lra);
     try (replace ((x - xj) / (xi - xj)) with ((xj - x) / (xj - xi)) by (field; lra); apply Rmult_le_reg_r with (xj - xi); [lra|]; unfold Rdiv; rewrite Rmult_assoc, Rinv_l by lra; lra);
     try (unfold Rdiv; rewrite Rmult_assoc; replace (/ (xi - xj) * - (xi - xj)) with (-1) by (field; lra); lra);
     try (unfold Rdiv; rewrite Rmult_assoc, Rinv_l by lra; lra).
  - destruct (eqb_spec (x - xi) ((xj - xi) * (y - yi) / (yj - yi))) as [E|]; [|discriminate]. intros _. exists ((y - yj) / (yi - yj)). split.
    + split; apply Rmult_le_reg_r with (yi - yj); try lra; unfold Rdiv; rewrite Rmult_assoc, Rinv_l by lra; lra.
    + f_equal; [replace x with (xi + (xj - xi) * (y - yi) / (yj - yi)) by lra|]; field; lra.
  - destruct (eqb_spec (x - xi) ((xj - xi) * (y - yi) / (yj - yi))) as [E|]; [|discriminate]. intros _. exists ((yj - y) / (yj - yi)). split.
    + split; apply Rmult_le_reg_r with (yj - yi); try lra; unfold Rdiv; rewrite Rmult_assoc, Rinv_l by lra; lra.
    + f_equal; [replace x with (xi + (xj - xi) * (y - yi) / (yj - yi)) by lra|]; field; lra.
Qed.
Lemma on_hit p e : on_segment (fst e) (snd e) p -> p <> fst e -> p <> snd e -> hit p e = true.
Proof.
  unfold on_segment, hit, crossing, offset. destruct e as [[xj yj] [xi yi]]. cbn [fst snd]. intros [t [Ht ->]] N1 N2. cbn [fst snd].
  assert (T0 : 0 < t) by (destruct (Req_dec t 0) as [->|]; [exfalso; apply N1; f_equal; ring | lra]).
  assert (T1 : t < 1) by (destruct (Req_dec t 1) as [->|]; [exfalso; apply N2; f_equal; ring | lra]).
  set (y := (1 - t) * yj + t * yi). set (x := (1 - t) * xj + t * xi).
  destruct (Rtotal_order yi yj) as [H|[H|H]].
  - assert (yi < y < yj) by (unfold y; nra). destruct (ltb_spec y yi), (ltb_spec y yj); try lra. cbn [xorb].
    destruct (eqb_spec (x - xi) ((xj - xi) * (y - yi) / (yj - yi))) as [|N]; [reflexivity|]. exfalso. apply N. unfold x, y. field. lra.
  - subst yj. assert (y = yi) by (unfold y; ring). assert (xi <> xj) by (intros ->; apply N1; unfold x; f_equal; ring).
    destruct (ltb_spec y yi); try lra. cbn [xorb]. destruct (eqb_spec yi yi); [|lra]. destruct (eqb_spec y yi); [|lra]. cbn [andb].
    assert (xi < x < xj \/ xj < x < xi) as [D|D] by (unfold x; destruct (Rtotal_order xi xj) as [L|[L|L]]; [left | contradiction | right]; nra);
    destruct (ltb_spec x xi), (ltb_spec x xj); try lra; reflexivity.
  - assert (yj < y < yi) by (unfold y; nra). destruct (ltb_spec y yi), (ltb_spec y yj); try lra. cbn [xorb].
    destruct (eqb_spec (x - xi) ((xj - xi) * (y - yi) / (yj - yi))) as [|N]; [reflexivity|]. exfalso. apply N. unfold x, y. field. lra.
Qed.
Lemma vertex_edge xy v : In v xy -> exists e, In e (edges xy) /\ snd e = v.
Proof.
  intros H. unfold edges. generalize (last xy (0, 0)). induction xy as [|a l IH]; intros d; [destruct H|]. rewrite combine_cons. destruct H as [->|H].
  - exists (d, v). split; [now left | reflexivity].
  - destruct (IH H a) as [e [E1 E2]]. exists e. split; [now right | exact E2].
Qed.
Lemma boundary_hit p xy : existsb (fun v => eqb (fst v) (fst p) && eqb (snd v) (snd p)) xy || existsb (hit p) (edges xy) = true <-> on_boundary xy p.
Proof.
  rewrite orb_true_iff, !existsb_exists. split.
  - intros [[v [Hv E]]|[e [He E]]].
    + apply andb_prop in E as [E1 E2]. destruct (eqb_spec (fst v) (fst p)) as [Q1|]; [|discriminate]. destruct (eqb_spec (snd v) (snd p)) as [Q2|]; [|discriminate].
      destruct (vertex_edge xy v Hv) as [e [He Q]]. exists e. split; [exact He|]. exists 1. split; [lra|]. rewrite Q. rewrite Q1, Q2. destruct p; cbn. f_equal; ring.
    + exists e. split; [exact He | now apply hit_on].
  - intros [e [He S]]. assert (V : forall v, In v xy -> p = v -> exists x, In x xy /\ eqb (fst x) (fst p) && eqb (snd x) (snd p) = true).
    { intros v Hv ->. exists v. split; [exact Hv|]. destruct (eqb_spec (fst v) (fst v)), (eqb_spec (snd v) (snd v)); auto; lra. }
    pose proof (edges_in xy e He) as [I1 I2].
    assert (D : forall a b : R * R, a = b \/ a <> b) by (intros [a1 a2] [b1 b2]; destruct (Req_EM_T a1 b1), (Req_EM_T a2 b2); subst; auto; right; intros Q; injection Q; intros; contradiction).
    destruct (D p (fst e)) as [E1|N1]; [left; now apply (V (fst e))|]. destruct (D p (snd e)) as [E2|N2]; [left; now apply (V (snd e))|].
    right. exists e. split; [exact He | now apply on_hit].
Qed.
Lemma boundary_zero p xy : point_in_polygon p xy = 0%Z <-> on_boundary xy p.
Proof.
  rewrite <- boundary_hit, in_polygon_ok. destruct (_ || _); [tauto|]. destruct (Nat.even _); split; intros; discriminate.
Qed.

(** ** Convex polygons *)
Lemma turn_segment p q r s t : turn p q ((1 - t) * fst r + t * fst s, (1 - t) * snd r + t * snd s) = (1 - t) * turn p q r + t * turn p q s.
Proof. unfold turn. cbn [fst snd]. ring. Qed.
Lemma boundary_inside xy p : convex xy -> on_boundary xy p -> inside xy p.
Proof.
  intros C [e [He [t [Ht ->]]]]. apply all_left. intros k Hk. rewrite turn_segment. rewrite edges_nth in He. apply in_map_iff in He as [i [<- Hi]]. apply in_seq in Hi. cbn [E fst snd].
  destruct (edge_left xy C k i ltac:(lia) ltac:(lia)) as [H1 _]. destruct (edge_left xy C k (pre xy i) ltac:(lia) (pre_lt xy i ltac:(lia))) as [H2 _].
  apply Rplus_le_le_0_compat; apply Rmult_le_pos; lra.
Qed.
Lemma strict_not_boundary xy p : strictly_inside xy p -> ~ on_boundary xy p.
Proof. intros S [e [He [t [Ht ->]]]]. specialize (S e He). rewrite turn_segment in S. unfold turn in S. lra. Qed.

Definition quarter (p : R * R) : R * R := (snd p, - fst p).
Lemma turn_quarter p q r : turn (quarter p) (quarter q) (quarter r) = turn p q r.
Proof. unfold turn, quarter. cbn [fst snd]. ring. Qed.
Lemma P_quarter xy k : (k < length xy)%nat -> P (map quarter xy) k = quarter (P xy k).
Proof. intros H. unfold P. rewrite (nth_indep _ (0, 0) (quarter (0, 0))) by now rewrite map_length. apply map_nth. Qed.
Lemma pre_quarter xy k : pre (map quarter xy) k = pre xy k.
Proof. unfold pre. now rewrite map_length. Qed.
Lemma convex_quarter xy : convex xy -> convex (map quarter xy).
Proof.
  intros C i j k H Hk. rewrite map_length in Hk. fold (P (map quarter xy) i) (P (map quarter xy) j) (P (map quarter xy) k).
  rewrite !P_quarter by lia. rewrite turn_quarter. apply C; assumption.
Qed.
Lemma inside_quarter xy p : inside (map quarter xy) (quarter p) <-> inside xy p.
Proof.
  destruct xy as [|a l]; [unfold inside; cbn; tauto|]. unfold inside. rewrite edges_map by discriminate. split; intros H e He.
  - specialize (H (quarter (fst e), quarter (snd e))). cbn [fst snd] in H. rewrite turn_quarter in H. apply H. apply in_map_iff. now exists e.
  - apply in_map_iff in He as [e' [<- He]]. cbn [fst snd]. rewrite turn_quarter. now apply H.
Qed.
Lemma strictly_section xy x y : convex xy -> (3 <= length xy)%nat -> strictly_inside xy (x, y) -> section_of xy x <> None.
Proof.
  intros C N3 S SN. assert (Hin : inside xy (x, y)) by (intros e He; apply Rlt_le, S, He).
  destruct (no_section_right xy C x y N3 SN Hin) as [M [m [Hm E]]].
  pose proof (turn_next xy C N3 m Hm) as T.
  assert (S' : forall k, (k < length xy)%nat -> 0 < turn (P xy (pre xy k)) (P xy k) (x, y)) by (intros k Hk; apply (S (GeoFacts2.E xy k)); rewrite edges_nth; apply in_map, in_seq; lia).
  pose proof (S' m Hm) as A. pose proof (S' (next xy m) (next_lt xy m Hm)) as B. rewrite pre_next in B by exact Hm.
  pose proof (M (pre xy m) (pre_lt xy m Hm)) as M1. pose proof (M (next xy m) (next_lt xy m Hm)) as M2.
  set (p := P xy (pre xy m)) in *. set (q := P xy m) in *. set (r := P xy (next xy m)) in *.
  assert (I : (x - fst q) * turn p q r = - (fst q - fst p) * turn q r (x, y) + (fst r - fst q) * turn p q (x, y)) by (unfold turn; cbn [fst snd]; ring).
  rewrite <- E, Rminus_diag_eq, Rmult_0_l in I by reflexivity.
  assert (0 <= (x - fst p) * turn q r (x, y)) by (apply Rmult_le_pos; lra). assert (0 <= (x - fst r) * turn p q (x, y)) by (apply Rmult_le_pos; lra).
  assert (Z1 : (x - fst p) * turn q r (x, y) = 0) by lra. assert (Z2 : (x - fst r) * turn p q (x, y) = 0) by lra.
  apply Rmult_integral in Z1 as [Z1|Z1]; [|lra]. apply Rmult_integral in Z2 as [Z2|Z2]; [|lra].
  unfold turn in T. rewrite <- E in T. replace (fst p) with x in T by lra. replace (fst r) with x in T by lra. lra.
Qed.
Lemma count_rsum {A} (p : A -> bool) l : INR (length (filter p l)) = rsum (map (fun a => if p a then 1 else 0) l).
Proof. unfold rsum. induction l as [|a l IH]; [reflexivity|]. cbn [filter map fold_right]. destruct (p a); [cbn [length]; rewrite S_INR|]; rewrite IH; ring. Qed.

Section Flips.
Variable xy : list (R * R).
Hypothesis C : convex xy.
Variable p : R * R.
Let q := map quarter xy.
Let C' : convex q := convex_quarter xy C.
Lemma flip_up k : (k < length xy)%nat -> flip p (E xy k) = (rightb q (snd p) k || leftb q (snd p) k) && ltb (line_of q k (snd p)) (- fst p).
Proof.
  intros Hk. unfold flip, crossing, offset, rightb, leftb, line_of, q. rewrite !pre_quarter, !P_quarter by (try apply pre_lt; exact Hk). unfold quarter. cbn [E fst snd].
  set (a := P xy k). set (b := P xy (pre xy k)).
  destruct (ltb_spec (snd p) (snd a)), (ltb_spec (snd p) (snd b)), (leb_spec (snd b) (snd p)), (leb_spec (snd a) (snd p)); cbn [xorb andb orb]; try lra; try reflexivity;
  unfold line; cbn [fst snd];
  assert (Q : - fst a + (snd p - snd a) * ((- fst b - - fst a) / (snd b - snd a)) = - (fst a + (fst b - fst a) * (snd p - snd a) / (snd b - snd a))) by (field; lra); rewrite Q;
  match goal with |- ltb ?u ?v = ltb ?w ?z => destruct (ltb_spec u v), (ltb_spec w z); try reflexivity; lra end.
Qed.
Lemma flips_count : INR (length (filter (flip p) (edges xy))) =
  match section_of q (snd p) with
  | Some (l, h) => (if ltb l (- fst p) then 1 else 0) + (if ltb h (- fst p) then 1 else 0)
  | None => 0
  end.
Proof.
  rewrite count_rsum, edges_nth, map_map. assert (Ln : length q = length xy) by apply map_length.
  rewrite (rsum_ext _ (fun k => (if rightb q (snd p) k then (if ltb (line_of q k (snd p)) (- fst p) then 1 else 0) else 0) + (if leftb q (snd p) k then (if ltb (line_of q k (snd p)) (- fst p) then 1 else 0) else 0))).
  2:{ intros k Hk. apply in_seq in Hk. rewrite flip_up by lia. assert (~ (rightb q (snd p) k = true /\ leftb q (snd p) k = true)) by (rewrite rightb_ok, leftb_ok; lra).
      destruct (rightb q (snd p) k), (leftb q (snd p) k); cbn [orb andb]; try tauto; try ring. }
  rewrite rsum_plus. rewrite (find_unique (rightb q (snd p)) (fun k => if ltb (line_of q k (snd p)) (- fst p) then 1 else 0)), (find_unique (leftb q (snd p)) (fun k => if ltb (line_of q k (snd p)) (- fst p) then 1 else 0)); try apply seq_NoDup.
  2:{ intros i j Hi Hj. apply in_seq in Hi, Hj. apply (left_unique q C'); lia. }
  2:{ intros i j Hi Hj. apply in_seq in Hi, Hj. apply (right_unique q C'); lia. }
  pose proof (both_or_none q C' (snd p)) as BN. unfold section_of. rewrite <- Ln.
  destruct (find (rightb q (snd p)) _), (find (leftb q (snd p)) _); try contradiction; ring.
Qed.
Lemma strictly_inside_one : (3 <= length xy)%nat -> strictly_inside xy p -> point_in_polygon p xy = 1%Z.
Proof.
  intros N3 S. assert (NB := strict_not_boundary xy p S). rewrite <- boundary_hit in NB. rewrite in_polygon_ok. apply not_true_is_false in NB. rewrite NB.
  assert (Hin : inside xy p) by (intros e He; apply Rlt_le, S, He).
  assert (S' : strictly_inside q (quarter p)).
  { intros e He. unfold q in He. rewrite edges_map in He by (destruct xy; [cbn in N3; lia | discriminate]). apply in_map_iff in He as [e' [<- He]]. cbn [fst snd]. rewrite turn_quarter. now apply S. }
  pose proof flips_count as F. destruct (section_of q (snd p)) as [[l h]|] eqn:Sq.
  2:{ exfalso. apply (strictly_section q (snd p) (- fst p) C'); [unfold q; rewrite map_length; exact N3 | exact S' | exact Sq]. }
  destruct (section_inside q C' (snd p) l h Sq) as [LH I]. rewrite <- (inside_quarter xy p) in Hin. fold q in Hin. apply I in Hin.
  assert (Hc : length (filter (flip p) (edges xy)) = 1%nat); [|now rewrite Hc].
  apply INR_eq. rewrite F. cbn [INR].
  (* strictly between: neither edge passes through the point *)
  assert (NL : l <> - fst p /\ h <> - fst p).
  { unfold section_of in Sq. destruct (find (rightb q (snd p)) (seq 0 (length q))) as [i|] eqn:Fi; [|discriminate]. destruct (find (leftb q (snd p)) (seq 0 (length q))) as [j|] eqn:Fj; [|discriminate].
    injection Sq as <- <-. apply find_some in Fi as [Hi Ri]. apply find_some in Fj as [Hj Lj]. apply in_seq in Hi, Hj. apply rightb_ok in Ri. apply leftb_ok in Lj.
    assert (Ti : 0 < turn (P q (pre q i)) (P q i) (snd p, - fst p)) by (apply (S' (E q i)); rewrite edges_nth; apply in_map, in_seq; lia).
    assert (Tj : 0 < turn (P q (pre q j)) (P q j) (snd p, - fst p)) by (apply (S' (E q j)); rewrite edges_nth; apply in_map, in_seq; lia).
    rewrite turn_line in Ti, Tj by lra. cbn [fst snd] in Ti, Tj. unfold line_of. rewrite (line_sym (P q i)), (line_sym (P q j)) by lra. split; intros Q; rewrite Q in *; nra. }
  destruct (ltb_spec l (- fst p)), (ltb_spec h (- fst p)); lra.
Qed.
Lemma outside_minus_one : ~ inside xy p -> point_in_polygon p xy = (-1)%Z.
Proof.
  intros N. assert (NB : ~ on_boundary xy p) by (intros B; apply N; now apply boundary_inside). rewrite <- boundary_hit in NB. rewrite in_polygon_ok. apply not_true_is_false in NB. rewrite NB.
  pose proof flips_count as F. rewrite <- (inside_quarter xy p) in N. fold q in N. unfold quarter in N.
  assert (Hc : length (filter (flip p) (edges xy)) = 0%nat \/ length (filter (flip p) (edges xy)) = 2%nat); [|destruct Hc as [Hc|Hc]; now rewrite Hc].
  destruct (section_of q (snd p)) as [[l h]|] eqn:Sq; [|left; apply INR_eq; exact F].
  destruct (section_inside q C' (snd p) l h Sq) as [LH I]. rewrite I in N.
  destruct (ltb_spec l (- fst p)), (ltb_spec h (- fst p)); [right | lra | lra | left]; apply INR_eq; rewrite F; cbn [INR]; lra.
Qed.
End Flips.
