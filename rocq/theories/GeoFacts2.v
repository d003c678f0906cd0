(** Lemmas for geometry: convex polygons. *)
From Coq Require Import Reals List Lia Lra Bool Permutation.
From Coquelicot Require Import Coquelicot.
From Verif Require Import Base SparseModel PmModel GeoModel GeoSpec GeoFacts.
Open Scope R_scope.

Lemma turn_cycle p q r : turn p q r = turn q r p.
Proof. unfold turn. ring. Qed.
Lemma turn_line p q r : fst p <> fst q -> turn p q r = (fst q - fst p) * (snd r - line p q (fst r)).
Proof. intros N. unfold turn, line. field. lra. Qed.
Lemma turn_affine p q x y1 y2 t : turn p q (x, (1 - t) * y1 + t * y2) = (1 - t) * turn p q (x, y1) + t * turn p q (x, y2).
Proof. unfold turn. cbn [fst snd]. ring. Qed.
Lemma turn_on_line p q a b x : fst a <> fst b -> turn p q (x, line a b x) = ((fst b - x) * turn p q a + (x - fst a) * turn p q b) / (fst b - fst a).
Proof. intros N. unfold turn, line. cbn [fst snd]. field. lra. Qed.
Lemma line_sym p q x : fst p <> fst q -> line p q x = line q p x.
Proof. intros N. unfold line. field. lra. Qed.

Lemma two_lines s a b p q r t : s = 1 \/ s = -1 -> a < b ->
  s * fst p <= a -> b <= s * fst q -> s * fst r <= a -> b <= s * fst t ->
  0 <= turn p q r -> 0 <= turn p q t -> 0 <= turn r t p -> 0 <= turn r t q -> turn p q r = 0 /\ turn p q t = 0.
Proof.
  intros Hs Hab P1 Q1 R1 T1. assert (N1 : fst p <> fst q) by (destruct Hs; subst s; lra). assert (N2 : fst r <> fst t) by (destruct Hs; subst s; lra).
  rewrite !turn_line by assumption.
  set (e := (snd t - snd r) / (fst t - fst r) - (snd q - snd p) / (fst q - fst p)).
  set (d := (snd r - fst r * ((snd t - snd r) / (fst t - fst r))) - (snd p - fst p * ((snd q - snd p) / (fst q - fst p)))).
  replace (snd r - line p q (fst r)) with (d + e * fst r) by (unfold d, e, line; ring).
  replace (snd t - line p q (fst t)) with (d + e * fst t) by (unfold d, e, line; field; lra).
  replace (snd p - line r t (fst p)) with (- (d + e * fst p)) by (unfold d, e, line; ring).
  replace (snd q - line r t (fst q)) with (- (d + e * fst q)) by (unfold d, e, line; field; lra).
  clearbody d e. intros H1 H2 H3 H4.
  assert (S1 : 0 < s * (fst q - fst p)) by (destruct Hs; subst s; lra). assert (S2 : 0 < s * (fst t - fst r)) by (destruct Hs; subst s; lra).
  assert (D1 : 0 <= s * (d + e * fst r)) by (destruct Hs; subst s; nra). assert (D2 : 0 <= s * (d + e * fst t)) by (destruct Hs; subst s; nra).
  assert (D3 : s * (d + e * fst p) <= 0) by (destruct Hs; subst s; nra). assert (D4 : s * (d + e * fst q) <= 0) by (destruct Hs; subst s; nra).
  assert (A : d + e * (s * a) = 0 /\ d + e * (s * b) = 0).
  { assert (forall x, a <= x <= b -> d + e * (s * x) = 0) as Z.
    { intros x Hx. destruct Hs; subst s.
      - destruct (Rle_dec 0 e); nra.
      - destruct (Rle_dec 0 e); nra. }
    split; apply Z; lra. }
  assert (e = 0) by (destruct A; destruct Hs; subst s; nra). subst e. assert (d = 0) by (destruct A; lra). subst d. split; ring.
Qed.

Section Convex.
Variable xy : list (R * R).
Let n := length xy.
Definition P k := nth k xy (0, 0).
Definition pre k := match k with O => pred n | S k => k end.
Definition E k := (P (pre k), P k).
Lemma edges_nth : edges xy = map E (seq 0 n).
Proof.
  unfold edges. assert (H : forall (l : list (R * R)) d, combine (d :: l) l = map (fun k => (nth k (d :: l) (0, 0), nth k l (0, 0))) (seq 0 (length l))).
  { induction l as [|a l IH]; intros d; [reflexivity|]. rewrite combine_cons. cbn [length seq map]. rewrite <- seq_shift, map_map. rewrite IH. reflexivity. }
  rewrite H. fold n. apply map_ext_in. intros k Hk. apply in_seq in Hk. unfold E, P, pre. destruct k as [|k]; [|reflexivity].
  cbn [nth]. f_equal. unfold n. clear. generalize (0, 0). intros d. induction xy as [|a l IH]; [reflexivity|]. destruct l as [|b l]; [reflexivity|]. exact IH.
Qed.
Lemma pre_lt k : (k < n)%nat -> (pre k < n)%nat.
Proof. unfold pre. destruct k; lia. Qed.

Hypothesis C : convex xy.
Lemma edge_left i m : (i < n)%nat -> (m < n)%nat -> 0 <= turn (P (pre i)) (P i) (P m) /\ (m <> i -> m <> pre i -> 0 < turn (P (pre i)) (P i) (P m)).
Proof.
  intros Hi Hm. assert (S : m <> i -> m <> pre i -> 0 < turn (P (pre i)) (P i) (P m)).
  { intros N1 N2. destruct i as [|i]; cbn [pre] in *.
    - rewrite turn_cycle. apply (C 0%nat m (pred n)); fold n; lia.
    - destruct (Nat.lt_ge_cases m i).
      + rewrite turn_cycle, turn_cycle. apply (C m i (S i)); fold n; lia.
      + apply (C i (S i) m); fold n; lia. }
  split; [|exact S]. destruct (Nat.eq_dec m i) as [->|N1]; [unfold turn; lra|]. destruct (Nat.eq_dec m (pre i)) as [->|N2]; [unfold turn; lra|]. apply Rlt_le, S; assumption.
Qed.

(** At most one edge goes rightwards above an interval, at most one leftwards. *)
Lemma one_direction (s : R) a b i j : s = 1 \/ s = -1 -> a < b -> (i < n)%nat -> (j < n)%nat ->
  s * fst (P (pre i)) <= a -> b <= s * fst (P i) -> s * fst (P (pre j)) <= a -> b <= s * fst (P j) -> i = j.
Proof.
  intros Hs Hab Hi Hj I1 I2 J1 J2. destruct (Nat.eq_dec i j) as [E|N]; [exact E|]. exfalso.
  assert (Pi : (pre i < n)%nat) by now apply pre_lt. assert (Pj : (pre j < n)%nat) by now apply pre_lt.
  destruct (edge_left i j Hi Hj) as [A1 A1']. destruct (edge_left i (pre j) Hi Pj) as [A2 A2'].
  destruct (edge_left j i Hj Hi) as [B1 B1']. destruct (edge_left j (pre i) Hj Pi) as [B2 B2'].
  assert (Q : pre i <> pre j \/ (n <= 1)%nat).
  { destruct (Nat.le_gt_cases n 1); [now right | left]. unfold pre. destruct i, j; lia. }
  destruct Q as [Q|Q]; [|lia].
  assert (D : (j <> pre i \/ pre j <> i) \/ (j = pre i /\ pre j = i)) by lia.
  assert (I : fst (P (pre i)) <> fst (P i)) by (intros Q'; rewrite Q' in *; lra).
  destruct (two_lines s a b (P (pre i)) (P i) (P (pre j)) (P j)) as [Z1 Z2]; try assumption.
  destruct D as [[D|D]|[E1 E2]].
  - specialize (A1' ltac:(auto) D). lra.
  - specialize (A2' D ltac:(auto)). lra.
  - rewrite E1, E2 in *. lra.
Qed.

Ltac rring := match goal with |- @eq _ ?a ?b => change (@eq R a b) end; ring.
(** ** Vertical sections *)
Definition rightb (x : R) (k : nat) : bool := leb (fst (P (pre k))) x && ltb x (fst (P k)).
Definition leftb (x : R) (k : nat) : bool := leb (fst (P k)) x && ltb x (fst (P (pre k))).
Definition line_of (k : nat) : R -> R := line (P k) (P (pre k)).
Definition section_of (x : R) : option (R * R) :=
  match find (rightb x) (seq 0 n), find (leftb x) (seq 0 n) with
  | Some i, Some j => Some (line_of i x, line_of j x)
  | _, _ => None
  end.
Definition len (y0 x : R) : R := match section_of x with Some (l, h) => clamp 0 1 (h - y0) - clamp 0 1 (l - y0) | None => 0 end.

Lemma rightb_ok x k : rightb x k = true <-> fst (P (pre k)) <= x < fst (P k).
Proof. unfold rightb. destruct (leb_spec (fst (P (pre k))) x), (ltb_spec x (fst (P k))); cbn; split; try discriminate; auto; lra. Qed.
Lemma leftb_ok x k : leftb x k = true <-> fst (P k) <= x < fst (P (pre k)).
Proof. unfold leftb. destruct (leb_spec (fst (P k)) x), (ltb_spec x (fst (P (pre k)))); cbn; split; try discriminate; auto; lra. Qed.
Lemma right_unique x i j : (i < n)%nat -> (j < n)%nat -> rightb x i = true -> rightb x j = true -> i = j.
Proof.
  rewrite !rightb_ok. intros Hi Hj A B.
  apply (one_direction 1 x (Rmin (fst (P i)) (fst (P j)))); auto; mm; lra.
Qed.
Lemma left_unique x i j : (i < n)%nat -> (j < n)%nat -> leftb x i = true -> leftb x j = true -> i = j.
Proof.
  rewrite !leftb_ok. intros Hi Hj A B.
  apply (one_direction (-1) (Rmax (- fst (P (pre i))) (- fst (P (pre j)))) (- x)); auto; mm; lra.
Qed.
(** A rightward edge is below a leftward one. *)
Lemma right_below_left x i j : (i < n)%nat -> (j < n)%nat -> rightb x i = true -> leftb x j = true -> line_of i x <= line_of j x.
Proof.
  rewrite rightb_ok, leftb_ok. intros Hi Hj A B. unfold line_of. rewrite (line_sym (P i)) by lra.
  destruct (edge_left i j Hi Hj) as [H1 _]. destruct (edge_left i (pre j) Hi (pre_lt j Hj)) as [H2 _].
  pose proof (turn_on_line (P (pre i)) (P i) (P j) (P (pre j)) x ltac:(lra)) as T. rewrite turn_line in T by lra. cbn [fst snd] in T.
  set (d := line (P j) (P (pre j)) x - line (P (pre i)) (P i) x) in *.
  assert (0 <= (fst (P i) - fst (P (pre i))) * d).
  { rewrite T. apply Rmult_le_pos; [|apply Rlt_le, Rinv_0_lt_compat; lra]. apply Rplus_le_le_0_compat; apply Rmult_le_pos; lra. }
  assert (0 <= d) by nra. unfold d in *. lra.
Qed.
Lemma find_unique (p : nat -> bool) (g : nat -> R) l : NoDup l -> (forall i j, In i l -> In j l -> p i = true -> p j = true -> i = j) ->
  rsum (map (fun k => if p k then g k else 0) l) = match find p l with Some k => g k | None => 0 end.
Proof.
  clear. induction l as [|a l IH]; intros N U; [reflexivity|]. apply NoDup_cons_iff in N as [N1 N2]. cbn [map find].
  match goal with |- rsum (?x :: ?r) = _ => change (rsum (x :: r)) with (x + rsum r) end. destruct (p a) eqn:E.
  - rewrite (rsum_0 (fun k => if p k then g k else 0) l); [ring|]. intros b Hb. destruct (p b) eqn:E'; [|reflexivity].
    exfalso. apply N1. rewrite (U a b); auto; [now left | now right].
  - rewrite IH; [ring | exact N2|]. intros i j Hi Hj. apply U; now right.
Qed.
Lemma find_ext_in {A} (p q : A -> bool) l : (forall a, In a l -> p a = q a) -> find p l = find q l.
Proof. induction l as [|a l IH]; intros H; [reflexivity|]. cbn. rewrite (H a) by now left. rewrite IH by (intros; apply H; now right). reflexivity. Qed.

(** As many edges go rightwards as leftwards. *)
Lemma both_or_none x :
  match find (rightb x) (seq 0 n), find (leftb x) (seq 0 n) with Some _, None | None, Some _ => False | _, _ => True end.
Proof.
  pose proof (edges_telescope (fun p => if ltb x (fst p) then 1 else 0) xy) as T. rewrite edges_nth, map_map in T.
  rewrite (rsum_ext _ (fun k => (if leftb x k then 1 else 0) + (if rightb x k then -1 else 0))) in T.
  - rewrite rsum_plus in T. rewrite (find_unique (leftb x) (fun _ => 1)), (find_unique (rightb x) (fun _ => -1)) in T; try apply seq_NoDup.
    + destruct (find (rightb x) (seq 0 n)), (find (leftb x) (seq 0 n)); auto; lra.
    + intros i j Hi Hj. apply in_seq in Hi, Hj. apply right_unique; lia.
    + intros i j Hi Hj. apply in_seq in Hi, Hj. apply left_unique; lia.
  - intros k Hk. apply in_seq in Hk. cbn [E fst snd]. unfold leftb, rightb.
    destruct (ltb_spec x (fst (P (pre k)))), (ltb_spec x (fst (P k))), (leb_spec (fst (P k)) x), (leb_spec (fst (P (pre k))) x); cbn [andb]; lra.
Qed.
Lemma find_in (p : nat -> bool) k : find p (seq 0 n) = Some k -> (k < n)%nat /\ p k = true.
Proof. intros H. apply find_some in H as [H1 H2]. apply in_seq in H1. split; [lia | exact H2]. Qed.

(** Above an interval without vertices. *)
Definition part (y0 a b : R) (e : (R * R) * (R * R)) : R :=
  RInt (fun x => clamp 0 1 (line (snd e) (fst e) x - y0)) (clamp a b (fst (snd e))) (clamp a b (fst (fst e))).
Lemma piece y0 a b : a < b -> (forall k, (k < n)%nat -> fst (P k) <= a \/ b <= fst (P k)) -> is_RInt (len y0) a b (rsum (map (part y0 a b) (edges xy))).
Proof.
  intros Hab V.
  set (m := (a + b) / 2). assert (Hm : a < m < b) by (unfold m; lra). clearbody m.
  assert (SR : forall x k, a < x < b -> (k < n)%nat -> rightb x k = rightb m k).
  { intros x k Hx Hk. destruct (V k Hk), (V (pre k) (pre_lt k Hk)); unfold rightb;
    destruct (leb_spec (fst (P (pre k))) x), (ltb_spec x (fst (P k))), (leb_spec (fst (P (pre k))) m), (ltb_spec m (fst (P k))); try reflexivity; lra. }
  assert (SL : forall x k, a < x < b -> (k < n)%nat -> leftb x k = leftb m k).
  { intros x k Hx Hk. destruct (V k Hk), (V (pre k) (pre_lt k Hk)); unfold leftb;
    destruct (leb_spec (fst (P k)) x), (ltb_spec x (fst (P (pre k)))), (leb_spec (fst (P k)) m), (ltb_spec m (fst (P (pre k)))); try reflexivity; lra. }
  pose (I := (fun k => RInt (fun x => clamp 0 1 (line_of k x - y0)) a b) : nat -> R).
  assert (IE : forall k, RInt (fun x => clamp 0 1 (line_of k x - y0)) a b = I k) by reflexivity. clearbody I.
  assert (S : rsum (map (part y0 a b) (edges xy)) = match find (leftb m) (seq 0 n) with Some k => I k | None => 0 end + match find (rightb m) (seq 0 n) with Some k => - I k | None => 0 end).
  { rewrite edges_nth, map_map. rewrite <- (find_unique (leftb m) I), <- (find_unique (rightb m) (fun k => - I k)).
    2,4: apply seq_NoDup. 2:{ intros i j Hi Hj. apply in_seq in Hi, Hj. apply right_unique; lia. } 2:{ intros i j Hi Hj. apply in_seq in Hi, Hj. apply left_unique; lia. }
    rewrite <- rsum_plus. apply rsum_ext. intros k Hk. apply in_seq in Hk. unfold part. cbn [E fst snd]. fold (line_of k).
    destruct (leftb m k) eqn:L.
    - assert (rightb m k = false) as -> by (destruct (rightb m k) eqn:Rk; [|reflexivity]; apply rightb_ok in Rk; apply leftb_ok in L; lra).
      apply leftb_ok in L. destruct (V k ltac:(lia)), (V (pre k) (pre_lt k ltac:(lia))); try lra.
      replace (clamp a b (fst (P k))) with a by (mm; lra). replace (clamp a b (fst (P (pre k)))) with b by (mm; lra). rewrite IE. rring.
    - destruct (rightb m k) eqn:Rk.
      + apply rightb_ok in Rk. destruct (V k ltac:(lia)), (V (pre k) (pre_lt k ltac:(lia))); try lra.
        replace (clamp a b (fst (P k))) with b by (mm; lra). replace (clamp a b (fst (P (pre k)))) with a by (mm; lra).
        rewrite <- (opp_RInt_swap (fun x => clamp 0 1 (line_of k x - y0)) a b) by apply under_ex. rewrite IE. unfold opp; cbn. rring.
      + assert (clamp a b (fst (P k)) = clamp a b (fst (P (pre k)))) as ->.
        { assert (NR : ~ (fst (P (pre k)) <= m < fst (P k))) by (rewrite <- rightb_ok, Rk; discriminate).
          assert (NL : ~ (fst (P k) <= m < fst (P (pre k)))) by (rewrite <- leftb_ok, L; discriminate).
          destruct (V k ltac:(lia)), (V (pre k) (pre_lt k ltac:(lia))); mm; lra. }
        rewrite RInt_point. unfold zero; cbn. rring. }
  rewrite S. clear S.
  pose proof (both_or_none m) as BN.
  assert (FR : forall x, a < x < b -> find (rightb x) (seq 0 n) = find (rightb m) (seq 0 n)) by (intros x Hx; apply find_ext_in; intros k Hk; apply in_seq in Hk; apply SR; [exact Hx | lia]).
  assert (FL : forall x, a < x < b -> find (leftb x) (seq 0 n) = find (leftb m) (seq 0 n)) by (intros x Hx; apply find_ext_in; intros k Hk; apply in_seq in Hk; apply SL; [exact Hx | lia]).
  destruct (find (rightb m) (seq 0 n)) as [i|] eqn:Ei, (find (leftb m) (seq 0 n)) as [j|] eqn:Ej; try contradiction.
  - apply (is_RInt_ext (fun x => clamp 0 1 (line_of j x - y0) - clamp 0 1 (line_of i x - y0))).
    + intros x Hx. rewrite Rmin_left, Rmax_right in Hx by lra. unfold len, section_of. rewrite FR, FL by exact Hx. reflexivity.
    + change (I j + - I i) with (minus (I j) (I i)). rewrite <- !IE. apply (is_RInt_minus (fun x => clamp 0 1 (line_of j x - y0))); apply (@RInt_correct R_CompleteNormedModule), under_ex.
  - apply (is_RInt_ext (fun _ => 0)).
    + intros x Hx. rewrite Rmin_left, Rmax_right in Hx by lra. unfold len, section_of. rewrite FR by exact Hx. reflexivity.
    + replace (0 + 0) with (scal (b - a) 0) by (unfold scal; cbn; unfold mult; cbn; rring). apply (@is_RInt_const R_NormedModule).
Qed.
Lemma part_split y0 a c b e : a <= c <= b -> part y0 a c e + part y0 c b e = part y0 a b e.
Proof.
  intros H. unfold part. set (f := fun x => clamp 0 1 (line (snd e) (fst e) x - y0)).
  assert (Ex : forall u v, ex_RInt f u v) by (intros; apply under_ex).
  assert (Ch : forall u v w, RInt f u v + RInt f v w = RInt f u w) by (intros; apply (RInt_Chasles f); apply Ex).
  assert (Z : forall u, RInt f u u = 0) by (intros w; apply (RInt_point w f)).
  assert (K : forall w, (clamp a c w = c /\ clamp c b w = clamp a b w) \/ (clamp a c w = clamp a b w /\ clamp c b w = c)).
  { intros w. destruct (Rle_dec c w); [left | right]; mm; lra. }
  destruct (K (fst (snd e))) as [[U1 U2]|[U1 U2]], (K (fst (fst e))) as [[V1 V2]|[V1 V2]]; rewrite U1, U2, V1, V2.
  - rewrite Z. ring.
  - rewrite Rplus_comm. apply Ch.
  - apply Ch.
  - rewrite Z. ring.
Qed.
Lemma part_point y0 a e : part y0 a a e = 0.
Proof. unfold part. replace (clamp a a (fst (snd e))) with a by (mm; lra). replace (clamp a a (fst (fst e))) with a by (mm; lra). rewrite RInt_point. reflexivity. Qed.

Lemma pieces y0 : forall N a b, a <= b -> (length (filter (fun p => ltb a (fst p) && ltb (fst p) b) xy) <= N)%nat ->
  is_RInt (len y0) a b (rsum (map (part y0 a b) (edges xy))).
Proof.
  induction N as [|N IH]; intros a b Hab HN.
  - destruct (Req_dec a b) as [<-|Ne].
    + rewrite rsum_0 by (intros e _; apply part_point). apply (@is_RInt_point R_NormedModule).
    + apply piece; [lra|]. intros k Hk. destruct (filter _ xy) as [|q l] eqn:F; [|cbn in HN; lia].
      assert (~ In (P k) []) as NI by (intros []). rewrite <- F, filter_In in NI.
      destruct (Rle_dec (fst (P k)) a); [now left|]. destruct (Rle_dec b (fst (P k))); [now right|]. exfalso. apply NI. split; [apply nth_In; exact Hk|].
      destruct (ltb_spec a (fst (P k))), (ltb_spec (fst (P k)) b); try reflexivity; lra.
  - destruct (filter (fun p => ltb a (fst p) && ltb (fst p) b) xy) as [|q l] eqn:F; [apply IH; [exact Hab | rewrite F; cbn; lia]|].
    assert (Q : In q (filter (fun p => ltb a (fst p) && ltb (fst p) b) xy)) by (rewrite F; now left).
    apply filter_In in Q as [Q1 Q2]. destruct (ltb_spec a (fst q)) as [Q3|]; [|discriminate]. destruct (ltb_spec (fst q) b) as [Q4|]; [|discriminate].
    assert (SH : forall (s t : R * R -> bool) l, (forall p, s p = true -> t p = true) -> (length (filter s l) <= length (filter t l))%nat).
    { clear. intros s t l H. induction l as [|p l IH]; [cbn; lia|]. cbn. specialize (H p). destruct (s p), (t p); cbn; try lia. }
    assert (SS : forall (s t : R * R -> bool) l, (forall p, s p = true -> t p = true) -> In q l -> s q = false -> t q = true -> (length (filter s l) < length (filter t l))%nat).
    { clear - SH. intros s t l H I S T. induction l as [|p l IH]; [destruct I|]. cbn. destruct I as [->|I].
      - rewrite S, T. cbn. specialize (SH s t l H). lia.
      - specialize (IH I). specialize (H p). destruct (s p), (t p); cbn; try lia. }
    rewrite <- F in HN.
    rewrite (rsum_ext _ (fun e => part y0 a (fst q) e + part y0 (fst q) b e)) by (intros e _; symmetry; apply part_split; lra).
    rewrite rsum_plus. apply (is_RInt_Chasles (len y0) a (fst q) b).
    + apply IH; [lra|]. assert (length (filter (fun p => ltb a (fst p) && ltb (fst p) (fst q)) xy) < length (filter (fun p => ltb a (fst p) && ltb (fst p) b) xy))%nat; [|lia].
      apply SS; try assumption.
      * intros p. destruct (ltb_spec a (fst p)), (ltb_spec (fst p) (fst q)), (ltb_spec (fst p) b); cbn; auto; try discriminate; lra.
      * destruct (ltb_spec (fst q) (fst q)); [lra|]. now rewrite andb_false_r.
      * destruct (ltb_spec a (fst q)), (ltb_spec (fst q) b); try reflexivity; lra.
    + apply IH; [lra|]. assert (length (filter (fun p => ltb (fst q) (fst p) && ltb (fst p) b) xy) < length (filter (fun p => ltb a (fst p) && ltb (fst p) b) xy))%nat; [|lia].
      apply SS; try assumption.
      * intros p. destruct (ltb_spec (fst q) (fst p)), (ltb_spec a (fst p)), (ltb_spec (fst p) b); cbn; auto; try discriminate; lra.
      * destruct (ltb_spec (fst q) (fst q)); [lra|]. reflexivity.
      * destruct (ltb_spec a (fst q)), (ltb_spec (fst q) b); try reflexivity; lra.
Qed.

Lemma len_bounds y0 x : 0 <= len y0 x <= 1.
Proof.
  unfold len, section_of. destruct (find (rightb x) (seq 0 n)) as [i|] eqn:Ei; [|lra]. destruct (find (leftb x) (seq 0 n)) as [j|] eqn:Ej; [|lra].
  apply find_in in Ei as [Hi Ri]. apply find_in in Ej as [Hj Lj]. pose proof (right_below_left x i j Hi Hj Ri Lj). mm; lra.
Qed.
Lemma cell_is_area x0 y0 : is_RInt (len y0) x0 (x0 + 1) (intersection_polygon (shifted (x0, y0) xy)).
Proof. rewrite intersection_ok. apply (pieces y0 (length xy) x0 (x0 + 1)); [lra|]. clear. induction xy as [|p l IH]; [cbn; lia|]. cbn. destruct (_ && _); cbn; lia. Qed.
Lemma cell_bounds x0 y0 : 0 <= intersection_polygon (shifted (x0, y0) xy) <= 1.
Proof.
  pose proof (cell_is_area x0 y0) as H. split.
  - rewrite <- (is_RInt_unique _ _ _ _ H). apply RInt_ge_0; [lra | eexists; exact H|]. intros x _. apply len_bounds.
  - replace 1 with (RInt (fun _ => 1) x0 (x0 + 1)) at 1 by (rewrite RInt_const; unfold scal; cbn; unfold mult; cbn; rring).
    rewrite <- (is_RInt_unique _ _ _ _ H). apply RInt_le; [lra | eexists; exact H | apply ex_RInt_const|]. intros x _. apply len_bounds.
Qed.

(** ** The section is the set of the ordinates inside *)
Lemma all_left p : inside xy p <-> forall k, (k < n)%nat -> 0 <= turn (P (pre k)) (P k) p.
Proof.
  unfold inside. rewrite edges_nth. split.
  - intros H k Hk. apply (H (E k)). apply in_map, in_seq. lia.
  - intros H e He. apply in_map_iff in He as [k [<- Hk]]. apply in_seq in Hk. apply H. lia.
Qed.
Lemma on_edge_inside k x : (k < n)%nat -> fst (P (pre k)) <= x < fst (P k) \/ fst (P k) <= x < fst (P (pre k)) -> forall m, (m < n)%nat -> 0 <= turn (P (pre m)) (P m) (x, line_of k x).
Proof.
  intros Hk Hx m Hm. unfold line_of. destruct (edge_left m k Hm Hk) as [H1 _]. destruct (edge_left m (pre k) Hm (pre_lt k Hk)) as [H2 _].
  rewrite turn_on_line by lra. destruct Hx as [Hx|Hx].
  - replace (_ / _) with (((x - fst (P (pre k))) * turn (P (pre m)) (P m) (P k) + (fst (P k) - x) * turn (P (pre m)) (P m) (P (pre k))) / (fst (P k) - fst (P (pre k)))) by (field; lra).
    apply Rmult_le_pos; [|apply Rlt_le, Rinv_0_lt_compat; lra]. apply Rplus_le_le_0_compat; apply Rmult_le_pos; lra.
  - apply Rmult_le_pos; [|apply Rlt_le, Rinv_0_lt_compat; lra]. apply Rplus_le_le_0_compat; apply Rmult_le_pos; lra.
Qed.
Lemma section_inside x l h : section_of x = Some (l, h) -> l <= h /\ forall y, inside xy (x, y) <-> l <= y <= h.
Proof.
  unfold section_of. destruct (find (rightb x) (seq 0 n)) as [i|] eqn:Ei; [|discriminate]. destruct (find (leftb x) (seq 0 n)) as [j|] eqn:Ej; [|discriminate].
  intros Q. injection Q as <- <-. apply find_in in Ei as [Hi Ri]. apply find_in in Ej as [Hj Lj]. pose proof (right_below_left x i j Hi Hj Ri Lj) as B.
  apply rightb_ok in Ri. apply leftb_ok in Lj. split; [exact B|]. intros y. rewrite all_left. split.
  - intros H. pose proof (H i Hi) as H1. pose proof (H j Hj) as H2. rewrite turn_line in H1, H2 by lra. cbn [fst snd] in *.
    unfold line_of. rewrite (line_sym (P i)), (line_sym (P j)) by lra. nra.
  - intros Hy m Hm. pose proof (on_edge_inside i x Hi (or_introl Ri) m Hm) as H1. pose proof (on_edge_inside j x Hj (or_intror Lj) m Hm) as H2.
    set (l := line_of i x) in *. set (h := line_of j x) in *. clearbody l h.
    destruct (Req_dec l h) as [E0|Ne]; [replace y with l by lra; exact H1|].
    replace y with ((1 - (y - l) / (h - l)) * l + (y - l) / (h - l) * h) by (field; lra). rewrite turn_affine.
    assert (0 <= (y - l) / (h - l) <= 1).
    { split; [apply Rmult_le_pos; [lra | apply Rlt_le, Rinv_0_lt_compat; lra]|]. apply Rmult_le_reg_r with (h - l); [lra|]. unfold Rdiv. rewrite Rmult_assoc, Rinv_l by lra. lra. }
    apply Rplus_le_le_0_compat; apply Rmult_le_pos; lra.
Qed.
Definition next k := if (S k =? n)%nat then O else S k.
Lemma pre_next k : (k < n)%nat -> pre (next k) = k.
Proof. unfold next, pre. destruct (Nat.eqb_spec (S k) n); lia. Qed.
Lemma next_lt k : (k < n)%nat -> (next k < n)%nat.
Proof. unfold next. destruct (Nat.eqb_spec (S k) n); lia. Qed.
Lemma beyond p q r z : 0 < turn p q r -> 0 <= turn p q z -> 0 <= turn q r z -> fst p <= fst q -> fst r <= fst q -> fst z <= fst q.
Proof.
  intros T Z1 Z2 A B. apply Rnot_lt_le. intros N.
  assert (I : (fst z - fst q) * turn p q r = - (fst q - fst p) * turn q r z + (fst r - fst q) * turn p q z) by (unfold turn; ring).
  assert (0 < (fst z - fst q) * turn p q r) by (apply Rmult_lt_0_compat; lra). assert (0 <= (fst q - fst p) * turn q r z) by (apply Rmult_le_pos; lra).
  assert (0 <= (fst q - fst r) * turn p q z) by (apply Rmult_le_pos; lra). lra.
Qed.
Lemma before p q r z : 0 < turn p q r -> 0 <= turn p q z -> 0 <= turn q r z -> fst q <= fst p -> fst q <= fst r -> fst q <= fst z.
Proof.
  intros T Z1 Z2 A B. apply Rnot_lt_le. intros N.
  assert (I : (fst z - fst q) * turn p q r = - (fst q - fst p) * turn q r z + (fst r - fst q) * turn p q z) by (unfold turn; ring).
  assert (0 < (fst q - fst z) * turn p q r) by (apply Rmult_lt_0_compat; lra). assert (0 <= (fst p - fst q) * turn q r z) by (apply Rmult_le_pos; lra).
  assert (0 <= (fst r - fst q) * turn p q z) by (apply Rmult_le_pos; lra). lra.
Qed.
Lemma extreme (f : nat -> R) : (0 < n)%nat -> exists m, (m < n)%nat /\ forall k, (k < n)%nat -> f k <= f m.
Proof.
  clear. induction n as [|k IH]; intros H; [lia|]. destruct k as [|k].
  - exists O. split; [lia|]. intros k Hk. replace k with O by lia. lra.
  - destruct IH as [m [Hm M]]; [lia|]. destruct (Rle_dec (f m) (f (S k))).
    + exists (S k). split; [lia|]. intros i Hi. destruct (Nat.eq_dec i (S k)) as [->|]; [lra|]. specialize (M i ltac:(lia)). lra.
    + exists m. split; [lia|]. intros i Hi. destruct (Nat.eq_dec i (S k)) as [->|]; [lra|]. apply M. lia.
Qed.
Lemma next_pre k : (k < n)%nat -> next (pre k) = k.
Proof. unfold next, pre. intros H. destruct k as [|k]; [destruct (Nat.eqb_spec (S (pred n)) n); lia | destruct (Nat.eqb_spec (S k) n); lia]. Qed.
Lemma turn_next : (3 <= n)%nat -> forall m, (m < n)%nat -> 0 < turn (P (pre m)) (P m) (P (next m)).
Proof.
  intros N3 m Hm. apply edge_left; [exact Hm | now apply next_lt | | ]; unfold next, pre; destruct (Nat.eqb_spec (S m) n); destruct m; lia.
Qed.
(** Inside, no vertical section means the last abscissa. *)
Lemma no_section_right x y : (3 <= n)%nat -> section_of x = None -> inside xy (x, y) ->
  (forall k, (k < n)%nat -> fst (P k) <= x) /\ exists m, (m < n)%nat /\ x = fst (P m).
Proof.
  intros N3 SN Hin. rewrite all_left in Hin. pose proof (both_or_none x) as BN. unfold section_of in SN.
  assert (F : find (rightb x) (seq 0 n) = None /\ find (leftb x) (seq 0 n) = None) by (destruct (find (rightb x) _), (find (leftb x) _); try discriminate; try contradiction; auto).
  destruct F as [FR FL].
  assert (NX : forall k, (k < n)%nat -> rightb x k = false /\ leftb x k = false) by (intros k Hk; split; [eapply find_none in FR | eapply find_none in FL]; eauto; apply in_seq; lia).
  assert (W : forall k, (k < n)%nat -> (fst (P k) <= x <-> fst (P 0) <= x)).
  { induction k as [|k IH]; intros Hk; [tauto|]. rewrite <- IH by lia. destruct (NX (S k) Hk) as [R1 L1].
    assert (NR : ~ (fst (P k) <= x < fst (P (S k)))) by (rewrite <- (rightb_ok x (S k)), R1; discriminate).
    assert (NL : ~ (fst (P (S k)) <= x < fst (P k))) by (rewrite <- (leftb_ok x (S k)), L1; discriminate).
    split; intros; [destruct (Rle_dec (fst (P k)) x) | destruct (Rle_dec (fst (P (S k))) x)]; auto; exfalso; [apply NL | apply NR]; lra. }
  assert (ST := turn_next N3).
  assert (Z2 : forall m, (m < n)%nat -> 0 <= turn (P m) (P (next m)) (x, y)) by (intros m Hm; specialize (Hin (next m) (next_lt m Hm)); now rewrite pre_next in Hin).
  destruct (Rle_dec (fst (P 0)) x) as [L|L].
  - destruct (extreme (fun k => fst (P k))) as [m [Hm M]]; [lia|].
    pose proof (beyond (P (pre m)) (P m) (P (next m)) (x, y) (ST m Hm) (Hin m Hm) (Z2 m Hm) (M _ (pre_lt m Hm)) (M _ (next_lt m Hm))) as B. cbn [fst] in B.
    assert (fst (P m) <= x) by (apply W; auto). split; [intros k Hk; apply W; auto|]. exists m. split; [exact Hm | lra].
  - exfalso. destruct (extreme (fun k => - fst (P k))) as [m [Hm M]]; [lia|].
    assert (M' : forall k, (k < n)%nat -> fst (P m) <= fst (P k)) by (intros k Hk; specialize (M k Hk); lra).
    pose proof (before (P (pre m)) (P m) (P (next m)) (x, y) (ST m Hm) (Hin m Hm) (Z2 m Hm) (M' _ (pre_lt m Hm)) (M' _ (next_lt m Hm))) as B. cbn [fst] in B.
    assert (~ fst (P m) <= x) by (rewrite W; auto). lra.
Qed.
Lemma no_section x : (3 <= n)%nat -> (forall p, In p xy -> fst p <> x) -> section_of x = None -> forall y, ~ inside xy (x, y).
Proof. intros N3 V SN y Hin. destruct (no_section_right x y N3 SN Hin) as [_ [m [Hm ->]]]. apply (V (P m)); [now apply nth_In | reflexivity]. Qed.
End Convex.
