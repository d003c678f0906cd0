(** Lemmas for the sums and the shifts. *)
From Coq Require Import Lia Ring.
From Verif Require Import Base BaseFacts SparseModel SparseSpec RingFacts MedianSpec SortModel SortFacts2 SortFacts3 NumModel NumSpec.
Open Scope Z_scope.

Section Kahan.
Context {K : Type} (o : ops K) (RL : ring_laws o) (add : K -> K -> K).
Local Notation "a + b" := (kadd o a b).
Local Notation "a - b" := (ksub o a b).
Local Notation "0" := (k0 o).
Let RT : ring_theory (k0 o) (k1 o) (kadd o) (kmul o) (fun a b => kadd o a (kopp o b)) (kopp o) eq := RL.
Add Ring Kring : RT.

(** The compensation is the error of the last addition. *)
Definition compensated (l : list K) (r : K * K) : Prop :=
  let '(s, c) := r in s - c = ksum o l /\ (length l <= 1)%nat /\ c = 0 \/
  s - c = ksum o l /\ exists a b, s = add a b /\ c = s - (a + b).

Lemma kloop_ok l : forall s c, let '(s', c') := kloop o add s c l in s' - c' = (s - c) + ksum o l /\
  (l = [] /\ s' = s /\ c' = c \/ exists a b, s' = add a b /\ c' = s' - (a + b)).
Proof.
  induction l as [|x l IH]; intros s c; cbn [kloop].
  - unfold ksum. cbn. split; [unfold ksub; ring | auto].
  - cbv zeta. specialize (IH (add s (x - c)) (add s (x - c) - s - (x - c))).
    destruct (kloop o add (add s (x - c)) (add s (x - c) - s - (x - c)) l) as [s' c'].
    destruct IH as [E H]. split.
    + rewrite E. change (ksum o (x :: l)) with (x + ksum o l). unfold ksub. ring.
    + right. destruct H as [[-> [-> ->]]|H]; [|exact H]. exists s, (x - c). split; [reflexivity|]. unfold ksub. ring.
Qed.
Lemma sum_kahan_ok l : compensated l (sum_kahan o add l).
Proof.
  unfold compensated. destruct l as [|x l]; cbn [sum_kahan].
  - left. cbn. split; [unfold ksub; ring | auto].
  - pose proof (kloop_ok l x 0) as H. destruct (kloop o add x 0 l) as [s c]. destruct H as [E H].
    assert (E' : s - c = ksum o (x :: l)) by (rewrite E; change (ksum o (x :: l)) with (x + ksum o l); unfold ksub; ring).
    destruct H as [[-> [-> ->]]|H]; [left; cbn [length]; auto | right; auto].
Qed.
Lemma kloop_mask_eq l : forall m s c, length l = length m -> kloop_mask o add s c l m = kloop o add s c (unmasked l m).
Proof.
  induction l as [|x l IH]; intros [|b m] s c L; try discriminate; [reflexivity|]. cbn [kloop_mask unmasked].
  destruct b; [apply IH; now injection L|]. cbn [kloop]. apply IH. now injection L.
Qed.
Lemma sum_kahan_mask_eq l : forall m, length l = length m -> sum_kahan_mask o add l m = sum_kahan o add (unmasked l m).
Proof.
  induction l as [|x l IH]; intros [|b m] L; try discriminate; [reflexivity|]. cbn [sum_kahan_mask unmasked].
  destruct b; [apply IH; now injection L|]. cbn [sum_kahan]. apply kloop_mask_eq. now injection L.
Qed.
Lemma compensated_once l r : compensated l r -> rounded_once o add l (fst r).
Proof.
  destruct r as [s c]. unfold compensated, rounded_once. cbn [fst]. change (exact_sum o l) with (ksum o l).
  intros [[E [L ->]]|[E [a [b [-> ->]]]]].
  - left. split; [rewrite <- E; unfold ksub; ring | exact L].
  - right. exists a, b. split; [rewrite <- E; unfold ksub; ring | reflexivity].
Qed.
Lemma sum_kahan_once l : rounded_once o add l (fst (sum_kahan o add l)).
Proof. apply compensated_once, sum_kahan_ok. Qed.
Lemma sum_kahan_mask_ok l m : length l = length m -> rounded_once o add (unmasked l m) (fst (sum_kahan_mask o add l m)).
Proof. intros L. rewrite sum_kahan_mask_eq by exact L. apply sum_kahan_once. Qed.
End Kahan.

Section Exact.
Context {K : Type} (o : ops K) (RL : ring_laws o).
Let RT : ring_theory (k0 o) (k1 o) (kadd o) (kmul o) (fun a b => kadd o a (kopp o b)) (kopp o) eq := RL.
Add Ring Kring2 : RT.
Lemma sum_kahan_exact l : sum_kahan o (kadd o) l = (ksum o l, k0 o).
Proof.
  pose proof (sum_kahan_ok o RL (kadd o) l) as H. unfold compensated in H. destruct (sum_kahan o (kadd o) l) as [s c].
  assert (Z0 : c = k0 o).
  { destruct H as [[_ [_ H]] | [_ [a [b [-> ->]]]]]; [exact H|]. unfold ksub. ring. }
  subst c. f_equal. assert (E : ksub o s (k0 o) = ksum o l) by tauto. rewrite <- E. unfold ksub. ring.
Qed.
Lemma ksum_concat ls : ksum o (concat ls) = ksum o (map (ksum o) ls).
Proof.
  induction ls as [|l ls IH]; [reflexivity|]. cbn [concat map]. change (ksum o (ksum o l :: map (ksum o) ls)) with (kadd o (ksum o l) (ksum o (map (ksum o) ls))).
  rewrite <- IH, !ksum_sum_over by exact RL. now apply sum_over_app.
Qed.
Lemma sum_kahan_2d_exact cols : sum_kahan_2d o (kadd o) cols = (ksum o (concat cols), k0 o).
Proof.
  unfold sum_kahan_2d. rewrite sum_kahan_exact. f_equal. rewrite ksum_concat. f_equal. apply map_ext. intros c. now rewrite sum_kahan_exact.
Qed.
Lemma sum_kahan_3d_exact planes : sum_kahan_3d o (kadd o) planes = (ksum o (concat (map (@concat K) planes)), k0 o).
Proof.
  unfold sum_kahan_3d. rewrite sum_kahan_exact. f_equal. rewrite ksum_concat, map_map. f_equal. apply map_ext. intros c. now rewrite sum_kahan_2d_exact.
Qed.
End Exact.

(** ** Shifts *)
Lemma In_upto a b i : In i (upto a b) <-> a <= i <= b.
Proof.
  unfold upto. rewrite in_map_iff. setoid_rewrite In_iota. split; [intros [k [<- H]]; lia|]. intros H. exists (i - a). lia.
Qed.
Lemma upto_cons a b : a <= b -> upto a b = a :: upto (a + 1) b.
Proof.
  intros H. unfold upto, iota. replace (Z.to_nat (b - a + 1)) with (S (Z.to_nat (b - (a + 1) + 1))) by lia.
  rewrite progression_S. cbn [map]. f_equal; [lia|]. unfold progression. rewrite !map_map. apply map_ext. intros k. lia.
Qed.
Lemma upto_nil a b : b < a -> upto a b = [].
Proof. intros H. unfold upto. rewrite iota_nonpos by lia. reflexivity. Qed.
Lemma upto_snoc a b : a <= b -> upto a b = upto a (b - 1) ++ [b].
Proof.
  intros H. unfold upto. replace (b - a + 1) with ((b - a) + 1) by lia. replace (b - 1 - a + 1) with (b - a) by lia.
  unfold iota. replace (Z.to_nat (b - a + 1)) with (Z.to_nat (b - a) + 1)%nat by lia.
  rewrite progression_app, map_app. f_equal. cbn. f_equal. lia.
Qed.

Section Shift.
Context {T : Type} (zero : T).

Lemma zero_loop_ok l : forall out : list T, (forall i, In i l -> 1 <= i <= zlen out) ->
  exists out', zero_loop zero l out = Ok out' /\ zlen out' = zlen out /\
    forall i, aget out' i = if in_dec Z.eq_dec i l then Ok zero else aget out i.
Proof.
  induction l as [|i l IH]; intros out H; cbn [zero_loop].
  - exists out. repeat split; auto.
  - rewrite aset_total by (apply H; now left). cbn [bind].
    destruct (IH (set_at out (i - 1) zero)) as [out' [E [Z0 G]]].
    { intros j Hj. rewrite zlen_set_at. apply H. now right. }
    exists out'. split; [exact E|]. split; [now rewrite Z0, zlen_set_at|]. intros j. rewrite G.
    destruct (in_dec Z.eq_dec j l) as [Hj|Hj], (in_dec Z.eq_dec j (i :: l)) as [Hj'|Hj']; try reflexivity.
    + exfalso. apply Hj'. now right.
    + destruct Hj' as [<-|Hj']; [|contradiction]. apply aget_set_same. apply H. now left.
    + apply aget_set_other. intros ->. apply Hj'. now left.
Qed.

(** Copies that never read a position already written. *)
Lemma shift_loop_ok (ip : bool) (input : list T) d l : forall out, zlen out = zlen input -> NoDup l ->
  (forall i, In i l -> 1 <= i <= zlen input /\ 1 <= i - d <= zlen input) ->
  (ip = true -> (forall k i, In i (skipn k l) -> ~ In (i - d) (firstn k l)) /\ (forall i, In i l -> aget out (i - d) = aget input (i - d))) ->
  exists out', shift_loop ip input d l out = Ok out' /\ zlen out' = zlen out /\
    forall i, aget out' i = if in_dec Z.eq_dec i l then aget input (i - d) else aget out i.
Proof.
  induction l as [|i l IH]; intros out Hz Nd H Hip; cbn [shift_loop].
  - exists out. repeat split; auto.
  - destruct (H i ltac:(now left)) as [H1 H2].
    assert (E : aget (if ip then out else input) (i - d) = aget input (i - d)).
    { destruct ip; [|reflexivity]. destruct (Hip eq_refl) as [_ X]. apply X. now left. }
    rewrite E. destruct (aget_total input (i - d) H2) as [x Ex]. rewrite Ex. cbn [bind].
    rewrite aset_total by lia. cbn [bind]. inversion Nd as [|? ? N1 N2]; subst.
    destruct (IH (set_at out (i - 1) x)) as [out' [E' [Z0 G]]].
    + now rewrite zlen_set_at.
    + exact N2.
    + intros j Hj. apply H. now right.
    + intros Ip. destruct (Hip Ip) as [X Y]. split.
      * intros k j Hj Hk. apply (X (S k) j Hj). right. exact Hk.
      * intros j Hj. rewrite aget_set_other; [apply Y; now right|]. intros Ei. apply (X 1%nat j Hj). left. exact Ei.
    + exists out'. split; [exact E'|]. split; [now rewrite Z0, zlen_set_at|]. intros j. rewrite G.
      destruct (in_dec Z.eq_dec j l) as [Hj|Hj], (in_dec Z.eq_dec j (i :: l)) as [Hj'|Hj']; try reflexivity.
      * exfalso. apply Hj'. now right.
      * destruct Hj' as [<-|Hj']; [|contradiction]. rewrite Ex. apply aget_set_same. lia.
      * apply aget_set_other. intros ->. apply Hj'. now left.
Qed.

Lemma NoDup_upto a b : NoDup (upto a b).
Proof. unfold upto. apply FinFun.Injective_map_NoDup; [intros x y; lia | apply NoDup_iota]. Qed.

Lemma skipn_upto k : forall a b i, In i (skipn k (upto a b)) -> a + Z.of_nat k <= i <= b.
Proof.
  induction k as [|k IH]; intros a b i H.
  - cbn [skipn] in H. apply In_upto in H. lia.
  - destruct (Z.le_gt_cases a b) as [L|L]; [|rewrite upto_nil in H by lia; destruct H].
    rewrite upto_cons in H by lia. cbn [skipn] in H. apply IH in H. lia.
Qed.
Lemma firstn_upto k : forall a b i, In i (firstn k (upto a b)) -> a <= i < a + Z.of_nat k.
Proof.
  induction k as [|k IH]; intros a b i H; [destruct H|].
  destruct (Z.le_gt_cases a b) as [L|L]; [|rewrite upto_nil in H by lia; destruct H].
  rewrite upto_cons in H by lia. cbn [firstn] in H. destruct H as [<-|H]; [lia|]. apply IH in H. lia.
Qed.
Lemma downto_cons b a : a <= b -> downto b a = b :: downto (b - 1) a.
Proof. intros H. unfold downto. rewrite upto_snoc by exact H. now rewrite rev_app_distr. Qed.
Lemma downto_nil b a : b < a -> downto b a = [].
Proof. intros H. unfold downto. now rewrite upto_nil. Qed.
Lemma skipn_downto k : forall a b i, In i (skipn k (downto b a)) -> a <= i <= b - Z.of_nat k.
Proof.
  induction k as [|k IH]; intros a b i H.
  - cbn [skipn] in H. unfold downto in H. apply in_rev in H. apply In_upto in H. lia.
  - destruct (Z.le_gt_cases a b) as [L|L]; [|rewrite downto_nil in H by lia; destruct H].
    rewrite downto_cons in H by lia. cbn [skipn] in H. apply IH in H. lia.
Qed.
Lemma firstn_downto k : forall a b i, In i (firstn k (downto b a)) -> b - Z.of_nat k < i <= b.
Proof.
  induction k as [|k IH]; intros a b i H; [destruct H|].
  destruct (Z.le_gt_cases a b) as [L|L]; [|rewrite downto_nil in H by lia; destruct H].
  rewrite downto_cons in H by lia. cbn [firstn] in H. destruct H as [<-|H]; [lia|]. apply IH in H. lia.
Qed.

(** A shifted column. *)
Definition shifted1 (m d : Z) (input output : list T) : Prop :=
  zlen output = m /\ forall i, 1 <= i <= m -> aget output i = if (1 <=? i - d) && (i - d <=? m) then aget input (i - d) else Ok zero.

Lemma shift_col_ok ip m (input output : list T) d : zlen input = m -> zlen output = m -> (ip = true -> output = input) ->
  exists out, shift_col zero ip m input output d = Ok out /\ shifted1 m d input out.
Proof.
  intros Hi Ho Hip. unfold shift_col. destruct (Z.eqb_spec d 0) as [->|N].
  - exists input. split; [reflexivity|]. split; [exact Hi|]. intros i H. rewrite Z.sub_0_r.
    replace (1 <=? i) with true by lia. replace (i <=? m) with true by lia. reflexivity.
  - destruct (Z.ltb_spec 0 d) as [Hd|Hd].
    + destruct (shift_loop_ok ip input d (downto m (d + 1)) output) as [o1 [E1 [Z1 G1]]].
      * lia.
      * unfold downto. apply NoDup_rev, NoDup_upto.
      * intros i H. unfold downto in H. apply in_rev in H. apply In_upto in H. lia.
      * intros Ip. split; [|intros i _; now rewrite (Hip Ip)].
        intros k i A B. apply skipn_downto in A. apply firstn_downto in B. lia.
      * rewrite E1. cbn [bind]. destruct (zero_loop_ok (upto 1 (Z.min d m)) o1) as [o2 [E2 [Z2 G2]]].
        { intros i H. apply In_upto in H. lia. }
        exists o2. split; [exact E2|]. split; [lia|]. intros i H. rewrite G2, G1.
        destruct (in_dec Z.eq_dec i (upto 1 (Z.min d m))) as [A|A]; rewrite In_upto in A.
        { replace (1 <=? i - d) with false by lia. reflexivity. }
        destruct (in_dec Z.eq_dec i (downto m (d + 1))) as [B|B]; unfold downto in B; rewrite <- in_rev, In_upto in B; [|lia].
        replace (1 <=? i - d) with true by lia. replace (i - d <=? m) with true by lia. reflexivity.
    + destruct (shift_loop_ok ip input d (upto 1 (m + d)) output) as [o1 [E1 [Z1 G1]]].
      * lia.
      * apply NoDup_upto.
      * intros i H. apply In_upto in H. lia.
      * intros Ip. split; [|intros i _; now rewrite (Hip Ip)].
        intros k i A B. apply skipn_upto in A. apply firstn_upto in B. lia.
      * rewrite E1. cbn [bind]. destruct (zero_loop_ok (upto (Z.max (m + d + 1) 1) m) o1) as [o2 [E2 [Z2 G2]]].
        { intros i H. apply In_upto in H. lia. }
        exists o2. split; [exact E2|]. split; [lia|]. intros i H. rewrite G2, G1.
        destruct (in_dec Z.eq_dec i (upto (Z.max (m + d + 1) 1) m)) as [A|A]; rewrite In_upto in A.
        { replace (i - d <=? m) with false by lia. rewrite andb_false_r. reflexivity. }
        destruct (in_dec Z.eq_dec i (upto 1 (m + d))) as [B|B]; rewrite In_upto in B; [|lia].
        replace (1 <=? i - d) with true by lia. replace (i - d <=? m) with true by lia. reflexivity.
Qed.

Lemma shifted1_spec m d input output : zlen input = m -> shifted1 m d input output -> shifted zero m d input output.
Proof.
  intros Hi [Z0 H]. split; [unfold zlen in Z0; lia|]. intros i Hm. specialize (H (i + 1) ltac:(lia)).
  assert (G : forall (l : list T) k x, aget l (k + 1) = Ok x -> nth_error l (Z.to_nat k) = Some x).
  { intros l k x. unfold aget, get. replace (k + 1 - 1) with k by lia. destruct (k <? 0); [discriminate|]. destruct (nth_error l (Z.to_nat k)); [now intros [= ->] | discriminate]. }
  replace (1 <=? i + 1 - d) with (0 <=? i - d) in H by lia. replace (i + 1 - d <=? m) with (i - d <? m) in H by lia.
  destruct ((0 <=? i - d) && (i - d <? m)) eqn:E; [|now apply G].
  replace (i + 1 - d) with (i - d + 1) in H by lia.
  destruct (aget_total input (i - d + 1)) as [x Ex]; [lia|]. rewrite Ex in H. apply G in H. rewrite H. symmetry. now apply G.
Qed.

Lemma shift_cols_ok ip m n (offset : list Z) : 0 < zlen offset -> (n mod zlen offset = 0) -> forall input output j,
  1 <= j -> j - 1 + zlen input = n -> length output = length input ->
  Forall (fun c => zlen c = m) input -> Forall (fun c => zlen c = m) output ->
  exists out, shift_cols zero ip m n offset j input output = Ok out /\ length out = length input /\
    forall k ci co, nth_error input k = Some ci -> nth_error out k = Some co ->
      exists d, aget offset ((j - 1 + Z.of_nat k) / (n / zlen offset) + 1) = Ok d /\ shifted1 m d ci co.
Proof.
  intros Hs Hm. induction input as [|ci ri IH]; intros output j Hj Hn Lo Fi Fo; destruct output as [|co ro]; try discriminate.
  - exists []. cbn. split; [reflexivity|]. split; [reflexivity|]. intros [|k]; discriminate.
  - cbn [shift_cols]. cbv zeta. apply Forall_cons_iff in Fi, Fo. destruct Fi as [Fi Fi'], Fo as [Fo Fo'].
    rewrite zlen_cons in Hn. pose proof (zlen_nonneg ri) as Nr.
    set (w := n / zlen offset) in *.
    assert (Ew : n = zlen offset * w) by (pose proof (Z.div_mod n (zlen offset) ltac:(lia)); unfold w; lia).
    assert (Hw : 0 < w) by nia.
    destruct (Z.eqb_spec (zlen offset) 0); [lia|]. destruct (Z.eqb_spec w 0); [lia|].
    assert (Hq : (j - 1) / w < zlen offset) by (apply Z.div_lt_upper_bound; lia).
    assert (Hq0 : 0 <= (j - 1) / w) by (apply Z.div_pos; lia).
    destruct (aget_total offset ((j - 1) / w + 1)) as [d Ed]; [lia|]. rewrite Ed. cbn [bind].
    destruct (shift_col_ok ip m ci (if ip then ci else co) d Fi) as [c [Ec Sc]].
    { destruct ip; assumption. } { intros ->. reflexivity. }
    rewrite Ec. cbn [bind]. cbn [length] in Lo.
    destruct (IH ro (j + 1) ltac:(lia) ltac:(lia) ltac:(lia) Fi' Fo') as [out [E [L G]]]. rewrite E. cbn [bind].
    exists (c :: out). split; [reflexivity|]. split; [cbn [length]; lia|].
    intros [|k] ci' co' A B.
    + injection A as <-. injection B as <-. exists d. rewrite Z.add_0_r. auto.
    + destruct (G k ci' co' A B) as [d' [E' S']]. exists d'. split; [|exact S'].
      replace (j - 1 + Z.of_nat (S k)) with (j + 1 - 1 + Z.of_nat k) by lia. exact E'.
Qed.

Lemma shift_cols_bad ip m n (offset : list Z) : 0 < zlen offset < n -> n mod zlen offset <> 0 -> forall input output j,
  1 <= j -> j - 1 + zlen input = n -> 0 < zlen input -> length output = length input ->
  Forall (fun c => zlen c = m) input -> Forall (fun c => zlen c = m) output ->
  shift_cols zero ip m n offset j input output = Err IndexError.
Proof.
  intros Hs Hm. induction input as [|ci ri IH]; intros output j Hj Hn Hl Lo Fi Fo; [cbn in Hl; lia|].
  destruct output as [|co ro]; [discriminate|]. cbn [shift_cols]. cbv zeta. apply Forall_cons_iff in Fi, Fo. destruct Fi as [Fi Fi'], Fo as [Fo Fo'].
  rewrite zlen_cons in Hn. pose proof (zlen_nonneg ri) as Nr.
  pose proof (Z.div_mod n (zlen offset) ltac:(lia)) as Ew. pose proof (Z.mod_pos_bound n (zlen offset) ltac:(lia)) as Mb.
  set (w := n / zlen offset) in *. assert (Hw : 0 < w) by nia.
  destruct (Z.eqb_spec (zlen offset) 0); [lia|]. destruct (Z.eqb_spec w 0); [lia|].
  destruct (Z.lt_ge_cases ((j - 1) / w) (zlen offset)) as [H|H].
  - assert (Hq0 : 0 <= (j - 1) / w) by (apply Z.div_pos; lia).
    destruct (aget_total offset ((j - 1) / w + 1)) as [d Ed]; [lia|]. rewrite Ed. cbn [bind].
    destruct (shift_col_ok ip m ci (if ip then ci else co) d Fi) as [c [Ec Sc]].
    { destruct ip; assumption. } { intros ->. reflexivity. }
    rewrite Ec. cbn [bind]. cbn [length] in Lo.
    destruct (Z.eq_dec (zlen ri) 0) as [E0|E0].
    + (* the last column is beyond the offsets *)
      exfalso. assert (zlen offset * w <= j - 1) by lia. assert (zlen offset <= (j - 1) / w) by (apply Z.div_le_lower_bound; lia). lia.
    + rewrite IH; try assumption; try lia. reflexivity.
  - unfold aget, get. destruct (Z.ltb_spec ((j - 1) / w + 1 - 1) 0); [lia|].
    assert (nth_error offset (Z.to_nat ((j - 1) / w + 1 - 1)) = None) as -> by (apply nth_error_None; unfold zlen in H; lia). reflexivity.
Qed.
Lemma shift_cols_small ip m n (offset : list Z) j ci ri co ro : n < zlen offset -> 0 <= n ->
  shift_cols zero ip m n offset j (ci :: ri) (co :: ro) = Err ZeroDivisionError.
Proof.
  intros H Hn. cbn [shift_cols]. cbv zeta. destruct (Z.eqb_spec (zlen offset) 0); [reflexivity|].
  rewrite Z.div_small by lia. reflexivity.
Qed.
End Shift.

(** ** Rounding *)
Lemma nint_down_ok num den : 0 < den -> nint_down num den = - ((- (2 * num - den)) / (2 * den)).
Proof.
  intros H. unfold nint_down, nint. cbv zeta.
  destruct (Z.leb_spec 0 num) as [P|P].
  - pose proof (Z.div_mod (2 * num + den) (2 * den) ltac:(lia)) as D. pose proof (Z.mod_pos_bound (2 * num + den) (2 * den) ltac:(lia)) as M.
    set (q := (2 * num + den) / (2 * den)) in *. set (r := (2 * num + den) mod (2 * den)) in *. clearbody q r.
    destruct (Z.eq_dec r 0) as [Er|Er].
    + (* half *)
      assert (1 <= q) by nia.
      assert (Q : - (2 * num - den) = (2 * den) * (1 - q) + 0) by lia.
      rewrite Q. rewrite (Z.mul_comm (2 * den)), Z.div_add_l by lia. rewrite Z.div_0_l by lia.
      replace (2 * Z.abs (num - q * den) =? den) with true by nia.
      replace (0 <? num) with true by nia. cbn [andb]. lia.
    + assert (Q : - (2 * num - den) = (2 * den) * (- q) + (2 * den - r)) by lia.
      rewrite Q. rewrite (Z.mul_comm (2 * den)), Z.div_add_l by lia. rewrite Z.div_small by lia.
      replace (2 * Z.abs (num - q * den) =? den) with false by nia. rewrite andb_false_r. lia.
  - replace (0 <? num) with false by lia. cbn [andb]. f_equal. f_equal. lia.
Qed.
Lemma nint_up_ok num den : 0 < den -> nint_up num den = (2 * num + den) / (2 * den).
Proof.
  intros H. unfold nint_up, nint. cbv zeta.
  destruct (Z.leb_spec 0 num) as [P|P].
  - replace (num <? 0) with false by lia. reflexivity.
  - replace (num <? 0) with true by lia. cbn [andb].
    pose proof (Z.div_mod (2 * - num + den) (2 * den) ltac:(lia)) as D. pose proof (Z.mod_pos_bound (2 * - num + den) (2 * den) ltac:(lia)) as M.
    set (q := (2 * - num + den) / (2 * den)) in *. set (r := (2 * - num + den) mod (2 * den)) in *. clearbody q r.
    destruct (Z.eq_dec r 0) as [Er|Er].
    + assert (Q : 2 * num + den = (1 - q) * (2 * den) + 0) by lia. rewrite Q, Z.div_add_l, Z.div_0_l by lia.
      replace (2 * Z.abs (num - - q * den) =? den) with true by nia. lia.
    + assert (Q : 2 * num + den = (- q) * (2 * den) + (2 * den - r)) by lia. rewrite Q, Z.div_add_l by lia. rewrite Z.div_small by lia.
      replace (2 * Z.abs (num - - q * den) =? den) with false by nia. lia.
Qed.
