(** Lemmas for the sort through an index. *)
From Coq Require Import Lia Permutation.
From Verif Require Import Base BaseFacts MedianModel MedianFacts SortModel.
Open Scope Z_scope.

(** ** Values of an array of items, from 1 *)
Definition B (l : list Z) (i : Z) : Z := nth (Z.to_nat (i - 1)) l 0.

Lemma aget_B l i : 1 <= i <= zlen l -> aget l i = Ok (B l i).
Proof.
  intros H. unfold aget. destruct (get_total l (i - 1)) as [x E]; [lia|]. rewrite E.
  apply get_ok in E. destruct E as [_ E]. unfold B. now rewrite (nth_error_nth _ _ 0 E).
Qed.

Lemma aswap_ok l i j : 1 <= i <= zlen l -> 1 <= j <= zlen l ->
  exists l', aswap l i j = Ok l' /\ Permutation l l' /\ B l' i = B l j /\ B l' j = B l i /\
             (forall k, 1 <= k -> k <> i -> k <> j -> B l' k = B l k).
Proof.
  intros Hi Hj. unfold aswap, aset. rewrite (aget_B l i), (aget_B l j) by assumption. cbn [bind].
  rewrite (aget_B _ j) by (rewrite zlen_set_at; assumption). cbn [bind].
  eexists. split; [reflexivity|].
  unfold set_at. destruct (Z.ltb_spec (i - 1) 0); [lia|]. destruct (Z.ltb_spec (j - 1) 0); [lia|].
  assert (Ni : nth_error l (Z.to_nat (i - 1)) = Some (B l i)).
  { unfold B. apply nth_error_nth'. unfold zlen in Hi. lia. }
  assert (Nj : nth_error l (Z.to_nat (j - 1)) = Some (B l j)).
  { unfold B. apply nth_error_nth'. unfold zlen in Hj. lia. }
  split; [now apply swap_perm|].
  set (l' := set_nth (set_nth l (Z.to_nat (i - 1)) (B l j)) (Z.to_nat (j - 1)) (B l i)).
  assert (Lj : nth_error l' (Z.to_nat (j - 1)) = Some (B l i)).
  { unfold l'. apply set_nth_same. rewrite set_nth_length. unfold zlen in Hj. lia. }
  assert (Li : nth_error l' (Z.to_nat (i - 1)) = Some (B l j)).
  { destruct (Z.eq_dec i j) as [->|N]; [exact Lj|]. unfold l'. rewrite set_nth_other by lia.
    apply set_nth_same. unfold zlen in Hi. lia. }
  split; [exact (nth_error_nth _ _ 0 Li)|]. split; [exact (nth_error_nth _ _ 0 Lj)|].
  intros k K1 K2 K3. unfold B.
  assert (E : nth_error l' (Z.to_nat (k - 1)) = nth_error l (Z.to_nat (k - 1))).
  { unfold l'. rewrite !set_nth_other by lia. reflexivity. }
  destruct (nth_error l (Z.to_nat (k - 1))) as [v|] eqn:Ev.
  - now rewrite (nth_error_nth _ _ 0 E), (nth_error_nth _ _ 0 Ev).
  - apply nth_error_None in E, Ev. now rewrite !nth_overflow.
Qed.

(** Changes within a range. *)
Record moved (lo hi : Z) (l l' : list Z) : Prop := {
  m_out : forall k, 1 <= k -> k < lo \/ hi < k -> B l' k = B l k;
  m_in : forall k, lo <= k <= hi -> exists k', lo <= k' <= hi /\ B l' k = B l k';
  m_perm : Permutation l l' }.
Lemma moved_len lo hi l l' : moved lo hi l l' -> zlen l' = zlen l.
Proof. intros M. unfold zlen. now rewrite (Permutation_length (m_perm _ _ _ _ M)). Qed.
Lemma moved_refl lo hi l : moved lo hi l l.
Proof. constructor; [reflexivity | eauto | reflexivity]. Qed.
Lemma moved_trans lo hi a b c : moved lo hi a b -> moved lo hi b c -> moved lo hi a c.
Proof.
  intros M N. constructor.
  - intros k K H. rewrite (m_out _ _ _ _ N) by assumption. now apply (m_out _ _ _ _ M).
  - intros k K. destruct (m_in _ _ _ _ N k K) as [k1 [K1 E1]]. destruct (m_in _ _ _ _ M k1 K1) as [k2 [K2 E2]].
    exists k2. split; [exact K2 | congruence].
  - exact (Permutation_trans (m_perm _ _ _ _ M) (m_perm _ _ _ _ N)).
Qed.
Lemma aswap_moved lo hi l i j : 1 <= lo -> hi <= zlen l -> lo <= i <= hi -> lo <= j <= hi ->
  exists l', aswap l i j = Ok l' /\ moved lo hi l l' /\ B l' i = B l j /\ B l' j = B l i /\
             (forall k, 1 <= k -> k <> i -> k <> j -> B l' k = B l k).
Proof.
  intros H1 H2 Hi Hj. destruct (aswap_ok l i j) as [l' [E [P [E1 [E2 E3]]]]]; [lia|lia|].
  exists l'. split; [exact E|]. split; [|auto]. constructor; [|  |exact P].
  - intros k K1 K2. apply E3; lia.
  - intros k K. destruct (Z.eq_dec k i) as [->|Ni]; [exists j; auto|]. destruct (Z.eq_dec k j) as [->|Nj]; [exists i; auto|].
    exists k. split; [exact K|]. apply E3; lia.
Qed.

Section Sort.
Variable leb : Z -> Z -> bool.
Hypothesis total : forall x y, leb x y = true \/ leb y x = true.
Hypothesis trans : forall x y z, leb x y = true -> leb y z = true -> leb x z = true.
Local Notation "x [<=] y" := (leb x y = true) (at level 70).

Lemma refl x : x [<=] x.
Proof. destruct (total x x); assumption. Qed.
Lemma leb_false x y : leb x y = false -> y [<=] x.
Proof. destruct (total x y) as [H|H]; [rewrite H; discriminate | auto]. Qed.
Hint Resolve refl leb_false : srt.

(** ** Inner loops *)
Lemma left_ok ord xx q fuel : q <= zlen ord -> forall p x, 1 <= p -> p < q -> x = B ord p -> (Z.to_nat (q - p) < fuel)%nat ->
  (exists x', left leb fuel ord q xx p x = Ok (None, x') /\ x' = B ord (q - 1) /\ (forall k, p < k < q -> B ord k [<=] xx)) \/
  (exists p' y, left leb fuel ord q xx p x = Ok (Some (p', B ord p'), y) /\ p < p' < q /\ xx [<=] B ord p' /\
                (forall k, p < k < p' -> B ord k [<=] xx)).
Proof.
  intros Hq. induction fuel as [|f IH]; intros p x Hp Hpq Ex Hf; [lia|]. cbn [left].
  destruct (Z.leb_spec q (p + 1)) as [H|H].
  - left. exists x. split; [reflexivity|]. split; [now replace (q - 1) with p by lia|]. intros k K. lia.
  - rewrite aget_B by lia. cbn [bind]. destruct (leb xx (B ord (p + 1))) eqn:L.
    + right. exists (p + 1), (B ord (p + 1)). split; [reflexivity|]. split; [lia|]. split; [exact L|]. intros k K. lia.
    + destruct (IH (p + 1) (B ord (p + 1)) ltac:(lia) ltac:(lia) eq_refl ltac:(lia)) as [[x' [E [E' G]]] | [p' [y [E [R [G1 G2]]]]]].
      * left. exists x'. split; [exact E|]. split; [exact E'|]. intros k K.
        destruct (Z.eq_dec k (p + 1)) as [->|N]; [auto with srt | apply G; lia].
      * right. exists p', y. split; [exact E|]. split; [lia|]. split; [exact G1|]. intros k K.
        destruct (Z.eq_dec k (p + 1)) as [->|N]; [auto with srt | apply G2; lia].
Qed.

Lemma right_ok ord zz p fuel : 1 <= p -> forall q, q <= zlen ord -> p < q -> (Z.to_nat (q - p) < fuel)%nat ->
  (right leb fuel ord p zz q = Ok None /\ (forall k, p < k < q -> zz [<=] B ord k)) \/
  (exists q', right leb fuel ord p zz q = Ok (Some (q', B ord q')) /\ p < q' < q /\ B ord q' [<=] zz /\
                (forall k, q' < k < q -> zz [<=] B ord k)).
Proof.
  intros Hp. induction fuel as [|f IH]; intros q Hq Hpq Hf; [lia|]. cbn [right].
  destruct (Z.leb_spec (q - 1) p) as [H|H].
  - left. split; [reflexivity|]. intros k K. lia.
  - rewrite aget_B by lia. cbn [bind]. destruct (leb (B ord (q - 1)) zz) eqn:L.
    + right. exists (q - 1). split; [reflexivity|]. split; [lia|]. split; [exact L|]. intros k K. lia.
    + destruct (IH (q - 1) ltac:(lia) ltac:(lia) ltac:(lia)) as [[E G] | [q' [E [R [G1 G2]]]]].
      * left. split; [exact E|]. intros k K. destruct (Z.eq_dec k (q - 1)) as [->|N]; [auto with srt | apply G; lia].
      * right. exists q'. split; [exact E|]. split; [lia|]. split; [exact G1|]. intros k K.
        destruct (Z.eq_dec k (q - 1)) as [->|N]; [auto with srt | apply G2; lia].
Qed.

(** ** Partition *)
Record pinv (l u : Z) (s : pstate) : Prop := {
  i_rng : 1 <= l /\ u <= zlen (s_ord s) /\ l <= s_p s /\ s_p s < s_q s /\ s_q s <= u;
  i_lo : forall k, l <= k <= s_p s -> B (s_ord s) k [<=] s_xx s;
  i_hi : forall k, s_q s <= k <= u -> s_zz s [<=] B (s_ord s) k;
  i_le : s_xx s [<=] s_zz s;
  i_x : s_x s = B (s_ord s) (s_p s);
  i_z : s_z s = B (s_ord s) (s_q s);
  i_xx : l <= s_ix s <= s_p s /\ s_xx s = B (s_ord s) (s_ix s);
  i_zz : s_q s <= s_iz s <= u /\ s_zz s = B (s_ord s) (s_iz s) }.

Lemma part_loop_ok l u fuel : forall s, pinv l u s -> (Z.to_nat (s_q s - s_p s) <= fuel)%nat ->
  exists s', part_loop leb fuel s = Ok s' /\ pinv l u s' /\ s_q s' = s_p s' + 1 /\ moved l u (s_ord s) (s_ord s').
Proof.
  induction fuel as [|f IH]; intros s V Hf.
  { destruct V. lia. }
  destruct s as [ord p q x z xx ix zz iz]. destruct V as [R Lo Hi Le Ex Ez Ix Iz].
  cbn [s_ord s_p s_q s_x s_z s_xx s_ix s_zz s_iz] in *. cbn [part_loop].
  destruct (left_ok ord xx q (S (length ord)) ltac:(lia) p x ltac:(lia) ltac:(lia) Ex) as
    [[x' [E [E' G]]] | [p' [y [E [Rp [G1 G2]]]]]]; [unfold zlen in R; lia| |]; rewrite E; cbn [bind].
  - eexists. split; [reflexivity|]. cbn. split; [|split; [lia | apply moved_refl]].
    constructor; cbn [s_ord s_p s_q s_x s_z s_xx s_ix s_zz s_iz]; auto; try lia.
    + intros k K. destruct (Z.le_gt_cases k p); [apply Lo; lia | apply G; lia].
  - destruct (right_ok ord zz p' (S (length ord)) ltac:(lia) q ltac:(lia) ltac:(lia)) as
      [[E2 G3] | [q' [E2 [Rq [G3 G4]]]]]; [unfold zlen in R; lia| |]; rewrite E2; cbn [bind].
    + (* 9 *)
      rewrite aget_B by lia. cbn [bind].
      assert (Xle : B ord (p' - 1) [<=] xx).
      { destruct (Z.le_gt_cases (p' - 1) p); [apply Lo; lia | apply G2; lia]. }
      assert (XZ : B ord (p' - 1) [<=] B ord p') by eauto.
      rewrite XZ. cbn [bind]. rewrite Xle. cbn [bind].
      set (zi := if leb zz (B ord p') then (zz, iz) else (B ord p', p')).
      assert (Zi : p' <= snd zi <= u /\ fst zi = B ord (snd zi) /\ fst zi [<=] B ord p' /\ fst zi [<=] zz /\ xx [<=] fst zi).
      { unfold zi. destruct (leb zz (B ord p')) eqn:L; cbn [fst snd].
        - repeat split; try apply Iz; auto with srt; lia.
        - repeat split; auto with srt; lia. }
      destruct zi as [zz' iz']. cbn [fst snd] in Zi. destruct Zi as [Z1 [Z2 [Z3 [Z4 Z5]]]].
      destruct (IH (PState ord (p' - 1) p' (B ord (p' - 1)) (B ord p') xx ix zz' iz')) as [s' [E3 [V' [Q' M']]]];
        [|cbn [s_p s_q]; lia|].
      * constructor; cbn [s_ord s_p s_q s_x s_z s_xx s_ix s_zz s_iz]; auto; try lia.
        -- intros k K. destruct (Z.le_gt_cases k p); [apply Lo; lia | apply G2; lia].
        -- intros k K. destruct (Z.eq_dec k p') as [->|N]; [exact Z3|].
           apply (trans _ zz); [exact Z4|]. destruct (Z.lt_ge_cases k q); [apply G3; lia | apply Hi; lia].
      * exists s'. auto.
    + (* 10 *)
      set (d := if leb (B ord p') (B ord q') then Ok (ord, B ord p', B ord q')
                else do o <- aswap ord p' q'; Ok (o, B ord q', B ord p')).
      assert (D : exists o, d = Ok (o, B o p', B o q') /\ moved l u ord o /\ B o p' [<=] B o q' /\
                  (forall k, 1 <= k -> k <> p' -> k <> q' -> B o k = B ord k) /\ xx [<=] B o q' /\ B o p' [<=] zz).
      { unfold d. destruct (leb (B ord p') (B ord q')) eqn:L.
        - exists ord. split; [reflexivity|]. split; [apply moved_refl|]. split; [exact L|]. split; [reflexivity|].
          split; [exact (trans _ _ _ G1 L) | exact (trans _ _ _ L G3)].
        - destruct (aswap_moved l u ord p' q') as [o [Eo [Mo [E1 [E2' E3]]]]]; try lia.
          rewrite Eo. cbn [bind]. exists o. rewrite E1, E2'. split; [reflexivity|]. split; [exact Mo|].
          split; [now apply leb_false|]. split; [exact E3|]. split; [exact G1 | exact G3]. }
      destruct D as [o [Ed [Mo [Oxz [Oo [Oq Op]]]]]]. rewrite Ed. cbn [bind]. clear Ed d.
      set (xi := if leb (B o p') xx then (xx, ix) else (B o p', p')).
      assert (Xi : l <= snd xi <= p' /\ fst xi = B o (snd xi) /\ B o p' [<=] fst xi /\ xx [<=] fst xi /\ fst xi [<=] zz /\ fst xi [<=] B o q').
      { unfold xi. destruct (leb (B o p') xx) eqn:L; cbn [fst snd].
        - rewrite Oo by lia. repeat split; try apply Ix; auto with srt; lia.
        - repeat split; auto with srt; lia. }
      destruct xi as [xx' ix']. cbn [fst snd] in Xi. destruct Xi as [X1 [X2 [X3 [X4 [X5 X6]]]]].
      set (zi := if leb zz (B o q') then (zz, iz) else (B o q', q')).
      assert (Zi : q' <= snd zi <= u /\ fst zi = B o (snd zi) /\ fst zi [<=] B o q' /\ fst zi [<=] zz /\ xx' [<=] fst zi).
      { unfold zi. destruct (leb zz (B o q')) eqn:L; cbn [fst snd].
        - rewrite Oo by lia. repeat split; try apply Iz; auto with srt; lia.
        - repeat split; auto with srt; lia. }
      destruct zi as [zz' iz']. cbn [fst snd] in Zi. destruct Zi as [Z1 [Z2 [Z3 [Z4 Z5]]]].
      destruct (IH (PState o p' q' (B o p') (B o q') xx' ix' zz' iz')) as [s' [E3 [V' [Q' M']]]];
        [|cbn [s_p s_q]; lia|].
      * constructor; cbn [s_ord s_p s_q s_x s_z s_xx s_ix s_zz s_iz]; auto; try lia.
        -- rewrite (moved_len _ _ _ _ Mo). lia.
        -- intros k K. destruct (Z.eq_dec k p') as [->|N]; [exact X3|]. rewrite Oo by lia.
           apply (trans _ xx); [|exact X4]. destruct (Z.le_gt_cases k p); [apply Lo; lia | apply G2; lia].
        -- intros k K. destruct (Z.eq_dec k q') as [->|N]; [exact Z3|]. rewrite Oo by lia.
           apply (trans _ zz); [exact Z4|]. destruct (Z.lt_ge_cases k q); [apply G4; lia | apply Hi; lia].
      * exists s'. split; [exact E3|]. split; [exact V'|]. split; [exact Q'|]. cbn [s_ord] in *. exact (moved_trans _ _ _ _ _ Mo M').
Qed.

(** Result of a partition. *)
Record parted (l u : Z) (ord : list Z) (p q : Z) : Prop := {
  p_rng : l <= p /\ q = p + 1 /\ q <= u;
  p_lo : forall k, l <= k <= p -> B ord k [<=] B ord p;
  p_mid : B ord p [<=] B ord q;
  p_hi : forall k, q <= k <= u -> B ord q [<=] B ord k }.

Lemma same_true x y : same leb x y = true -> x [<=] y /\ y [<=] x.
Proof. unfold same. intros H. apply andb_prop in H. exact H. Qed.

(** Exchange of the extreme element with the last (or first) of its side. *)
Lemma exch l u ord p ix (b : bool) : 1 <= l -> u <= zlen ord -> l <= p <= u -> l <= ix <= u ->
  (b = false -> B ord p = B ord ix \/ same leb (B ord p) (B ord ix) = true) ->
  exists o, (if b then aswap ord p ix else Ok ord) = Ok o /\ moved l u ord o /\
    B ord ix [<=] B o p /\ B o p [<=] B ord ix /\
    (forall k, 1 <= k -> k <> p -> k <> ix -> B o k = B ord k) /\
    (B o ix = B ord ix \/ B o ix = B ord p).
Proof.
  intros H1 H2 Hp Hi Hb. destruct b.
  - destruct (aswap_moved l u ord p ix) as [o [E [M [E1 [E2 E3]]]]]; try lia.
    exists o. rewrite E1. auto 10 with srt.
  - exists ord. split; [reflexivity|]. split; [apply moved_refl|].
    destruct (Hb eq_refl) as [E|E]; [rewrite E; auto 10 with srt|]. apply same_true in E. destruct E as [E1 E2]. auto 10 with srt.
Qed.

Lemma part_ok ord l u : 1 <= l -> l < u -> u <= zlen ord ->
  exists o p q, part leb ord l u = Ok (o, p, q) /\ moved l u ord o /\ parted l u o p q.
Proof.
  intros Hl Hlu Hu. unfold part. rewrite !aget_B by lia. cbn [bind].
  assert (D : exists o, (if leb (B ord l) (B ord u) then Ok (ord, B ord l, B ord u) else do o <- aswap ord l u; Ok (o, B ord u, B ord l))
                = Ok (o, B o l, B o u) /\ moved l u ord o /\ B o l [<=] B o u).
  { destruct (leb (B ord l) (B ord u)) eqn:L.
    - exists ord. auto using moved_refl.
    - destruct (aswap_moved l u ord l u) as [o [E [M [E1 [E2 E3]]]]]; try lia. rewrite E. cbn [bind].
      exists o. rewrite E1, E2. auto with srt. }
  destruct D as [o [Ed [Mo Lo]]]. rewrite Ed. cbn [bind]. clear Ed.
  pose proof (moved_len _ _ _ _ Mo) as Ln.
  destruct (Z.leb_spec (u - l) 1) as [H|H].
  - exists o, l, u. split; [reflexivity|]. split; [exact Mo|]. constructor; [lia| |exact Lo|].
    + intros k K. replace k with l by lia. auto with srt.
    + intros k K. replace k with u by lia. auto with srt.
  - destruct (part_loop_ok l u (S (length o)) (PState o l u (B o l) (B o u) (B o l) l (B o u) u)) as [s [E [V [Q M]]]].
    { constructor; cbn [s_ord s_p s_q s_x s_z s_xx s_ix s_zz s_iz]; auto; try lia.
      - intros k K. replace k with l by lia. auto with srt.
      - intros k K. replace k with u by lia. auto with srt. }
    { cbn [s_p s_q]. unfold zlen in *. lia. }
    rewrite E. cbn [bind]. destruct s as [o1 p q x z xx ix zz iz]. destruct V as [R Vlo Vhi Vle Ex Ez Ix Iz].
    cbn [s_ord s_p s_q s_x s_z s_xx s_ix s_zz s_iz] in *. destruct Ix as [Ix Exx]. destruct Iz as [Iz Ezz].
    destruct (exch l u o1 p ix (negb (p =? ix) && negb (same leb x xx))) as [o2 [E2 [M2 [A1 [A2 [A3 A4]]]]]]; try lia.
    { intros Hb. apply andb_false_iff in Hb. destruct Hb as [Hb|Hb]; apply negb_false_iff in Hb.
      - left. f_equal. lia.
      - right. now rewrite Ex, Exx in Hb. }
    rewrite E2. cbn [bind]. pose proof (moved_len _ _ _ _ M2) as Ln2.
    assert (K2 : forall k, q <= k <= u -> B o2 k = B o1 k) by (intros k K; apply A3; lia).
    destruct (exch l u o2 q iz (negb (q =? iz) && negb (same leb z zz))) as [o3 [E3 [M3 [C1 [C2 [C3 C4]]]]]]; try lia.
    { intros Hb. rewrite !K2 by lia. apply andb_false_iff in Hb. destruct Hb as [Hb|Hb]; apply negb_false_iff in Hb.
      - left. f_equal. lia.
      - right. now rewrite Ez, Ezz in Hb. }
    rewrite E3. cbn [bind]. exists o3, p, q. split; [reflexivity|].
    split; [eauto using moved_trans|].
    assert (K3 : forall k, l <= k <= p -> B o3 k = B o2 k) by (intros k K; apply C3; lia).
    rewrite K2 in C1, C2, C4 by lia.
    assert (Bp : B o1 ix [<=] B o3 p /\ B o3 p [<=] B o1 ix) by (rewrite K3 by lia; auto).
    constructor; [lia| | |].
    + intros k K. apply (trans _ (B o1 ix)); [|apply Bp]. rewrite K3 by lia. rewrite <- Exx.
      destruct (Z.eq_dec k p) as [->|N1]; [rewrite Exx; exact A2|].
      destruct (Z.eq_dec k ix) as [->|N2].
      * destruct A4 as [A4|A4]; rewrite A4; apply Vlo; lia.
      * rewrite A3 by lia. apply Vlo. lia.
    + apply (trans _ (B o1 ix)); [apply Bp|]. apply (trans _ (B o1 iz)); [|exact C1]. now rewrite <- Exx, <- Ezz.
    + intros k K. apply (trans _ (B o1 iz)); [exact C2|]. rewrite <- Ezz.
      destruct (Z.eq_dec k q) as [->|N1]; [rewrite Ezz; exact C1|].
      destruct (Z.eq_dec k iz) as [->|N2].
      * destruct C4 as [C4|C4]; rewrite C4; [|rewrite K2 by lia]; apply Vhi; lia.
      * rewrite C3 by lia. rewrite K2 by lia. apply Vhi. lia.
Qed.

(** ** Whole sort *)
Definition inr (r : Z * Z) (k : Z) : Prop := let '(u, l) := r in l <= k <= u.
Definition active (rs : list (Z * Z)) (i j : Z) : Prop := exists r, In r rs /\ inr r i /\ inr r j.
Fixpoint apart (rs : list (Z * Z)) : Prop :=
  match rs with [] => True | r :: q => (forall s k, In s q -> inr r k -> ~ inr s k) /\ apart q end.
Definition sorted_but (n : Z) (ord : list Z) (rs : list (Z * Z)) : Prop :=
  forall i j, 1 <= i -> i < j -> j <= n -> ~ active rs i j -> B ord i [<=] B ord j.
Definition rsize (r : Z * Z) : Z := let '(u, l) := r in Z.max 0 (u - l + 1).
Fixpoint rtotal (rs : list (Z * Z)) : Z := match rs with [] => 0 | r :: q => rsize r + rtotal q end.
Definition inside (n : Z) (rs : list (Z * Z)) : Prop := Forall (fun r => let '(u, l) := r in 1 <= l /\ u <= n) rs.
Fixpoint deep (n : Z) (rs : list (Z * Z)) : Prop :=
  match rs with [] => True | r :: q => rsize r * 2 ^ zlen q <= n /\ deep n q end.

Lemma rsize_nonneg r : 0 <= rsize r.
Proof. destruct r. unfold rsize. lia. Qed.
Lemma rtotal_nonneg rs : 0 <= rtotal rs.
Proof. induction rs as [|r q IH]; cbn [rtotal]; [lia|]. pose proof (rsize_nonneg r). lia. Qed.

Lemma next_ok n ord stack : forall l u, inside n ((u, l) :: stack) -> apart ((u, l) :: stack) ->
  sorted_but n ord ((u, l) :: stack) -> deep n ((u, l) :: stack) ->
  match next l u stack with
  | None => sorted_but n ord []
  | Some (l', u', st) => inside n ((u', l') :: st) /\ apart ((u', l') :: st) /\ sorted_but n ord ((u', l') :: st) /\
                         deep n ((u', l') :: st) /\ l' < u' /\ rtotal ((u', l') :: st) <= rtotal ((u, l) :: stack)
  end.
Proof.
  assert (Drop : forall l u rs, u <= l -> sorted_but n ord ((u, l) :: rs) -> sorted_but n ord rs).
  { intros l u rs H S i j I1 I2 I3 N. apply S; try assumption. intros [r [[<-|R] [A1 A2]]]; [cbn in A1, A2; lia|].
    apply N. exists r. auto. }
  induction stack as [|[u1 l1] st IH]; intros l u Hi Ha S D; cbn [next]; destruct (Z.ltb_spec l u) as [H|H].
  - split; [exact Hi|]. split; [exact Ha|]. split; [exact S|]. split; [exact D|]. split; [exact H | lia].
  - eapply Drop; eassumption.
  - split; [exact Hi|]. split; [exact Ha|]. split; [exact S|]. split; [exact D|]. split; [exact H | lia].
  - apply Drop in S; [|exact H]. unfold inside in *. rewrite Forall_cons_iff in Hi. destruct Ha as [_ Ha]. destruct D as [_ D].
    specialize (IH l1 u1 (proj2 Hi) Ha S D). destruct (next l1 u1 st) as [[[l' u'] st']|]; [|exact IH].
    destruct IH as [I1 [I2 [I3 [I4 [I5 I6]]]]]. repeat split; auto; try apply I2; try apply I4.
    cbn [rtotal] in *. pose proof (rsize_nonneg (u, l)). lia.
Qed.

Lemma sort_loop_ok n fuel : n < 2 ^ 1001 -> forall ord l u stack, zlen ord = n ->
  inside n ((u, l) :: stack) -> apart ((u, l) :: stack) -> sorted_but n ord ((u, l) :: stack) -> deep n ((u, l) :: stack) ->
  l < u -> (Z.to_nat (rtotal ((u, l) :: stack)) < fuel)%nat ->
  exists o, sort_loop leb fuel ord l u stack = Ok o /\ Permutation ord o /\ sorted_but n o [].
Proof.
  intros Hn. induction fuel as [|f IH]; intros ord l u stack Hz Hi Ha S D Hlu Hf; [lia|]. cbn [sort_loop].
  unfold inside in Hi. rewrite Forall_cons_iff in Hi. destruct Hi as [[Hl Hu] Hi].
  destruct (part_ok ord l u Hl Hlu ltac:(lia)) as [o [p [q [E [M P]]]]]. rewrite E. cbn [bind]. clear E.
  pose proof (moved_len _ _ _ _ M) as Ln. destruct P as [[Rp [-> Rq]] Plo Pmid Phi].
  destruct Ha as [Ha1 Ha2]. destruct D as [D1 D2].
  (* the ranges after the partition, in any order *)
  assert (S' : forall r1 r2, (r1 = (u, p + 1 + 1) /\ r2 = (p - 1, l)) \/ (r1 = (p - 1, l) /\ r2 = (u, p + 1 + 1)) ->
    sorted_but n o (r1 :: r2 :: stack) /\ apart (r1 :: r2 :: stack) /\ inside n (r1 :: r2 :: stack)).
  { intros r1 r2 Hr. split; [|split].
    - intros i j I1 I2 I3 N.
      assert (Nr : forall r, In r stack -> ~ (inr r i /\ inr r j)) by (intros r R1 R2; apply N; exists r; cbn; tauto).
      assert (N1 : ~ (l <= i /\ j <= p - 1)).
      { intros X. apply N. exists (p - 1, l). split; [cbn; intuition congruence|]. cbn. lia. }
      assert (N2 : ~ (p + 1 + 1 <= i /\ j <= u)).
      { intros X. apply N. exists (u, p + 1 + 1). split; [cbn; intuition congruence|]. cbn. lia. }
      destruct (Z.le_gt_cases l i) as [Li|Li]; [destruct (Z.le_gt_cases i u) as [Ui|Ui]|].
      + destruct (Z.le_gt_cases j u) as [Uj|Uj].
        * (* both in the range *)
          destruct (Z.le_gt_cases i p) as [Ip|Ip].
          -- destruct (Z.le_gt_cases j p) as [Jp|Jp].
             ++ assert (j = p) by lia. subst j. apply Plo. lia.
             ++ apply (trans _ (B o p)); [apply Plo; lia|]. apply (trans _ (B o (p + 1))); [exact Pmid | apply Phi; lia].
          -- assert (i = p + 1) by lia. subst i. apply Phi. lia.
        * destruct (m_in _ _ _ _ M i ltac:(lia)) as [i' [Ri Ei]]. rewrite Ei, (m_out _ _ _ _ M j) by lia.
          apply S; try lia. intros [r [[<-|R] [A1 A2]]]; [cbn in A2; lia|].
          exact (Ha1 r i' R ltac:(cbn; lia) A1).
      + rewrite !(m_out _ _ _ _ M) by lia. apply S; try lia. intros [r [[<-|R] [A1 A2]]]; [cbn in A1; lia|]. apply (Nr r R). auto.
      + destruct (Z.le_gt_cases l j) as [Lj|Lj]; [destruct (Z.le_gt_cases j u) as [Uj|Uj]|].
        * destruct (m_in _ _ _ _ M j ltac:(lia)) as [j' [Rj Ej]]. rewrite Ej, (m_out _ _ _ _ M i) by lia.
          apply S; try lia. intros [r [[<-|R] [A1 A2]]]; [cbn in A1; lia|].
          exact (Ha1 r j' R ltac:(cbn; lia) A2).
        * rewrite !(m_out _ _ _ _ M) by lia. apply S; try lia. intros [r [[<-|R] [A1 A2]]]; [cbn in A1; lia|]. apply (Nr r R). auto.
        * rewrite !(m_out _ _ _ _ M) by lia. apply S; try lia. intros [r [[<-|R] [A1 A2]]]; [cbn in A1; lia|]. apply (Nr r R). auto.
    - split; [|split; [|exact Ha2]].
      + intros s k [<-|Hs] K1 K2.
        * destruct Hr as [[-> ->] | [-> ->]]; cbn in K1, K2; lia.
        * apply (Ha1 s k Hs); [|exact K2]. destruct Hr as [[-> ->] | [-> ->]]; cbn in K1 |- *; lia.
      + intros s k Hs K1 K2. apply (Ha1 s k Hs); [|exact K2]. destruct Hr as [[-> ->] | [-> ->]]; cbn in K1 |- *; lia.
    - constructor; [|constructor; [|exact Hi]]; destruct Hr as [[-> ->] | [-> ->]]; lia. }
  assert (Pw : 0 < 2 ^ zlen stack) by (apply Z.pow_pos_nonneg; [lia | apply zlen_nonneg]).
  (* one branch *)
  assert (Step : forall l1 u1 l2 u2,
     ((l1 = p + 1 + 1 /\ u1 = u /\ l2 = l /\ u2 = p - 1) \/ (l1 = l /\ u1 = p - 1 /\ l2 = p + 1 + 1 /\ u2 = u)) ->
     u1 - l1 <= u2 - l2 ->
     exists o0, (if u1 <=? l1 then match next l2 u2 stack with None => Ok o | Some (l, u, stack) => sort_loop leb f o l u stack end
                 else if POPLST_SIZE <? zlen stack + 1 then Err IndexError else sort_loop leb f o l1 u1 ((u2, l2) :: stack)) = Ok o0 /\
                Permutation ord o0 /\ sorted_but n o0 []).
  { intros l1 u1 l2 u2 Hc Hs.
    destruct (S' (u1, l1) (u2, l2) ltac:(intuition (subst; auto))) as [Sb [Ap Ins]].
    assert (T : rtotal ((u1, l1) :: (u2, l2) :: stack) < rtotal ((u, l) :: stack)).
    { cbn [rtotal rsize]. lia. }
    assert (D2' : rsize (u2, l2) * 2 ^ zlen stack <= n) by (cbn [rsize] in D1 |- *; nia).
    pose proof (rtotal_nonneg stack) as Nt.
    destruct (Z.leb_spec u1 l1) as [H|H].
    - pose proof (next_ok n o stack l2 u2) as N. 
      assert (Ins2 : inside n ((u2, l2) :: stack)) by (unfold inside in Ins |- *; rewrite Forall_cons_iff in Ins; apply Ins).
      assert (Sb2 : sorted_but n o ((u2, l2) :: stack)).
      { intros i j I1 I2 I3 Na. apply Sb; try assumption. intros [r [[<-|R] [A1 A2]]]; [cbn in A1, A2; lia|].
        apply Na. exists r. auto. }
      specialize (N Ins2 (proj2 Ap) Sb2 (conj D2' D2)).
      destruct (next l2 u2 stack) as [[[l' u'] st]|].
      + destruct N as [N1 [N2 [N3 [N4 [N5 N6]]]]].
        destruct (IH o l' u' st ltac:(lia) N1 N2 N3 N4 N5) as [o0 [E0 [P0 S0]]].
        { pose proof (rtotal_nonneg ((u', l') :: st)). pose proof (rsize_nonneg (u1, l1)). cbn [rtotal] in *. lia. }
        exists o0. split; [exact E0|]. split; [exact (Permutation_trans (m_perm _ _ _ _ M) P0) | exact S0].
      + exists o. split; [reflexivity|]. split; [exact (m_perm _ _ _ _ M) | exact N].
    - assert (D3 : rsize (u1, l1) * 2 ^ zlen ((u2, l2) :: stack) <= n).
      { rewrite zlen_cons, Z.pow_add_r by (try apply zlen_nonneg; lia). cbn [rsize] in D1 |- *. nia. }
      destruct (Z.ltb_spec POPLST_SIZE (zlen stack + 1)) as [G|G].
      + exfalso. unfold POPLST_SIZE in G.
        assert (2 ^ 1001 <= 2 ^ zlen ((u2, l2) :: stack)) by (apply Z.pow_le_mono_r; [lia | rewrite zlen_cons; lia]).
        cbn [rsize] in D3. nia.
      + destruct (IH o l1 u1 ((u2, l2) :: stack) ltac:(lia) Ins Ap Sb (conj D3 (conj D2' D2)) ltac:(lia)) as [o0 [E0 [P0 S0]]].
        { pose proof (rtotal_nonneg ((u1, l1) :: (u2, l2) :: stack)). lia. }
        exists o0. split; [exact E0|]. split; [exact (Permutation_trans (m_perm _ _ _ _ M) P0) | exact S0]. }
  destruct (Z.leb_spec (u - (p + 1)) (p - l)) as [H|H]; apply Step; lia.
Qed.

Lemma qsort_ok n : 0 <= n < 2 ^ 1001 ->
  exists o, qsort leb n = Ok o /\ Permutation (map (fun i => i + 1) (iota n)) o /\
            (forall i j, 1 <= i -> i < j -> j <= n -> B o i [<=] B o j).
Proof.
  intros Hn. unfold qsort. set (ord := map (fun i => i + 1) (iota n)).
  destruct (Z.leb_spec n 1) as [H|H].
  - exists ord. split; [reflexivity|]. split; [reflexivity|]. intros i j. lia.
  - assert (Zo : zlen ord = n) by (unfold ord; rewrite zlen_map, zlen_iota by lia; lia).
    destruct (sort_loop_ok n (S (Z.to_nat n)) ltac:(lia) ord 1 n []) as [o [E [P S]]]; try assumption; try lia.
    + constructor; [lia | constructor].
    + split; [intros s k []|exact I].
    + intros i j I1 I2 I3 N. exfalso. apply N. exists (n, 1). split; [now left|]. cbn. lia.
    + split; [|exact I]. change (2 ^ zlen (@nil (Z * Z))) with 1. cbn [rsize]. lia.
    + cbn [rtotal rsize]. lia.
    + exists o. split; [exact E|]. split; [exact P|]. intros i j I1 I2 I3. apply S; try assumption. intros [r [[] _]].
Qed.
End Sort.
