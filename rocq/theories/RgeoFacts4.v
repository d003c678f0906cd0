From Coq Require Import Reals ZArith Lra Lia Bool.
From Flocq Require Import Core.
From Coquelicot Require Import Coquelicot.
From Verif Require Import Base SparseModel GeoModel GeoSpec GeoFacts RndModel RndSpec RndProps BirFacts RgeoModel RgeoFacts RgeoFacts2 RgeoFacts3.
Open Scope R_scope.
(** The end of the function, for given points where the chord crosses 0 and 1. *)
Definition tail (k0 k1 x1_ y1_ x2_ y2_ out : R) : R :=
  if leb y1_ 0 && leb y2_ 0 then out
  else
    let '(x1_, y1_, x2_, y2_) :=
      if ltb y1_ 0 then (k0, 0, x2_, y2_)
      else if ltb y2_ 0 then (x1_, y1_, k0, 0)
      else (x1_, y1_, x2_, y2_) in
    if leb 1 y1_ && leb 1 y2_ then out + x2_ - x1_
    else
      let '(out, x1_, y1_, x2_, y2_) :=
        if ltb 1 y1_ then (out + k1 - x1_, k1, 1, x2_, y2_)
        else if ltb 1 y2_ then (out + x2_ - k1, x1_, y1_, k1, 1)
        else (out, x1_, y1_, x2_, y2_) in
      out + / 2 * (x2_ - x1_) * (y1_ + y2_).
Definition tail_r emin prec (k0 k1 x1_ y1_ x2_ y2_ out : R) : R :=
  let rn := rndp emin prec in
  if leb y1_ 0 && leb y2_ 0 then out
  else
    let '(x1_, y1_, x2_, y2_) :=
      if ltb y1_ 0 then (k0, 0, x2_, y2_)
      else if ltb y2_ 0 then (x1_, y1_, k0, 0)
      else (x1_, y1_, x2_, y2_) in
    if leb 1 y1_ && leb 1 y2_ then rn (rn (out + x2_) - x1_)
    else
      let '(out, x1_, y1_, x2_, y2_) :=
        if ltb 1 y1_ then (rn (rn (out + k1) - x1_), k1, 1, x2_, y2_)
        else if ltb 1 y2_ then (rn (rn (out + x2_) - k1), x1_, y1_, k1, 1)
        else (out, x1_, y1_, x2_, y2_) in
      rn (out + rn (rn (/ 2 * rn (x2_ - x1_)) * rn (y1_ + y2_))).
Definition crossing (c y1 y2 : R) : Prop := y1 < c < y2 \/ y2 < c < y1.
Ltac bb := repeat match goal with
  | |- context[ltb ?a ?b] => destruct (ltb_spec a b); try lra
  | |- context[leb ?a ?b] => destruct (leb_spec a b); try lra end; cbn [andb].
Lemma tail_diff k0 k1 l0 l1 x1 y1 x2 y2 E out : 0 <= E ->
  (crossing 0 y1 y2 -> Rabs (k0 - l0) * Rabs (y2 - y1) <= E) -> (crossing 1 y1 y2 -> Rabs (k1 - l1) * Rabs (y2 - y1) <= E) ->
  Rabs (tail k0 k1 x1 y1 x2 y2 out - tail l0 l1 x1 y1 x2 y2 out) <= E.
Proof.
  intros E0 H0 H1. unfold crossing in *.
  assert (W : forall d w, Rabs d * Rabs (y2 - y1) <= E -> Rabs w <= / 2 * Rabs (y2 - y1) -> Rabs (d * w) <= / 2 * E).
  { intros d w Hd Hw. rewrite Rabs_mult. apply Rle_trans with (Rabs d * (/ 2 * Rabs (y2 - y1))); [apply Rmult_le_compat_l; [apply Rabs_pos | exact Hw] | lra]. }
  assert (S : forall d w d' w', Rabs (d * w) <= / 2 * E -> Rabs (d' * w') <= / 2 * E -> Rabs (d * w + d' * w') <= E).
  { intros. eapply Rle_trans; [apply Rabs_triang|]. lra. }
  assert (Z : forall z, z = 0 -> Rabs z <= E) by (intros z ->; rewrite Rabs_R0; exact E0).
  assert (ABS : forall w, Rabs w <= / 2 * Rabs (y2 - y1) \/ / 2 * Rabs (y2 - y1) < Rabs w) by (intros; lra).
  assert (Z0 : forall d, Rabs (d * 0) <= / 2 * E) by (intros; rewrite Rmult_0_r, Rabs_R0; lra).
  unfold tail. destruct (Rlt_le_dec y1 0) as [A|A].
  - destruct (leb_spec y1 0); [|lra]. destruct (leb_spec y2 0) as [B|B]; cbn [andb]; [apply Z; ring|]. destruct (ltb_spec y1 0); [|lra].
    destruct (leb_spec 1 0); [lra|]. cbn [andb]. destruct (ltb_spec 1 0); [lra|]. specialize (H0 ltac:(lra)).
    assert (Q : Rabs (y2 - y1) = y2 - y1) by (apply Rabs_right; lra). rewrite Q in *.
    destruct (ltb_spec 1 y2) as [V|V].
    + specialize (H1 ltac:(lra)). match goal with |- Rabs ?e <= _ => replace e with ((k0 - l0) * - / 2 + (k1 - l1) * - / 2) by field end.
      apply S; apply W; try assumption; rewrite Rabs_Ropp, Rabs_right; lra.
    + match goal with |- Rabs ?e <= _ => replace e with ((k0 - l0) * (- / 2 * y2) + (k1 - l1) * 0) by field end.
      apply S; [|apply Z0]. apply W; [assumption|]. rewrite Rabs_mult, Rabs_Ropp, !Rabs_right; lra.
  - destruct (ltb_spec y1 0); [lra|]. destruct (Rlt_le_dec y2 0) as [B|B].
    + destruct (leb_spec y2 0); [|lra]. destruct (leb_spec y1 0) as [C|C]; cbn [andb]; [apply Z; ring|]. destruct (ltb_spec y2 0); [|lra].
      destruct (leb_spec 1 0); [lra|]. rewrite andb_false_r. destruct (ltb_spec 1 0); [lra|]. specialize (H0 ltac:(lra)).
      assert (Q : Rabs (y2 - y1) = y1 - y2) by (rewrite Rabs_left; lra). rewrite Q in *.
      destruct (ltb_spec 1 y1) as [V|V].
      * specialize (H1 ltac:(lra)). match goal with |- Rabs ?e <= _ => replace e with ((k0 - l0) * / 2 + (k1 - l1) * / 2) by field end.
        apply S; apply W; try assumption; rewrite Rabs_right; lra.
      * match goal with |- Rabs ?e <= _ => replace e with ((k0 - l0) * (/ 2 * y1) + (k1 - l1) * 0) by field end.
        apply S; [|apply Z0]. apply W; [assumption|]. rewrite Rabs_mult, !Rabs_right; lra.
    + destruct (ltb_spec y2 0); [lra|]. destruct (leb y1 0 && leb y2 0); [apply Z; ring|]. destruct (leb_spec 1 y1) as [V|V], (leb_spec 1 y2) as [V'|V']; cbn [andb]; [apply Z; ring | | |].
      * destruct (ltb_spec 1 y1) as [G|G]; [|destruct (ltb_spec 1 y2); [lra|]; apply Z; ring]. specialize (H1 ltac:(lra)).
        assert (Q : Rabs (y2 - y1) = y1 - y2) by (rewrite Rabs_left; lra). rewrite Q in *.
        match goal with |- Rabs ?e <= _ => replace e with ((k1 - l1) * (/ 2 * (1 - y2)) + (k1 - l1) * 0) by field end.
        apply S; [|apply Z0]. apply W; [assumption|]. rewrite Rabs_mult, !Rabs_right; lra.
      * destruct (ltb_spec 1 y1) as [G|G]; [lra|]. destruct (ltb_spec 1 y2) as [G'|G']; [|apply Z; ring]. specialize (H1 ltac:(lra)).
        assert (Q : Rabs (y2 - y1) = y2 - y1) by (rewrite Rabs_right; lra). rewrite Q in *.
        match goal with |- Rabs ?e <= _ => replace e with ((k1 - l1) * (- / 2 * (1 - y1)) + (k1 - l1) * 0) by field end.
        apply S; [|apply Z0]. apply W; [assumption|]. rewrite Rabs_mult, Rabs_Ropp, !Rabs_right; lra.
      * destruct (ltb_spec 1 y1) as [G|G]; [lra|]. destruct (ltb_spec 1 y2) as [G'|G']; [lra|]. apply Z; ring.
Qed.
Section Sums.
Variables (emin prec : Z).
Hypothesis Pp : (0 < prec)%Z.
Notation rn := (rndp emin prec).
Notation u := (unit_of prec).
Notation eta := (tiny_of emin).
Notation fm := (generic_format radix2 (FLT_exp emin prec)).
Hypothesis U1 : u <= / 64.
Hypothesis He : eta <= u * u.
Hypothesis F1 : fm 1.
Lemma sub_err x y : fm x -> fm y -> Rabs (rn (x - y) - (x - y)) <= u * Rabs (x - y).
Proof. intros F F'. apply (add_error emin prec Pp x (- y)); [exact F | apply format_opp, F']. Qed.
Lemma sub_big x y K L : Rabs x <= K -> Rabs y <= L -> Rabs (x - y) <= K + L.
Proof. intros. unfold Rminus. eapply Rle_trans; [apply Rabs_triang|]. rewrite Rabs_Ropp. lra. Qed.
Lemma add_big x y K L : Rabs x <= K -> Rabs y <= L -> Rabs (x + y) <= K + L.
Proof. intros. eapply Rle_trans; [apply Rabs_triang|]. lra. Qed.
Lemma fin out p yp q yq : fm out -> fm p -> fm yp -> fm q -> fm yq -> Rabs p <= 4 -> Rabs q <= 4 -> 0 <= yp <= 1 -> 0 <= yq <= 1 ->
  Rabs (rn (out + rn (rn (/ 2 * rn (q - p)) * rn (yp + yq))) - (out + / 2 * (q - p) * (yp + yq))) <= u * Rabs out + 42 * u.
Proof.
  intros Fo Fp Fyp Fq Fyq Hp Hq Yp Yq. assert (U0 : 0 < u) by apply u_pos. assert (EU : eta <= / 64 * u) by (apply Rle_trans with (1 := He); apply Rmult_le_compat_r; lra).
  assert (UU : u * u <= / 64 * u) by (apply Rmult_le_compat_r; lra).
  pose proof (sub_err q p Fq Fp) as D. pose proof (sub_big q p _ _ Hq Hp) as D8. set (d := q - p) in *.
  assert (uD : u * Rabs d <= u * (4 + 4)) by (apply Rmult_le_compat_l; lra). assert (D1 : Rabs (rn d - d) <= 8 * u) by lra.
  pose proof (near_abs _ _ _ _ D1 D8) as R8. pose proof (rn_err emin prec Pp (/ 2 * rn d)) as A. set (h := rn (/ 2 * rn d)) in *.
  rewrite Rabs_mult, (Rabs_right (/ 2)) in A by lra. assert (uR : u * (/ 2 * Rabs (rn d)) <= u * (/ 2 * (4 + 4 + 8 * u))) by (apply Rmult_le_compat_l; lra).
  assert (A1 : Rabs (h - / 2 * d) <= 81 / 10 * u).
  { replace (h - / 2 * d) with ((h - / 2 * rn d) + / 2 * (rn d - d)) by ring. eapply Rle_trans; [apply Rabs_triang|]. rewrite (Rabs_mult (/ 2)), (Rabs_right (/ 2)) by lra. lra. }
  pose proof (add_error emin prec Pp yp yq Fyp Fyq) as S. assert (Rabs (yp + yq) <= 2) by (rewrite Rabs_right; lra).
  assert (uS : u * Rabs (yp + yq) <= u * 2) by (apply Rmult_le_compat_l; lra). set (s := yp + yq) in *. set (s' := rn s) in *. assert (S1 : Rabs (s' - s) <= 2 * u) by lra.
  assert (H4 : Rabs (/ 2 * d) <= 4) by (rewrite Rabs_mult, (Rabs_right (/ 2)) by lra; lra).
  pose proof (prod_diff h s' (/ 2 * d) s _ _ _ _ A1 S1 H4 H) as Pr. assert (P1 : Rabs (h * s' - / 2 * d * s) <= 245 / 10 * u) by lra.
  assert (P8 : Rabs (/ 2 * d * s) <= 4 * 2) by (rewrite Rabs_mult; apply mult_le; try assumption; apply Rabs_pos).
  pose proof (near_abs _ _ _ _ P1 P8) as P9. pose proof (rn_err emin prec Pp (h * s')) as W. set (w := rn (h * s')) in *.
  assert (uP : u * Rabs (h * s') <= u * (4 * 2 + 245 / 10 * u)) by (apply Rmult_le_compat_l; lra).
  assert (W1 : Rabs (w - / 2 * d * s) <= 331 / 10 * u) by (eapply Rle_trans; [apply (tri w (h * s'))|]; lra).
  pose proof (near_abs _ _ _ _ W1 P8) as W9. pose proof (add_error emin prec Pp out w Fo (format_round emin prec Pp _)) as O.
  assert (uO : u * Rabs (out + w) <= u * (Rabs out + (4 * 2 + 331 / 10 * u))) by (apply Rmult_le_compat_l; [lra|]; apply add_big; lra).
  replace (rn (out + w) - (out + / 2 * d * s)) with ((rn (out + w) - (out + w)) + (w - / 2 * d * s)) by ring. eapply Rle_trans; [apply Rabs_triang|]. lra.
Qed.
Lemma stepping out t p : fm out -> fm t -> fm p -> Rabs t <= 4 -> Rabs p <= 4 -> Rabs (rn (rn (out + t) - p) - (out + t - p)) <= 202 / 100 * u * Rabs out + 122 / 10 * u.
Proof.
  intros Fo Ft Fp Ht Hp. assert (U0 : 0 < u) by apply u_pos. pose proof (Rabs_pos out) as O0.
  pose proof (add_error emin prec Pp out t Fo Ft) as A. assert (B : Rabs (out + t) <= Rabs out + 4) by (apply add_big; lra).
  assert (uB : u * Rabs (out + t) <= u * (Rabs out + 4)) by (apply Rmult_le_compat_l; lra). assert (A1 : Rabs (rn (out + t) - (out + t)) <= u * (Rabs out + 4)) by lra.
  pose proof (near_abs _ _ _ _ A1 B) as R5. pose proof (sub_err (rn (out + t)) p (format_round emin prec Pp _) Fp) as S. pose proof (sub_big _ _ _ _ R5 Hp) as S9.
  assert (uO : u * (Rabs out + 4) <= / 64 * (Rabs out + 4)) by (apply Rmult_le_compat_r; lra).
  assert (uS : u * Rabs (rn (out + t) - p) <= u * (65 / 64 * (Rabs out + 4) + 4)) by (apply Rmult_le_compat_l; lra).
  replace (rn (rn (out + t) - p) - (out + t - p)) with ((rn (rn (out + t) - p) - (rn (out + t) - p)) + (rn (out + t) - (out + t))) by ring. eapply Rle_trans; [apply Rabs_triang|].
  assert (0 <= u * Rabs out) by (apply Rmult_le_pos; lra). lra.
Qed.
Lemma step_fin out t t' p yp q yq : fm out -> fm t -> fm t' -> fm p -> fm yp -> fm q -> fm yq -> Rabs t <= 4 -> Rabs t' <= 4 -> Rabs p <= 4 -> Rabs q <= 4 -> 0 <= yp <= 1 -> 0 <= yq <= 1 ->
  Rabs (rn (rn (rn (out + t) - t') + rn (rn (/ 2 * rn (q - p)) * rn (yp + yq))) - (out + t - t' + / 2 * (q - p) * (yp + yq))) <= 31 / 10 * u * Rabs out + 63 * u.
Proof.
  intros Fo Ft Ft' Fp Fyp Fq Fyq Ht Ht' Hp Hq Yp Yq. assert (U0 : 0 < u) by apply u_pos. pose proof (Rabs_pos out) as O0.
  pose proof (stepping out t t' Fo Ft Ft' Ht Ht') as S. set (o := rn (rn (out + t) - t')) in *.
  pose proof (fin o p yp q yq (format_round emin prec Pp _) Fp Fyp Fq Fyq Hp Hq Yp Yq) as F.
  assert (B : Rabs (out + t - t') <= Rabs out + 4 + 4) by (apply sub_big; [apply add_big; lra | lra]). pose proof (near_abs _ _ _ _ S B) as R5.
  assert (uu : u * Rabs out <= / 64 * Rabs out) by (apply Rmult_le_compat_r; lra).
  assert (uo : u * Rabs o <= u * (104 / 100 * Rabs out + 82 / 10)) by (apply Rmult_le_compat_l; lra).
  replace (rn (o + rn (rn (/ 2 * rn (q - p)) * rn (yp + yq))) - (out + t - t' + / 2 * (q - p) * (yp + yq)))
    with ((rn (o + rn (rn (/ 2 * rn (q - p)) * rn (yp + yq))) - (o + / 2 * (q - p) * (yp + yq))) + (o - (out + t - t'))) by ring.
  eapply Rle_trans; [apply Rabs_triang|]. assert (0 <= u * Rabs out) by (apply Rmult_le_pos; lra). lra.
Qed.
Lemma tail_near k0 k1 x1 y1 x2 y2 out : fm out -> fm k0 -> fm k1 -> fm x1 -> fm y1 -> fm x2 -> fm y2 -> 0 <= x1 <= 1 -> 0 <= x2 <= 1 ->
  (crossing 0 y1 y2 -> Rabs k0 <= 4) -> (crossing 1 y1 y2 -> Rabs k1 <= 4) ->
  Rabs (tail_r emin prec k0 k1 x1 y1 x2 y2 out - tail k0 k1 x1 y1 x2 y2 out) <= 31 / 10 * u * Rabs out + 63 * u.
Proof.
  intros Fo Fk0 Fk1 Fx1 Fy1 Fx2 Fy2 X1 X2 H0 H1. assert (U0 : 0 < u) by apply u_pos. assert (F0 : fm 0) by apply (zero_format emin prec Pp).
  assert (UO : 0 <= u * Rabs out) by (apply Rmult_le_pos; [lra | apply Rabs_pos]).
  assert (A1 : Rabs x1 <= 4) by (apply Rabs_le; lra). assert (A2 : Rabs x2 <= 4) by (apply Rabs_le; lra).
  unfold crossing in *. unfold tail, tail_r. cbv zeta.
  assert (SF : forall o t t' p yp q yq, fm o -> fm t -> fm t' -> fm p -> fm yp -> fm q -> fm yq -> o = out -> Rabs t <= 4 -> Rabs t' <= 4 -> Rabs p <= 4 -> Rabs q <= 4 -> 0 <= yp <= 1 -> 0 <= yq <= 1 ->
    Rabs (rn (rn (rn (o + t) - t') + rn (rn (/ 2 * rn (q - p)) * rn (yp + yq))) - (o + t - t' + / 2 * (q - p) * (yp + yq))) <= 31 / 10 * u * Rabs out + 63 * u).
  { intros. subst o. now apply step_fin. }
  assert (FI : forall p yp q yq, fm p -> fm yp -> fm q -> fm yq -> Rabs p <= 4 -> Rabs q <= 4 -> 0 <= yp <= 1 -> 0 <= yq <= 1 ->
    Rabs (rn (out + rn (rn (/ 2 * rn (q - p)) * rn (yp + yq))) - (out + / 2 * (q - p) * (yp + yq))) <= 31 / 10 * u * Rabs out + 63 * u).
  { intros. eapply Rle_trans; [apply fin; assumption|]. lra. }
  destruct (Rlt_le_dec y1 0) as [A|A].
  - destruct (leb_spec y1 0); [|lra]. destruct (leb_spec y2 0) as [B|B]; cbn [andb]; [rewrite Rminus_eq_0, Rabs_R0; lra|]. destruct (ltb_spec y1 0); [|lra].
    destruct (leb_spec 1 0); [lra|]. cbn [andb]. destruct (ltb_spec 1 0); [lra|]. specialize (H0 ltac:(lra)).
    destruct (ltb_spec 1 y2) as [V|V]; [specialize (H1 ltac:(lra)); apply SF | apply FI]; solve [assumption | reflexivity | lra].
  - destruct (ltb_spec y1 0); [lra|]. destruct (Rlt_le_dec y2 0) as [B|B].
    + destruct (leb_spec y2 0); [|lra]. destruct (leb_spec y1 0) as [C|C]; cbn [andb]; [rewrite Rminus_eq_0, Rabs_R0; lra|]. destruct (ltb_spec y2 0); [|lra].
      destruct (leb_spec 1 0); [lra|]. rewrite andb_false_r. destruct (ltb_spec 1 0); [lra|]. specialize (H0 ltac:(lra)).
      destruct (ltb_spec 1 y1) as [V|V]; [specialize (H1 ltac:(lra)); apply SF | apply FI]; solve [assumption | reflexivity | lra].
    + destruct (ltb_spec y2 0); [lra|]. destruct (leb y1 0 && leb y2 0); [rewrite Rminus_eq_0, Rabs_R0; lra|]. destruct (leb_spec 1 y1) as [V|V], (leb_spec 1 y2) as [V'|V']; cbn [andb].
      * eapply Rle_trans; [apply stepping; assumption | lra].
      * destruct (ltb_spec 1 y1) as [G|G]; [specialize (H1 ltac:(lra)); apply SF | destruct (ltb_spec 1 y2); [lra|]; apply FI]; solve [assumption | reflexivity | lra].
      * destruct (ltb_spec 1 y1) as [G|G]; [lra|]. destruct (ltb_spec 1 y2) as [G'|G']; [specialize (H1 ltac:(lra)); apply SF | apply FI]; solve [assumption | reflexivity | lra].
      * destruct (ltb_spec 1 y1) as [G|G]; [lra|]. destruct (ltb_spec 1 y2) as [G'|G']; [lra|]. apply FI; solve [assumption | lra].
Qed.
End Sums.
