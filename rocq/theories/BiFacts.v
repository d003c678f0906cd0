From Coq Require Import Reals List Lra.
From Verif Require Import Base SkyModel BiModel BiSpec.
Import ListNotations.
Open Scope R_scope.

Lemma vec3 (a b c a' b' c' : R) : a = a' -> b = b' -> c = c' -> (a, b, c) = (a', b', c').
Proof. now intros -> -> ->. Qed.
Lemma vec2 (a b a' b' : R) : a = a' -> b = b' -> (a, b) = (a', b').
Proof. now intros -> ->. Qed.
Lemma sc t : sin t * sin t + cos t * cos t = 1.
Proof. pose proof (sin2_cos2 t) as H; unfold Rsqr in H; exact H. Qed.
Lemma one_minus t : 1 - cos t ^ 2 = sin t * sin t.
Proof. pose proof (sc t); nra. Qed.
Lemma sqrt_sin t : 0 < sin t -> fsqrt (1 - cos t ^ 2) = Some (sin t).
Proof.
intro H; unfold fsqrt; rewrite one_minus; destruct Rlt_dec as [K|K]; [nra|].
now rewrite sqrt_square by lra.
Qed.
Lemma finv_sin t : 0 < sin t -> finv (sin t) = Some (1 / sin t).
Proof. intro H; unfold finv; destruct Req_EM_T as [K|K]; [lra|easy]. Qed.
Lemma ephi_of t f : 0 < sin t -> en2ephi (direction t f) = Some (- sin f, cos f).
Proof.
intro H; unfold en2ephi, direction; rewrite sqrt_sin, finv_sin by easy.
apply f_equal, vec2; field; lra.
Qed.
Lemma frame_of t f : 0 < sin t -> en2etheta_ephi (direction t f) = Some (south t f, (- sin f, cos f)).
Proof.
intro H; unfold en2etheta_ephi, direction, south; rewrite sqrt_sin, finv_sin by easy.
apply f_equal, f_equal2; [apply vec3|apply vec2]; try (field; lra); ring.
Qed.

(** Rotations. *)
Definition columns (m : mat) : Prop :=
  let '((a, b, c), (d, e, f), (g, h, i)) := m in
  a * a + d * d + g * g = 1 /\ b * b + e * e + h * h = 1 /\ c * c + f * f + i * i = 1 /\
  a * b + d * e + g * h = 0 /\ a * c + d * f + g * i = 0 /\ b * c + e * f + h * i = 0.
Lemma rotation_columns m : rotation m -> columns m.
Proof.
intros [H _]; destruct m as [[[[a b] c] [[d e] f]] [[g h] i]]; unfold columns.
pose proof (H (1, 0, 0) (1, 0, 0)) as H1; pose proof (H (0, 1, 0) (0, 1, 0)) as H2.
pose proof (H (0, 0, 1) (0, 0, 1)) as H3; pose proof (H (1, 0, 0) (0, 1, 0)) as H4.
pose proof (H (1, 0, 0) (0, 0, 1)) as H5; pose proof (H (0, 1, 0) (0, 0, 1)) as H6.
cbv beta iota zeta delta [apply_mat dot3] in H1, H2, H3, H4, H5, H6.
repeat split; lra.
Qed.
Lemma rot_back m v : rotation m -> rotinv_e (swapaxes m) (apply_mat m v) = v.
Proof.
intro H; apply rotation_columns in H.
destruct m as [[[[a b] c] [[d e] f]] [[g h] i]]; destruct v as [[x y] z].
unfold columns in H; destruct H as (H1 & H2 & H3 & H4 & H5 & H6).
unfold rotinv_e, swapaxes, apply_mat, dot3; apply vec3.
- transitivity (x * (a * a + d * d + g * g) + y * (a * b + d * e + g * h) + z * (a * c + d * f + g * i)); [ring|].
  rewrite H1, H4, H5; ring.
- transitivity (x * (a * b + d * e + g * h) + y * (b * b + e * e + h * h) + z * (b * c + e * f + h * i)); [ring|].
  rewrite H2, H4, H6; ring.
- transitivity (x * (a * c + d * f + g * i) + y * (b * c + e * f + h * i) + z * (c * c + f * f + i * i)); [ring|].
  rewrite H3, H5, H6; ring.
Qed.
Lemma rot_ephi_apply m x y : rot_ephi (swapaxes m) (x, y) = apply_mat m (x, y, 0).
Proof.
destruct m as [[[[a b] c] [[d e] f]] [[g h] i]]; unfold rot_ephi, swapaxes, apply_mat, dot3.
apply vec3; ring.
Qed.
Definition cross (u v : vec) : vec :=
  let '(a, b, c) := u in let '(x, y, z) := v in (b * z - c * y, c * x - a * z, a * y - b * x).
(** The cofactors of a rotation are its elements. *)
Lemma cofactors m : rotation m ->
  let '((a, b, c), (d, e, f), (g, h, i)) := m in
  (a = e * i - f * h /\ b = f * g - d * i /\ c = d * h - e * g) /\
  (d = c * h - b * i /\ e = a * i - c * g /\ f = b * g - a * h) /\
  (g = b * f - c * e /\ h = c * d - a * f /\ i = a * e - b * d).
Proof.
intro H; pose proof (proj2 H) as D; apply rotation_columns in H.
destruct m as [[[[a b] c] [[d e] f]] [[g h] i]].
unfold columns in H; destruct H as (H1 & H2 & H3 & H4 & H5 & H6); unfold det3 in D.
assert (X : forall x, x * (a * (e * i - f * h) - b * (d * i - f * g) + c * (d * h - e * g)) = x).
{ intro; rewrite D; ring. }
clear D.
repeat split.
1: rewrite <- (X a) at 1; transitivity ((a * a + d * d + g * g) * (e * i - f * h) + (a * b + d * e + g * h) * (f * g - d * i) + (a * c + d * f + g * i) * (d * h - e * g)); [ring|rewrite H1, H4, H5; ring].
1: rewrite <- (X b) at 1; transitivity ((a * b + d * e + g * h) * (e * i - f * h) + (b * b + e * e + h * h) * (f * g - d * i) + (b * c + e * f + h * i) * (d * h - e * g)); [ring|rewrite H4, H2, H6; ring].
1: rewrite <- (X c) at 1; transitivity ((a * c + d * f + g * i) * (e * i - f * h) + (b * c + e * f + h * i) * (f * g - d * i) + (c * c + f * f + i * i) * (d * h - e * g)); [ring|rewrite H5, H6, H3; ring].
1: rewrite <- (X d) at 1; transitivity ((a * a + d * d + g * g) * (c * h - b * i) + (a * b + d * e + g * h) * (a * i - c * g) + (a * c + d * f + g * i) * (b * g - a * h)); [ring|rewrite H1, H4, H5; ring].
1: rewrite <- (X e) at 1; transitivity ((a * b + d * e + g * h) * (c * h - b * i) + (b * b + e * e + h * h) * (a * i - c * g) + (b * c + e * f + h * i) * (b * g - a * h)); [ring|rewrite H4, H2, H6; ring].
1: rewrite <- (X f) at 1; transitivity ((a * c + d * f + g * i) * (c * h - b * i) + (b * c + e * f + h * i) * (a * i - c * g) + (c * c + f * f + i * i) * (b * g - a * h)); [ring|rewrite H5, H6, H3; ring].
1: rewrite <- (X g) at 1; transitivity ((a * a + d * d + g * g) * (b * f - c * e) + (a * b + d * e + g * h) * (c * d - a * f) + (a * c + d * f + g * i) * (a * e - b * d)); [ring|rewrite H1, H4, H5; ring].
1: rewrite <- (X h) at 1; transitivity ((a * b + d * e + g * h) * (b * f - c * e) + (b * b + e * e + h * h) * (c * d - a * f) + (b * c + e * f + h * i) * (a * e - b * d)); [ring|rewrite H4, H2, H6; ring].
rewrite <- (X i) at 1; transitivity ((a * c + d * f + g * i) * (b * f - c * e) + (b * c + e * f + h * i) * (c * d - a * f) + (c * c + f * f + i * i) * (a * e - b * d)); [ring|rewrite H5, H6, H3; ring].
Qed.
Lemma rot_cross m u v : rotation m -> apply_mat m (cross u v) = cross (apply_mat m u) (apply_mat m v).
Proof.
intro H; apply cofactors in H.
destruct m as [[[[a b] c] [[d e] f]] [[g h] i]]; destruct u as [[x y] z], v as [[x' y'] z'].
destruct H as ((Ha & Hb & Hc) & (Hd & He & Hf) & (Hg & Hh & Hi)).
unfold apply_mat, cross, dot3; apply vec3.
- rewrite Ha, Hb, Hc at 1; ring.
- rewrite Hd, He, Hf at 1; ring.
- rewrite Hg, Hh, Hi at 1; ring.
Qed.
Lemma south_cross t f : south t f = cross (east t f) (direction t f).
Proof.
unfold south, east, direction, cross; pose proof (sc f) as S.
assert (X : forall x, x = x * (sin f * sin f + cos f * cos f)) by (intro; rewrite S; ring).
apply vec3; try ring.
rewrite (X (- sin t)) at 1; ring.
Qed.
Lemma apply_comb m a u b v : apply_mat m (comb a u b v) = comb a (apply_mat m u) b (apply_mat m v).
Proof.
destruct m as [[[[p q] r] [[d e] f]] [[g h] i]]; destruct u as [[x y] z], v as [[x' y'] z'].
unfold apply_mat, comb, dot3; apply vec3; ring.
Qed.
Lemma dot_comb_s t f a b : dot3 (south t f) (comb a (south t f) b (east t f)) = a.
Proof.
unfold dot3, comb, south, east; pose proof (sc f) as S; pose proof (sc t) as T.
transitivity (a * (cos t * cos t * (sin f * sin f + cos f * cos f) + sin t * sin t)); [ring|].
rewrite S; replace (cos t * cos t * 1 + sin t * sin t) with 1 by lra; ring.
Qed.
Lemma dot_comb_e t f a b : dot3 (east t f) (comb a (south t f) b (east t f)) = b.
Proof.
unfold dot3, comb, south, east; pose proof (sc f) as S.
transitivity (b * (sin f * sin f + cos f * cos f)); [ring|rewrite S; ring].
Qed.
Lemma dot_comb_l u a v b w : dot3 u (comb a v b w) = a * dot3 u v + b * dot3 u w.
Proof. destruct u as [[? ?] ?], v as [[? ?] ?], w as [[? ?] ?]; unfold dot3, comb; ring. Qed.
Lemma triple_s t f u : dot3 (south t f) (cross u (direction t f)) = dot3 (east t f) u.
Proof.
destruct u as [[x y] z]; unfold dot3, cross, south, east, direction.
pose proof (sc t) as T.
transitivity ((x * - sin f + y * cos f) * (sin t * sin t + cos t * cos t)); [ring|rewrite T; ring].
Qed.
Lemma triple_e t f u : dot3 (east t f) (cross u (direction t f)) = - dot3 (south t f) u.
Proof.
destruct u as [[x y] z]; unfold dot3, cross, south, east, direction.
pose proof (sc f) as S.
transitivity (z * sin t * (sin f * sin f + cos f * cos f) - (x * cos f + y * sin f) * cos t); [ring|rewrite S; ring].
Qed.

(** What the code computes. *)
Lemma angles_of m ti fi tf ff : rotation m -> 0 < sin ti -> 0 < sin tf ->
  apply_mat m (direction ti fi) = direction tf ff ->
  angles (swapaxes m) (direction tf ff) (en2etheta_ephi (direction tf ff))
  = Some (dot3 (south tf ff) (apply_mat m (east ti fi)), - dot3 (east tf ff) (apply_mat m (east ti fi))).
Proof.
intros H Hi Hf E; unfold angles; rewrite frame_of by easy.
rewrite <- E at 1; rewrite rot_back by easy.
unfold eni2rotation; rewrite ephi_of by easy; rewrite rot_ephi_apply.
change ((- sin fi, cos fi, 0)) with (east ti fi).
destruct (apply_mat m (east ti fi)) as [[x y] z]; unfold south, east, dot3.
apply f_equal, vec2; ring.
Qed.
Lemma components m ti fi tf ff a b a' b' : rotation m ->
  apply_mat m (direction ti fi) = direction tf ff ->
  apply_mat m (comb a (south ti fi) b (east ti fi)) = comb a' (south tf ff) b' (east tf ff) ->
  let r23 := dot3 (south tf ff) (apply_mat m (east ti fi)) in
  let r33 := dot3 (east tf ff) (apply_mat m (east ti fi)) in
  a' = a * r33 + b * r23 /\ b' = - a * r23 + b * r33.
Proof.
intros H E P r23 r33; rewrite apply_comb in P.
assert (Hs : apply_mat m (south ti fi) = cross (apply_mat m (east ti fi)) (direction tf ff)).
{ rewrite south_cross, rot_cross by easy; now rewrite E. }
assert (A := f_equal (dot3 (south tf ff)) P); assert (B := f_equal (dot3 (east tf ff)) P).
rewrite dot_comb_s in A; rewrite dot_comb_e in B; rewrite dot_comb_l, Hs in A, B.
rewrite triple_s in A; rewrite triple_e in B.
fold r23 r33 in A, B; split; lra.
Qed.
(** A vector orthogonal to a direction is a combination of the vectors to the south and to
    the east. *)
Lemma decompose t f v : dot3 (direction t f) v = 0 ->
  v = comb (dot3 (south t f) v) (south t f) (dot3 (east t f) v) (east t f).
Proof.
pose proof (sc t) as T; pose proof (sc f) as F; destruct v as [[x y] z]; intro Z.
unfold dot3, direction, south, east in *; unfold comb; apply vec3.
- transitivity (x - sin t * cos f * (sin t * cos f * x + sin t * sin f * y + cos t * z)); [rewrite Z; ring|].
  replace (sin t * cos f * (sin t * cos f * x + sin t * sin f * y + cos t * z))
    with (sin t * sin t * cos f * cos f * x + sin t * sin t * cos f * sin f * y + sin t * cos t * cos f * z) by ring.
  replace x with (x * (sin f * sin f + cos f * cos f)) at 1 by (rewrite F; ring).
  replace (sin t * sin t) with (1 - cos t * cos t) by lra.
  ring.
- transitivity (y - sin t * sin f * (sin t * cos f * x + sin t * sin f * y + cos t * z)); [rewrite Z; ring|].
  replace (sin t * sin f * (sin t * cos f * x + sin t * sin f * y + cos t * z))
    with (sin t * sin t * cos f * sin f * x + sin t * sin t * sin f * sin f * y + sin t * cos t * sin f * z) by ring.
  replace y with (y * (sin f * sin f + cos f * cos f)) at 1 by (rewrite F; ring).
  replace (sin t * sin t) with (1 - cos t * cos t) by lra.
  ring.
- transitivity (z - cos t * (sin t * cos f * x + sin t * sin f * y + cos t * z)); [rewrite Z; ring|].
  replace (cos t * (sin t * cos f * x + sin t * sin f * y + cos t * z))
    with (cos t * sin t * cos f * x + cos t * sin t * sin f * y + cos t * cos t * z) by ring.
  replace (cos t * cos t) with (1 - sin t * sin t) by lra.
  ring.
Qed.
Lemma dot_sym u v : dot3 u v = dot3 v u.
Proof. destruct u as [[? ?] ?], v as [[? ?] ?]; unfold dot3; ring. Qed.
Lemma east_image m ti fi tf ff : rotation m -> apply_mat m (direction ti fi) = direction tf ff ->
  let r23 := dot3 (south tf ff) (apply_mat m (east ti fi)) in
  let r33 := dot3 (east tf ff) (apply_mat m (east ti fi)) in
  r23 * r23 + r33 * r33 = 1.
Proof.
intros H E r23 r33.
assert (Y : dot3 (apply_mat m (east ti fi)) (apply_mat m (east ti fi)) = 1).
{ rewrite (proj1 H); unfold dot3, east; pose proof (sc fi); lra. }
assert (W := decompose tf ff (apply_mat m (east ti fi))); fold r23 r33 in W.
rewrite W in Y.
- rewrite dot_comb_l in Y.
  rewrite (dot_sym _ (south tf ff)), (dot_sym _ (east tf ff)), dot_comb_s, dot_comb_e in Y; exact Y.
- rewrite <- E, (proj1 H); unfold dot3, direction, east; ring.
Qed.
