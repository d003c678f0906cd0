(** C77: the pointing matrices of bolometric interferometry rotate the polarisation from
    the frame of the sky to that of the instrument. *)
From Coq Require Import Reals List Lra Lia.
From Verif Require Import Base SkyModel BiModel BiSpec BiFacts.
Import ListNotations.
Open Scope R_scope.

Definition at3 {A} (m : list (list (list A))) (d t p : nat) : option A :=
  match nth_error m d with
  | None => None
  | Some x => match nth_error x t with None => None | Some y => nth_error y p end
  end.
Definition at2 {A} (m : list (list A)) (d p : nat) : option A :=
  match nth_error m d with None => None | Some x => nth_error x p end.

Lemma nth_combine {A B} (l : list A) (l' : list B) i :
  nth_error (combine l l') i
  = match nth_error l i, nth_error l' i with Some a, Some b => Some (a, b) | _, _ => None end.
Proof.
revert l' i; induction l as [|a l IH]; intros l' i; cbn.
- now rewrite (proj2 (nth_error_None [] i)) by (cbn; lia); destruct i.
- destruct l' as [|b l']; [destruct i; cbn; [easy|now destruct (nth_error l i)]|].
  destruct i; cbn; [easy|apply IH].
Qed.
Lemma nth_map {A B} (f : A -> B) l i : nth_error (map f l) i = option_map f (nth_error l i).
Proof. revert i; induction l as [|a l IH]; intros [|i]; cbn; [easy..|apply IH]. Qed.

(** A field of components [a] to the south and [b] to the east in the direction (ti, fi) of
    the sky is seen in the direction (tf, ff) of the instrument with the components [a'] and
    [b'] . *)
Definition seen (m : mat) (ti fi tf ff a b a' b' : R) : Prop :=
  rotation m /\ 0 < sin ti /\ 0 < sin tf /\
  apply_mat m (direction ti fi) = direction tf ff /\
  apply_mat m (comb a (south ti fi) b (east ti fi)) = comb a' (south tf ff) b' (east tf ff).

(** [e] multiplies the Stokes parameters by [val] and rotates them. *)
Definition rotates2d (val : R) (e : option (R * R)) (a b a' b' : R) : Prop :=
  match e with
  | None => False
  | Some e =>
    let '(i, q, u) := stokes a b in
    let '(i', q', u') := stokes a' b' in
    apply2d e q u = (val * q', val * u') /\ i' = i
  end.

Lemma element_stokes m ti fi tf ff val a b a' b' : seen m ti fi tf ff a b a' b' ->
  rotates2d val (element2d (swapaxes m) (direction tf ff) val (en2etheta_ephi (direction tf ff))) a b a' b'.
Proof.
intros (H & Hi & Hf & E & P).
unfold element2d; rewrite (angles_of m ti fi) by easy.
destruct (components m ti fi tf ff a b a' b' H E P) as [Ea Eb].
set (r23 := dot3 (south tf ff) (apply_mat m (east ti fi))) in *.
set (r33 := dot3 (east tf ff) (apply_mat m (east ti fi))) in *.
pose proof (east_image m ti fi tf ff H E) as N; cbv zeta in N; fold r23 r33 in N.
clear - Ea Eb N; unfold rotates2d, stokes, apply2d.
subst a' b'; split; [apply vec2; ring|].
transitivity ((a ^ 2 + b ^ 2) * (r23 * r23 + r33 * r33)); [ring|rewrite N; ring].
Qed.

(** The field [index] of the elements is kept. *)
Theorem C77_rot2d rots enf vals matrix d t p m ti fi tf ff val index old a b a' b' :
  seen m ti fi tf ff a b a' b' ->
  nth_error rots t = Some (swapaxes m) -> at2 enf d p = Some (direction tf ff) ->
  at2 vals d p = Some val -> at3 matrix d t p = Some (index, old) ->
  exists e, at3 (matrix_rot2d rots enf vals matrix) d t p = Some (index, e) /\ rotates2d val e a b a' b'.
Proof.
intros S Hr He Hv Hm.
exists (element2d (swapaxes m) (direction tf ff) val (en2etheta_ephi (direction tf ff))).
split; [|now apply (element_stokes m ti fi)].
unfold at3, at2, matrix_rot2d in *; rewrite nth_map, !nth_combine.
destruct (nth_error enf d) as [es|]; [|easy]; destruct (nth_error vals d) as [vs|]; [|easy].
destruct (nth_error matrix d) as [x|]; [|easy]; destruct (nth_error x t) as [y|] eqn:Ey; [|easy]; cbn [option_map].
rewrite nth_map, nth_combine, Hr, Ey; cbn [option_map].
now rewrite nth_map, !nth_combine, nth_map, He, Hv, Hm.
Qed.
Print Assumptions C77_rot2d.
Theorem C77_rot3d rots enf vals matrix d t p m ti fi tf ff val index old a b a' b' :
  seen m ti fi tf ff a b a' b' ->
  nth_error rots t = Some (swapaxes m) -> at2 enf d p = Some (direction tf ff) ->
  at2 vals d p = Some val -> at3 matrix d t p = Some (index, old) ->
  exists e, at3 (matrix_rot3d rots enf vals matrix) d t p = Some (index, (val, e)) /\ rotates2d val e a b a' b'.
Proof.
intros S Hr He Hv Hm.
exists (element2d (swapaxes m) (direction tf ff) val (en2etheta_ephi (direction tf ff))).
split; [|now apply (element_stokes m ti fi)].
unfold at3, at2, matrix_rot3d in *; rewrite nth_map, !nth_combine.
destruct (nth_error enf d) as [es|]; [|easy]; destruct (nth_error vals d) as [vs|]; [|easy].
destruct (nth_error matrix d) as [x|]; [|easy]; destruct (nth_error x t) as [y|] eqn:Ey; [|easy]; cbn [option_map].
rewrite nth_map, nth_combine, Hr, Ey; cbn [option_map].
now rewrite nth_map, !nth_combine, nth_map, He, Hv, Hm.
Qed.
Print Assumptions C77_rot3d.
Theorem C77_weighted rots enf vals weights matrix d t p m ti fi tf ff val w index old a b a' b' :
  seen m ti fi tf ff a b a' b' ->
  nth_error rots t = Some (swapaxes m) -> at2 enf d p = Some (direction tf ff) ->
  at2 vals d p = Some val -> at3 weights d t p = Some w -> at3 matrix d t p = Some (index, old) ->
  exists e, at3 (weighted_matrix_rot3d rots enf vals weights matrix) d t p = Some (index, (val * w, e)) /\
    rotates2d (val * w) e a b a' b'.
Proof.
intros S Hr He Hv Hw Hm.
exists (element2d (swapaxes m) (direction tf ff) (val * w) (en2etheta_ephi (direction tf ff))).
split; [|now apply (element_stokes m ti fi)].
unfold at3, at2, weighted_matrix_rot3d in *; rewrite nth_map, !nth_combine.
destruct (nth_error enf d) as [es|]; [|easy]; destruct (nth_error vals d) as [vs|]; [|easy].
destruct (nth_error weights d) as [ws|]; [|easy]; destruct (nth_error ws t) as [wy|] eqn:Ew; [|easy].
destruct (nth_error matrix d) as [x|]; [|easy]; destruct (nth_error x t) as [y|] eqn:Ey; [|easy]; cbn [option_map].
rewrite nth_map, !nth_combine, Hr, Ew, Ey; cbn [option_map].
now rewrite nth_map, !nth_combine, nth_map, He, Hv, Hw, Hm.
Qed.
Print Assumptions C77_weighted.

(** Every polarisation is seen: with the hypotheses on the directions, the components in the
    frame of the instrument exist.  Hence the three theorems determine the elements. *)
Theorem C77_seen m ti fi tf ff a b : rotation m -> 0 < sin ti -> 0 < sin tf ->
  apply_mat m (direction ti fi) = direction tf ff -> exists a' b', seen m ti fi tf ff a b a' b'.
Proof.
intros H Hi Hf E; set (v := apply_mat m (comb a (south ti fi) b (east ti fi))).
exists (dot3 (south tf ff) v), (dot3 (east tf ff) v); repeat (split; [easy|]).
apply decompose; subst v; rewrite <- E, (proj1 H).
unfold dot3, comb, direction, south, east.
pose proof (sc fi) as S.
transitivity (a * sin ti * cos ti * (sin fi * sin fi + cos fi * cos fi - 1)); [ring|rewrite S; ring].
Qed.
Print Assumptions C77_seen.

(** A quarter of a turn about the line of sight: light polarised to the south is seen
    polarised to the east. *)
Definition quarter : mat := ((1, 0, 0), (0, 0, -1), (0, 1, 0)).
Lemma quarter_rotation : rotation quarter.
Proof. split; [intros [[? ?] ?] [[? ?] ?]; unfold dot3, apply_mat, quarter, dot3|unfold det3, quarter]; ring. Qed.
Example C77_case : seen quarter (PI / 2) 0 (PI / 2) 0 1 0 0 1.
Proof.
split; [apply quarter_rotation|].
unfold direction, comb, south, east; rewrite sin_PI2, cos_PI2, sin_0, cos_0.
repeat split; try lra; unfold apply_mat, quarter, dot3; apply vec3; ring.
Qed.
(** A pixel at the pole of one of the frames has no value. *)
Theorem C77_pole_refuted :
  exists m, rotation m /\
    at3 (matrix_rot2d [swapaxes m] [[(0, 0, 1)]] [[1]] [[[(0%Z, Some (0, 0))]]]) 0 0 0 = Some (0%Z, None).
Proof.
exists quarter; split; [apply quarter_rotation|].
unfold at3, matrix_rot2d; cbn [nth_error map combine].
assert (X : en2etheta_ephi (0, 0, 1) = None).
{ unfold en2etheta_ephi, fsqrt.
  replace (1 - 1 ^ 2) with 0 by ring; destruct Rlt_dec; [easy|].
  unfold finv; rewrite sqrt_0; destruct Req_EM_T; easy. }
now rewrite X.
Qed.
Print Assumptions C77_pole_refuted.
