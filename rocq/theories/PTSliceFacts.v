(** Slice and integer-selection normalisation: lemmas. *)
From Verif Require Import Base BaseFacts PTModel.

Lemma cdiv_pos e k : 0 < e -> 0 < k -> cdiv e k = (e - 1) / k + 1.
Proof. intros; unfold cdiv; nia. Qed.

Lemma cdiv_0 k : cdiv 0 k = 0.
Proof. unfold cdiv. change (- 0) with 0. destruct k; reflexivity. Qed.

Lemma cdiv_neg e k : e <= 0 -> 0 < k -> cdiv e k <= 0.
Proof. intros; unfold cdiv; nia. Qed.

Lemma cdiv_nonneg e k : 0 <= e -> 0 < k -> 0 <= cdiv e k.
Proof. intros; unfold cdiv; nia. Qed.

Lemma cdiv_mul k q : 0 < q -> cdiv (k * q) q = k.
Proof. intros; unfold cdiv; nia. Qed.

(** Case analysis on the innermost conditions first. *)
Ltac ifs :=
  repeat match goal with
  | |- context [if ?c then _ else _] =>
      lazymatch c with context [if _ then _ else _] => fail | _ => destruct c eqn:? end
  end.
Ltac ifs_in H :=
  repeat match type of H with
  | context [if ?c then _ else _] =>
      lazymatch c with context [if _ then _ else _] => fail | _ => destruct c eqn:? end
  end.

(** Number of positions a Python slice spans before division by the step. *)
Definition py_extent (s : pyslice) (n : Z) : Z :=
  if py_step s <? 0 then Z.max (py_start s n - py_stop s n) 0
  else Z.max (py_stop s n - py_start s n) 0.

Lemma py_slice_length_cdiv s n :
  py_step s <> 0 -> py_slice_length s n = cdiv (py_extent s n) (Z.abs (py_step s)).
Proof.
  intros H; unfold py_slice_length, py_extent.
  destruct (Z.ltb_spec (py_step s) 0) as [Hs|Hs].
  - destruct (Z.ltb_spec (py_stop s n) (py_start s n)).
    + rewrite Z.max_l, cdiv_pos by lia. replace (Z.abs (py_step s)) with (- py_step s) by lia. reflexivity.
    + rewrite Z.max_r, cdiv_0 by lia; reflexivity.
  - destruct (Z.ltb_spec (py_start s n) (py_stop s n)).
    + rewrite Z.max_l, cdiv_pos by lia. replace (Z.abs (py_step s)) with (py_step s) by lia. reflexivity.
    + rewrite Z.max_r, cdiv_0 by lia; reflexivity.
Qed.

(** The slices that [_normalize_slice] handles as Python does. *)
Definition slice_ok (s : pyslice) (n : Z) : Prop :=
  0 < py_step s \/ (py_step s < 0 /\ match sl_stop s with Some v => - n - 1 <= v | None => True end).

Lemma normalize_slice_spec s n :
  0 <= n -> slice_ok s n ->
  (normalize_slice s n = Ok NSEll /\ py_step s = 1 /\ py_slice_length s n = n /\
   py_start s n = 0) \/
  (exists a, normalize_slice s n
     = Ok (NS a (a + py_slice_length s n * py_step s) (py_step s)) /\
     (0 < py_slice_length s n -> a = py_start s n) /\
     (py_slice_length s n = 0 -> 0 < n -> 0 <= a < n)).
Proof.
  intros Hn G.
  assert (Hk : py_step s <> 0) by (destruct G; lia).
  rewrite py_slice_length_cdiv by exact Hk.
  unfold normalize_slice.
  change (match sl_step s with Some k => k | None => 1 end) with (py_step s).
  destruct (Z.eqb_spec (py_step s) 0) as [E|_]; [lia|].
  (* the common tail *)
  assert (T : forall a,
    (let stop := match sl_stop s with
                 | Some v => if v <? 0 then n + v else if n <? v then n else v
                 | None => if 0 <? py_step s then n else -1 end in
     (if 0 <? py_step s then Z.max (stop - a) 0 else Z.max (a - stop) 0) = py_extent s n) ->
    (0 < py_extent s n -> a = py_start s n) ->
    (0 < n -> 0 <= a < n) -> (n = 0 -> 0 < py_step s -> a = 0) ->
    (let stop := match sl_stop s with
                 | Some v => if v <? 0 then n + v else if n <? v then n else v
                 | None => if 0 <? py_step s then n else -1 end in
     let extent := if 0 <? py_step s then Z.max (stop - a) 0 else Z.max (a - stop) 0 in
     let size := cdiv extent (Z.abs (py_step s)) in
     (if (size =? n) && (py_step s =? 1) then Ok NSEll
      else Ok (NS a (a + size * py_step s) (py_step s)))) = Ok NSEll /\ py_step s = 1 /\
      cdiv (py_extent s n) (Z.abs (py_step s)) = n /\ py_start s n = 0 \/
    (exists a',
      (let stop := match sl_stop s with
                 | Some v => if v <? 0 then n + v else if n <? v then n else v
                 | None => if 0 <? py_step s then n else -1 end in
     let extent := if 0 <? py_step s then Z.max (stop - a) 0 else Z.max (a - stop) 0 in
     let size := cdiv extent (Z.abs (py_step s)) in
     (if (size =? n) && (py_step s =? 1) then Ok NSEll
      else Ok (NS a (a + size * py_step s) (py_step s)))) =
       Ok (NS a' (a' + cdiv (py_extent s n) (Z.abs (py_step s)) * py_step s) (py_step s)) /\
       (0 < cdiv (py_extent s n) (Z.abs (py_step s)) -> a' = py_start s n) /\
       (cdiv (py_extent s n) (Z.abs (py_step s)) = 0 -> 0 < n -> 0 <= a' < n))).
  { intros a. cbv zeta. intros -> Ha Hb Hb0.
    destruct ((cdiv (py_extent s n) (Z.abs (py_step s)) =? n) && (py_step s =? 1)) eqn:E.
    - left. apply andb_true_iff in E as [E1 E2]. apply Z.eqb_eq in E1, E2.
      repeat split; auto.
      rewrite E2 in E1. change (Z.abs 1) with 1 in E1. rewrite <- (Z.mul_1_r (py_extent s n)) in E1.
      rewrite cdiv_mul in E1 by lia.
      unfold py_start. unfold py_extent in E1. rewrite E2 in *. change (1 <? 0) with false in *. cbv iota in *.
      unfold py_start, py_stop in E1. rewrite E2 in E1. change (1 <? 0) with false in E1. cbv iota in E1.
      destruct (sl_start s) as [v|], (sl_stop s) as [w|];
      cbv zeta in E1 |- *; ifs; ifs_in E1; lia.
    - right. exists a. split; [reflexivity|]. split.
      + intros H. apply Ha.
        assert (0 <= py_extent s n) by (unfold py_extent; destruct (py_step s <? 0); lia).
        destruct (Z.eq_dec (py_extent s n) 0) as [E0|]; [|lia].
        rewrite E0, cdiv_0 in H; lia.
      + intros _; exact Hb. }
  assert (X : py_extent s n = py_extent s n) by reflexivity.
  unfold slice_ok in G.
  destruct (sl_start s) as [v|] eqn:Es.
  - destruct (Z.ltb_spec v 0) as [Hv|Hv].
    + destruct (Z.ltb_spec (n + v) 0) as [Hv2|Hv2].
      * destruct (Z.ltb_spec (py_step s) 0) as [Hs|Hs].
        -- right. exists 0.
           assert (E : py_extent s n = 0).
           { unfold py_extent, py_start, py_stop; rewrite Es.
             destruct (sl_stop s) as [w|];
             cbv zeta; ifs; lia. }
           rewrite E, cdiv_0. split; [f_equal; f_equal; lia|lia].
        -- apply T; clear T; try lia.
           ++ cbv zeta; unfold py_extent, py_start, py_stop; rewrite Es.
             destruct (sl_stop s) as [w|];
             cbv zeta; ifs; lia.
           ++ intros _; unfold py_start; rewrite Es;
             cbv zeta; ifs; lia.
      * apply T; clear T; try lia.
        -- cbv zeta; unfold py_extent, py_start, py_stop; rewrite Es.
             destruct (sl_stop s) as [w|];
             cbv zeta; ifs; lia.
        -- intros _; unfold py_start; rewrite Es;
             cbv zeta; ifs; lia.
    + destruct (Z.leb_spec n v) as [Hv2|Hv2].
      * destruct (Z.ltb_spec 0 (py_step s)) as [Hs|Hs].
        -- right. exists (n - 1).
           assert (E : py_extent s n = 0).
           { unfold py_extent, py_start, py_stop; rewrite Es.
             destruct (sl_stop s) as [w|];
             cbv zeta; ifs; lia. }
           rewrite E, cdiv_0. split; [f_equal; f_equal; lia|lia].
        -- change false with (0 <? 0). replace (0 <? 0) with (0 <? py_step s) by (destruct (Z.ltb_spec 0 (py_step s)); [lia|reflexivity]).
           apply T; clear T; try lia.
           ++ cbv zeta; unfold py_extent, py_start, py_stop; rewrite Es.
             destruct (sl_stop s) as [w|];
             cbv zeta; ifs; lia.
           ++ intros _; unfold py_start; rewrite Es;
             cbv zeta; ifs; lia.
      * apply T; clear T; try lia.
        -- cbv zeta; unfold py_extent, py_start, py_stop; rewrite Es.
             destruct (sl_stop s) as [w|];
             cbv zeta; ifs; lia.
        -- intros _; unfold py_start; rewrite Es;
             cbv zeta; ifs; lia.
  - apply T; clear T.
    + cbv zeta; unfold py_extent, py_start, py_stop; rewrite Es.
             destruct (sl_stop s) as [w|];
             cbv zeta; ifs; lia.
    + intros _; unfold py_start; rewrite Es;
             cbv zeta; ifs; lia.
    + destruct (Z.ltb_spec 0 (py_step s)); lia.
    + destruct (Z.ltb_spec 0 (py_step s)); lia.
Qed.
