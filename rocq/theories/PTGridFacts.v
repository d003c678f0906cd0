(** Lemmas about grid rows and columns. *)
From Coq Require Import String.
From Verif Require Import Base BaseFacts PTModel PTSpec PTIndexFacts PTCtorFacts PTFacts PTGridModel.

Lemma grid_rows_cols {A} (t : table A) nr nc sw :
  reachable t -> t_shape t = [nr; nc] -> 0 <= nr -> 0 <= nc ->
  exists l rows cols, t_indices t = Ok l /\ grid_rows t nc sw = Ok rows /\ grid_columns t nc sw = Ok cols /\
    zlen rows = zlen l /\ zlen cols = zlen l /\
    (forall k i, nth_error l k = Some i -> exists r c,
       nth_error rows k = Some r /\ nth_error cols k = Some c /\
       sw <= r < sw + nr /\ sw <= c < sw + nc /\ i = (r - sw) * nc + (c - sw)) /\
    NoDup (combine rows cols).
Proof.
  intros HR Hsh Hr Hc. destruct (reachable_inv t HR) as (l & HT).
  pose proof (table_inv_indices t l HT) as El. unfold grid_rows, grid_columns. rewrite El; cbn [bind].
  destruct HT as (_ & (_ & _ & HI & ND) & _). unfold in_range, t_size in HI. rewrite Hsh in HI.
  replace (prodZ [nr; nc]) with (nr * nc) in HI by (cbn; lia).
  do 3 eexists. split; [reflexivity|]. split; [reflexivity|]. split; [reflexivity|].
  rewrite !zlen_map. split; [reflexivity|]. split; [reflexivity|]. split.
  - intros k i Hk. rewrite !nth_error_map, Hk. cbn [option_map]. do 2 eexists. split; [reflexivity|]. split; [reflexivity|].
    rewrite Forall_forall in HI. specialize (HI i (nth_error_In _ _ Hk)).
    assert (0 < nc) by nia.
    pose proof (Z.div_mod i nc ltac:(lia)). pose proof (Z.mod_pos_bound i nc ltac:(lia)).
    assert (0 <= i / nc) by (apply Z.div_pos; lia).
    assert (i / nc < nr) by (apply Z.div_lt_upper_bound; nia).
    repeat split; try lia.
  - assert (E : combine (map (fun i => i / nc + sw) l) (map (fun i => i mod nc + sw) l) = map (fun i => (i / nc + sw, i mod nc + sw)) l).
    { clear. induction l as [|x l IH]; [reflexivity|]. cbn. f_equal. exact IH. }
    rewrite E. clear E El. induction ND as [|x l Hn ND IH]; [constructor|].
    inversion HI as [|? ? Hx HI']; subst. cbn [map]. constructor; [|apply IH; exact HI'].
    intros Hin. apply in_map_iff in Hin as (y & E & Hy). injection E as E1 E2. apply Hn.
    rewrite Forall_forall in HI'. specialize (HI' y Hy).
    assert (0 < nc) by nia. pose proof (Z.div_mod x nc ltac:(lia)). pose proof (Z.div_mod y nc ltac:(lia)).
    assert (x = y) by nia. subst; exact Hy.
Qed.
