(** Property theorems C72 (items of a Tod), C73 (setting a mask), C74 (results on masked data). *)
From Coq Require Import Lia.
From Verif Require Import Base BaseFacts TodModel TodSpec TodFacts TodFacts2 TodFacts3.
Open Scope Z_scope.

(** Three samples, the first one masked; two detectors and three samples. *)
Definition heap3 : heap := [[true; false; false]].
Definition mask3 := MArr 0 [3] [0; 1; 2].
Definition tod3 : tod Z := Tod [3] [10; 20; 30] (Mask mask3).
Definition heap23 : heap := [[true; false; false; true; true; true]].
Definition tod23 : tod Z := Tod [2; 3] [1; 2; 3; 4; 5; 6] (Mask (MArr 0 [2; 3] [0; 1; 2; 3; 4; 5])).
Ltac shape_tac := repeat constructor; cbn; lia.
(** The array is well formed in its buffer. *)
Ltac good_tac := split; [shape_tac|]; split; [reflexivity|]; first [exact I|split; [|reflexivity]; split; [cbn; lia|]; split; [reflexivity|];
  eexists; split; [reflexivity|]; repeat constructor; unfold zlen; cbn; lia].
Lemma good3 : good heap3 tod3.
Proof. good_tac. Qed.
Lemma good23 : good heap23 tod23.
Proof. good_tac. Qed.
Definition py_range (a b : Z) := KSlice (PySlice (Some a) (Some b) None).

(** ** C72 *)
(** An item which is an array of one dimension at least, whatever NumPy's indexing: the
    elements are those designated by the key, each with its mask; no existing mask changes. *)
Theorem C72_item : forall E K (index : list Z -> K -> res item) (h : heap) (t : tod E) (key : K) v s l,
  faithful index -> good h t -> index (t_shape t) key = Ok (Positions v s l) -> s <> [] ->
  exists h' i, getitem index h t key = Ok (h', GTod i) /\ t_shape i = s /\ good h' i /\ unchanged h h' /\
  (forall j p, nth_error l j = Some p -> nth_error (t_data i) j = nth_error (t_data t) (Z.to_nat p) /\ masked h' i j = masked h t (Z.to_nat p)).
Proof. intros E K index h t key v s l. apply item_facts. Qed.
Print Assumptions C72_item.
(** Integers, slices, None and an ellipsis are such an indexing. *)
Theorem C72_basic : faithful np_index.
Proof. exact np_index_faithful. Qed.
Print Assumptions C72_basic.
(** t[:, ::-2] *)
Example C72_item_case : good heap23 tod23 /\
  np_index (t_shape tod23) [colon; KSlice (PySlice None None (Some (-2)))] = Ok (Positions true [2; 2] [2; 0; 5; 3]) /\
  getitem np_index heap23 tod23 [colon; KSlice (PySlice None None (Some (-2)))] = Ok (heap23, GTod (Tod [2; 2] [3; 1; 6; 4] (Mask (MArr 0 [2; 2] [2; 0; 5; 3])))).
Proof. split; [exact good23|]. split; reflexivity. Qed.
(** t[i, j]: the number. *)
Theorem C72_number : forall E K (index : list Z -> K -> res item) (h : heap) (t : tod E) (key : K) p,
  faithful index -> good h t -> index (t_shape t) key = Ok (Number p) ->
  exists x, nth_error (t_data t) (Z.to_nat p) = Some x /\ getitem index h t key = Ok (h, GNumber x).
Proof.
  intros E K index h t key p F [GS [GD _]] I. assert (X := F (t_shape t) key GS). rewrite I in X. rewrite <- GD in X.
  destruct (get_total (t_data t) p X) as [x G]. exists x. split; [now apply nth_of_get|]. unfold getitem. rewrite I. cbn [bind]. now rewrite G.
Qed.
Print Assumptions C72_number.
Example C72_number_case : getitem np_index heap23 tod23 [KInt (-1); KInt 0] = Ok (heap23, GNumber 4).
Proof. reflexivity. Qed.
(** ravel and reshape, and t[...]. *)
Theorem C72_rearranged : forall E h (t : tod E) v s l, good h t -> good_shape s -> s <> [] -> zlen l = prodZ s ->
  Forall (fun p => 0 <= p < prodZ (t_shape t)) l ->
  exists h' r, rearrange h t v s l = Ok (h', r) /\ t_shape r = s /\ good h' r /\ unchanged h h' /\
  (forall j p, nth_error l j = Some p -> nth_error (t_data r) j = nth_error (t_data t) (Z.to_nat p) /\ masked h' r j = masked h t (Z.to_nat p)).
Proof. intros E. exact rearrange_facts. Qed.
Print Assumptions C72_rearranged.

(** A Tod whose mask is NumPy's False (see C73_constructor_refuted): only an array of one element is rearranged. *)
Theorem C72_numpy_false : forall E h (t : tod E) v s l, t_mask t = NumpyFalse -> s <> [] -> s <> [1] -> exists e, rearrange h t v s l = Err e.
Proof.
  intros E h t v s l M N N1. unfold rearrange. destruct (map_res (get (t_data t)) l) as [d|e]; [|exists e; reflexivity]. cbn [bind]. rewrite M.
  unfold set_array, finalize. cbn [m_shape t_shape t_mask].
  match goal with |- context [if ?b then _ else _] => destruct b eqn:B end.
  - exfalso. apply N1. now apply shape_eqb_eq in B.
  - eexists. reflexivity.
Qed.
Print Assumptions C72_numpy_false.
Theorem C72_whole : forall E h (t : tod E), good h t -> t_shape t <> [] -> getitem_ellipsis h t = Ok (h, t).
Proof.
  intros E h [s d a] [_ [_ M]] N. unfold getitem_ellipsis. cbn [t_mask t_shape] in *. destruct a as [| |m]; [reflexivity|destruct M|].
  destruct M as [_ S]. rewrite set_array_same; [reflexivity|now rewrite S|exact S].
Qed.
Print Assumptions C72_whole.
(** ravel('F') of two detectors and three samples. *)
Example C72_rearranged_case : rearrange heap23 tod23 false [6] [0; 3; 1; 4; 2; 5] =
  Ok (heap23 ++ [[true; true; false; true; false; true]], Tod [6] [1; 4; 2; 5; 3; 6] (Mask (MArr 1 [6] [0; 1; 2; 3; 4; 5]))) /\
  getitem_ellipsis heap23 tod23 = Ok (heap23, tod23).
Proof. split; reflexivity. Qed.
(** t[0, ...] of a Tod of one dimension is an array without dimension: its mask is written
    in the whole mask of t. *)
Theorem C72_scalar_item_refuted : exists h (t : tod Z) h' i, good h t /\ np_index (t_shape t) [KInt 0; KEllipsis] = Ok (Positions true [] [0]) /\
  getitem np_index h t [KInt 0; KEllipsis] = Ok (h', GTod i) /\
  map (masked h t) [0; 1; 2]%nat = [Some true; Some false; Some false] /\
  map (masked h' t) [0; 1; 2]%nat = [Some true; Some true; Some true] /\
  t_shape i = [] /\ exists m, t_mask i = Mask m /\ m_shape m = [3].
Proof.
  exists heap3, tod3. eexists. eexists. split; [exact good3|]. split; [reflexivity|]. split; [reflexivity|].
  split; [reflexivity|]. split; [reflexivity|]. split; [reflexivity|]. now exists mask3.
Qed.
Print Assumptions C72_scalar_item_refuted.
(** reshape(()): the mask keeps its dimension. *)
Theorem C72_reshape_refuted : exists h (t : tod Z) h' r, good h t /\ rearrange h t true [] [0] = Ok (h', r) /\
  t_shape r = [] /\ exists m, t_mask r = Mask m /\ m_shape m = [1].
Proof.
  exists [[true]], (Tod [1] [7] (Mask (MArr 0 [1] [0]))). eexists. eexists.
  split; [good_tac|].
  split; [reflexivity|]. split; [reflexivity|]. eexists. split; reflexivity.
Qed.
Print Assumptions C72_reshape_refuted.
(** The transpose keeps the mask of the original. *)
Theorem C72_transpose_refuted : exists h (t : tod Z), good h t /\
  let r := ndarray_method t [3; 2] [1; 4; 2; 5; 3; 6] in ~ good h r /\ nth_error (t_data r) 1 = nth_error (t_data t) 3 /\ masked h r 1 <> masked h t 3.
Proof.
  exists heap23, tod23. split; [exact good23|]. split; [intros [_ [_ [_ S]]]; discriminate|]. split; [reflexivity|discriminate].
Qed.
Print Assumptions C72_transpose_refuted.
(** A Tod made from a masked array of NumPy without a mask has no items. *)
Theorem C72_masked_array_refuted : exists (t : tod Z), construct [] (Masked [3] [10; 20; 30] None) VNone true = Ok ([], t) /\
  np_index (t_shape t) [py_range 0 2] = Ok (Positions true [2] [0; 1]) /\ getitem np_index [] t [py_range 0 2] = Err IndexError.
Proof. eexists. split; [reflexivity|]. split; reflexivity. Qed.
Print Assumptions C72_masked_array_refuted.

(** ** C73 *)
(** t.mask = values: the mask takes them when the shape is that of the data; ValueError otherwise. *)
Theorem C73_values : forall E h (t : tod E) s l, good h t -> zlen l = prodZ s -> s <> [] ->
  (t_shape t = s -> exists h' t', set_mask h t (VValues s l) = Ok (h', t') /\ t_shape t' = t_shape t /\ t_data t' = t_data t /\ good h' t' /\
     (forall j, masked h' t' j = nth_error l j) /\ unchanged h h') /\
  (t_shape t <> s -> set_mask h t (VValues s l) = Err ValueError).
Proof.
  intros E h t s l G L N. assert (X := set_values_facts h t s l G L N). destruct (shape_eqb (t_shape t) s) eqn:Q.
  - apply shape_eqb_eq in Q. split; [intros _; exact X|intros D; now destruct D].
  - split; [|intros _; exact X]. intros D. apply shape_eqb_eq in D. congruence.
Qed.
Print Assumptions C73_values.
(** Numbers: masked where not zero. *)
Theorem C73_integers : forall E h (t : tod E) s l, good h t -> zlen l = prodZ s -> s <> [] -> t_shape t = s ->
  exists h' t', set_mask h t (VInts s l) = Ok (h', t') /\ good h' t' /\ unchanged h h' /\
  forall j x, nth_error l j = Some x -> (masked h' t' j = Some true <-> x <> 0).
Proof.
  intros E h t s l G L N D. assert (X := set_values_facts h t s (map (fun x => negb (x =? 0)) l) G).
  rewrite (proj2 (shape_eqb_eq _ _) D) in X. destruct X as [h' [t' [S [_ [_ [G' [M U]]]]]]]; [now rewrite zlen_map|exact N|].
  exists h', t'. split; [exact S|]. split; [exact G'|]. split; [exact U|]. intros j x J. rewrite M, nth_error_map, J. cbn [option_map].
  destruct (Z.eqb_spec x 0); cbn [negb]; split; try discriminate; try congruence; try reflexivity.
Qed.
Print Assumptions C73_integers.
(** t.mask = True or False: all the samples.  Another mask changes only if it is in the same buffer. *)
Theorem C73_scalar : forall E h (t : tod E) b, good h t -> t_shape t <> [] -> exists h' t', set_mask h t (VValues [] [b]) = Ok (h', t') /\
  t_shape t' = t_shape t /\ t_data t' = t_data t /\ good h' t' /\
  (forall j, (j < length (t_data t))%nat -> masked h' t' j = Some b) /\
  (forall m, good_mask h m -> (forall m0, t_mask t = Mask m0 -> m_addr m0 <> m_addr m) -> good_mask h' m /\ forall j, masked_at h' m j = masked_at h m j).
Proof. intros E. exact set_scalar_facts. Qed.
Print Assumptions C73_scalar.
Theorem C73_none : forall E h (t : tod E) v, good h t -> v = VNone \/ v = VNomask -> exists t', set_mask h t v = Ok (h, t') /\ good h t' /\
  t_shape t' = t_shape t /\ t_data t' = t_data t /\ forall j, (j < length (t_data t))%nat -> masked h t' j = Some false.
Proof.
  intros E h t v [GS [GD _]] V. exists (with_mask t NoMask). split; [destruct V as [-> | ->]; reflexivity|]. split; [now repeat split|].
  split; [reflexivity|]. split; [reflexivity|]. intros j J. unfold masked. cbn [with_mask t_mask t_data]. destruct (Nat.ltb_spec j (length (t_data t))); [reflexivity|lia].
Qed.
Print Assumptions C73_none.
Example C73_set_case : good heap3 tod3 /\ set_mask heap3 tod3 (VInts [3] [0; 2; 0]) = Ok (heap3 ++ [[false; true; false]], Tod [3] [10; 20; 30] (Mask (MArr 1 [3] [0; 1; 2]))) /\
  set_mask heap3 tod3 (VValues [2] [true; false]) = Err ValueError /\
  set_mask heap3 tod3 (VValues [] [true]) = Ok ([[true; true; true]; [true]], tod3).
Proof. split; [exact good3|]. repeat split. Qed.
(** Tod(t) has its own mask: whatever is then set on one of the two, the other is as it was. *)
Theorem C73_constructed : forall E h (t : tod E), good h t -> exists h' t', construct h (OfTod t) VNone true = Ok (h', t') /\
  t_shape t' = t_shape t /\ t_data t' = t_data t /\ good h' t' /\ good h' t /\ (forall j, masked h' t' j = masked h t j) /\ unchanged h h' /\
  (t_shape t <> [] -> forall b,
   (exists h2 t2, set_mask h' t' (VValues [] [b]) = Ok (h2, t2) /\ good h2 t /\ forall j, masked h2 t j = masked h t j) /\
   (exists h2 t2, set_mask h' t (VValues [] [b]) = Ok (h2, t2) /\ good h2 t' /\ forall j, masked h2 t' j = masked h t j)).
Proof.
  intros E h t G. destruct (construct_facts h t G) as [h' [t' [C [S [D [G' [M [U F]]]]]]]].
  assert (Gt : good h' t).
  { destruct G as [A [B X]]. split; [exact A|]. split; [exact B|]. destruct (t_mask t); [exact X|exact X|]. destruct X as [X Y]. split; [now apply U|exact Y]. }
  assert (Mt : forall j, masked h' t j = masked h t j).
  { intros j. unfold masked. destruct G as [_ [_ X]]. destruct (t_mask t); [reflexivity|reflexivity|]. destruct X as [X _]. now apply (U m X). }
  assert (Far : forall m m0, t_mask t = Mask m -> t_mask t' = Mask m0 -> m_addr m0 <> m_addr m).
  { intros m m0 Tm Tm0. specialize (F m0 Tm0). destruct G as [_ [_ X]]. rewrite Tm in X. destruct X as [[P [_ [b [B _]]]] _].
    assert (Y : nth_error h (Z.to_nat (m_addr m)) <> None) by (rewrite B; discriminate). apply nth_error_Some in Y. unfold zlen in F. lia. }
  exists h', t'. repeat (split; [assumption|]). intros N b. split.
  - destruct (set_scalar_facts h' t' b G') as [h2 [t2 [X [_ [_ [_ [_ O]]]]]]]; [now rewrite S|]. exists h2, t2. split; [exact X|].
    destruct Gt as [A [B Y]]. split.
    + split; [exact A|]. split; [exact B|]. destruct (t_mask t) as [| |m] eqn:Tm; [exact Y|exact Y|]. destruct Y as [Y1 Y2]. split; [|exact Y2]. apply (O m Y1). intros m0 T0. now apply Far.
    + intros j. rewrite <- Mt. unfold masked. destruct (t_mask t) as [| |m] eqn:Tm; [reflexivity|reflexivity|]. destruct Y as [Y1 Y2]. apply (O m Y1). intros m0 T0. now apply Far.
  - destruct (set_scalar_facts h' t b Gt N) as [h2 [t2 [X [_ [_ [_ [_ O]]]]]]]. exists h2, t2. split; [exact X|].
    destruct G' as [A [B Y]]. split.
    + split; [exact A|]. split; [exact B|]. destruct (t_mask t') as [| |m] eqn:Tm; [exact Y|exact Y|]. destruct Y as [Y1 Y2]. split; [|exact Y2]. apply (O m Y1). intros m0 T0 C0. exact (Far m0 m T0 eq_refl (eq_sym C0)).
    + intros j. rewrite <- M. unfold masked. destruct (t_mask t') as [| |m] eqn:Tm; [reflexivity|reflexivity|]. destruct Y as [Y1 Y2]. apply (O m Y1). intros m0 T0 C0. exact (Far m0 m T0 eq_refl (eq_sym C0)).
Qed.
Print Assumptions C73_constructed.
Example C73_constructed_case : good heap3 tod3 /\ construct heap3 (OfTod tod3) VNone true = Ok (heap3 ++ heap3, Tod [3] [10; 20; 30] (Mask (MArr 1 [3] [0; 1; 2]))).
Proof. split; [exact good3|reflexivity]. Qed.
(** t.copy(), t + 1, ... share the mask: masking the copy masks the original. *)
Theorem C73_copy_refuted : exists h (t : tod Z) h' t', good h t /\ set_mask h (copy_tod t) (VValues [] [true]) = Ok (h', t') /\
  map (masked h t) [0; 1; 2]%nat = [Some true; Some false; Some false] /\ map (masked h' t) [0; 1; 2]%nat = [Some true; Some true; Some true].
Proof. exists heap3, tod3. eexists. eexists. split; [exact good3|]. split; [reflexivity|]. split; reflexivity. Qed.
Print Assumptions C73_copy_refuted.
(** A mask given by values: its elements that are not zero mask, whatever mask the data had. *)
Theorem C73_given_mask : forall E h (src : @source E) sh l copy, zlen l = prodZ sh -> exists h' t' m, construct h src (VInts sh l) copy = Ok (h', t') /\ t_shape t' = t_shape (viewed src) /\ t_data t' = t_data (viewed src) /\
  t_mask t' = Mask m /\ m_shape m = sh /\ good_mask h' m /\ forall j, masked_at h' m j = match nth_error l j with Some 0 => Some false | Some _ => Some true | None => None end.
Proof.
  intros E h src sh l copy L. destruct (alloc h sh (map (fun x => negb (x =? 0)) l)) as [h' m] eqn:A.
  destruct (alloc_facts _ _ _ _ _ A) as (_ & S & _ & G & _ & M); [unfold zlen in *; now rewrite map_length|].
  exists h', (with_mask (viewed src) (Mask m)), m. split; [unfold construct; now rewrite A|]. do 3 (split; [reflexivity|]). split; [exact S|]. split; [exact G|].
  intros k. rewrite M, nth_error_map. destruct (nth_error l k) as [[|p|p]|]; reflexivity.
Qed.
Print Assumptions C73_given_mask.
Theorem C73_given_values : forall E h (src : @source E) sh l copy, zlen l = prodZ sh -> exists h' t' m, construct h src (VValues sh l) copy = Ok (h', t') /\ t_shape t' = t_shape (viewed src) /\ t_data t' = t_data (viewed src) /\
  t_mask t' = Mask m /\ m_shape m = sh /\ good_mask h' m /\ forall j, masked_at h' m j = nth_error l j.
Proof.
  intros E h src sh l copy L. destruct (alloc h sh l) as [h' m] eqn:A. destruct (alloc_facts _ _ _ _ _ A L) as (_ & S & _ & G & _ & M).
  exists h', (with_mask (viewed src) (Mask m)), m. split; [unfold construct; now rewrite A|]. do 3 (split; [reflexivity|]). auto.
Qed.
Print Assumptions C73_given_values.
Example C73_given_case : zlen [0; 2; -1] = prodZ [3] /\ construct heap3 (OfTod tod3) (VInts [3] [0; 2; -1]) true = Ok (heap3 ++ [[false; true; true]], Tod [3] [10; 20; 30] (Mask (MArr 1 [3] [0; 1; 2]))).
Proof. split; reflexivity. Qed.

(** The constructor accepts a mask of any shape, and mask=True gives a mask without dimension,
    after which items raise an error. *)
Theorem C73_constructor_refuted :
  (exists h (t : tod Z), construct [] (Plain [3] [10; 20; 30]) (VValues [2] [true; false]) true = Ok (h, t) /\ ~ good h t) /\
  (exists h (t : tod Z), construct [] (Plain [3] [10; 20; 30]) (VValues [] [true]) true = Ok (h, t) /\ ~ good h t /\
   np_index (t_shape t) [py_range 0 2] = Ok (Positions true [2] [0; 1]) /\ getitem np_index h t [py_range 0 2] = Err IndexError).
Proof.
  split; eexists; eexists; (split; [reflexivity|]).
  - intros [_ [_ [_ S]]]. discriminate.
  - split; [intros [_ [_ [_ S]]]; discriminate|]. split; reflexivity.
Qed.
Print Assumptions C73_constructor_refuted.

(** ** C74 *)
(** np.sum and the other reductions along axes: the unmasked samples of each group, masked
    when all are. *)
Theorem C74_reduction : forall E nan red groups shape h (t : tod E), good h t -> good_shape shape -> shape <> [] -> zlen groups = prodZ shape ->
  Forall (Forall (fun p => 0 <= p < prodZ (t_shape t))) groups -> Forall (fun g => g <> []) groups ->
  exists h' r, np_reduce nan red groups shape h t = Ok (h', r) /\ t_shape r = shape /\ good h' r /\ unchanged h h' /\
  forall j g, nth_error groups j = Some g -> nth_error (t_data r) j = Some (red (unmasked h t g)) /\
  (masked h' r j = Some true <-> forall p, In p g -> masked h t (Z.to_nat p) = Some true).
Proof. intros E. exact reduce_facts. Qed.
Print Assumptions C74_reduction.
(** np.sum(t, axis=1) *)
Example C74_reduction_case : np_reduce (-1) (fold_right Z.add 0) [[0; 1; 2]; [3; 4; 5]] [2] heap23 tod23 =
  Ok (heap23 ++ [[false; true]], Tod [2] [5; 0] (Mask (MArr 1 [2] [0; 1]))).
Proof. reflexivity. Qed.
(** Over all the samples. *)
Theorem C74_total : forall E nan red g h (t : tod E), good h t -> Forall (fun p => 0 <= p < prodZ (t_shape t)) g ->
  ~ (forall p, In p g -> masked h t (Z.to_nat p) = Some true) ->
  np_reduce nan red [g] [] h t = Ok (h, Tod [] [red (unmasked h t g)] NoMask) /\ good h (Tod [] [red (unmasked h t g)] NoMask).
Proof. intros E nan red g h t G F N. split; [now apply reduce_all_facts|]. repeat split. constructor. Qed.
Print Assumptions C74_total.
Example C74_total_case : good heap23 tod23 /\ np_reduce (-1) (fold_right Z.add 0) [[0; 1; 2; 3; 4; 5]] [] heap23 tod23 = Ok (heap23, Tod [] [5] NoMask).
Proof. split; [exact good23|reflexivity]. Qed.
(** All the samples masked: the result has no dimension and the mask of the argument. *)
Theorem C74_all_masked_refuted : exists h (t : tod Z) h' r, good h t /\ np_reduce (-1) (fold_right Z.add 0) [[0; 1]] [] h t = Ok (h', r) /\
  t_shape r = [] /\ ~ good h' r /\ exists m, t_mask r = Mask m /\ m_shape m = [2].
Proof.
  exists [[true; true]], (Tod [2] [1; 2] (Mask (MArr 0 [2] [0; 1]))). eexists. eexists.
  split; [good_tac|].
  split; [reflexivity|]. split; [reflexivity|]. split; [intros [_ [_ [_ S]]]; discriminate|]. eexists. split; reflexivity.
Qed.
Print Assumptions C74_all_masked_refuted.
(** t.sum() counts the masked samples, and differs from np.sum(t). *)
Theorem C74_method_refuted : exists h (t : tod Z) r, good h t /\ method_reduce (fold_right Z.add 0) [[0; 1; 2]] [] t = Ok r /\
  np_reduce (-1) (fold_right Z.add 0) [[0; 1; 2]] [] h t = Ok (h, Tod [] [50] NoMask) /\ t_data r = [60] /\ ~ good h r.
Proof.
  exists heap3, tod3. eexists. split; [exact good3|]. split; [reflexivity|]. split; [reflexivity|]. split; [reflexivity|].
  intros [_ [_ [_ S]]]. discriminate.
Qed.
Print Assumptions C74_method_refuted.
(** Universal functions of two Tod of one shape, the second one without mask. *)
Theorem C74_ufunc : forall E (f : E -> E -> E) h (a b : tod E), good h a -> good h b -> t_shape a = t_shape b -> t_mask b = NoMask ->
  good h (ufunc2 f a b) /\ forall j x y, nth_error (t_data a) j = Some x -> nth_error (t_data b) j = Some y ->
  nth_error (t_data (ufunc2 f a b)) j = Some (f x y) /\
  (masked h (ufunc2 f a b) j = Some true <-> masked h a j = Some true \/ masked h b j = Some true).
Proof.
  intros E f h a b [GS [GD GM]] [_ [HD _]] S NB.
  assert (L : length (t_data a) = length (t_data b)) by (rewrite <- S, <- GD in HD; unfold zlen in HD; lia).
  assert (L2 : length (t_data (ufunc2 f a b)) = length (t_data a)) by (cbn; rewrite map_length, combine_length; lia).
  assert (K : forall l1 l2 : list E, forall j x y, nth_error l1 j = Some x -> nth_error l2 j = Some y -> nth_error (combine l1 l2) j = Some (x, y)).
  { induction l1 as [|u l1 IH]; intros [|w l2] [|j] x y; cbn [nth_error combine]; try discriminate; [congruence|apply IH]. }
  split.
  - split; [exact GS|]. split; [unfold zlen in *; rewrite L2; exact GD|exact GM].
  - intros j x y X Y. split; [cbn; rewrite nth_error_map, (K _ _ j x y X Y); reflexivity|].
    assert (M : masked h (ufunc2 f a b) j = masked h a j).
    { unfold masked. rewrite L2. reflexivity. }
    rewrite M. split; [now left|]. intros [A|B]; [exact A|]. unfold masked in B. rewrite NB in B. destruct (j <? length (t_data b))%nat; discriminate.
Qed.
Print Assumptions C74_ufunc.
Example C74_ufunc_case : good heap3 tod3 /\ good heap3 (Tod [3] [1; 2; 3] NoMask) /\ ufunc2 Z.add tod3 (Tod [3] [1; 2; 3] NoMask) = Tod [3] [11; 22; 33] (Mask mask3).
Proof. split; [exact good3|]. split; [good_tac|reflexivity]. Qed.
(** The mask of the second one is lost; that of a result of another shape is of the wrong shape. *)
Theorem C74_second_mask_refuted : exists h (a b : tod Z), good h a /\ good h b /\ t_shape a = t_shape b /\
  masked h b 1 = Some true /\ masked h (ufunc2 Z.add a b) 1 = Some false.
Proof.
  exists [[false; true]], (Tod [2] [1; 2] NoMask), (Tod [2] [3; 4] (Mask (MArr 0 [2] [0; 1]))).
  split; [good_tac|].
  split; [good_tac|].
  repeat split.
Qed.
Print Assumptions C74_second_mask_refuted.
Theorem C74_broadcast_refuted : exists h (t : tod Z), good h t /\ ~ good h (ufunc_result t [2; 3] [11; 22; 33; 14; 25; 36]).
Proof. exists heap3, tod3. split; [exact good3|]. intros [_ [_ [_ S]]]. discriminate. Qed.
Print Assumptions C74_broadcast_refuted.
(** sort unmasks the samples. *)
Theorem C74_sort_refuted : exists h (t : tod Z), good h t /\ masked h t 0 = Some true /\ t_data (sort_tod t [10; 20; 30]) = t_data t /\
  forall j, (j < 3)%nat -> masked h (sort_tod t [10; 20; 30]) j = Some false.
Proof.
  exists heap3, tod3. split; [exact good3|]. split; [reflexivity|]. split; [reflexivity|]. intros [|[|[|j]]] J; try reflexivity. lia.
Qed.
Print Assumptions C74_sort_refuted.
