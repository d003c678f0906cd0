(** C139: arrays of positions and of pixels. *)
From Coq Require Import Reals Lra String Ascii.
From Verif Require Import Base BaseFacts TemplateModel HpModel HpSpec HpProps WcsModel WcsProps CoordModel.
Open Scope R_scope.

Definition full (a : array) : Prop := length (a_data a) = size (a_shape a).

(** ** Arrays *)
Lemma size_app s t : size (s ++ t) = (size s * size t)%nat.
Proof. unfold size. induction s as [|n s IH]; cbn [app fold_right]; [lia|]. rewrite IH. lia. Qed.

Lemma flat_length {A} (f : A -> list R) d l : (forall x, length (f x) = d) -> length (flat_map f l) = (length l * d)%nat.
Proof. intros H. induction l as [|x l IH]; [reflexivity|]. cbn [flat_map length]. rewrite app_length, IH, H. lia. Qed.

Lemma flat_nth {A} (f : A -> list R) d l : (forall x, length (f x) = d) -> forall i k x, nth_error l i = Some x -> (k < d)%nat -> nth_error (flat_map f l) (d * i + k) = nth_error (f x) k.
Proof.
  intros H. induction l as [|y l IH]; intros [|i] k x E Hk; cbn [nth_error flat_map] in *; try discriminate E.
  - injection E as ->. rewrite Nat.mul_0_r, Nat.add_0_l. apply nth_error_app1. rewrite H. exact Hk.
  - rewrite nth_error_app2 by (rewrite H; nia). replace (d * S i + k - length (f y))%nat with (d * i + k)%nat by (rewrite H; nia). now apply IH.
Qed.

Lemma groups_flat {A} (f : A -> list R) d l : (forall x, length (f x) = d) -> groups d (length l) (flat_map f l) = map f l.
Proof.
  intros H. unfold groups. induction l as [|x l IH]; [reflexivity|]. cbn [length seq map flat_map]. rewrite Nat.mul_0_r. cbn [skipn]. f_equal.
  - rewrite firstn_app, H, Nat.sub_diag, firstn_O, app_nil_r. rewrite <- (H x). apply firstn_all.
  - rewrite <- seq_shift, map_map. rewrite <- IH. apply map_ext. intros i. f_equal. rewrite skipn_app, H.
    rewrite (skipn_all2 (f x)) by (rewrite H; nia). cbn [app]. f_equal. nia.
Qed.

Lemma groups_nth d n l i : (i < n)%nat -> nth_error (groups d n l) i = Some (firstn d (skipn (d * i) l)).
Proof. intros Hi. unfold groups. rewrite nth_error_map, (nth_error_nth' _ O) by (now rewrite seq_length). rewrite seq_nth by exact Hi. reflexivity. Qed.

Lemma groups_concat d n l : length l = (d * n)%nat -> concat (groups d n l) = l.
Proof.
  unfold groups. revert l. induction n as [|n IH]; intros l Hl.
  - rewrite Nat.mul_0_r in Hl. destruct l; [reflexivity|discriminate Hl].
  - cbn [seq map concat]. rewrite Nat.mul_0_r. cbn [skipn]. rewrite <- (firstn_skipn d l) at 2. f_equal. rewrite <- (IH (skipn d l)) by (rewrite skipn_length; nia).
    rewrite <- seq_shift, map_map. f_equal. apply map_ext. intros i. f_equal. replace (d * S i)%nat with (d + d * i)%nat by nia.
    clear. revert l. induction d as [|d IHd] using nat_ind; intros l; [reflexivity|]. revert l.
    assert (G : forall a b (l : list R), skipn (a + b) l = skipn b (skipn a l)). { induction a; intros b [|x l]; cbn; try reflexivity; [now destruct b|apply IHa]. }
    intros l. apply G.
Qed.

Lemma groups_length d n l x : length l = (d * n)%nat -> In x (groups d n l) -> length x = d.
Proof. intros Hl Hx. unfold groups in Hx. apply in_map_iff in Hx. destruct Hx as (i & <- & Hi). apply in_seq in Hi. rewrite firstn_length, skipn_length. nia. Qed.

Lemma to_int_IZR p : to_int (IZR p) = p.
Proof.
  assert (I : forall n, Int_part (IZR n) = n). { intros n. unfold Int_part. symmetry. replace (up (IZR n)) with (n + 1)%Z; [lia|]. apply tech_up; rewrite plus_IZR; lra. }
  unfold to_int. destruct (Rlt_dec (IZR p) 0); [rewrite <- opp_IZR, I; lia|apply I].
Qed.

Lemma last_app_one (s : list nat) d : last (s ++ [d]) 0%nat = d.
Proof. induction s as [|x [|y s] IH]; try reflexivity. cbn [app last] in *. exact IH. Qed.

Lemma validate_iff d shape : validate d shape = Ok tt <-> exists s, shape = s ++ [d].
Proof.
  split.
  - destruct shape as [|x s]; [discriminate|]. unfold validate. destruct (Nat.eqb_spec (last (x :: s) 0%nat) d) as [E|]; [|discriminate]. intros _.
    exists (removelast (x :: s)). rewrite <- E. apply app_removelast_last. discriminate.
  - intros [s ->]. unfold validate. rewrite last_app_one, Nat.eqb_refl. destruct s; reflexivity.
Qed.
Lemma validate_err d shape : (forall s, shape <> s ++ [d]) -> validate d shape = Err ValueError.
Proof.
  intros H. destruct (validate d shape) as [[]|e] eqn:E; [apply validate_iff in E; destruct E as [s E]; now elim (H s)|].
  unfold validate in E. destruct shape; [congruence|]. destruct (_ =? _)%nat; congruence.
Qed.

(** What the operators have in common.  Positions are accepted exactly if the last dimension is that of the positions. *)
Lemma positions_of d f a : (forall x, length (f x) = d) -> full a -> let b := to_positions d f a in a_shape b = a_shape a ++ [d] /\ full b /\
  forall i k x, nth_error (a_data a) i = Some x -> (k < d)%nat -> nth_error (a_data b) (d * i + k) = nth_error (f x) k.
Proof.
  intros Hf Ha b. split; [reflexivity|]. split; [|intros i k x; now apply flat_nth].
  unfold full, b, to_positions. cbn [a_shape a_data]. rewrite (flat_length f d), size_app, Ha by exact Hf. cbn [size fold_right]. lia.
Qed.
Lemma numbers_of d g s l : length l = (size s * d)%nat -> exists r, to_numbers d g (Array (s ++ [d]) l) = Ok (Array s r) /\ length r = size s /\
  forall i, (i < size s)%nat -> nth_error r i = Some (g (firstn d (skipn (d * i) l))).
Proof.
  intros Hl. unfold to_numbers. cbn [a_shape a_data]. rewrite (proj2 (validate_iff d (s ++ [d]))) by (now exists s). cbn [bind]. rewrite removelast_last.
  eexists. split; [reflexivity|]. split; [unfold groups; now rewrite !map_length, seq_length|]. intros i Hi. rewrite nth_error_map, groups_nth by exact Hi. reflexivity.
Qed.
Lemma numbers_err d g a : (forall s, a_shape a <> s ++ [d]) -> to_numbers d g a = Err ValueError.
Proof. intros H. unfold to_numbers. now rewrite validate_err. Qed.
Lemma numbers_positions d f g a : (forall x, length (f x) = d) -> full a -> (forall x, In x (a_data a) -> g (f x) = x) -> to_numbers d g (to_positions d f a) = Ok a.
Proof.
  intros Hf Ha H. unfold to_numbers, to_positions. cbn [a_shape a_data]. rewrite (proj2 (validate_iff d _)) by (now exists (a_shape a)). cbn [bind]. rewrite removelast_last.
  rewrite <- Ha, (groups_flat f d) by exact Hf. rewrite map_map. destruct a as [s l]. cbn [a_data a_shape] in *. do 2 f_equal. rewrite <- (map_id l) at 2. now apply map_ext_in.
Qed.
Lemma moved d f s l : (forall x, length x = d -> length (f x) = d) -> length l = (size s * d)%nat ->
  exists r, move d f (Array (s ++ [d]) l) = Ok (Array (s ++ [d]) r) /\ length r = length l /\ groups d (size s) r = map f (groups d (size s) l).
Proof.
  intros Hf Hl. unfold move. cbn [a_shape a_data]. rewrite (proj2 (validate_iff d (s ++ [d]))) by (now exists s). cbn [bind]. rewrite removelast_last.
  eexists. split; [reflexivity|].
  assert (G : forall x, In x (groups d (size s) l) -> length (f x) = d) by (intros x Hx; apply Hf; eapply groups_length; [|exact Hx]; lia).
  set (f' := fun x => if (length (f x) =? d)%nat then f x else repeat 0 d).
  assert (F : forall x, length (f' x) = d). { intros x. unfold f'. destruct (Nat.eqb_spec (length (f x)) d); [assumption|apply repeat_length]. }
  assert (E : flat_map f (groups d (size s) l) = flat_map f' (groups d (size s) l)).
  { rewrite !flat_map_concat_map. f_equal. apply map_ext_in. intros x Hx. unfold f'. now rewrite (G x Hx), Nat.eqb_refl. }
  rewrite E. assert (N : length (groups d (size s) l) = size s) by (unfold groups; now rewrite map_length, seq_length). split.
  - rewrite (flat_length f' d) by exact F. lia.
  - rewrite <- N at 1. rewrite (groups_flat f' d) by exact F. apply map_ext_in. intros x Hx. unfold f'. now rewrite (G x Hx), Nat.eqb_refl.
Qed.
Lemma moved_err d f a : (forall s, a_shape a <> s ++ [d]) -> move d f a = Err ValueError.
Proof. intros H. unfold move. now rewrite validate_err. Qed.
Lemma moved_back d f g s l : (forall x, length x = d -> length (f x) = d) -> length l = (size s * d)%nat -> (forall x, In x (groups d (size s) l) -> g (f x) = x) ->
  exists b, move d f (Array (s ++ [d]) l) = Ok b /\ move d g b = Ok (Array (s ++ [d]) l).
Proof.
  intros Hf Hl H. destruct (moved d f s l Hf Hl) as (r & E & Lr & G). exists (Array (s ++ [d]) r). split; [exact E|].
  unfold move. cbn [a_shape a_data]. rewrite (proj2 (validate_iff d (s ++ [d]))) by (now exists s). cbn [bind]. rewrite removelast_last, G, flat_map_concat_map, map_map.
  rewrite (map_ext_in _ (fun x => x)) by exact H. rewrite map_id, groups_concat by lia. reflexivity.
Qed.

(** ** Pixels of Healpix *)
Section H.
Context (pix2vec : Z -> bool -> Z -> R * R * R) (vec2pix : Z -> bool -> R * R * R -> Z).
Context (pix2ang : Z -> bool -> Z -> R * R) (ang2pix : Z -> bool -> R * R -> Z).

Lemma triple_length p : length (triple p) = 3%nat. Proof. now destruct p as [[x y] z]. Qed.
Lemma untriple_triple p : untriple (triple p) = p. Proof. now destruct p as [[x y] z]. Qed.
Lemma unpair_pair p : unpair (pair_list p) = p. Proof. now destruct p. Qed.

(** An array of pixels of any shape: the three coordinates of the pixel i are the elements 3 i, 3 i + 1 and 3 i + 2, that is
    the last dimension. *)
Theorem C139_vectors o a : full a -> let b := healpix2cartesian pix2vec o a in a_shape b = a_shape a ++ [3%nat] /\ full b /\
  forall i p x y z, nth_error (a_data a) i = Some (IZR p) -> pix2vec (c_nside o) (c_nest o) p = (x, y, z) ->
  nth_error (a_data b) (3 * i) = Some x /\ nth_error (a_data b) (3 * i + 1) = Some y /\ nth_error (a_data b) (3 * i + 2) = Some z.
Proof.
  intros Ha b. destruct (positions_of 3 (fun x => triple (pix2vec (c_nside o) (c_nest o) (to_int x))) a (fun x => triple_length _) Ha) as (S & F & N). split; [exact S|]. split; [exact F|].
  intros i p x y z Hi Hp. pose proof (N i 0%nat _ Hi ltac:(lia)) as N0. pose proof (N i 1%nat _ Hi ltac:(lia)) as N1. pose proof (N i 2%nat _ Hi ltac:(lia)) as N2. rewrite to_int_IZR, Hp in N0, N1, N2. rewrite Nat.add_0_r in N0. now repeat split.
Qed.
(** Arrays of vectors: exactly those whose last dimension is 3. *)
Theorem C139_vector_pixels o : (forall s l, length l = (size s * 3)%nat -> exists r, cartesian2healpix vec2pix o (Array (s ++ [3%nat]) l) = Ok (Array s r) /\ length r = size s /\
    forall i x y z, nth_error l (3 * i) = Some x -> nth_error l (3 * i + 1) = Some y -> nth_error l (3 * i + 2) = Some z -> nth_error r i = Some (IZR (vec2pix (c_nside o) (c_nest o) (x, y, z)))) /\
  (forall a, (forall s, a_shape a <> s ++ [3%nat]) -> cartesian2healpix vec2pix o a = Err ValueError).
Proof.
  split; [|intros a H; now apply numbers_err].
  intros s l Hl. destruct (numbers_of 3 (fun l => IZR (vec2pix (c_nside o) (c_nest o) (untriple l))) s l Hl) as (r & E & Lr & H). exists r. split; [exact E|]. split; [exact Lr|].
  intros i x y z Hx Hy Hz. assert (Hi : (3 * i + 2 < length l)%nat) by (apply nth_error_Some; congruence). rewrite H by lia. do 3 f_equal.
  assert (G : forall (a : list R) k j, nth_error (skipn k a) j = nth_error a (k + j)). { induction a as [|u a IH]; intros [|k] j; cbn; try reflexivity; [now destruct j|apply IH]. }
  pose proof (G l (3 * i)%nat 0%nat) as G0. pose proof (G l (3 * i)%nat 1%nat) as G1. pose proof (G l (3 * i)%nat 2%nat) as G2. rewrite Nat.add_0_r, Hx in G0. rewrite Hy in G1. rewrite Hz in G2.
  destruct (skipn (3 * i) l) as [|a0 [|a1 [|a2 r']]]; try discriminate. cbn in G0, G1, G2. injection G0 as ->. injection G1 as ->. injection G2 as ->. reflexivity.
Qed.
(** The pixels come back. *)
Theorem C139_vectors_back o a : full a -> (forall x, In x (a_data a) -> exists p, x = IZR p /\ vec2pix (c_nside o) (c_nest o) (pix2vec (c_nside o) (c_nest o) p) = p) ->
  cartesian2healpix vec2pix o (healpix2cartesian pix2vec o a) = Ok a.
Proof.
  intros Ha H. apply numbers_positions; [intros x; apply triple_length|exact Ha|]. intros x Hx. destruct (H x Hx) as (p & -> & E). now rewrite untriple_triple, to_int_IZR, E.
Qed.
(** Inverses, and the composition replaced by the identity. *)
Theorem C139_vector_rules o1 o2 : inverse_cartesian (inverse_cartesian o1) = o1 /\ (forall o, inverse_cartesian (ToVectors o) = ToPixels o) /\
  (compose_cartesian o1 o2 = None <-> o2 = inverse_cartesian o1) /\ (forall q, compose_cartesian o1 o2 = Some q -> q = (o1, o2)).
Proof.
  assert (S : forall a b, same_pixels a b = true <-> a = b).
  { intros [n b] [n' b']. unfold same_pixels. cbn. rewrite andb_true_iff, Z.eqb_eq, eqb_true_iff. split; [intros [-> ->]; reflexivity|intros [= -> ->]; now split]. }
  split; [now destruct o1|]. split; [reflexivity|]. split.
  - destruct o1 as [a|a], o2 as [b|b]; cbn [compose_cartesian inverse_cartesian]; try (split; discriminate).
    + destruct (same_pixels a b) eqn:E; [apply S in E; subst; split; reflexivity|]. split; [discriminate|]. intros [= ->]. rewrite (proj2 (S a a) eq_refl) in E. discriminate.
    + destruct (same_pixels a b) eqn:E; [apply S in E; subst; split; reflexivity|]. split; [discriminate|]. intros [= ->]. rewrite (proj2 (S a a) eq_refl) in E. discriminate.
  - intros q. destruct o1 as [a|a], o2 as [b|b]; cbn [compose_cartesian]; try (now intros [= <-]); destruct (same_pixels a b); congruence.
Qed.
(** The composition that gives vectors is replaced too, although it moves vectors to the centres of pixels. *)
Theorem C139_vectors_refuted o v v' : v <> v' -> vec2pix (c_nside o) (c_nest o) v = vec2pix (c_nside o) (c_nest o) v' ->
  compose_cartesian (ToVectors o) (ToPixels o) = None /\
  exists w p, (w = v \/ w = v') /\ cartesian2healpix vec2pix o (Array [3%nat] (triple w)) = Ok p /\ healpix2cartesian pix2vec o p <> Array [3%nat] (triple w).
Proof.
  intros Hv He. split; [apply (proj1 (proj2 (proj2 (C139_vector_rules (ToVectors o) (ToPixels o))))); reflexivity|].
  assert (C : forall w, cartesian2healpix vec2pix o (Array [3%nat] (triple w)) = Ok (Array [] [IZR (vec2pix (c_nside o) (c_nest o) w)])) by (intros [[x y] z]; reflexivity).
  assert (D : forall w, healpix2cartesian pix2vec o (Array [] [IZR (vec2pix (c_nside o) (c_nest o) w)]) = Array [3%nat] (triple (pix2vec (c_nside o) (c_nest o) (vec2pix (c_nside o) (c_nest o) w)))).
  { intros w. unfold healpix2cartesian, to_positions. cbn [a_shape a_data app flat_map]. now rewrite to_int_IZR, app_nil_r. }
  assert (S : forall x y : R * R * R, {x = y} + {x <> y}) by (intros [[a b] c] [[a' b'] c']; destruct (Req_EM_T a a'), (Req_EM_T b b'), (Req_EM_T c c'); subst; (now left) || (right; congruence)).
  destruct (S (pix2vec (c_nside o) (c_nest o) (vec2pix (c_nside o) (c_nest o) v)) v) as [E|E].
  - exists v', (Array [] [IZR (vec2pix (c_nside o) (c_nest o) v')]). split; [now right|]. split; [apply C|]. rewrite D, <- He, E. intros [= F]. apply Hv. now rewrite <- (untriple_triple v), <- (untriple_triple v'), F.
  - exists v, (Array [] [IZR (vec2pix (c_nside o) (c_nest o) v)]). split; [now left|]. split; [apply C|]. rewrite D. intros [= F]. apply E. rewrite <- (untriple_triple (pix2vec _ _ _)), F. apply untriple_triple.
Qed.

(** Angles: the last dimension is 2, in the order of the convention (HpSpec.coords). *)
Theorem C139_angles o a : full a -> let b := healpix2spherical_array pix2ang o a in a_shape b = a_shape a ++ [2%nat] /\ full b /\
  forall i p, nth_error (a_data a) i = Some (IZR p) -> let c := coords (conv o) (pix2ang (nside o) (nest o) p) in
  nth_error (a_data b) (2 * i) = Some (fst c) /\ nth_error (a_data b) (2 * i + 1) = Some (snd c).
Proof.
  intros Ha b. destruct (positions_of 2 (fun x => pair_list (healpix2spherical pix2ang o (to_int x))) a (fun x => eq_refl) Ha) as (S & F & N). split; [exact S|]. split; [exact F|].
  intros i p Hi c. pose proof (N i 0%nat _ Hi ltac:(lia)) as N0. pose proof (N i 1%nat _ Hi ltac:(lia)) as N1. rewrite to_int_IZR, (proj2 (C87_coordinates pix2ang ang2pix o)) in N0, N1. rewrite Nat.add_0_r in N0. now split.
Qed.
Theorem C139_angle_pixels o : (forall s l, length l = (size s * 2)%nat -> exists r, spherical2healpix_array ang2pix o (Array (s ++ [2%nat]) l) = Ok (Array s r) /\ length r = size s /\
    forall i d, nth_error l (2 * i) = Some (fst (coords (conv o) d)) -> nth_error l (2 * i + 1) = Some (snd (coords (conv o) d)) -> nth_error r i = Some (IZR (ang2pix (nside o) (nest o) d))) /\
  (forall a, (forall s, a_shape a <> s ++ [2%nat]) -> spherical2healpix_array ang2pix o a = Err ValueError).
Proof.
  split; [|intros a H; now apply numbers_err].
  intros s l Hl. destruct (numbers_of 2 (fun l => IZR (spherical2healpix ang2pix o (unpair l))) s l Hl) as (r & E & Lr & H). exists r. split; [exact E|]. split; [exact Lr|].
  intros i d Hx Hy. assert (Hi : (2 * i + 1 < length l)%nat) by (apply nth_error_Some; congruence). rewrite H by lia. do 2 f_equal.
  assert (G : forall (a : list R) k j, nth_error (skipn k a) j = nth_error a (k + j)). { induction a as [|u a IH]; intros [|k] j; cbn; try reflexivity; [now destruct j|apply IH]. }
  pose proof (G l (2 * i)%nat 0%nat) as G0. pose proof (G l (2 * i)%nat 1%nat) as G1. rewrite Nat.add_0_r, Hx in G0. rewrite Hy in G1.
  destruct (skipn (2 * i) l) as [|a0 [|a1 r']]; try discriminate. cbn in G0, G1. injection G0 as ->. injection G1 as ->. cbn [firstn unpair nth].
  change (unpair [fst (coords (conv o) d); snd (coords (conv o) d)]) with (fst (coords (conv o) d), snd (coords (conv o) d)). rewrite <- surjective_pairing. apply (proj1 (C87_coordinates pix2ang ang2pix o)).
Qed.
Theorem C139_angles_back o a : full a -> (forall x, In x (a_data a) -> exists p, x = IZR p /\ ang2pix (nside o) (nest o) (pix2ang (nside o) (nest o) p) = p) ->
  spherical2healpix_array ang2pix o (healpix2spherical_array pix2ang o a) = Ok a.
Proof.
  intros Ha H. apply numbers_positions; [reflexivity|exact Ha|]. intros x Hx. destruct (H x Hx) as (p & -> & E). rewrite unpair_pair, to_int_IZR.
  now rewrite (proj2 (C87_coordinates pix2ang ang2pix o)), (proj1 (C87_coordinates pix2ang ang2pix o)), E.
Qed.
End H.
Print Assumptions C139_vectors. Print Assumptions C139_vector_pixels. Print Assumptions C139_vectors_back. Print Assumptions C139_vector_rules. Print Assumptions C139_vectors_refuted.
Print Assumptions C139_angles. Print Assumptions C139_angle_pixels. Print Assumptions C139_angles_back.

Example C139_vectors_case : let o := Cartesian 1 true in let p2v (n : Z) (b : bool) (p : Z) := (IZR p, IZR p + 1, 7) in
  healpix2cartesian p2v o (Array [2; 1]%nat [3; 4]) = Array [2; 1; 3]%nat [3; 3 + 1; 7; 4; 4 + 1; 7] /\ full (Array [2; 1]%nat [3; 4]) /\
  cartesian2healpix (fun _ _ v => up (fst (fst v) - 1)) o (healpix2cartesian p2v o (Array [2; 1]%nat [3; 4])) = Ok (Array [2; 1]%nat [3; 4]).
Proof.
  cbv zeta. split; [|split; [reflexivity|]].
  - unfold healpix2cartesian, to_positions. cbn [a_shape a_data app flat_map]. rewrite (to_int_IZR 3), (to_int_IZR 4). reflexivity.
  - apply C139_vectors_back; [reflexivity|]. cbn [a_data In]. assert (U : forall p, up (IZR p - 1) = p). { intros p. symmetry. apply tech_up; lra. }
    intros x [<-|[<-|[]]]; [exists 3%Z|exists 4%Z]; cbn [fst]; now rewrite U.
Qed.

(** ** World coordinates *)
(** Positions of any array, with the given origin; the inverse has the same header and origin, and gives the positions back where
    the transform of the library can be inverted. *)
Theorem C139_world {W} (w2p p2w : W -> Z -> R * R -> R * R) op : let f := match op with WorldToPixel w o => w2p w o | PixelToWorld w o => p2w w o end in
  (forall s l, length l = (size s * 2)%nat -> exists r, world_direct w2p p2w op (Array (s ++ [2%nat]) l) = Ok (Array (s ++ [2%nat]) r) /\ length r = length l /\
    forall i, (i < size s)%nat -> (nth (2 * i) r 0, nth (2 * i + 1) r 0) = f (nth (2 * i) l 0, nth (2 * i + 1) l 0)) /\
  (forall a, (forall s, a_shape a <> s ++ [2%nat]) -> world_direct w2p p2w op a = Err ValueError).
Proof.
  intros f. assert (E : forall a, world_direct w2p p2w op a = move 2 (fun l => pair_list (f (unpair l))) a) by (intros a; destruct op; reflexivity).
  split; [|intros a H; rewrite E; now apply moved_err].
  intros s l Hl. rewrite E. destruct (moved 2 (fun l => pair_list (f (unpair l))) s l (fun x _ => eq_refl) Hl) as (r & Er & Lr & G). exists r. split; [exact Er|]. split; [exact Lr|].
  intros i Hi. assert (N : forall a j, length a = (size s * 2)%nat -> (j < size s)%nat -> nth_error (groups 2 (size s) a) j = Some [nth (2 * j) a 0; nth (2 * j + 1) a 0]).
  { intros a j Ha Hj. rewrite groups_nth by exact Hj. f_equal.
    assert (K : forall (b : list R) k q, nth q (skipn k b) 0 = nth (k + q) b 0). { induction b as [|u b IH]; intros [|k] q; cbn; try reflexivity; [now destruct q|apply IH]. }
    pose proof (K a (2 * j)%nat 0%nat) as K0. pose proof (K a (2 * j)%nat 1%nat) as K1. rewrite Nat.add_0_r in K0. assert (Ls : (2 <= length (skipn (2 * j) a))%nat) by (rewrite skipn_length; lia).
    destruct (skipn (2 * j) a) as [|a0 [|a1 b]]; cbn [length] in Ls; try lia. cbn [nth firstn] in *. now rewrite K0, K1. }
  pose proof (f_equal (fun g => nth_error g i) G) as X. cbv beta in X. rewrite nth_error_map, (N r i), (N l i) in X by (lia || exact Hi). cbn [option_map] in X. unfold pair_list in X. injection X as X0 X1.
  change (unpair [nth (2 * i) l 0; nth (2 * i + 1) l 0]) with (nth (2 * i) l 0, nth (2 * i + 1) l 0) in X0, X1.
  rewrite (surjective_pairing (f _)). f_equal; [transitivity (nth (i + (i + 0)) r 0); [reflexivity|]|]; assumption.
Qed.
Print Assumptions C139_world.
Theorem C139_world_back {W} (w2p p2w : W -> Z -> R * R -> R * R) op s l : length l = (size s * 2)%nat -> world_inverse (world_inverse op) = op /\
  ((forall x, In x (groups 2 (size s) l) -> match op with WorldToPixel w o => p2w w o (w2p w o (unpair x)) = unpair x | PixelToWorld w o => w2p w o (p2w w o (unpair x)) = unpair x end) ->
   exists b, world_direct w2p p2w op (Array (s ++ [2%nat]) l) = Ok b /\ world_direct w2p p2w (world_inverse op) b = Ok (Array (s ++ [2%nat]) l)).
Proof.
  intros Hl. split; [now destruct op|]. intros H.
  assert (P : forall x, In x (groups 2 (size s) l) -> pair_list (unpair x) = x).
  { intros x Hx. assert (Lx : length x = 2%nat) by (eapply groups_length; [|exact Hx]; lia). destruct x as [|u [|v [|? ?]]]; try discriminate Lx. reflexivity. }
  destruct op as [w o|w o]; cbn [world_inverse world_direct] in *.
  - apply moved_back; [reflexivity|exact Hl|]. intros x Hx. rewrite unpair_pair, H by exact Hx. now apply P.
  - apply moved_back; [reflexivity|exact Hl|]. intros x Hx. rewrite unpair_pair, H by exact Hx. now apply P.
Qed.
Print Assumptions C139_world_back.
Theorem C139_kapteyn {W} (topixel toworld : W -> R * R -> R * R) op : 
  (forall a, kapteyn_direct topixel toworld op a = world_direct (fun w _ => topixel w) (fun w _ => toworld w) (match op with KToPixel w => WorldToPixel w 1 | KToWorld w => PixelToWorld w 1 end) a) /\
  kapteyn_inverse (kapteyn_inverse op) = op /\ (forall w : W, kapteyn_inverse (KToPixel w) = KToWorld w).
Proof. split; [intros a; now destruct op|]. split; [now destruct op|reflexivity]. Qed.
Print Assumptions C139_kapteyn.
(** A linear transform, from the pixel (1, 1). *)
Example C139_world_case : let w2p (w : R) (o : Z) (x : R * R) := (fst x * w + IZR o, snd x * w + IZR o) in let p2w (w : R) (o : Z) (x : R * R) := ((fst x - IZR o) / w, (snd x - IZR o) / w) in
  exists b, world_direct w2p p2w (WorldToPixel 2 1) (Array [2; 2]%nat [0; 1; 2; 3]) = Ok b /\ a_data b = [0 * 2 + 1; 1 * 2 + 1; 2 * 2 + 1; 3 * 2 + 1] /\
  world_direct w2p p2w (world_inverse (WorldToPixel 2 1)) b = Ok (Array [2; 2]%nat [0; 1; 2; 3]).
Proof.
  intros w2p p2w. destruct (proj2 (C139_world_back w2p p2w (WorldToPixel 2 1) [2%nat] [0; 1; 2; 3] eq_refl)) as (b & E & B).
  - intros x _. unfold w2p, p2w. destruct (unpair x) as [u v]. cbn [fst snd]. f_equal; field.
  - exists b. split; [exact E|]. split; [|exact B]. cbn in E. injection E as <-. reflexivity.
Qed.

(** ** Boresight *)
(** The output has the shape of the pointings followed by that of the input: the position of the pointing i and of the detector j. *)
Theorem C139_boresight garbage names ps ptg s l : length ptg = size ps -> length l = (size s * 2)%nat ->
  exists r, boresight_direct garbage (Pointing names ps ptg) (Array (s ++ [2%nat]) l) = Ok (Array (ps ++ s ++ [2%nat]) r) /\ length r = (size ps * (size s * 2))%nat /\
  forall i j ra dec pa, nth_error ptg i = Some (ra, dec, pa) -> (j < size s)%nat ->
    (nth ((i * size s + j) * 2) r 0, nth ((i * size s + j) * 2 + 1) r 0) = object2ad ra dec pa (nth (j * 2) l 0, nth (j * 2 + 1) l 0).
Proof.
  intros Hp Hl. unfold boresight_direct. cbn [a_shape a_data p_shape p_data]. rewrite last_app_one, removelast_last.
  assert (M : forall A (x y : A), match s ++ [2%nat] with [] => x | _ :: _ => y end = y) by (intros; now destruct s). rewrite M. change (2 <? 2)%nat with false. cbv iota.
  eexists. split; [reflexivity|].
  set (g := fun q => flat_map (boresight_position garbage q) (groups 2 (size s) l)).
  assert (N : length (groups 2 (size s) l) = size s) by (unfold groups; now rewrite map_length, seq_length).
  assert (B : forall q x, length x = 2%nat -> boresight_position garbage q x = let '(ra, dec, pa) := q in pair_list (object2ad ra dec pa (nth 0 x 0, nth 1 x 0))).
  { intros [[ra dec] pa] x Hx. unfold boresight_position. rewrite Hx, (proj1 (C66_boresight ra dec pa (nth 0 x 0) (nth 1 x 0))). unfold pair_list. do 2 f_equal. rewrite skipn_all2; [reflexivity|]. rewrite firstn_length. lia. }
  set (h := fun (q : R * R * R) (x : list R) => let '(ra, dec, pa) := q in pair_list (object2ad ra dec pa (nth 0 x 0, nth 1 x 0))).
  assert (H : forall q, g q = flat_map (h q) (groups 2 (size s) l)).
  { intros q. unfold g. rewrite !flat_map_concat_map. f_equal. apply map_ext_in. intros x Hx. apply B. eapply groups_length; [|exact Hx]. lia. }
  assert (L2 : forall q x, length (h q x) = 2%nat) by (intros [[ra dec] pa] x; reflexivity).
  assert (Lg : forall q, length (g q) = (size s * 2)%nat) by (intros q; rewrite H, (flat_length (h q) 2), N by apply L2; reflexivity).
  split; [rewrite (flat_length g (size s * 2)), Hp by exact Lg; reflexivity|].
  intros i j ra dec pa Hi Hj.
  assert (K : forall k, (k < 2)%nat -> nth_error (flat_map g ptg) ((i * size s + j) * 2 + k) = nth_error (pair_list (object2ad ra dec pa (nth (j * 2) l 0, nth (j * 2 + 1) l 0))) k).
  { intros k Hk. replace ((i * size s + j) * 2 + k)%nat with (size s * 2 * i + (2 * j + k))%nat by nia. rewrite (flat_nth g (size s * 2) ptg Lg i _ _ Hi) by nia. rewrite H.
    rewrite (flat_nth (h (ra, dec, pa)) 2 _ (L2 _) j k (firstn 2 (skipn (2 * j) l))) by (lia || now apply groups_nth). unfold h. f_equal. f_equal. f_equal.
    assert (Z0 : forall (b : list R) m q, nth q (skipn m b) 0 = nth (m + q) b 0). { induction b as [|u b IH]; intros [|m] q; cbn; try reflexivity; [now destruct q|apply IH]. }
    pose proof (Z0 l (2 * j)%nat 0%nat) as K0. pose proof (Z0 l (2 * j)%nat 1%nat) as K1. rewrite Nat.add_0_r in K0. assert (Ls : (2 <= length (skipn (2 * j) l))%nat) by (rewrite skipn_length; lia).
    destruct (skipn (2 * j) l) as [|a0 [|a1 b]]; cbn [length] in Ls; try lia. cbn [nth firstn] in *. rewrite K0, K1. f_equal; f_equal; lia. }
  pose proof (K 0%nat ltac:(lia)) as K0. pose proof (K 1%nat ltac:(lia)) as K1. rewrite Nat.add_0_r in K0. unfold pair_list in K0, K1. cbn [nth_error] in K0, K1. fold g.
  rewrite (nth_error_nth _ _ 0 K0), (nth_error_nth _ _ 0 K1). now rewrite <- surjective_pairing.
Qed.
Print Assumptions C139_boresight.
(** Pointings without right ascension, declination or position angle are refused, and no others. *)
Theorem C139_pointing p : (boresight_init p = Ok p <-> In (lit "ra") (p_names p) /\ In (lit "dec") (p_names p) /\ In (lit "pa") (p_names p)) /\
  (boresight_init p = Ok p \/ boresight_init p = Err TypeError).
Proof.
  assert (E : forall k, existsb (text_eqb k) (p_names p) = true <-> In k (p_names p)).
  { intros k. rewrite existsb_exists. unfold text_eqb. split; [intros (x & Hx & H); destruct (list_eq_dec ascii_dec k x) as [->|]; [exact Hx|discriminate H]|]. intros H. exists k. split; [exact H|]. now destruct (list_eq_dec ascii_dec k k). }
  unfold boresight_init. cbn [forallb]. rewrite andb_true_r. destruct (existsb (text_eqb (lit "ra")) (p_names p)) eqn:E1; destruct (existsb (text_eqb (lit "dec")) (p_names p)) eqn:E2; destruct (existsb (text_eqb (lit "pa")) (p_names p)) eqn:E3; cbn [andb];
    rewrite <- !E, E1, E2, E3; (split; [split; [intros H; repeat split; congruence|intuition congruence]|tauto]).
Qed.
Print Assumptions C139_pointing.
(** The last dimension of the input is not validated: a third coordinate gives a third result, that is not computed; scalars and
    single coordinates raise IndexError. *)
Theorem C139_boresight_refuted names ra dec pa x y z : (forall g, exists r, boresight_direct [0; 0; g] (Pointing names [] [(ra, dec, pa)]) (Array [3%nat] [x; y; z]) = Ok (Array [3%nat] r) /\ nth 2 r 0 = g) /\
  (forall g, boresight_direct g (Pointing names [] [(ra, dec, pa)]) (Array [] [x]) = Err IndexError /\ boresight_direct g (Pointing names [] [(ra, dec, pa)]) (Array [1%nat] [x]) = Err IndexError).
Proof. split; [intros g; eexists; split; reflexivity|intros g; split; reflexivity]. Qed.
Print Assumptions C139_boresight_refuted.
Example C139_boresight_case : exists r, boresight_direct [] (Pointing [lit "ra"; lit "dec"; lit "pa"] [2%nat] [(1, 2, 0); (3, 4, 0)]) (Array [1; 2]%nat [0; 0]) = Ok (Array [2; 1; 2]%nat r) /\
  (nth 2 r 0, nth 3 r 0) = object2ad 3 4 0 (0, 0) /\ boresight_init (Pointing [lit "ra"; lit "dec"; lit "pa"] [2%nat] [(1, 2, 0); (3, 4, 0)]) <> Err TypeError.
Proof.
  destruct (C139_boresight [] [lit "ra"; lit "dec"; lit "pa"] [2%nat] [(1, 2, 0); (3, 4, 0)] [1%nat] [0; 0] eq_refl eq_refl) as (r & E & _ & H). exists r. split; [exact E|]. split; [exact (H 1%nat 0%nat 3 4 0 eq_refl ltac:(cbn; lia))|discriminate].
Qed.
