(** C78: samplings. *)
From Coq Require Import Reals String Lia Lra.
From Verif Require Import Base BaseFacts PTModel PTSpec PTFacts PTProps SkyModel SampModel SampSpec.
Local Open Scope Z_scope.

(** ** The constructor *)
Definition packed (v : value) : attr R :=
  match v with UVArr _ l => AtArr l | UV0 x => At0 x | UVNone => AtNone | UVFun => AtFun end.

Lemma assoc_update (k k' : string) (v : attr R) l :
  assoc k' (update k v l) = if String.eqb k' k then Some v else assoc k' l.
Proof.
induction l as [|[k1 v1] l IH]; cbn.
- destruct (String.eqb_spec k' k); easy.
- destruct (String.eqb_spec k k1); cbn.
  + subst k1; destruct (String.eqb_spec k' k); easy.
  + rewrite IH; destruct (String.eqb_spec k' k1), (String.eqb_spec k' k); try easy; congruence.
Qed.

Definition loadable (n : Z) (v : value) : Prop := angle n v \/ v = UVNone.

Lemma init_attrs_ok n kw : 0 <= n -> NoDup (map fst kw) ->
  Forall (fun kv => existsb (String.eqb (fst kv)) reserved = false /\ loadable n (snd kv)) kw ->
  forall attrs, (forall k, In k (map fst kw) -> assoc k attrs = None) ->
  exists attrs', init_attrs (Table [n] IAll attrs) kw = Ok (Table [n] IAll attrs') /\
    forall k, assoc k attrs' = match dict_get kw k with Some v => Some (packed v) | None => assoc k attrs end.
Proof.
intros Hn; induction kw as [|[k v] kw IH]; intros ND F attrs Old.
- exists attrs; easy.
- inversion ND as [|? ? Nk ND']; inversion F as [|? ? [Rk Lv] F']; subst; cbn [fst snd map] in *.
  assert (S : exists w, w = packed v /\ setattr (Table [n] IAll attrs) k
      match packed v with AtArr l => PVArr l | At0 a => PV0 a | AtNone => PVNone | AtFun => PVFun end
      = Ok (Table [n] IAll (update k w attrs))).
  { exists (packed v); split; [easy|].
    unfold setattr; rewrite Rk.
    destruct Lv as [Lv| ->]; [|easy].
    destruct v as [sh l|x| |]; cbn [angle] in Lv; [|cbn|easy|easy].
    - destruct Lv as [-> Lv]; cbn [packed bind]; unfold setattr_arr, t_len, index_len, t_size; cbn [t_index t_shape bind prodZ fold_right].
      now replace (zlen l =? n * 1) with true by lia.
    - now rewrite (Old k) by now left. }
  destruct S as (w & -> & S).
  destruct (IH ND' F' (update k (packed v) attrs)) as (attrs' & E & G).
  { intros k' I; rewrite assoc_update.
    destruct (String.eqb_spec k' k); [subst; contradiction|apply Old; now right]. }
  exists attrs'; split.
  + cbn [init_attrs].
    destruct Lv as [Lv| ->].
    * destruct v as [sh l|x| |]; cbn [angle] in Lv; [|cbn [pack_value bind]; cbn [packed] in S; now rewrite S|easy|easy].
      destruct Lv as [-> Lv]; cbn [pack_value packed] in *.
      unfold pack_copy, t_len, index_len, t_size, pack_view; cbn [t_shape t_index list_eqb].
      rewrite Z.eqb_refl; cbn [andb negb bind].
      unfold broadcast; rewrite Lv; cbn [prodZ fold_right]; rewrite Z.mul_1_r, Z.eqb_refl; cbn [bind].
      now rewrite S.
    * cbn [pack_value bind packed] in *; now rewrite S.
  + intros k'; rewrite G, assoc_update; cbn [dict_get].
    destruct (String.eqb_spec k' k); [subst k'|easy].
    assert (dict_get kw k = None) as ->; [|easy].
    clear - Nk; induction kw as [|[k1 v1] kw IH]; [easy|]; cbn in *.
    destruct (String.eqb_spec k k1); [subst; tauto|]; apply IH; tauto.
Qed.

Lemma dict_get_in kw k v : NoDup (map fst kw) -> (dict_get kw k = Some v <-> In (k, v) kw).
Proof.
induction kw as [|[k1 v1] kw IH]; intros ND; [easy|]; inversion ND as [|? ? Nk ND']; subst; cbn.
destruct (String.eqb_spec k k1).
- subst k1; split; [intros [= ->]; now left|].
  intros [[= ->]|I]; [easy|]; elim Nk; now apply (in_map fst) in I.
- rewrite (IH ND'); split; [now right|]; intros [[= ? ?]|I]; congruence.
Qed.
Lemma dict_get_none kw k : dict_get kw k = None <-> ~ In k (map fst kw).
Proof.
induction kw as [|[k1 v1] kw IH]; cbn; [easy|].
destruct (String.eqb_spec k k1); [subst; split; [easy|tauto]|].
rewrite IH; split; [intros ? [?|?]; [now subst|easy]|tauto].
Qed.
Lemma dict_get_set kw k v k' : dict_get (dict_set kw k v) k' = if String.eqb k' k then Some v else dict_get kw k'.
Proof.
induction kw as [|[k1 v1] kw IH]; cbn; [easy|].
destruct (String.eqb_spec k k1); cbn.
- subst; destruct (String.eqb_spec k' k1); easy.
- rewrite IH; destruct (String.eqb_spec k' k1), (String.eqb_spec k' k); try easy; congruence.
Qed.
Lemma dict_set_keys kw k v k' : In k' (map fst (dict_set kw k v)) <-> k' = k \/ In k' (map fst kw).
Proof.
induction kw as [|[k1 v1] kw IH]; cbn; [intuition|].
destruct (String.eqb_spec k k1); cbn; [subst; intuition|rewrite IH; intuition].
Qed.
Lemma dict_set_nodup kw k v : NoDup (map fst kw) -> NoDup (map fst (dict_set kw k v)).
Proof.
induction kw as [|[k1 v1] kw IH]; cbn; intros ND; [repeat constructor; easy|].
inversion ND as [|? ? Nk ND']; subst.
destruct (String.eqb_spec k k1); cbn; [now subst|].
constructor; [rewrite dict_set_keys; intros [?|?]; [now subst|easy]|now apply IH].
Qed.
Lemma dict_set_ok n kw k v : keywords_ok n kw -> usable k -> angle n v -> keywords_ok n (dict_set kw k v).
Proof.
intros [ND F] U A; split; [now apply dict_set_nodup|].
induction kw as [|[k1 v1] kw IH]; cbn; [repeat constructor; easy|].
inversion ND; inversion F; subst.
destruct (String.eqb k k1); constructor; try easy; now apply IH.
Qed.
Lemma remove_keys kw k : ~ In k (map fst (remove kw k)).
Proof.
unfold remove; induction kw as [|[k1 v1] kw IH]; cbn; [easy|].
destruct (String.eqb_spec k k1); cbn; [easy|intros [?|?]; [now subst|easy]].
Qed.
Lemma remove_get kw k k' : dict_get (remove kw k) k' = if String.eqb k' k then None else dict_get kw k'.
Proof.
unfold remove; induction kw as [|[k1 v1] kw IH]; cbn; [now destruct (String.eqb k' k)|].
destruct (String.eqb_spec k k1); cbn; rewrite IH.
- subst; destruct (String.eqb_spec k' k1); easy.
- destruct (String.eqb_spec k' k1), (String.eqb_spec k' k); try easy; congruence.
Qed.
Lemma remove_in kw k x : In x (remove kw k) -> In x kw.
Proof. unfold remove; intros I; now apply filter_In in I. Qed.
Lemma remove_nodup kw k : NoDup (map fst kw) -> NoDup (map fst (remove kw k)).
Proof.
induction kw as [|[k1 v1] kw IH]; cbn; [easy|]; intros ND; inversion ND as [|? ? Nk ND']; subst.
destruct (String.eqb_spec k k1); cbn; [now apply IH|].
constructor; [|now apply IH].
intros I; apply Nk; apply in_map_iff in I as (x & <- & I); apply (in_map fst); now apply remove_in in I.
Qed.
Lemma usable_reserved k : usable k -> existsb (String.eqb k) reserved = false.
Proof.
intros U; destruct (existsb (String.eqb k) reserved) eqn:E; [|easy].
apply existsb_exists in E as (x & I & E); apply String.eqb_eq in E; subst x.
elim U; unfold reserved in I; cbn in *; intuition.
Qed.

(** Sampling.__init__ with keywords that are all kept. *)
Lemma sampling_init_ok md n period kw : 0 <= n -> keywords_ok n kw ->
  exists attrs,
    sampling_init md n period (("cartesian", UVNone) :: ("spherical", UVNone) :: ("velocity", UVNone) :: kw)%string
    = Ok (Table [n] IAll attrs, match period with Some p => p | None => 1%R end) /\
    forall k, assoc k attrs = option_map packed (dict_get kw k).
Proof.
intros Hn [ND F]; unfold sampling_init.
replace (match period with Some p => Ok p | None => if mem "time" dict_attributes then
    match dict_get (("cartesian", UVNone) :: ("spherical", UVNone) :: ("velocity", UVNone) :: kw)%string "time" with
    | Some t => md t | None => Err KeyError end else Ok 1%R end)
  with (Ok (match period with Some p => p | None => 1%R end)) by now destruct period.
cbn [bind dict_get].
change (String.eqb "time" "cartesian") with false; change (String.eqb "time" "spherical") with false;
change (String.eqb "time" "velocity") with false; cbv iota.
set (time := match dict_get kw "time" with Some t => t | None => UVNone end).
set (kw1 := match dict_get kw "time" with Some t => [("time"%string, t)] | None => [] end ++ remove kw "time").
assert (E : not_inherited (("time"%string, time) :: remove (("cartesian", UVNone) :: ("spherical", UVNone) :: ("velocity", UVNone) :: kw)%string "time") = kw1).
{ assert (K : forall l, (forall kv, In kv l -> snd kv <> UVNone) -> not_inherited l = l).
  { induction l as [|[k1 v1] l IH]; intros H; [easy|].
    assert (X : v1 <> UVNone) by (apply (H (k1, v1)); now left).
    assert (Y : not_inherited l = l) by (apply IH; intros kv I; apply H; now right).
    unfold not_inherited in *; cbn [filter snd fst]; rewrite Y; now destruct v1. }
  assert (K' : forall kv, In kv kw -> snd kv <> UVNone).
  { intros [k1 v1] I; rewrite Forall_forall in F; destruct (F _ I) as [_ A]; now destruct v1. }
  unfold kw1, time.
  change (remove (("cartesian", UVNone) :: ("spherical", UVNone) :: ("velocity", UVNone) :: kw)%string "time")
    with (("cartesian", UVNone) :: ("spherical", UVNone) :: ("velocity", UVNone) :: remove kw "time")%string.
  destruct (dict_get kw "time") as [t|] eqn:T.
  - apply dict_get_in in T; [|easy].
    pose proof (K' _ T) as Nt; cbn in Nt.
    unfold not_inherited at 1; cbn [filter snd fst].
    replace (match t with UVNone => negb (mem "time" class_attributes) | _ => true end) with true by now destruct t.
    change (negb (mem "cartesian" class_attributes)) with false; change (negb (mem "spherical" class_attributes)) with false;
    change (negb (mem "velocity" class_attributes)) with false; cbv iota.
    cbn [app]; f_equal; apply K; intros kv I; apply K'; now apply remove_in in I.
  - unfold not_inherited at 1; cbn [filter snd fst].
    change (negb (mem "time" class_attributes)) with false.
    change (negb (mem "cartesian" class_attributes)) with false; change (negb (mem "spherical" class_attributes)) with false;
    change (negb (mem "velocity" class_attributes)) with false; cbv iota.
    apply K; intros kv I; apply K'; now apply remove_in in I. }
rewrite E; clear E.
assert (N1 : NoDup (map fst kw1)).
{ unfold kw1; destruct (dict_get kw "time"); cbn; [|now apply remove_nodup].
  constructor; [apply remove_keys|now apply remove_nodup]. }
assert (I1 : forall kv, In kv kw1 -> In kv kw).
{ unfold kw1; destruct (dict_get kw "time") eqn:T; cbn; intros kv.
  - intros [<-|I]; [now apply dict_get_in|now apply remove_in in I].
  - apply remove_in. }
destruct (init_attrs_ok n kw1 Hn N1) with (attrs := @nil (string * attr R)) as (attrs & E & G).
{ rewrite Forall_forall in *; intros kv I; destruct (F kv (I1 _ I)) as [U A].
  split; [now apply usable_reserved|now left]. }
{ easy. }
exists attrs; split.
- unfold mk_table; cbn [get_index normalize_selection bind]; now rewrite E.
- intros k; rewrite G; unfold kw1.
  destruct (dict_get kw "time") eqn:T; cbn [app dict_get].
  + destruct (String.eqb_spec k "time"); [subst; now rewrite T|].
    rewrite remove_get; destruct (String.eqb_spec k "time"); [easy|].
    cbn [assoc]; now destruct (dict_get kw k).
  + rewrite remove_get; destruct (String.eqb_spec k "time"); [subst; now rewrite T|].
    cbn [assoc]; now destruct (dict_get kw k).
Qed.

Lemma shape_all n a b c t : angle n a -> angle n b -> angle n c -> (match t with Some v => angle n v | None => True end) ->
  (exists l, a = UVArr [n] l) ->
  broadcast_shapes [np_shape a; np_shape b; np_shape c; match t with Some v => np_shape v | None => [] end] = Ok [n].
Proof.
intros A B C T [l ->].
assert (S : forall v, angle n v -> np_shape v = [] \/ np_shape v = [n]).
{ intros [sh l'|x| |] H; cbn in *; try easy; [right; now destruct H|now left]. }
assert (St : match t with Some v => np_shape v | None => [] end = [] \/ match t with Some v => np_shape v | None => [] end = [n]).
{ destruct t; [now apply S|now left]. }
destruct (S b B) as [-> | ->], (S c C) as [-> | ->], St as [-> | ->]; do 4 (cbn; rewrite ?Z.eqb_refl); easy.
Qed.

(** The result of the constructor once the keywords are complete. *)
Lemma spherical_finish ti md n0 n1 n2 n a b c la lb args kw kw' period :
  0 <= n -> keywords_ok n kw' -> a = UVArr [n] la -> b = UVArr [n] lb -> angle n c ->
  dict_get kw' n0 = Some a -> dict_get kw' n1 = Some b -> dict_get kw' n2 = Some c ->
  (forall k, k <> n0 -> k <> n1 -> k <> n2 -> dict_get kw' k = dict_get kw k) ->
  complete n0 n1 n2 args kw = Ok kw' ->
  (match args with [_] => exists x, args = [UV0 x] /\ ti x = Ok n | _ => True end) ->
  exists s, spherical_init ti md (n0, n1, n2) args period kw = Ok s /\
    s_names s = (n0, n1, n2) /\ s_period s = match period with Some p => p | None => 1%R end /\
    t_shape (s_table s) = [n] /\ t_index (s_table s) = IAll /\
    forall k, assoc k (t_attrs (s_table s)) = option_map packed (dict_get kw' k).
Proof.
intros Hn K Ea Eb C G0 G1 G2 G Ekw Eargs.
unfold spherical_init; rewrite Ekw; cbn [bind].
assert (Es : init_shape ti n0 n1 n2 args kw' = Ok [n]).
{ assert (X : (let get k := match dict_get kw' k with Some v => np_shape v | None => [] end in
                  broadcast_shapes [get n0; get n1; get n2; get "time"%string]) = Ok [n]).
  { cbv beta zeta; rewrite G0, G1, G2; apply shape_all; try easy.
    - subst a; destruct K as [ND F]; apply dict_get_in in G0; [|easy]; rewrite Forall_forall in F; apply (F _ G0).
    - subst b; destruct K as [ND F]; apply dict_get_in in G1; [|easy]; rewrite Forall_forall in F; apply (F _ G1).
    - destruct (dict_get kw' "time") eqn:T; [|easy].
      destruct K as [ND F]; apply dict_get_in in T; [|easy]; rewrite Forall_forall in F; apply (F _ T).
    - now exists la. }
  destruct args as [|v [|w r]]; [exact X| |now destruct v].
  destruct Eargs as (x & [= ->] & E); cbn [init_shape]; now rewrite E. }
rewrite Es; cbn [bind].
assert (Hh : forall k, ~ usable k -> has kw' k = false).
{ intros k Hk; unfold has; destruct (dict_get kw' k) eqn:E; [|easy].
  elim Hk; destruct K as [ND F]; apply dict_get_in in E; [|easy]; rewrite Forall_forall in F; apply (F _ E). }
rewrite !Hh by (intros U; apply U; cbn; tauto); cbn [orb].
destruct (sampling_init_ok md n period kw' Hn K) as (attrs & E & A); rewrite E; cbn [bind fst snd].
eexists; repeat split; exact A.
Qed.

(** Whatever the way the angles are given, sample i has the i-th angles, the third angle is
    that given or zero, the other keywords are kept, the period is that given or 1, and the
    times are the positions times the period, or those given. *)
Theorem C78_constructor ti md n0 n1 n2 n a b c la lb args kw period :
  call ti n0 n1 n2 n a b c args kw -> names_ok n0 n1 n2 -> keywords_ok n kw ->
  a = UVArr [n] la -> b = UVArr [n] lb -> zlen la = n -> zlen lb = n -> angle n c ->
  exists s, spherical_init ti md (n0, n1, n2) args period kw = Ok s /\
    t_len (s_table s) = Ok n /\ spherical s = Ok (Rows (combine la lb)) /\
    s_period s = match period with Some p => p | None => 1%R end /\
    (forall k v, (k, v) = (n2, c) \/ In (k, v) kw ->
       match assoc k (t_attrs (s_table s)) with
       | Some (AtArr l) => zlen l = n /\ forall i, (i < Z.to_nat n)%nat -> nth_error l i = sample v i
       | Some (At0 x) => v = UV0 x
       | _ => False
       end) /\
    (~ In "time"%string (map fst kw) -> exists ts, times s = Ok ts /\ zlen ts = n /\
       forall i, (i < Z.to_nat n)%nat -> nth_error ts i = Some (INR i * s_period s)%R) /\
    (forall ts, In ("time"%string, UVArr [n] ts) kw -> times s = Ok ts).
Proof.
intros HC [NN NU] K Ea Eb La Lb C.
assert (Hn : 0 <= n) by (rewrite <- La; apply zlen_nonneg).
assert (Aa : angle n a) by now subst a.
assert (Ab : angle n b) by now subst b.
pose proof (Forall_inv NU) as U0; pose proof (Forall_inv (Forall_inv_tail NU)) as U1;
pose proof (Forall_inv (Forall_inv_tail (Forall_inv_tail NU))) as U2.
assert (D : n0 <> n1 /\ n0 <> n2 /\ n1 <> n2 /\ n0 <> "time"%string /\ n1 <> "time"%string /\ n2 <> "time"%string).
{ inversion NN as [|? ? X1 Y1]; inversion Y1 as [|? ? X2 Y2]; inversion Y2 as [|? ? X3 Y3]; clear - X1 X2 X3; cbn in *.
  repeat split; intros E; subst; tauto. }
destruct D as (D01 & D02 & D12 & T0 & T1 & T2).
assert (X : exists kw', keywords_ok n kw' /\
   dict_get kw' n0 = Some a /\ dict_get kw' n1 = Some b /\ dict_get kw' n2 = Some c /\
   (forall k, k <> n0 -> k <> n1 -> k <> n2 -> dict_get kw' k = dict_get kw k) /\
   (forall k v, In (k, v) kw -> dict_get kw' k = Some v) /\
   complete n0 n1 n2 args kw = Ok kw' /\
   (match args with [_] => exists x, args = [UV0 x] /\ ti x = Ok n | _ => True end)).
{ destruct K as [ND F].
  assert (Fresh : forall w, ~ In n0 (map fst kw) -> ~ In n1 (map fst kw) -> ~ In n2 (map fst kw) -> angle n w ->
    let kw' := dict_set (dict_set (dict_set kw n0 a) n1 b) n2 w in
    keywords_ok n kw' /\ dict_get kw' n0 = Some a /\ dict_get kw' n1 = Some b /\ dict_get kw' n2 = Some w /\
    (forall k, k <> n0 -> k <> n1 -> k <> n2 -> dict_get kw' k = dict_get kw k) /\
    (forall k v, In (k, v) kw -> dict_get kw' k = Some v)).
  { intros w I0 I1 I2 W kw'; subst kw'.
    split; [repeat (apply dict_set_ok; [|easy|easy]); easy|].
    rewrite !dict_get_set, !String.eqb_refl.
    destruct (String.eqb_spec n0 n2); [easy|]; destruct (String.eqb_spec n0 n1); [easy|]; destruct (String.eqb_spec n1 n2); [easy|].
    repeat split; try easy.
    - intros k K0 K1 K2; rewrite !dict_get_set.
      destruct (String.eqb_spec k n2); [easy|]; destruct (String.eqb_spec k n1); [easy|]; destruct (String.eqb_spec k n0); easy.
    - intros k v I; rewrite !dict_get_set.
      assert (In k (map fst kw)) by now apply (in_map fst) in I.
      destruct (String.eqb_spec k n2); [now subst|]; destruct (String.eqb_spec k n1); [now subst|]; destruct (String.eqb_spec k n0); [now subst|].
      now apply dict_get_in. }
  destruct HC as [kw I0 I1 I2|kw I0 I1 I2 Ec|kw args I0 I1 I2 HA].
  - destruct (Fresh c I0 I1 I2 C) as (? & ? & ? & ? & ? & ?).
    exists (dict_set (dict_set (dict_set kw n0 a) n1 b) n2 c); repeat (split; [easy|]); easy.
  - destruct (Fresh c I0 I1 I2 C) as (? & ? & ? & ? & ? & ?); subst c.
    exists (dict_set (dict_set (dict_set kw n0 a) n1 b) n2 (UV0 0%R)); repeat (split; [easy|]); easy.
  - assert (H0 : has kw n0 = true) by (unfold has; now rewrite (proj2 (dict_get_in kw n0 a ND) I0)).
    assert (H1 : has kw n1 = true) by (unfold has; now rewrite (proj2 (dict_get_in kw n1 b ND) I1)).
    assert (HA' : complete n0 n1 n2 args kw = Ok (if has kw n2 then kw else dict_set kw n2 (UV0 0%R))).
    { unfold complete; rewrite H0, H1; destruct HA as [->|(x & -> & _)]; easy. }
    rewrite HA'.
    assert (HA2 : match args with [_] => exists x, args = [UV0 x] /\ ti x = Ok n | _ => True end).
    { destruct HA as [->|(x & -> & E)]; [easy|now exists x]. }
    destruct I2 as [I2|[I2 ->]].
    + assert (H2 : has kw n2 = true) by (unfold has; now rewrite (proj2 (dict_get_in kw n2 c ND) I2)).
      rewrite H2; exists kw.
      split; [easy|]; split; [now apply dict_get_in|]; split; [now apply dict_get_in|]; split; [now apply dict_get_in|].
      split; [easy|]; split; [intros k v I; now apply dict_get_in|easy].
    + assert (H2 : has kw n2 = false) by (unfold has; now rewrite (proj2 (dict_get_none kw n2) I2)).
      rewrite H2; exists (dict_set kw n2 (UV0 0%R)).
      split; [now apply dict_set_ok|].
      rewrite !dict_get_set, String.eqb_refl.
      destruct (String.eqb_spec n0 n2); [easy|]; destruct (String.eqb_spec n1 n2); [easy|].
      split; [now apply dict_get_in|]; split; [now apply dict_get_in|]; split; [easy|].
      split; [|split; [|easy]].
      * intros k K0 K1 K2; rewrite dict_get_set; destruct (String.eqb_spec k n2); easy.
      * intros k v I; rewrite dict_get_set.
        assert (In k (map fst kw)) by now apply (in_map fst) in I.
        destruct (String.eqb_spec k n2); [now subst|now apply dict_get_in]. }
destruct X as (kw' & K' & G0 & G1 & G2 & G & GI & Ekw & Ear).
destruct (spherical_finish ti md n0 n1 n2 n a b c la lb args kw kw' period Hn K' Ea Eb C G0 G1 G2 G Ekw Ear)
  as (s & Es & Nm & P & Sh & Ix & At).
exists s; split; [exact Es|].
assert (Len : t_len (s_table s) = Ok n).
{ unfold t_len, index_len, t_size; rewrite Ix, Sh; cbn [prodZ fold_right]; now rewrite Z.mul_1_r. }
split; [exact Len|]; split.
{ unfold spherical; rewrite Nm, !At, G0, G1; subst a b; cbn [option_map packed].
  now replace (zlen la =? zlen lb)%Z with true by lia. }
split; [exact P|]; split.
{ intros k v I; rewrite At.
  assert (E : dict_get kw' k = Some v) by (destruct I as [[= -> ->]|I]; [easy|now apply GI]).
  rewrite E; cbn [option_map].
  assert (A : angle n v).
  { destruct K' as [ND F]; apply dict_get_in in E; [|easy]; rewrite Forall_forall in F; apply (F _ E). }
  destruct v as [sh l|x| |]; cbn in *; try easy; destruct A; easy. }
split.
- intros NT; unfold times; rewrite At.
  assert (E : dict_get kw' "time"%string = None) by (rewrite G by congruence; now apply dict_get_none).
  rewrite E; cbn [option_map].
  unfold t_indices, index_list, t_size; rewrite Ix, Sh; cbn [prodZ fold_right bind]; rewrite Z.mul_1_r.
  eexists; split; [reflexivity|]; split; [now rewrite zlen_map, zlen_iota|].
  intros i Hi; rewrite nth_error_map, iota_nth_error by easy; cbn [option_map].
  now rewrite <- INR_IZR_INZ.
- intros ts I; unfold times; rewrite At, (GI _ _ I); easy.
Qed.
Print Assumptions C78_constructor.

Open Scope string_scope.
Definition ra_dec := UVArr [3] [10; 20; 30]%R.
(** The hypotheses are met by SamplingEquatorial([10, 20, 30], dec=..., time=...). *)
Example C78_constructor_case ti : exists kw,
  call ti "ra" "dec" "pa" 3 ra_dec ra_dec (UV0 0%R) [] kw /\ names_ok "ra" "dec" "pa" /\ keywords_ok 3 kw /\
  In ("time", UVArr [3] [0; 2; 4]%R) kw.
Proof.
exists [("time", UVArr [3] [0; 2; 4]%R); ("ra", ra_dec); ("dec", ra_dec)].
split; [|split; [|split; [|now left]]].
- apply Keywords; cbn; [tauto|tauto| |now left].
  right; split; [|easy]; intuition easy.
- split; [repeat constructor; cbn; intuition easy|].
  repeat constructor; unfold usable; cbn; intuition easy.
- split; [repeat constructor; cbn; intuition easy|].
  repeat constructor; unfold usable; cbn; intuition easy.
Qed.

(** Calls that are refused. *)
Theorem C78_errors ti md n0 n1 n2 args kw period :
  ((length args <= 1)%nat /\ ((In n0 (map fst kw) /\ ~ In n1 (map fst kw)) \/ (In n1 (map fst kw) /\ ~ In n0 (map fst kw)))) \/
  (3 < length args)%nat \/
  (exists v, args = [v] /\ match v with UV0 _ => False | _ => True end) ->
  spherical_init ti md (n0, n1, n2) args period kw = Err ValueError.
Proof.
assert (H : forall k, has kw k = true <-> In k (map fst kw)).
{ intros k; unfold has; destruct (dict_get kw k) eqn:E.
  - split; [intros _|easy].
    destruct (in_dec string_dec k (map fst kw)) as [I|I]; [easy|]; apply dict_get_none in I; congruence.
  - split; [easy|]; intros I; apply dict_get_none in E; easy. }
intros [[L C]|[L|(v & -> & C)]].
- assert (E : (has kw n0 && negb (has kw n1) || has kw n1 && negb (has kw n0))%bool = true).
  { destruct C as [[A B]|[A B]]; apply H in A; rewrite <- H in B; apply Bool.not_true_is_false in B; rewrite A, B; easy. }
  unfold spherical_init, complete; destruct args as [|x [|y r]]; cbn in L; try lia; now rewrite E.
- unfold spherical_init, complete; destruct args as [|x [|y [|z [|t r]]]]; cbn in L; try lia; easy.
- unfold spherical_init, complete.
  destruct (has kw n0 && negb (has kw n1) || has kw n1 && negb (has kw n0))%bool; [easy|].
  cbn [bind]; destruct v; easy.
Qed.
Print Assumptions C78_errors.
Example C78_errors_case ti md : spherical_init ti md ("ra", "dec", "pa") [] None [("ra", ra_dec)] = Err ValueError.
Proof. apply C78_errors; left; cbn; intuition (try lia; easy). Qed.

(** The names of the coordinates that are computed cannot be given. *)
Lemma has_set kw k k' v : has kw k = true -> has (dict_set kw k' v) k = true.
Proof.
unfold has; induction kw as [|[a x] kw IH]; cbn; [easy|].
destruct (String.eqb_spec k' a) as [->|N]; cbn; [destruct (String.eqb k a); easy|].
destruct (String.eqb k a); easy.
Qed.
Theorem C78_reserved ti md n0 n1 n2 args kw period k s :
  In k ["cartesian"; "spherical"; "velocity"] -> In k (map fst kw) -> spherical_init ti md (n0, n1, n2) args period kw <> Ok s.
Proof.
intros K I.
assert (H : has kw k = true).
{ unfold has; destruct (dict_get kw k) eqn:E; [easy|]; apply dict_get_none in E; easy. }
unfold spherical_init; destruct (complete n0 n1 n2 args kw) as [kw'|e] eqn:C; [cbn [bind]|easy].
assert (H' : has kw' k = true).
{ unfold complete in C.
  destruct args as [|x [|y [|z [|t r]]]]; try easy;
  try (destruct (has kw n0 && negb (has kw n1) || has kw n1 && negb (has kw n0))%bool; [easy|]);
  injection C as <-; repeat (first [exact H | apply has_set | match goal with |- has (if ?b then _ else _) _ = true => destruct b end]). }
destruct (init_shape ti n0 n1 n2 args kw') as [sh|e]; [cbn [bind]|easy].
destruct sh as [|n [|? ?]]; cbn [bind]; try easy;
(replace (has kw' "cartesian" || has kw' "spherical" || has kw' "velocity")%bool with true; [easy|]);
destruct K as [<-|[<-|[<-|[]]]]; rewrite H', ?Bool.orb_true_r; easy.
Qed.
Print Assumptions C78_reserved.
Example C78_reserved_case ti md : In "velocity" (map fst [("velocity", UV0 1%R)]) /\ spherical_init ti md ("ra", "dec", "pa") [UV0 1%R; UV0 2%R] None [("velocity", UV0 1%R)] = Err TypeError.
Proof. split; [now left|reflexivity]. Qed.

(** Shapes are broadcast: along each axis, counted from the last, the sizes are all 1 or that of
    the result, and the result has a size that was given; arrays of two sizes other than 1 along
    an axis are refused. *)
Definition axis (s : list Z) (k : nat) : Z := nth k (rev s) 1.
Definition clash (l : list (list Z)) : Prop := exists k s t, In s l /\ In t l /\ axis s k <> axis t k /\ axis s k <> 1 /\ axis t k <> 1.
Lemma broadcast_rev_ok a b : match broadcast_rev a b with
  | Ok r => length r = Nat.max (length a) (length b) /\ forall k, (nth k a 1 = 1 \/ nth k a 1 = nth k r 1) /\ (nth k b 1 = 1 \/ nth k b 1 = nth k r 1) /\ (nth k r 1 = nth k a 1 \/ nth k r 1 = nth k b 1)
  | Err e => e = ValueError /\ exists k, nth k a 1 <> nth k b 1 /\ nth k a 1 <> 1 /\ nth k b 1 <> 1
  end.
Proof.
revert b; induction a as [|x a IH]; intros [|y b]; cbn [broadcast_rev].
- split; [reflexivity|]; intros [|k]; cbn; auto.
- split; [reflexivity|]; intros [|k]; cbn; auto.
- split; [symmetry; apply Nat.max_l; cbn; lia|]; intros [|k]; cbn; auto.
- specialize (IH b); destruct (broadcast_rev a b) as [r|e]; cbn [bind].
  + destruct IH as [L IH]; destruct (Z.eqb_spec x y); [|destruct (Z.eqb_spec x 1); [|destruct (Z.eqb_spec y 1)]]; subst.
    1,2,3: split; [cbn; now rewrite L|]; intros [|k]; cbn [nth]; [auto|apply IH].
    split; [reflexivity|]; exists 0%nat; cbn; auto.
  + destruct IH as [-> [k H]]; split; [reflexivity|]; now exists (S k).
Qed.
Theorem C78_shape l : match broadcast_shapes l with
  | Ok r => length r = fold_right Nat.max 0%nat (map (@length Z) l) /\ forall k, (forall s, In s l -> axis s k = 1 \/ axis s k = axis r k) /\ (axis r k = 1 \/ exists s, In s l /\ axis s k = axis r k)
  | Err e => e = ValueError /\ clash l
  end.
Proof.
induction l as [|s l IH]; cbn [broadcast_shapes].
- split; [reflexivity|]; intros k; split; [easy|left; unfold axis; cbn; now destruct k].
- destruct (broadcast_shapes l) as [t|e]; cbn [bind].
  2:{ destruct IH as [-> (k & a & b & Ha & Hb & X)]; split; [reflexivity|]; exists k, a, b; cbn; tauto. }
  destruct IH as [L IH]; assert (B := broadcast_rev_ok (rev s) (rev t)); destruct (broadcast_rev (rev s) (rev t)) as [u|e]; cbn [bind].
  + destruct B as [Lu B]; split; [cbn; rewrite rev_length, Lu, !rev_length, L; reflexivity|].
    intros k; destruct (B k) as (B1 & B2 & B3); destruct (IH k) as [I1 I2]; unfold axis in *; rewrite rev_involutive; split.
    * intros x [<-|Hx]; [exact B1|]; destruct (I1 x Hx) as [|E]; [now left|]; rewrite E; exact B2.
    * destruct B3 as [B3|B3]; [right; exists s; split; [now left|now symmetry]|].
      destruct I2 as [I2|(x & Hx & I2)]; [left; congruence|right; exists x; split; [now right|congruence]].
  + destruct B as [-> (k & N & N1 & N2)]; split; [reflexivity|]; destruct (IH k) as [_ [I2|(x & Hx & I2)]]; [unfold axis in I2; contradiction|].
    exists k, s, x; unfold axis in *; cbn [In]; repeat split; try tauto; try congruence; now right.
Qed.
Print Assumptions C78_shape.
Theorem C78_clash ti md n0 n1 n2 a b c kw period : NoDup [n0; n1; n2; "time"%string] ->
  clash [np_shape a; np_shape b; np_shape c; match dict_get kw "time" with Some v => np_shape v | None => [] end] ->
  spherical_init ti md (n0, n1, n2) [a; b; c] period kw = Err ValueError.
Proof.
intros ND C; unfold spherical_init; cbn [complete bind].
set (kw' := dict_set (dict_set (dict_set kw n0 a) n1 b) n2 c).
replace (init_shape ti n0 n1 n2 [a; b; c] kw') with
  (let get k := match dict_get kw' k with Some v => np_shape v | None => [] end in broadcast_shapes [get n0; get n1; get n2; get "time"%string]) by now destruct a.
cbv zeta; unfold kw' at 1 2 3 4; rewrite !dict_get_set.
assert (E : forall x y : string, In (x, y) [(n0, n1); (n0, n2); (n1, n2); (n0, "time"); (n1, "time"); (n2, "time")]%string -> String.eqb x y = false /\ String.eqb y x = false).
{ intros x y I; apply NoDup_cons_iff in ND as [N0 ND]; apply NoDup_cons_iff in ND as [N1 ND]; apply NoDup_cons_iff in ND as [N2 _]; cbn in I, N0, N1, N2.
  split; apply String.eqb_neq; intros ->; intuition (congruence || match goal with H : _ = _ |- _ => injection H as -> -> end; tauto). }
rewrite !String.eqb_refl.
repeat match goal with |- context [String.eqb ?x ?y] => rewrite (proj1 (E x y ltac:(cbn; tauto))) || rewrite (proj2 (E y x ltac:(cbn; tauto))) end.
assert (S := C78_shape [np_shape a; np_shape b; np_shape c; match dict_get kw "time" with Some v => np_shape v | None => [] end]).
destruct (broadcast_shapes _) as [r|e].
- exfalso; destruct S as [_ S], C as (k & s & t & Hs & Ht & N & N1 & N2); destruct (S k) as [S1 _]; destruct (S1 s Hs), (S1 t Ht); congruence.
- destruct S as [-> _]; reflexivity.
Qed.
Print Assumptions C78_clash.
Example C78_clash_case : clash [[3]; [2]; []; []] /\ broadcast_shapes [[3]; [1]; []; [2; 3]] = Ok [2; 3] /\ NoDup ["ra"; "dec"; "pa"; "time"]%string.
Proof.
split; [exists 0%nat, [3], [2]; cbn; repeat split; (tauto || easy)|]; split; [reflexivity|].
repeat constructor; cbn; intuition easy.
Qed.
(** FINDING 90. A position angle given by keyword beside two positional angles is replaced by
    zero. *)
Theorem C78_third_refuted ti md : exists s,
  spherical_init ti md ("ra", "dec", "pa") [ra_dec; ra_dec] None [("pa", UV0 45%R)] = Ok s /\
  assoc "pa" (t_attrs (s_table s)) = Some (At0 0%R).
Proof. eexists; split; [reflexivity|]; reflexivity. Qed.
Print Assumptions C78_third_refuted.
(** FINDING 91. The period is 1 whatever the times given. *)
Theorem C78_period_refuted ti md : exists s,
  spherical_init ti md ("ra", "dec", "pa") [ra_dec; ra_dec] None [("time", UVArr [3] [0; 2; 4]%R)] = Ok s /\
  s_period s = 1%R /\ times s = Ok [0; 2; 4]%R.
Proof. eexists; split; [reflexivity|]; split; reflexivity. Qed.
Print Assumptions C78_period_refuted.
(** FINDING 92. Angles of one element are refused although they are broadcast for the shape;
    a scalar and an array make a sampling without coordinates; two scalars make a pair
    instead of rows. *)
Theorem C78_broadcast_refuted ti md :
  spherical_init ti md ("ra", "dec", "pa") [ra_dec; UVArr [1] [0]%R] None [] = Err ValueError /\
  (exists s, spherical_init ti md ("ra", "dec", "pa") [ra_dec; UV0 0%R] None [] = Ok s /\
     t_len (s_table s) = Ok 3 /\ spherical s = Err ValueError) /\
  (forall x, ti x = Ok 3 -> exists s,
     spherical_init ti md ("ra", "dec", "pa") [UV0 x] None [("ra", UV0 10%R); ("dec", UV0 20%R)] = Ok s /\
     t_len (s_table s) = Ok 3 /\ spherical s = Ok (Pair 10 20)).
Proof.
split; [reflexivity|]; split; [eexists; split; [reflexivity|]; split; reflexivity|].
intros x E; unfold spherical_init; cbn [complete has dict_get bind String.eqb Ascii.eqb Bool.eqb negb andb orb dict_set init_shape].
rewrite E; eexists; split; [reflexivity|]; split; reflexivity.
Qed.
Print Assumptions C78_broadcast_refuted.

(** ** Times of a selection *)
Lemma Forall2_len {A B} (P : A -> B -> Prop) l r : Forall2 P l r -> length l = length r.
Proof. induction 1; cbn; congruence. Qed.
Lemma map_res_map_get {A B} (f : A -> B) l p l' : map_res (get l) p = Ok l' -> map_res (get (map f l)) p = Ok (map f l').
Proof.
revert l'; induction p as [|i p IH]; intros l' H; cbn [map_res] in *; [now injection H as <-|].
apply bind_ok in H as (x & E & H); apply bind_ok in H as (r & E' & H); injection H as <-.
apply get_ok in E as [Ri E].
assert (X : get (map f l) i = Ok (f x)) by (unfold get; replace (i <? 0)%Z with false by lia; now rewrite nth_error_map, E).
rewrite X; cbn [bind]; now rewrite (IH r E').
Qed.
Lemma getitem_attrs_kind (t : table R) sel l l' : getitem_attrs t sel l = Ok l' ->
  forall k, match assoc k l with Some (AtArr _) => True | x => assoc k l' = x end.
Proof.
revert l'; induction l as [|[k1 v] l IH]; intros l' H k; cbn in *; [now injection H as <-|].
apply bind_ok in H as (v' & E & H); apply bind_ok in H as (r' & E' & H); injection H as <-.
cbn; destruct (String.eqb k k1).
- destruct v; [easy|injection E as <-..]; easy.
- now apply IH.
Qed.

Lemma repeated_positions (l : list Z) p l' : NoDup l -> map_res (get l) p = Ok l' -> repeated_only l' -> repeated_only p.
Proof.
intros ND H R; apply map_res_ok in H.
destruct H as [|i x p l' Hi H]; [easy|]; destruct H as [|j y p l' Hj H]; [easy|].
assert (Inj : forall a b v, get l a = Ok v -> get l b = Ok v -> a = b).
{ intros a b v Ha Hb; apply get_ok in Ha as [Ra Ha], Hb as [Rb Hb].
  assert (Z.to_nat a = Z.to_nat b); [|lia].
  apply (NoDup_nth_error l); [easy|apply nth_error_Some; congruence|congruence]. }
cbn [repeated_only] in *; rewrite Forall_forall in *.
assert (X : Forall2 (fun a v => get l a = Ok v) (i :: j :: p) (x :: y :: l')) by now repeat constructor.
intros q I; apply In_nth_error in I as (k & E).
destruct (nth_error (x :: y :: l') k) as [v|] eqn:Ev.
- assert (get l q = Ok v).
  { clear - X E Ev; revert k E Ev; induction X as [|a b u w Hab X IH]; intros [|k]; cbn; try easy.
    - now intros [= <-] [= <-].
    - apply IH. }
  rewrite <- (R v) in H0 by now apply nth_error_In in Ev.
  now apply (Inj i q x).
- exfalso; apply nth_error_None in Ev.
  assert (k < length (i :: j :: p))%nat by (apply nth_error_Some; congruence).
  apply Forall2_len in X; lia.
Qed.

(** The times of the selected samples are the selected times, for every selection without
    a position that is only repeated. *)
Theorem C78_selected_times s s' sel ts n p :
  reachable (s_table s) -> t_len (s_table s) = Ok n -> sel_dom sel n ->
  sel_meaning sel n = Ok p -> ~ repeated_only p ->
  (forall x, assoc "time" (t_attrs (s_table s)) <> Some (At0 x)) ->
  times s = Ok ts -> select s sel = Ok s' ->
  times s' = map_res (get ts) p /\ s_period s' = s_period s.
Proof.
intros HR Hn Hs Hp Rp N0 HT HS.
destruct (C09_reachable_consistent R (s_table s) HR) as (l & H1 & H2 & H3 & H4 & ND & H6).
rewrite H3 in Hn; injection Hn as <-.
destruct (C09_compose_partial R (s_table s) l sel H1 H2 H3 H4 H6 Hs) as (p' & l' & Ep & El & G).
rewrite Hp in Ep; injection Ep as <-.
destruct G as (t2 & E2 & I2 & _ & Sh & At).
{ intros X; apply Rp; exact (repeated_positions l p l' ND El X). }
unfold select in HS; rewrite E2 in HS; cbn [bind] in HS; injection HS as <-.
split; [|easy]; unfold times in *; cbn [s_table s_period].
assert (K : match assoc "time" (t_attrs (s_table s)) with Some (AtArr _) => True | x => assoc "time" (t_attrs t2) = x end).
{ unfold getitem in E2; apply bind_ok in E2 as (n & _ & E2); apply bind_ok in E2 as (ns & _ & E2).
  destruct ns; [injection E2 as <-; now destruct (assoc "time" (t_attrs (s_table s))) as [[| | |]|]|..];
  apply bind_ok in E2 as (ix & _ & E2); apply bind_ok in E2 as (at' & E3 & E2); injection E2 as <-;
  exact (getitem_attrs_kind _ _ _ _ E3 "time"). }
destruct (assoc "time" (t_attrs (s_table s))) as [[rows|x| |]|] eqn:E.
- injection HT as <-; destruct (At _ _ E) as (rows' & -> & ->); easy.
- now elim (N0 x).
- rewrite K; rewrite H2 in HT; injection HT as <-; rewrite I2; cbn [bind].
  symmetry; apply map_res_map_get; exact El.
- rewrite K; rewrite H2 in HT; injection HT as <-; rewrite I2; cbn [bind].
  symmetry; apply map_res_map_get; exact El.
- rewrite K; rewrite H2 in HT; injection HT as <-; rewrite I2; cbn [bind].
  symmetry; apply map_res_map_get; exact El.
Qed.
Print Assumptions C78_selected_times.

(** ** The centre *)
Close Scope string_scope.
Definition totals (l : list (R * R * R)) : R * R * R :=
  (total (fun v => fst (fst v)) l, total (fun v => snd (fst v)) l, total snd l).
Definition plus3 (u v : R * R * R) : R * R * R :=
  ((fst (fst u) + fst (fst v))%R, (snd (fst u) + snd (fst v))%R, (snd u + snd v)%R).
Lemma finite_plus u v : vadd (finite u) (finite v) = finite (plus3 u v).
Proof. easy. Qed.
Lemma triple (a b c a' b' c' : R) : a = a' -> b = b' -> c = c' -> (a, b, c) = (a', b', c').
Proof. now intros -> -> ->. Qed.
Lemma plus3_assoc u v w : plus3 u (plus3 v w) = plus3 (plus3 u v) w.
Proof. unfold plus3; cbn [fst snd]; apply triple; ring. Qed.
Lemma totals_cons v l : totals (v :: l) = plus3 v (totals l).
Proof. easy. Qed.
Lemma totals_app l r : totals (l ++ r) = plus3 (totals l) (totals r).
Proof.
induction l as [|v l IH]; cbn [app].
- unfold plus3, totals; cbn; apply triple; ring.
- rewrite !totals_cons, IH; apply plus3_assoc.
Qed.
Lemma vsum_from l a : fold_left vadd (map finite l) (finite a) = finite (plus3 a (totals l)).
Proof.
revert a; induction l as [|v l IH]; intros a; cbn [map fold_left].
- f_equal; destruct a as [[x y] z]; unfold plus3, totals; cbn; apply triple; ring.
- now rewrite finite_plus, IH, totals_cons, plus3_assoc.
Qed.
Lemma vsum_finite l : vsum (map finite l) = finite (totals l).
Proof.
unfold vsum; change vzero with (finite (0, 0, 0)%R); rewrite vsum_from; f_equal.
unfold plus3; cbn; apply triple; ring.
Qed.

Definition shaped (mc : masked * list (R * R * R)) : Prop :=
  match fst mc with MScalar _ => True | MArray l => length l = length (snd mc) end.
Lemma local_center_ok (mc : masked * list (R * R * R)) c : shaped mc -> coords_of c = map finite (snd mc) ->
  fst (local_center (fst mc) c) = (zlen (kept mc), finite (totals (kept mc))).
Proof.
destruct mc as [[[|]|l] v]; unfold shaped, kept; cbn [fst snd]; intros S C; unfold local_center.
- cbn [fst]; f_equal.
  change [vzero] with (map finite [(0, 0, 0)%R]); rewrite vsum_finite; unfold finite, totals; cbn.
  now rewrite !Rplus_0_r.
- rewrite C, vsum_finite; cbn [fst]; f_equal; unfold zlen; now rewrite map_length.
- cbn [fst]; rewrite C; clear C; f_equal.
  + revert v S; induction l as [|b l IH]; intros [|x v] S; try discriminate; [easy|]; cbn in S.
    cbn [map sumZ fold_right combine filter]; unfold sumZ in IH; rewrite (IH v) by lia; destruct b; cbn [negb filter map fst];
    rewrite ?zlen_cons; lia.
  + assert (E : map (fun kv => vscale (IZR (fst kv)) (snd kv)) (combine (map (fun b : bool => if b then 0 else 1) l) (map finite v))
       = map finite (map (fun bv => if fst bv : bool then (0, 0, 0)%R else snd bv) (combine l v))).
    { revert v S; induction l as [|b l IH]; intros [|x v] S; try discriminate; [easy|]; cbn in S.
      cbn [map combine]; rewrite (IH v) by lia; f_equal; cbn [fst snd].
      destruct x as [[x y] z]; unfold finite, vscale, nscale; cbn [fst snd option_map].
      destruct b; cbn [fst snd]; now rewrite ?Rmult_0_l, ?Rmult_1_l. }
    rewrite E, vsum_finite; f_equal; clear E.
    revert v S; induction l as [|b l IH]; intros [|x v] S; try discriminate; [easy|]; cbn in S.
    cbn [combine map filter fst]; rewrite totals_cons, (IH v) by lia.
    destruct b; cbn [negb fst snd filter map]; [|now rewrite totals_cons].
    unfold plus3; cbn [fst snd]; rewrite !Rplus_0_l; now destruct (totals _) as [[? ?] ?].
Qed.

(** All ranks get the direction of the mean of the samples that are not masked, on whatever
    rank, and there is an error if and only if there are none. *)
Theorem C78_center {P} (c2s : nvec -> P) (ranks : list (masked * list (R * R * R))) (carts : list cart) :
  Forall shaped ranks -> map coords_of carts = map (fun mc => map finite (snd mc)) ranks ->
  fst (get_center c2s (combine (map fst ranks) carts)) =
    repeat (match concat (map kept ranks) with
            | [] => Err ValueError
            | U => Ok (c2s (finite (mean U)))
            end) (length ranks).
Proof.
intros S C.
assert (E : map (fun mc => fst (local_center (fst mc) (snd mc))) (combine (map fst ranks) carts)
  = map (fun mc => (zlen (kept mc), finite (totals (kept mc)))) ranks).
{ revert carts C; induction S as [|mc ranks Hm S IH]; intros [|c carts] C; try discriminate; [easy|].
  cbn [map] in C; injection C as C1 C2.
  cbn [map combine fst snd]; rewrite (local_center_ok mc c Hm C1); f_equal; now apply IH. }
assert (L : length (combine (map fst ranks) carts) = length ranks).
{ rewrite combine_length, map_length; apply (f_equal (@length _)) in C; rewrite !map_length in C; lia. }
unfold get_center; cbn [fst]; rewrite !map_map.
rewrite <- (map_map (fun mc => fst (local_center (fst mc) (snd mc))) fst), E.
rewrite <- (map_map (fun mc => fst (local_center (fst mc) (snd mc))) snd), E.
rewrite !map_map; cbn [fst snd].
assert (N : sumZ (map (fun mc => zlen (kept mc)) ranks) = zlen (concat (map kept ranks))).
{ clear; induction ranks as [|mc r IH]; [easy|]; cbn [map concat sumZ fold_right]; rewrite zlen_app; unfold sumZ in IH; lia. }
assert (V : vsum (map (fun mc => finite (totals (kept mc))) ranks) = finite (totals (concat (map kept ranks)))).
{ rewrite <- (map_map (fun mc => totals (kept mc)) finite), vsum_finite; f_equal.
  clear; induction ranks as [|mc r IH]; [easy|]; cbn [map concat]; now rewrite totals_cons, totals_app, IH. }
rewrite N, V.
assert (X : forall (x : res P) (l : list (masked * cart)), map (fun _ => x) l = repeat x (length l)).
{ clear; intros x l; induction l; cbn; congruence. }
rewrite X, L; f_equal.
destruct (concat (map kept ranks)) as [|u U] eqn:EU; [easy|].
replace (zlen (u :: U) =? 0) with false by (rewrite zlen_cons; pose proof (zlen_nonneg U); lia).
do 2 f_equal; unfold mean, totals, finite, vscale, nscale; cbn [fst snd option_map].
unfold zlen; rewrite <- INR_IZR_INZ.
f_equal; [f_equal|]; f_equal; unfold Rdiv; apply Rmult_comm.
Qed.
Print Assumptions C78_center.
(** Three ranks: one without valid sample. *)
Definition three_ranks : list (masked * list (R * R * R)) :=
  [(MArray [true; false], [(1, 0, 0); (0, 1, 0)]%R); (MScalar true, [(1, 0, 0)]%R); (MScalar false, [(0, 0, 1)]%R)].
Example C78_center_case : Forall shaped three_ranks /\
  fst (get_center (fun v => v) (combine (map fst three_ranks) (map (fun mc => Computed (map finite (snd mc))) three_ranks)))
  = repeat (Ok (finite (0, / 2, / 2)%R)) 3.
Proof.
assert (S : Forall shaped three_ranks) by repeat constructor.
split; [exact S|].
rewrite C78_center; [|exact S|easy].
cbn [three_ranks map kept fst snd combine filter negb concat app length].
do 2 f_equal; unfold mean, finite; cbn [length INR total fst snd].
f_equal; [f_equal|]; f_equal; lra.
Qed.

(** The coordinates computed from the angles are not changed. *)
Theorem C78_center_pure {P} (c2s : nvec -> P) ranks :
  Forall (fun mc => match snd mc with Computed _ => True | Stored _ => match fst mc with MScalar _ => True | MArray _ => False end end) ranks ->
  snd (get_center c2s ranks) = map snd ranks.
Proof.
intros F; unfold get_center; cbn [snd]; rewrite map_map; apply map_ext_in; intros mc I.
rewrite Forall_forall in F; specialize (F _ I).
destruct mc as [[[|]|l] [c|c]]; easy.
Qed.
Print Assumptions C78_center_pure.
(** FINDING 93. Coordinates assigned by the user are set to zero by get_center where the
    samples are masked. *)
Theorem C78_center_stored_refuted {P} (c2s : nvec -> P) :
  snd (get_center c2s [(MArray [true; false], Stored (map finite [(1, 0, 0); (0, 1, 0)]%R))])
  = [Stored (map finite [(0, 0, 0); (0, 1, 0)]%R)].
Proof.
unfold get_center, local_center; cbn [map fst snd coords_of combine].
unfold vscale, finite, nscale; cbn [fst snd option_map]; now rewrite !Rmult_0_l, !Rmult_1_l.
Qed.
Print Assumptions C78_center_stored_refuted.
(** FINDING 94. The coordinates of a masked sample count if they are not finite. *)
Theorem C78_center_nan_refuted {P} (c2s : nvec -> P) :
  fst (get_center c2s [(MArray [true; false], Computed [(None, None, None); finite (0, 1, 0)%R])])
  = [Ok (c2s (None, None, None))].
Proof. reflexivity. Qed.
Print Assumptions C78_center_nan_refuted.

(** ** Velocity *)
(** FINDING 95. No class of the package has the unit that the method asks for; the vectors
    themselves all have the norm 1 / period. *)
Theorem C78_velocity_refuted period l : velocity period l = Err AttributeError.
Proof. reflexivity. Qed.
Print Assumptions C78_velocity_refuted.
Lemma norm_scale k v : norm3 (scale3 k v) = (Rabs k * norm3 v)%R.
Proof.
destruct v as [[x y] z]; unfold norm3, scale3, dot3.
replace (k * x * (k * x) + k * y * (k * y) + k * z * (k * z))%R with ((k * k) * (x * x + y * y + z * z))%R by ring.
rewrite sqrt_mult_alt by apply Rle_0_sqr.
change (k * k)%R with (Rsqr k); now rewrite sqrt_Rsqr_abs.
Qed.
Theorem C78_speed_refuted period l v : (0 < period)%R -> In (Some v) (velocity_vectors period l) -> norm3 v = (1 / period)%R.
Proof.
intros Hp I; unfold velocity_vectors in I; apply in_map_iff in I as (d & E & _).
unfold normalized in E; destruct (Req_EM_T (norm3 d) 0) as [Z|Z]; [easy|].
cbn [option_map] in E; injection E as <-.
assert (0 <= norm3 d)%R by (unfold norm3; apply sqrt_pos).
rewrite !norm_scale, !Rabs_right; [field; lra| |].
- apply Rle_ge, Rlt_le, Rdiv_lt_0_compat; lra.
- apply Rle_ge, Rlt_le, Rdiv_lt_0_compat; lra.
Qed.
Print Assumptions C78_speed_refuted.
(** ... although the pointing moves at different speeds. *)
Example C78_speed_case : chord (1, 0, 0)%R (0, 1, 0)%R = sqrt 2 /\ chord (1, 0, 0)%R (-1, 0, 0)%R = 2%R /\
  In (Some (-1, 0, 0)%R) (velocity_vectors 1 [(1, 0, 0); (-1, 0, 0)]%R).
Proof.
unfold chord; split; [f_equal; ring|]; split.
- replace ((1 - -1) ^ 2 + (0 - 0) ^ 2 + (0 - 0) ^ 2)%R with (2 * 2)%R by ring; apply sqrt_square; lra.
- left; cbn [differences]; unfold minus3, normalized, norm3, dot3.
  replace (sqrt _) with 2%R.
  + destruct (Req_EM_T 2 0); [lra|]; cbn [option_map scale3]; f_equal; apply triple; field.
  + replace (_ + _)%R with (2 * 2)%R by ring; symmetry; apply sqrt_square; lra.
Qed.
