(** Lemmas on scattered and gathered headers. *)
From Coq Require Import Lia String Ascii QArith Qcanon.
From Verif Require Import Base BaseFacts PTFacts PTMpiFacts TemplateModel UnitModel UnitFacts UnitParseFacts UnitPrintFacts MpiModel MpiSpec.
Open Scope nat_scope.

Lemma h_get_set_same h k v : h_get (h_set h k v) k = Some v.
Proof.
  induction h as [|[k' v'] h IH]; cbn [h_set h_get]; [rewrite text_eqb_refl; reflexivity|].
  destruct (text_eqb k' k) eqn:E; cbn [h_get]; rewrite E; [reflexivity|exact IH].
Qed.
Lemma h_get_set_other h k k' v : k <> k' -> h_get (h_set h k v) k' = h_get h k'.
Proof.
  intros N. induction h as [|[j w] h IH]; cbn [h_set h_get].
  - rewrite (proj2 (text_eqb_ne k k') N). reflexivity.
  - destruct (text_eqb j k) eqn:E; cbn [h_get]; [|rewrite IH; reflexivity].
    apply text_eqb_eq in E. subst j. rewrite (proj2 (text_eqb_ne k k') N). reflexivity.
Qed.
Lemma h_set_twice h k v w : h_set (h_set h k w) k v = h_set h k v.
Proof.
  induction h as [|[j x] h IH]; cbn [h_set]; [rewrite text_eqb_refl; reflexivity|].
  destruct (text_eqb j k) eqn:E; cbn [h_set]; rewrite E; [reflexivity|rewrite IH; reflexivity].
Qed.
Lemma h_set_same h k v : h_get h k = Some v -> h_set h k v = h.
Proof.
  induction h as [|[j x] h IH]; cbn [h_set h_get]; [discriminate|].
  destruct (text_eqb j k); [intros E; injection E as ->; reflexivity|]. intros E. rewrite IH; auto.
Qed.
Lemma h_set_comm h k k' v w : k <> k' -> h_get h k <> None -> h_set (h_set h k v) k' w = h_set (h_set h k' w) k v.
Proof.
  intros N. induction h as [|[j x] h IH]; cbn [h_set h_get]; [congruence|].
  destruct (text_eqb j k) eqn:E.
  - intros _. apply text_eqb_eq in E. subst j. cbn [h_set]. rewrite (proj2 (text_eqb_ne k k') N). cbn [h_set]. rewrite text_eqb_refl. reflexivity.
  - intros H. destruct (text_eqb j k') eqn:E'; cbn [h_set]; rewrite E'; rewrite ?E; [reflexivity|]. rewrite IH; auto.
Qed.

Lemma str_int_nonempty n : str_int n <> [].
Proof. unfold str_int. destruct (Z.ltb_spec n 0); [discriminate|]. apply (str_nonneg_spec n). lia. Qed.
Lemma str_int_inj a b : str_int a = str_int b -> a = b.
Proof.
  unfold str_int. destruct (Z.ltb_spec a 0) as [A|A], (Z.ltb_spec b 0) as [B|B]; intros E.
  - injection E as E. destruct (str_nonneg_spec (- a) ltac:(lia)) as [_ [_ Na]]. destruct (str_nonneg_spec (- b) ltac:(lia)) as [_ [_ Nb]]. rewrite E, Nb in Na. lia.
  - destruct (str_nonneg_spec b B) as [_ [D _]]. rewrite <- E in D. inversion D as [|? ? C _]. vm_compute in C. discriminate.
  - destruct (str_nonneg_spec a A) as [_ [D _]]. rewrite E in D. inversion D as [|? ? C _]. vm_compute in C. discriminate.
  - destruct (str_nonneg_spec a A) as [_ [_ Na]]. destruct (str_nonneg_spec b B) as [_ [_ Nb]]. rewrite E, Nb in Na. lia.
Qed.

Lemma key_NC a b : kNAXIS ++ a <> kCRPIX ++ b.
Proof. discriminate. Qed.
Lemma key_N a : a <> [] -> kNAXIS ++ a <> kNAXIS.
Proof. intros H E. apply H. apply (app_inv_head kNAXIS). rewrite E. rewrite app_nil_r. reflexivity. Qed.
Lemma key_C a : kCRPIX ++ a <> kNAXIS.
Proof. discriminate. Qed.

Lemma zq_inj a b : Q2Qc (inject_Z a) = Q2Qc (inject_Z b) -> a = b.
Proof. intros E. apply Q2Qc_eq_iff in E. unfold Qeq in E. cbn in E. lia. Qed.
Lemma zq_add a b : (Q2Qc (inject_Z a) + Q2Qc (inject_Z b) = Q2Qc (inject_Z (a + b)))%Qc.
Proof. apply Qc_is_canon. unfold Qcplus, Q2Qc, this. rewrite !Qred_correct. rewrite inject_Z_plus. reflexivity. Qed.
Lemma zq_opp a : (- Q2Qc (inject_Z a) = Q2Qc (inject_Z (- a)))%Qc.
Proof. apply Qc_is_canon. unfold Qcopp, Q2Qc, this. rewrite !Qred_correct. rewrite inject_Z_opp. reflexivity. Qed.
Lemma hval_eqb_refl v : hval_eqb v v = true.
Proof. destruct v; cbn; [apply Z.eqb_refl|apply Qc_eqb_eq; reflexivity|apply text_eqb_refl]. Qed.

Definition moved (v : hval) (s : Z) : hval := match v with HInt a => HInt (a + s) | HNum q => HNum (q + Q2Qc (inject_Z s)) | HStr t => HStr t end.
Lemma moved_moved v s t : moved (moved v s) t = moved v (s + t).
Proof. destruct v; cbn; [f_equal; lia|f_equal; rewrite <- zq_add; ring|reflexivity]. Qed.
Lemma moved_0 v : moved v 0 = v.
Proof. destruct v; cbn; [f_equal; lia|f_equal; change (Q2Qc (inject_Z 0)) with 0%Qc; ring|reflexivity]. Qed.
Lemma moved_number v s : match v with HStr _ => False | _ => True end -> number_of (moved v s) = (number_of v + Q2Qc (inject_Z s))%Qc.
Proof. destruct v; cbn; [intros _; rewrite zq_add; reflexivity|reflexivity|contradiction]. Qed.
Lemma moved_eqb v s t : match v with HStr _ => False | _ => True end -> hval_eqb (moved v s) (moved v t) = true -> s = t.
Proof.
  destruct v; cbn; intros H E; [apply Z.eqb_eq in E; lia| |contradiction]. apply Qc_eqb_eq in E. apply zq_inj.
  assert (X : (q + Q2Qc (inject_Z s) - q = q + Q2Qc (inject_Z t) - q)%Qc) by (rewrite E; reflexivity). ring_simplify in X. exact X.
Qed.

(** The header with another number of rows and a moved reference pixel. *)
Definition band (h : header) (axis : text) (n s : Z) : header :=
  match h_get h (kCRPIX ++ axis) with
  | Some v => h_set (h_set h (kNAXIS ++ axis) (HInt n)) (kCRPIX ++ axis) (moved v s)
  | None => h_set h (kNAXIS ++ axis) (HInt n)
  end.
Definition numeric (h : header) (axis : text) : Prop := match h_get h (kCRPIX ++ axis) with Some (HStr _) => False | _ => True end.

Lemma relabel_band h axis n s : numeric h axis -> relabel h axis n s = Ok (band h axis n s).
Proof.
  unfold numeric, relabel, band. cbn zeta. rewrite h_get_set_other by apply key_NC.
  destruct (h_get h (kCRPIX ++ axis)) as [[a|q|t]|]; intros H; [reflexivity|reflexivity|contradiction|reflexivity].
Qed.
Lemma band_get_other h axis n s k : k <> kNAXIS ++ axis -> k <> kCRPIX ++ axis -> h_get (band h axis n s) k = h_get h k.
Proof.
  intros A B. unfold band. destruct (h_get h (kCRPIX ++ axis)); repeat rewrite h_get_set_other by congruence; reflexivity.
Qed.
Lemma band_get_N h axis n s : h_get (band h axis n s) (kNAXIS ++ axis) = Some (HInt n).
Proof.
  unfold band. destruct (h_get h (kCRPIX ++ axis)); [rewrite h_get_set_other by (apply not_eq_sym, key_NC)|]; apply h_get_set_same.
Qed.
Lemma band_get_C h axis n s : h_get (band h axis n s) (kCRPIX ++ axis) = option_map (fun v => moved v s) (h_get h (kCRPIX ++ axis)).
Proof.
  unfold band. destruct (h_get h (kCRPIX ++ axis)) eqn:E; cbn [option_map]; [apply h_get_set_same|].
  rewrite h_get_set_other by apply key_NC. exact E.
Qed.
Lemma band_band h axis n s m t : band (band h axis n s) axis m t = band h axis m (s + t).
Proof.
  unfold band at 1. rewrite band_get_C. unfold band. destruct (h_get h (kCRPIX ++ axis)) eqn:E; cbn [option_map].
  - rewrite (h_set_comm _ (kCRPIX ++ axis)); [|apply not_eq_sym, key_NC|rewrite h_get_set_other by apply key_NC; congruence].
    rewrite h_set_twice, h_set_twice. rewrite moved_moved. reflexivity.
  - apply h_set_twice.
Qed.
Lemma band_id h axis n : h_get h (kNAXIS ++ axis) = Some (HInt n) -> band h axis n 0 = h.
Proof.
  intros E. unfold band. rewrite (h_set_same _ _ _ E). destruct (h_get h (kCRPIX ++ axis)) eqn:E'; [|reflexivity]. rewrite moved_0. apply h_set_same, E'.
Qed.
Lemma band_numeric h axis n s : numeric h axis -> numeric (band h axis n s) axis.
Proof. unfold numeric. rewrite band_get_C. destruct (h_get h (kCRPIX ++ axis)) as [[]|]; cbn; auto. Qed.
Lemma h_get_band_some h axis n s k : h_get h k <> None -> h_get (band h axis n s) k <> None.
Proof.
  intros H. destruct (list_eq_dec ascii_dec k (kNAXIS ++ axis)) as [->|A]; [rewrite band_get_N; discriminate|].
  destruct (list_eq_dec ascii_dec k (kCRPIX ++ axis)) as [->|B]; [|rewrite band_get_other; auto].
  rewrite band_get_C. destruct (h_get h (kCRPIX ++ axis)); [discriminate|congruence].
Qed.

Section H.
Context (h : header) (naxis n : Z) (Hh : image_header h naxis n) (m : Z) (Hm : (0 < m)%Z).
Let axis := str_int naxis.
Let start (r : Z) := split_start n m r.
Definition local (r : Z) : header := band h axis (start (r + 1) - start r) (- start r).

Lemma head_axis : last_axis h = Ok axis.
Proof. destruct Hh as [A [B _]]. unfold last_axis. rewrite A. destruct (h_get h (lit "NAXIS1")); [reflexivity|congruence]. Qed.
Lemma band_axis k s : last_axis (band h axis k s) = Ok axis.
Proof.
  destruct Hh as [A [B _]]. unfold last_axis. rewrite band_get_other; [|apply not_eq_sym, key_N, str_int_nonempty|apply not_eq_sym, key_C].
  rewrite A. pose proof (h_get_band_some h axis k s _ B) as N. destruct (h_get (band h axis k s) (lit "NAXIS1")); [reflexivity|congruence].
Qed.
Lemma numeric_h : numeric h axis.
Proof. apply Hh. Qed.
Lemma scatter_local r : scatter_header h m r = Ok (local r).
Proof.
  unfold scatter_header. rewrite head_axis. cbn [bind]. unfold h_int, h_item. destruct Hh as [_ [_ [E _]]]. unfold axis at 1. rewrite E. cbn [bind].
  apply relabel_band, numeric_h.
Qed.
Lemma scatter_all : map_res (scatter_header h m) (iota m) = Ok (map local (iota m)).
Proof. apply map_res_pure. intros r _. apply scatter_local. Qed.

Lemma sum_steps k : sumZ (map (fun r => (start (r + 1) - start r)%Z) (map Z.of_nat (seq 0 k))) = start (Z.of_nat k).
Proof.
  induction k as [|k IH]; [unfold start; cbn; rewrite split_start_0; lia|]. rewrite seq_S, !map_app, sumZ_app, IH. cbn [map plus sumZ fold_right].
  replace (Z.of_nat k + 1)%Z with (Z.of_nat (S k)) by lia. lia.
Qed.
Lemma iota_seq k : iota k = map Z.of_nat (seq 0 (Z.to_nat k)).
Proof. apply iota_map_seq. Qed.
Lemma sum_rows : sumZ (map (fun r => (start (r + 1) - start r)%Z) (iota m)) = n.
Proof. rewrite iota_seq, sum_steps. unfold start. rewrite Z2Nat.id by lia. apply split_start_m, Hm. Qed.

Lemma scatter_bands : bands h naxis n (map local (iota m)).
Proof.
  exists (map (fun r => (start (r + 1) - start r)%Z) (iota m)). split; [rewrite !map_length; reflexivity|].
  split; [|split; [apply sum_rows|]].
  - apply Forall_forall. intros x Hx. apply in_map_iff in Hx. destruct Hx as [r [<- _]]. destruct Hh as [_ [_ [_ [P _]]]]. pose proof (split_start_mono n m r P Hm). unfold start. lia.
  - intros r g E. assert (L : r < Z.to_nat m).
    { assert (L : r < length (map local (iota m))) by (apply nth_error_Some; congruence). rewrite map_length, iota_seq, map_length, seq_length in L. exact L. }
    rewrite nth_error_map, iota_nth_error in E by exact L. injection E as <-. fold axis. unfold local. split; [|split].
    + rewrite band_get_N, nth_error_map, iota_nth_error by exact L. reflexivity.
    + rewrite band_get_C. pose proof numeric_h as Nu. unfold numeric in Nu. destruct (h_get h (kCRPIX ++ axis)) as [v|]; cbn [option_map]; [|reflexivity].
      rewrite moved_number by (destruct v; auto). f_equal. unfold Qcminus. f_equal. rewrite <- zq_opp. f_equal. f_equal. f_equal.
      rewrite iota_seq, !firstn_map.
      replace (firstn r (seq 0 (Z.to_nat m))) with (seq 0 r).
      * symmetry. apply sum_steps.
      * replace (Z.to_nat m) with (r + (Z.to_nat m - r)) by lia. rewrite seq_app, firstn_app, seq_length.
        replace (r - r) with 0 by lia. cbn [firstn]. rewrite app_nil_r. rewrite firstn_all2; [reflexivity|rewrite seq_length; lia].
    + intros k A B. apply band_get_other; auto.
Qed.

Lemma map_const {A B} (f : A -> B) b l : (forall x, In x l -> f x = b) -> map f l = repeat b (length l).
Proof. induction l as [|x l IH]; intros H; [reflexivity|]. cbn [map length repeat]. rewrite H by (left; auto). rewrite IH; auto. intros; apply H; right; auto. Qed.
Lemma length_iota k : length (iota k) = Z.to_nat k.
Proof. rewrite iota_seq, map_length, seq_length. reflexivity. Qed.

Lemma gather_local : gather_headers (map local (iota m)) = Ok (repeat h (Z.to_nat m)).
Proof.
  unfold gather_headers.
  rewrite map_res_map. rewrite (map_res_pure _ (fun r => (start (r + 1) - start r)%Z)).
  2: { intros r _. unfold local at 1. rewrite band_axis. cbn [bind]. unfold h_int, h_item, local. rewrite band_get_N. reflexivity. }
  cbn [bind]. rewrite sum_rows. rewrite zlen_map, zlen_iota by lia.
  assert (E : combine (map local (iota m)) (iota m) = map (fun r => (local r, r)) (iota m)).
  { generalize (iota m) as l. induction l as [|x l IH]; [reflexivity|]. cbn. rewrite IH. reflexivity. }
  rewrite E, map_res_map. rewrite (map_res_pure _ (fun r => h)).
  - rewrite (map_const _ h) by reflexivity. rewrite length_iota. reflexivity.
  - intros r _. cbn [fst snd]. unfold local at 1. rewrite band_axis. cbn [bind]. rewrite relabel_band by apply band_numeric, numeric_h.
    unfold local. rewrite band_band. unfold start. replace (- split_start n m r + split_start n m r)%Z with 0%Z by lia.
    rewrite band_id; [reflexivity|]. destruct Hh as [_ [_ [E' _]]]. exact E'.
Qed.

(** ** gather_if_needed *)
Context (Hw : has_wcs h = Ok true) (Ha : (1 <= naxis)%Z).
Lemma axes_in a : In a (axes naxis) <-> exists i, (1 <= i <= naxis)%Z /\ a = str_int i.
Proof.
  unfold axes. rewrite in_map_iff. split.
  - intros [i [<- I]]. apply In_iota in I. exists (i + 1)%Z. split; [lia|reflexivity].
  - intros [i [I ->]]. exists (i - 1)%Z. split; [f_equal; lia|]. apply In_iota. lia.
Qed.
Lemma wcs_keys a k : In a (axes naxis) -> In k ["CRPIX"; "CRVAL"; "CTYPE"]%string -> h_get h (lit k ++ a) <> None.
Proof.
  intros A K. unfold has_wcs, h_int, h_item in Hw. rewrite (proj1 Hh) in Hw. cbn [bind] in Hw.
  match type of Hw with Ok ?b = Ok true => assert (W : b = true) by congruence end.
  rewrite forallb_forall in W. specialize (W a A). rewrite forallb_forall in W. specialize (W k K). destruct (h_get h (lit k ++ a)); [discriminate|congruence].
Qed.
Lemma band_wcs k s : has_wcs (band h axis k s) = Ok true.
Proof.
  unfold has_wcs, h_int, h_item. rewrite band_get_other; [|apply not_eq_sym, key_N, str_int_nonempty|apply not_eq_sym, key_C].
  rewrite (proj1 Hh). cbn [bind]. f_equal. apply forallb_forall. intros a A. apply forallb_forall. intros x X.
  pose proof (h_get_band_some h axis k s _ (wcs_keys a x A X)) as N. destruct (h_get _ _); [reflexivity|congruence].
Qed.
Lemma axes_before a : In a (axes (naxis - 1)) -> a <> axis.
Proof. unfold axes. rewrite in_map_iff. intros [i [<- I]] E. apply In_iota in I. apply str_int_inj in E. lia. Qed.
Lemma required_other k : In k (required_same naxis) -> k <> kNAXIS ++ axis /\ k <> kCRPIX ++ axis.
Proof.
  unfold required_same. rewrite !in_app_iff. intros [I|[I|I]].
  - cbn in I. repeat (destruct I as [<-|I]; [split; discriminate|]). destruct I.
  - apply in_map_iff in I. destruct I as [a [<- I]]. split; [|apply key_NC]. intros E. apply app_inv_head in E. apply (axes_before a I E).
  - apply in_map_iff in I. destruct I as [a [<- I]]. split; [apply not_eq_sym, key_NC|]. intros E. apply app_inv_head in E. apply (axes_before a I E).
Qed.

Definition banded (hs : list header) : Prop := Forall (fun g => exists k s, g = band h axis k s) hs.
Lemma banded_same hs h0 : banded hs -> In h0 hs -> forall g k, In g hs -> In k (required_same naxis) -> check_same h0 hs k g = Ok tt.
Proof.
  intros B I0 g k Ig Ik. destruct (required_other k Ik) as [K1 K2]. unfold banded in B. rewrite Forall_forall in B.
  assert (G : forall g, In g hs -> h_get g k = h_get h k) by (intros g' I'; destruct (B g' I') as [a [b ->]]; apply band_get_other; auto).
  unfold check_same. rewrite (G g Ig). destruct (h_get h k) as [v|] eqn:E; [|reflexivity].
  rewrite (map_res_pure _ (fun _ => v)) by (intros g' I'; unfold h_item; rewrite (G g' I'); reflexivity). cbn [bind].
  unfold h_item. rewrite (G h0 I0). cbn [bind]. rewrite (proj2 (forallb_forall _ _)); [reflexivity|].
  intros x X. apply in_map_iff in X. destruct X as [_ [<- _]]. apply hval_eqb_refl.
Qed.
Lemma crpix_h : exists v, h_get h (kCRPIX ++ axis) = Some v.
Proof.
  destruct (h_get h (kCRPIX ++ axis)) as [v|] eqn:E; [exists v; reflexivity|]. exfalso.
  apply (wcs_keys axis "CRPIX"); [apply axes_in; exists naxis; split; [lia|reflexivity]|cbn; auto|exact E].
Qed.
(** Past the checks. *)
Lemma if_needed_checks g0 hs : banded (g0 :: hs) -> 1 < length (g0 :: hs) ->
  exists b, (b = true <-> forall g, In g (g0 :: hs) -> exists v v0, h_get g (kCRPIX ++ axis) = Some v /\ h_get g0 (kCRPIX ++ axis) = Some v0 /\ hval_eqb v v0 = true) /\
  gather_if_needed (g0 :: hs) = if b : bool then Ok (g0 :: hs) else gather_headers (g0 :: hs).
Proof.
  intros B L. pose proof B as B'. unfold banded in B'. rewrite Forall_forall in B'. set (all := g0 :: hs) in *.
  destruct crpix_h as [c Ec].
  assert (Cr : forall g, In g all -> exists v, h_get g (kCRPIX ++ axis) = Some v).
  { intros g Ig. destruct (B' g Ig) as [k [s ->]]. rewrite band_get_C, Ec. cbn. eauto. }
  destruct (Cr g0 (or_introl eq_refl)) as [v0 E0].
  exists (forallb (fun g => match h_get g (kCRPIX ++ axis) with Some v => hval_eqb v v0 | None => false end) all). split.
  - rewrite forallb_forall. split.
    + intros H g Ig. specialize (H g Ig). destruct (h_get g (kCRPIX ++ axis)) as [v|] eqn:E; [|discriminate]. exists v, v0. auto.
    + intros H g Ig. destruct (H g Ig) as [v [w [E1 [E2 E3]]]]. rewrite E1. rewrite E0 in E2. injection E2 as <-. exact E3.
  - unfold gather_if_needed, all. fold all.
    rewrite (map_res_pure _ (fun _ => axis)) by (intros g Ig; destruct (B' g Ig) as [k [s ->]]; apply band_axis). cbn [bind].
    rewrite (proj2 (Nat.eqb_neq _ _)) by lia.
    rewrite (map_res_pure has_wcs (fun _ => true)) by (intros g Ig; destruct (B' g Ig) as [k [s ->]]; apply band_wcs). cbn [bind].
    rewrite (proj2 (forallb_forall _ (map _ all))) by (intros x X; apply in_map_iff in X; destruct X as [_ [<- _]]; reflexivity). cbn [negb].
    assert (Na : forall g, In g all -> h_int g kNAXIS = Ok naxis).
    { intros g Ig. destruct (B' g Ig) as [k [s ->]]. unfold h_int, h_item. rewrite band_get_other; [|apply not_eq_sym, key_N, str_int_nonempty|apply not_eq_sym, key_C]. rewrite (proj1 Hh). reflexivity. }
    rewrite (map_res_pure _ (fun _ => map (fun _ => tt) (required_same naxis))).
    2: { intros g Ig. rewrite (Na g Ig). cbn [bind]. rewrite (map_res_pure _ (fun _ => tt)); [reflexivity|]. intros k Ik. apply banded_same; auto. left; reflexivity. }
    cbn [bind].
    set (same := forallb (fun g => match h_get g (kCRPIX ++ axis) with Some v => hval_eqb v v0 | None => false end) all).
    rewrite (map_res_pure _ (fun _ => same)).
    2: { intros g Ig. rewrite (Na g Ig). cbn [bind]. unfold h_item at 1. fold axis. rewrite E0. cbn [bind].
         rewrite (map_res_pure _ (fun g => match h_get g (kCRPIX ++ axis) with Some v => v | None => HInt 0 end)).
         2: { intros g' I'. unfold h_item. fold axis. destruct (Cr g' I') as [v ->]. reflexivity. }
         cbn [bind]. f_equal. unfold same. clear -Cr. induction all as [|x r IH]; [reflexivity|]. cbn [map forallb].
         destruct (Cr x (or_introl eq_refl)) as [v ->]. f_equal. apply IH. intros g Ig. apply Cr. right. exact Ig. }
    cbn [bind]. destruct same; [rewrite (proj2 (forallb_forall _ (map _ all))) by (intros x X; apply in_map_iff in X; destruct X as [_ [<- _]]; reflexivity); reflexivity|reflexivity].
Qed.

Lemma if_needed_local : gather_if_needed (map local (iota m)) = Ok (repeat h (Z.to_nat m)).
Proof.
  assert (X0 : iota m <> []) by (intros E; pose proof (length_iota m) as X; rewrite E in X; cbn in X; lia).
  destruct (Z.eq_dec m 1) as [M1|M1].
  - rewrite M1 at 1 2. change (iota 1) with [0%Z]. cbn [map repeat Pos.to_nat Z.to_nat]. unfold gather_if_needed.
    assert (E : local 0 = h).
    { unfold local, start. rewrite M1. change (0 + 1)%Z with 1%Z. rewrite (split_start_m n 1), (split_start_0 n 1) by lia. rewrite Z.sub_0_r. apply band_id. apply Hh. }
    rewrite E. cbn [map_res length Nat.eqb]. rewrite head_axis. reflexivity.
  - assert (Bd : banded (map local (iota m))).
    { apply Forall_forall. intros g Ig. apply in_map_iff in Ig. destruct Ig as [r [<- _]]. unfold local. eauto. }
    destruct (iota m) as [|r0 rest] eqn:Ei; [congruence|].
    assert (R0 : r0 = 0%Z).
    { pose proof (iota_nth_error m 0 ltac:(lia)) as E. rewrite Ei in E. cbn in E. congruence. }
    subst r0. cbn [map] in *.
    destruct (if_needed_checks (local 0) (map local rest) Bd) as [b [Hb ->]].
    { cbn [length]. rewrite map_length. pose proof (length_iota m) as X. rewrite Ei in X. cbn in X. lia. }
    change (local 0 :: map local rest) with (map local (0%Z :: rest)) in *. rewrite <- Ei in *.
    destruct b; [|apply gather_local]. f_equal.
    assert (I1 : In (local 1) (map local (iota m))) by (apply in_map, In_iota; lia).
    destruct (proj1 Hb eq_refl _ I1) as [v [v0 [E1 [E2 E3]]]]. unfold local in E1, E2. rewrite band_get_C in E1, E2.
    destruct crpix_h as [c Ec]. rewrite Ec in E1, E2. cbn [option_map] in E1, E2. injection E1 as <-. injection E2 as <-.
    apply moved_eqb in E3; [|pose proof numeric_h as Nu; unfold numeric in Nu; rewrite Ec in Nu; destruct c; auto].
    pose proof (proj1 (proj2 (proj2 (proj2 Hh)))) as P.
    assert (N0 : n = 0%Z).
    { unfold start in E3. rewrite split_start_0 in E3 by lia. pose proof (split_start_step n m 0) as St. change (0 + 1)%Z with 1%Z in St. rewrite split_start_0 in St by lia.
      pose proof (Z.mod_pos_bound n m Hm). pose proof (Z.div_mod n m ltac:(lia)). pose proof (Z.div_pos n m P ltac:(lia)).
      destruct (Z.ltb_spec 0 (n mod m)); nia. }
    rewrite (map_const local h); [rewrite length_iota; reflexivity|]. intros r Ir. unfold local, start. rewrite N0.
    assert (Z0 : forall q, split_start 0 m q = Z.min q 0) by (intros q; unfold split_start; rewrite Z.div_0_l, Z.mod_0_l by lia; lia).
    apply In_iota in Ir. rewrite !Z0, !Z.min_r by lia. cbn. apply band_id. rewrite <- N0 at 1. apply Hh.
Qed.
Lemma if_needed_global k : gather_if_needed (repeat h k) = Ok (repeat h k).
Proof.
  destruct k as [|[|k]]; [reflexivity|unfold gather_if_needed; cbn [repeat map_res length Nat.eqb]; rewrite head_axis; reflexivity|].
  assert (Bd : banded (repeat h (S (S k)))).
  { apply Forall_forall. intros g Ig. apply repeat_spec in Ig. subst g. exists n, 0%Z. symmetry. apply band_id. apply Hh. }
  change (repeat h (S (S k))) with (h :: repeat h (S k)) in *.
  destruct (if_needed_checks h (repeat h (S k)) Bd) as [b [Hb ->]]; [cbn; lia|].
  rewrite (proj2 Hb); [reflexivity|]. intros g Ig. assert (g = h) by (destruct Ig as [<-|Ig]; [reflexivity|apply repeat_spec in Ig; exact Ig]). subst g.
  destruct crpix_h as [c Ec]. exists c, c. rewrite Ec. repeat split; auto. apply hval_eqb_refl.
Qed.
End H.
