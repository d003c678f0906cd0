From Coq Require Import Reals Lra Lia String Permutation.
From Verif Require Import Base BaseFacts ConstModel SkyModel SkySpec SkyFacts WcsModel WcsSpec WcsFacts WcsFacts2.
Open Scope R_scope.
(** ** Headers *)
Lemma hget_hset_same h k v : hget (hset h k v) k = Some v.
Proof. induction h as [|[k' v'] h IH]; cbn; [now rewrite String.eqb_refl|]. destruct (String.eqb k k') eqn:E; cbn; [now rewrite String.eqb_refl | rewrite E; exact IH]. Qed.
Lemma hget_hset_other h k k' v : String.eqb k' k = false -> hget (hset h k v) k' = hget h k'.
Proof.
  intros N. induction h as [|[q w] h IH]; cbn; [now rewrite N|]. destruct (String.eqb k q) eqn:E; cbn.
  - apply String.eqb_eq in E. subst q. now rewrite N.
  - destruct (String.eqb k' q); [reflexivity | exact IH].
Qed.
Lemma base_shape naxes t e h : base_cards naxes t e = Ok h -> (length naxes <= 8)%nat /\ hget h "NAXIS" = Some (HI (zlen naxes)) /\ (forall i, (i < length naxes)%nat -> hget h (key "NAXIS" (S i)) = Some (HI (nth i naxes 0%Z))) /\
  (forall i, hget h (key "CRPIX" i) = None /\ hget h (key "CRVAL" i) = None /\ hget h (key "CTYPE" i) = None).
Proof.
  unfold base_cards. destruct (8 <? zlen naxes)%Z eqn:L; [discriminate|]. destruct (dtype2bitpix t) as [b|]; [|discriminate]. cbn [bind]. assert (L' : (length naxes <= 8)%nat) by (unfold zlen in L; lia). clear L.
  intros H. split; [exact L'|]. destruct naxes as [|n1 [|n2 [|n3 [|n4 [|n5 [|n6 [|n7 [|n8 [|n9 naxes]]]]]]]]]; [..| cbn in L'; lia];
    (destruct e as [e|]; injection H as <-; (split; [reflexivity|]; split; [intros i Hi; cbn in Hi; do 9 (destruct i as [|i]; [try reflexivity; exfalso; lia|]); exfalso; lia | intros i; repeat split; reflexivity])).
Qed.
Lemma map_res_map {A B} (f : A -> res B) (g : A -> B) l : (forall x, In x l -> f x = Ok (g x)) -> map_res f l = Ok (map g l).
Proof. induction l as [|x l IH]; intros H; [reflexivity|]. cbn. rewrite (H x) by now left. cbn. rewrite IH by (intros; apply H; now right). reflexivity. Qed.
Lemma map_nth_seq {A} (l : list A) d : map (fun i => nth (i - 1) l d) (seq 1 (length l)) = l.
Proof.
  apply (nth_ext _ _ d d); [now rewrite map_length, seq_length|]. intros k Hk. rewrite map_length, seq_length in Hk. rewrite (nth_indep _ d (nth (0 - 1) l d)) by (rewrite map_length, seq_length; lia).
  rewrite (map_nth (fun i => nth (i - 1) l d) (seq 1 (length l)) 0%nat k), seq_nth by lia. f_equal. lia.
Qed.
Lemma shape_of_header h naxes : hget h "NAXIS" = Some (HI (zlen naxes)) -> (forall i, (i < length naxes)%nat -> hget h (key "NAXIS" (S i)) = Some (HI (nth i naxes 0%Z))) -> fitsheader2shape h = Ok (rev naxes).
Proof.
  intros H N. unfold fitsheader2shape. unfold hint at 1. rewrite H. cbn [bind]. unfold zlen. rewrite Nat2Z.id.
  rewrite (map_res_map _ (fun i => nth (i - 1) naxes 0%Z)).
  - now rewrite map_rev, map_nth_seq.
  - intros i Hi. apply in_rev in Hi. apply in_seq in Hi. unfold hint. destruct i as [|i]; [lia|]. rewrite N by lia. do 2 f_equal. lia.
Qed.
(** The cards of the astrometry. *)
Lemma create_cards naxes t e crval crpix cunit ctype cd cdelt pa rs eq h : create_fitsheader naxes t e crval crpix cunit ctype cd cdelt pa rs eq = Ok h ->
  exists h0, base_cards naxes t e = Ok h0 /\ (forall k, (k = "NAXIS" \/ exists i, k = key "NAXIS" i)%string -> hget h k = hget h0 k) /\
  ((cd = None /\ cdelt = None /\ h = h0) \/
   (exists c m v1 v2 p1 p2 t1 t2, cd = None /\ cdelt = Some c /\ cd_of ctype c pa = Ok m /\ crval = [v1; v2] /\ (match crpix with Some l => l | None => map (fun n => (IZR n + 1) / 2) naxes end) = [p1; p2] /\ ctype = Some [t1; t2] /\
      hnum h "CD1_1" = Ok (fst (fst m)) /\ hnum h "CD1_2" = Ok (snd (fst m)) /\ hnum h "CD2_1" = Ok (fst (snd m)) /\ hnum h "CD2_2" = Ok (snd (snd m)) /\
      hget h "CRVAL1" = Some (HF v1) /\ hget h "CRVAL2" = Some (HF v2) /\ hget h "CRPIX1" = Some (HF p1) /\ hget h "CRPIX2" = Some (HF p2) /\ hget h "CTYPE1" = Some (HS t1) /\ hget h "CTYPE2" = Some (HS t2))).
Proof.
  unfold create_fitsheader. destruct (base_cards naxes t e) as [h0|] eqn:E0; [|discriminate]. cbn [bind]. intros H. exists h0. split; [reflexivity|].
  destruct cd as [cd|].
  { exfalso. destruct cdelt as [[c|l]|]; discriminate. }
  destruct cdelt as [c|].
  2:{ injection H as <-. split; [reflexivity|]. left. auto. }
  destruct (cd_of ctype c pa) as [m|] eqn:Em; [|discriminate]. cbn [bind] in H.
  destruct crval as [|v1 [|v2 [|? ?]]]; try discriminate. destruct (match crpix with Some l => l | None => _ end) as [|p1 [|p2 [|? ?]]] eqn:Ep; try discriminate. destruct ctype as [[|t1 [|t2 [|? ?]]]|]; try discriminate.
  destruct (match cunit with One u => Ok (u, u) | Many [u1; u2] => Ok (u1, u2) | Many _ => Err ValueError end) as [[u1 u2]|]; [|discriminate]. cbn [bind] in H. injection H as <-.
  split.
  - intros k Hk. destruct (_ && _)%bool; destruct eq; repeat (rewrite hget_hset_other by (destruct Hk as [-> | [i ->]]; reflexivity)); reflexivity.
  - right. exists c, m, v1, v2, p1, p2, t1, t2. repeat (split; [reflexivity || assumption|]). unfold hnum.
    destruct (_ && _)%bool; destruct eq; repeat split; repeat (rewrite hget_hset_other by reflexivity); rewrite hget_hset_same; reflexivity.
Qed.
