(** C122: units in distances, apertures, Airy patterns and profiles. *)
From Coq Require Import String Ascii Reals Lra Lia QArith Qcanon Qreals.
From Verif Require Import Base BaseFacts TemplateModel UnitModel UnitSpec UnitFacts UnitSIFacts UfModel UfSpec ConstModel DataModel DataSpec DataFacts DataFacts2 DataProps MiscModel MiscProps QdModel.
Open Scope R_scope.

(** The magnitude of a quantity of the unit u. *)
Definition physical (mags : text -> R) (u : unit_) (x : R) : R := value rlog_ops ract mags (Qty x u []).
Definition physical_scale (mags : text -> R) (u : unit_) (s : scaling) : scaling :=
  match s with Same s => Same (physical mags u s) | Each l => Each (map (physical mags u) l) end.

Lemma norm2_times k s : forall c idx, norm2 (map (fun x => k * x) s) c idx = k * k * norm2 s c idx.
Proof. induction s as [|a s IH]; intros [|o c] [|i idx]; cbn; try ring. rewrite IH. ring. Qed.
Lemma rev_each_physical mags u s n : rev (each n (physical_scale mags u s)) = map (fun x => exp (powers rlog_ops mags u) * x) (rev (each n s)).
Proof.
  destruct s as [s|l]; cbn [physical_scale each].
  - unfold physical. cbn [value]. unfold ract. generalize (exp (powers rlog_ops mags u)). intros k.
    assert (Q : forall (x : R) m, repeat (k * x) m = map (fun x => k * x) (repeat x m)) by (intros x m; induction m; cbn; congruence). rewrite Q, map_rev. reflexivity.
  - rewrite <- map_rev. reflexivity.
Qed.

(** The distance, with its unit, is that of the physical scale, whatever the magnitudes of the
    units; its unit is that of the scale. *)
Theorem C122_distance : forall mags shape center scale su idx, let c := match center with Some c => c | None => map (fun n => (IZR n - 1) / 2) (rev shape) end in
  idx <> [] -> length idx = length shape -> length c = length shape -> length (each (length shape) scale) = length shape ->
  exists q, qdistance shape center scale su idx = Ok q /\ get_units q = su /\
    distance shape center (physical_scale mags su scale) idx = Ok (value rlog_ops ract mags q).
Proof.
  intros mags shape center scale su idx c N L Lc Ls. unfold qdistance. rewrite C63_distance by assumption. eexists. split; [reflexivity|]. split; [reflexivity|].
  assert (Lp : length (each (length shape) (physical_scale mags su scale)) = length shape) by (destruct scale; cbn in *; rewrite ?repeat_length, ?map_length in *; auto).
  rewrite C63_distance by assumption. f_equal. rewrite rev_each_physical, norm2_times. cbn [value]. unfold ract. set (k := exp _).
  assert (K : 0 < k) by apply exp_pos. rewrite sqrt_mult; [|apply Rmult_le_pos; lra|apply norm2_nonneg]. rewrite sqrt_square by lra. reflexivity.
Qed.
Print Assumptions C122_distance.
Example C122_distance_case : exists q, qdistance [1; 6]%Z (Some [0; 0]) (Same 2) (parsed "arcsec") [0; 5]%Z = Ok q /\ get_units q = parsed "arcsec" /\ magnitude q = 10.
Proof.
  unfold qdistance. rewrite C63_distance by (discriminate || reflexivity). eexists. split; [reflexivity|]. split; [reflexivity|]. cbn.
  match goal with |- sqrt ?x = _ => replace x with (10 * 10) by ring end. apply sqrt_square. lra.
Qed.

(** FINDING 200.  The squared distance has the unit of the scale instead of its square: it is
    off by the magnitude of the unit. *)
Theorem C122_distance2_refuted : forall mags shape center scale su idx, let c := match center with Some c => c | None => map (fun n => (IZR n - 1) / 2) (rev shape) end in
  (length idx = 1 \/ length idx = 2)%nat -> length idx = length shape -> length c = length shape -> length (each (length shape) scale) = length shape ->
  exists q d, qdistance2 shape center scale su idx = Ok q /\ get_units q = su /\
    distance2 shape center (physical_scale mags su scale) idx = Ok d /\ d = physical mags su (value rlog_ops ract mags q) /\
    (physical mags su 1 <> 1 -> d <> 0 -> d <> value rlog_ops ract mags q).
Proof.
  intros mags shape center scale su idx c N L Lc Ls. unfold qdistance2. rewrite (proj1 (C63_distance2_partial shape center scale idx N L Lc Ls)).
  assert (Lp : length (each (length shape) (physical_scale mags su scale)) = length shape) by (destruct scale; cbn in *; rewrite ?repeat_length, ?map_length in *; auto).
  eexists. eexists. split; [reflexivity|]. split; [reflexivity|]. split; [exact (proj1 (C63_distance2_partial shape center _ idx N L Lc Lp))|].
  fold c. rewrite rev_each_physical, norm2_times. unfold physical. cbn [value]. unfold ract. set (k := exp _). set (n := norm2 _ _ _). assert (K : 0 < k) by apply exp_pos.
  split; [ring|]. intros K1 D E. apply K1. apply (Rmult_eq_reg_l (k * n)); [lra|]. intros Z0. apply D. rewrite Rmult_assoc, Z0. ring.
Qed.
Print Assumptions C122_distance2_refuted.

Section Uf.
Variables (jn : R -> R -> R) (fuel : nat) (glob : @du_table R).
Notation uf := (uf jn fuel glob).
Lemma uf_divide_n (a : operand) x : exists q, uf True_divide [a; Plain x] = Ok q /\ magnitude q = magnitude a / x /\ get_units q = get_units a.
Proof. destruct a as [v|v u loc]; cbn; eexists; repeat split. Qed.
Lemma uf_divide (a b : operand) : exists q, uf True_divide [a; b] = Ok q /\ magnitude q = magnitude a / magnitude b /\ get_units q = divide_unit (get_units a) (get_units b).
Proof. destruct a as [v|v u loc], b as [w|w t loc']; cbn; eexists; repeat split. Qed.
Lemma uf_divide_left v u loc (b : operand) : uf True_divide [Qty v u loc; b] = Ok (Qty (v / magnitude b) (divide_unit u (get_units b)) loc).
Proof. destruct b; reflexivity. Qed.
Lemma uf_multiply_left v u loc (b : operand) : uf Multiply [Qty v u loc; b] = Ok (Qty (v * magnitude b) (multiply_unit u (get_units b)) loc).
Proof. destruct b; reflexivity. Qed.
Lemma uf_square v u loc : uf Power [Qty v u loc; Plain 2] = Ok (Qty (v * v) (power_unit u (Q2Qc (2 # 1))) loc).
Proof.
  unfold QdModel.uf, array_ufunc. cbn [handler ufunc_units nth_error map bind nth_unit get_units magnitude].
  assert (E : rexpo 2 = Some (Q2Qc (2 # 1))) by (unfold rexpo; destruct (Req_EM_T 2 2) as [_|F]; [reflexivity|now destruct F]). rewrite E.
  assert (C : rcore jn Power Call [v; 2] = v * v) by (cbn; destruct (Req_EM_T 2 2) as [_|F]; [reflexivity|now destruct F]).
  destruct u as [|kv u]; cbn [power_by bind fst snd map magnitude]; rewrite C; reflexivity.
Qed.
Lemma uf_square_plain v : uf Power [Plain v; Plain 2] = Ok (Plain (v * v)).
Proof. unfold QdModel.uf, array_ufunc. cbn [handler map magnitude]. unfold rcore. destruct (Req_EM_T 2 2) as [_|F]; [reflexivity|now destruct F]. Qed.
End Uf.

(** A diameter without unit is in that of the scale: the aperture is that of the numbers. *)
Theorem C122_aperture_partial : forall jn fuel glob shape D center scale su idx diameter, distinct_names su ->
  diameter = Plain D \/ (exists loc, diameter = Qty D [] loc) ->
  qaperture jn fuel glob shape diameter center scale su idx = do b <- aperture_circular shape D center scale idx; Ok (Qty b su []).
Proof.
  intros jn fuel glob shape D center scale su idx diameter Ns H. unfold qaperture, qdistance2, aperture_circular. destruct (distance2 shape center scale idx) as [d|e]; [|reflexivity]. cbn [bind].
  assert (E : exists h, QdModel.uf jn fuel glob True_divide [diameter; Plain 2] = Ok h /\ (h = Plain (D / 2) \/ exists loc, h = Qty (D / 2) [] loc)).
  { destruct H as [->|[loc ->]]; eexists; (split; [reflexivity|]); [left; reflexivity|right; exists loc; reflexivity]. }
  destruct E as [h [-> Hh]]. cbn [bind].
  assert (E : exists h2, QdModel.uf jn fuel glob Power [h; Plain 2] = Ok h2 /\ (h2 = Plain (D / 2 * (D / 2)) \/ exists loc, h2 = Qty (D / 2 * (D / 2)) [] loc)).
  { destruct Hh as [->|[loc ->]]; [rewrite uf_square_plain; eexists; split; [reflexivity|left; reflexivity]|rewrite uf_square; eexists; split; [reflexivity|right; exists loc; reflexivity]]. }
  destruct E as [h2 [-> Hh2]]. cbn [bind].
  assert (E : exists b, QdModel.uf jn fuel glob Less_equal [Qty d su []; h2] = Ok (Plain b) /\ b = if Rle_dec d (D / 2 * (D / 2)) then 1 else 0).
  { unfold QdModel.uf, array_ufunc, ufunc_units, common_units. cbn [handler map get_units].
    assert (C : common_of [su; get_units h2] = su) by (destruct Hh2 as [->|[loc ->]]; destruct su; reflexivity). rewrite C.
    assert (Hm : homogenize rlog_ops ract fuel glob su (Qty d su []) = Ok (Qty d su [])) by (cbn; rewrite (dict_eqb_refl su Ns), Bool.andb_false_r; reflexivity).
    cbn [map_res]. rewrite Hm. cbn [bind]. destruct Hh2 as [->|[loc ->]]; cbn; eexists; split; reflexivity. }
  destruct E as [b [-> ->]]. reflexivity.
Qed.
Print Assumptions C122_aperture_partial.
Example C122_aperture_case : forall jn fuel glob, qaperture jn fuel glob [1; 6]%Z (Plain 4) (Some [0; 0]) (Same 2) (parsed "arcsec") [0; 1]%Z = Ok (Qty 1 (parsed "arcsec") []).
Proof.
  intros. rewrite (C122_aperture_partial jn fuel glob _ 4) by (try (left; reflexivity); repeat constructor; intros []). unfold aperture_circular.
  rewrite (proj1 (C63_distance2_partial [1; 6]%Z (Some [0; 0]) (Same 2) [0; 1]%Z (or_intror eq_refl) eq_refl eq_refl eq_refl)). cbn [bind each length rev app repeat norm2].
  destruct (Rle_dec _ _) as [_|F]; [reflexivity|]. destruct F. cbn. lra.
Qed.

(** FINDING 201.  A diameter in the unit of the scale: its square, in square metres, is compared
    with the squared distance, in metres. *)
Definition metre : unit_ := [(lit "m", 1%Qc)].
Theorem C122_aperture_refuted : forall jn num shape D loc center scale idx d, distance2 shape center scale idx = Ok d -> loc = [] ->
  qaperture jn 6 (units_table num) shape (Qty D metre loc) center scale metre idx = Err UnitError.
Proof.
  intros jn num shape D loc center scale idx d H ->. unfold qaperture, qdistance2. rewrite H. cbn [bind]. rewrite uf_divide_left. cbn [bind get_units magnitude divide_unit fold_left].
  rewrite uf_square. cbn [bind]. unfold uf, array_ufunc, ufunc_units, common_units. cbn [handler map get_units].
  change (common_of [metre; power_unit metre (Q2Qc (2 # 1))]) with metre. cbn [map_res].
  change (homogenize rlog_ops ract 6 (units_table num) metre (Qty d metre [])) with (Ok (Qty (K := R) d metre [])). cbn [bind].
  assert (E : homogenize rlog_ops ract 6 (units_table num) metre (Qty (D / 2 * (D / 2)) (power_unit metre (Q2Qc (2 # 1))) []) = Err UnitError).
  { generalize (D / 2 * (D / 2)). intros x. vm_compute. reflexivity. }
  rewrite E. reflexivity.
Qed.
Print Assumptions C122_aperture_refuted.

(** ** Airy patterns *)
Lemma absent_exponent (u : unit_) k : ~ In k (map fst u) -> exponent u k = 0%Qc.
Proof. induction u as [|[k' e] u IH]; intros H; [reflexivity|]. cbn in *. destruct (list_eq_dec ascii_dec k' k) as [E|E]; [tauto|]. apply IH. tauto. Qed.
Lemma no_exponent (u : unit_) : canonical u -> (forall k, exponent u k = 0%Qc) -> u = [].
Proof.
  intros [N Z0] H. destruct u as [|[k e] u]; [reflexivity|]. exfalso. apply Forall_cons_iff in Z0 as [E _]. apply E. specialize (H k). cbn in H.
  destruct (list_eq_dec ascii_dec k k) as [_|F]; [|now destruct F]. unfold distinct_names in N. cbn [map fst] in N. inversion N; subst. rewrite absent_exponent in H by assumption.
  rewrite <- H. cbn [snd]. ring.
Qed.
Lemma divide_self (u : unit_) : canonical u -> divide_unit u u = [].
Proof. intros C. apply no_exponent; [now apply canonical_divide|]. intros k. rewrite divide_exponent by apply C. ring. Qed.
Lemma canonical_nil : canonical [].
Proof. split; constructor. Qed.

Definition numbers (w : option operand) : option R := option_map (magnitude (V := R)) w.
Definition canonical_opt (w : option operand) : Prop := match w with Some a => canonical (get_units a) | None => True end.
Lemma uf_equal_zero jn fuel glob x su : distinct_names su -> uf jn fuel glob Equal [Qty x su []; Plain 0] = Ok (Plain (if Req_EM_T x 0 then 1 else 0)).
Proof.
  intros Ns. unfold uf, array_ufunc, ufunc_units, common_units. cbn [handler map get_units].
  assert (C : common_of (map get_units [Qty x su []; Plain (K := R) 0]) = su) by (destruct su; reflexivity). cbn [map get_units] in C. rewrite C.
  assert (Hm : homogenize rlog_ops ract fuel glob su (Qty x su []) = Ok (Qty x su [])) by (cbn; rewrite (dict_eqb_refl su Ns), Bool.andb_false_r; reflexivity).
  cbn [map_res]. rewrite Hm. reflexivity.
Qed.
Lemma qairy_pixel_ok jn fuel glob fwhm r0 su : canonical su -> canonical_opt fwhm -> canonical_opt r0 ->
  exists U, canonical U /\ forall x, qairy_pixel jn fuel glob fwhm r0 (Qty x su []) = do v <- airy_value (jn 1) (numbers fwhm) (numbers r0) x; Ok (Qty v U []).
Proof.
  intros Cs Cw Cr.
  set (W := match fwhm, r0 with Some w, _ => get_units w | None, Some r => get_units r | None, None => [] end).
  assert (CW : canonical W) by (destruct fwhm; [exact Cw|destruct r0; [exact Cr|apply canonical_nil]]).
  set (Q := divide_unit [] W). assert (CQ : canonical Q) by (apply canonical_divide; [apply canonical_nil|exact CW]).
  set (T := multiply_unit su Q). assert (CT : canonical T) by now apply canonical_multiply.
  exists (power_unit (divide_unit [] T) (Q2Qc (2 # 1))). split; [apply canonical_power, canonical_divide; [apply canonical_nil|exact CT]|].
  intros x. unfold qairy_pixel, airy_value. rewrite uf_equal_zero by apply Cs. cbn [bind magnitude].
  assert (E : (if Req_EM_T (if Req_EM_T x 0 then 1 else 0) 1 then / 10 ^ 30 else x) = (if Req_EM_T x 0 then / 10 ^ 30 else x)).
  { destruct (Req_EM_T x 0); destruct (Req_EM_T _ 1); try reflexivity; try lra. }
  rewrite E. set (d := if Req_EM_T x 0 then _ else x).
  assert (Fin : forall (q : operand) y, magnitude q = y -> get_units q = Q ->
    (do d0 <- uf jn fuel glob Multiply [Qty d su []; q]; do b <- uf jn fuel glob (Other 0) [Plain 1; d0]; do b0 <- uf jn fuel glob Multiply [Plain 2; b]; do e <- uf jn fuel glob True_divide [b0; d0]; uf jn fuel glob Power [e; Plain 2]) =
    Ok (Qty (2 * jn 1 (d * y) / (d * y) * (2 * jn 1 (d * y) / (d * y))) (power_unit (divide_unit [] T) (Q2Qc (2 # 1))) [])).
  { intros q y Hm Hu. rewrite uf_multiply_left, Hm, Hu. cbn [bind].
    change (uf jn fuel glob (Other 0) [Plain 1; Qty (d * y) (multiply_unit su Q) []]) with (Ok (Plain (K := R) (jn 1 (d * y)))). cbn [bind].
    change (uf jn fuel glob Multiply [Plain 2; Plain (jn 1 (d * y))]) with (Ok (Plain (K := R) (2 * jn 1 (d * y)))). cbn [bind].
    change (uf jn fuel glob True_divide [Plain (2 * jn 1 (d * y)); Qty (d * y) (multiply_unit su Q) []]) with (Ok (Qty (K := R) (2 * jn 1 (d * y) / (d * y)) (divide_unit [] T) [])). cbn [bind].
    apply uf_square. }
  destruct fwhm as [w|]; [|destruct r0 as [r|]; [|reflexivity]]; cbn [numbers option_map bind] in *.
  - destruct (uf_divide_n jn fuel glob w 2) as [h [-> [Hh1 Hh2]]]. cbn [bind]. destruct (uf_divide jn fuel glob (Plain 1.61633) h) as [q [-> [Hq1 Hq2]]]. cbn [bind magnitude get_units] in *.
    apply Fin; [rewrite Hq1, Hh1; reflexivity|rewrite Hq2, Hh2; reflexivity].
  - destruct (uf_divide jn fuel glob (Plain 3.8317) r) as [q [-> [Hq1 Hq2]]]. cbn [bind magnitude get_units] in *. apply Fin; [rewrite Hq1; reflexivity|rewrite Hq2; reflexivity].
Qed.

(** The pattern has no unit, and its values are those of the numbers: right if the width is in
    the unit of the scale (or has none). *)
Theorem C122_airy : forall jn fuel glob ny nx fwhm r0 center scale su, canonical su -> canonical_opt fwhm -> canonical_opt r0 ->
  (fwhm <> None \/ r0 <> None) ->
  qairy jn fuel glob ny nx fwhm r0 center scale su = do l <- airy_disk (jn 1) ny nx (numbers fwhm) (numbers r0) center scale; Ok (map (fun v => Qty v [] []) l).
Proof.
  intros jn fuel glob ny nx fwhm r0 center scale su Cs Cw Cr H.
  destruct (qairy_pixel_ok jn fuel glob fwhm r0 su Cs Cw Cr) as [U [CU P]]. unfold qairy, airy_disk.
  assert (E : forall A (x y : res A), match fwhm, r0 with None, None => x | _, _ => y end = y) by (intros A x y; destruct fwhm, r0; try reflexivity; destruct H; congruence).
  rewrite E. clear E.
  assert (M : forall l, map_res (fun idx => do d <- qdistance [ny; nx] center scale su idx; qairy_pixel jn fuel glob fwhm r0 d) l =
    do v <- map_res (fun idx => do d <- distance [ny; nx] center scale idx; airy_value (jn 1) (numbers fwhm) (numbers r0) d) l; Ok (map (fun x => Qty x U []) v)).
  { intros l. induction l as [|idx l IH]; [reflexivity|]. cbn [map_res]. rewrite IH. clear IH. unfold qdistance. destruct (distance [ny; nx] center scale idx) as [d|e]; [|reflexivity]. cbn [bind]. rewrite P.
    destruct (airy_value (jn 1) (numbers fwhm) (numbers r0) d) as [v|e]; [|reflexivity]. cbn [bind]. destruct (map_res _ l) as [vs|e]; reflexivity. }
  rewrite M. destruct (map_res _ (indices2 ny nx)) as [vs|e]; [|reflexivity]. cbn [bind].
  assert (G : forall t l, map_res (fun d => uf jn fuel glob True_divide [d; Qty t U []]) (map (fun x => Qty x U []) l) = Ok (map (fun v => Qty v [] []) (map (fun v => v / t) l))).
  { intros t l. induction l as [|v l IH]; [reflexivity|]. cbn [map map_res]. rewrite uf_divide_left, IH. cbn [bind magnitude get_units map]. rewrite (divide_self U CU). reflexivity. }
  destruct vs as [|v0 vs]; [reflexivity|].
  transitivity (map_res (fun d => uf jn fuel glob True_divide [d; Qty (sum_python (map magnitude (map (fun x => Qty (K := R) x U []) (v0 :: vs)))) U []]) (map (fun x => Qty x U []) (v0 :: vs))); [reflexivity|].
  rewrite G. replace (map magnitude (map (fun x => Qty (K := R) x U []) (v0 :: vs))) with (v0 :: vs) by (rewrite map_map; symmetry; apply map_id). reflexivity.
Qed.
Print Assumptions C122_airy.
Example C122_airy_case : forall jn fuel glob, qairy jn fuel glob 3 3 (Some (Qty 2 (parsed "arcsec") [])) None None (Same 1) (parsed "arcsec") =
  do l <- airy_disk (jn 1) 3 3 (Some 2) None None (Same 1); Ok (map (fun v => Qty v [] []) l).
Proof.
  assert (C : canonical (parsed "arcsec")) by (split; [repeat constructor; intros []|repeat constructor; discriminate]).
  intros. apply C122_airy; [exact C|exact C|exact I|left; discriminate].
Qed.

(** FINDING 202.  The unit of the width does not matter: with a scale in arcseconds, the pattern
    of a width of one arcminute is that of a width of one arcsecond, whose radius is not the
    same. *)
Definition in_unit (s : string) (x : R) : operand := Qty x (parsed s) [].
Theorem C122_airy_refuted : forall jn fuel glob ny nx r0 center scale w, canonical_opt r0 ->
  qairy jn fuel glob ny nx (Some (in_unit "arcmin" w)) r0 center scale (parsed "arcsec") = qairy jn fuel glob ny nx (Some (in_unit "arcsec" w)) r0 center scale (parsed "arcsec") /\
  (forall d, 0 < d -> 0 < w -> reduced (Some (60 * w)) (numbers r0) d <> reduced (Some w) (numbers r0) d).
Proof.
  intros jn fuel glob ny nx r0 center scale w Cr.
  assert (C1 : canonical (parsed "arcmin")) by (split; [repeat constructor; intros []|repeat constructor; discriminate]).
  assert (C2 : canonical (parsed "arcsec")) by (split; [repeat constructor; intros []|repeat constructor; discriminate]).
  split.
  - rewrite !C122_airy by (auto; left; discriminate). reflexivity.
  - intros d Hd Hw E. unfold reduced in E. injection E as E. apply (f_equal (fun x => x * (60 * w))) in E. field_simplify in E; [|lra|lra]. nra.
Qed.
Print Assumptions C122_airy_refuted.

(** ** Profiles *)
(** The abscissae are in the unit of the scale, the profile is that of the numbers: right if the
    bins are in the unit of the scale (or have none). *)
Theorem C122_profile : forall jn fuel glob nan share nx input bin nbins center s u loc, s <> 0 -> (0 <= nbins)%Z ->
  qprofile jn fuel glob nan share nx input bin nbins center (Qty s u loc) =
    do r <- DataModel.profile nan share nx input (magnitude bin) (Some nbins) (Some center) s; Ok (map (fun t => let '(x, y, n) := t in (Qty x (multiply_unit [] u) loc, y, n)) r).
Proof.
  intros jn fuel glob nan share nx input bin nbins center s u loc Hs Hn. unfold qprofile, DataModel.profile.
  destruct (uf_divide jn fuel glob bin (Qty s u loc)) as [b [-> [Hb _]]]. cbn [bind magnitude] in *. rewrite Hb.
  destruct (Req_EM_T s 0) as [E|_]; [contradiction|]. cbn [bind]. replace (nbins <? 0)%Z with false by lia.
  destruct (profile_axisymmetric nan center (magnitude bin / s) (Z.to_nat nbins) (share (pixels_of input))) as [r|e]; [|reflexivity]. cbn [bind]. rewrite map_map.
  induction r as [|[[x y] n] r IH]; [reflexivity|]. cbn [map_res map]. rewrite IH. reflexivity.
Qed.
Print Assumptions C122_profile.

(** FINDING 203.  The unit of the bins does not matter either: bins of one arcminute are bins of
    one arcsecond.  A blank image, whose abscissae are the middles of the bins, shows it. *)
Theorem C122_profile_refuted : forall jn fuel glob nan share nx input nbins center b, (0 <= nbins)%Z ->
  qprofile jn fuel glob nan share nx input (in_unit "arcmin" b) nbins center (in_unit "arcsec" 1) = qprofile jn fuel glob nan share nx input (in_unit "arcsec" b) nbins center (in_unit "arcsec" 1) /\
  qprofile jn fuel glob nan (fun l => [l]) 1 [[None]] (in_unit "arcmin" 1) 1 center (in_unit "arcsec" 1) = Ok [(in_unit "arcsec" (1 / 2), nan, 0%Z)] /\
  qprofile jn fuel glob nan (fun l => [l]) 1 [[None]] (in_unit "arcsec" 60) 1 center (in_unit "arcsec" 1) = Ok [(in_unit "arcsec" 30, nan, 0%Z)].
Proof.
  intros. unfold in_unit. split; [rewrite !C122_profile by (lra || assumption); reflexivity|].
  assert (V : forall w u, qprofile jn fuel glob nan (fun l => [l]) 1 [[None]] (Qty w u []) 1 center (Qty 1 (parsed "arcsec") []) = Ok [(Qty (w / 2) (parsed "arcsec") [], nan, 0%Z)]).
  { intros w u. rewrite C122_profile by (lra || lia). unfold DataModel.profile. destruct (Req_EM_T 1 0) as [F|_]; [lra|]. cbn -[multiply_unit parsed]. change (multiply_unit [] (parsed "arcsec")) with (parsed "arcsec").
    change (Pos.to_nat 1) with 1%nat. cbn -[parsed]. match goal with |- Ok [(Qty ?x _ _, _, _)] = _ => replace x with (w / 2) by lra end. reflexivity. }
  rewrite !V. split; [reflexivity|]. replace 30 with (60 / 2) by lra. reflexivity.
Qed.
Print Assumptions C122_profile_refuted.
Example C122_profile_case : forall jn fuel glob nan center, qprofile jn fuel glob nan (fun l => [l]) 1 [[None]] (Plain 3) 1 center (in_unit "arcsec" 2) = Ok [(in_unit "arcsec" (3 / 2), nan, 0%Z)].
Proof.
  intros. unfold in_unit. rewrite C122_profile by (lra || lia). unfold DataModel.profile. destruct (Req_EM_T 2 0) as [F|_]; [lra|]. cbn -[multiply_unit parsed].
  change (multiply_unit [] (parsed "arcsec")) with (parsed "arcsec"). change (Pos.to_nat 1) with 1%nat. cbn -[parsed].
  match goal with |- Ok [(Qty ?x _ _, _, _)] = _ => replace x with (3 / 2) by lra end. reflexivity.
Qed.
