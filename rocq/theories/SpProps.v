(** C90: spectral operators. *)
From Coq Require Import Reals List Lia Lra.
From Verif Require Import Base BaseFacts SpModel SpSpec.
Open Scope R_scope.

Definition sc (x : option R) : option arr := option_map Sc x.
Lemma expm1_pos h k nu T : 0 < h -> 0 < k -> 0 < nu -> 0 < T -> 0 < exp (h * nu / (k * T)) - 1.
Proof.
  intros Hh Hk Hn HT. assert (1 < exp (h * nu / (k * T))); [|lra]. rewrite <- exp_0. apply exp_increasing. apply Rdiv_lt_0_compat; apply Rmult_lt_0_compat; lra.
Qed.
Lemma ratio_spectrum h c k beta T nu nu0 : 0 < h -> 0 < c -> 0 < k -> 0 < nu -> 0 < nu0 -> 0 < T ->
  Rpower (nu / nu0) (3 + beta) * (exp (h * nu0 / (k * T)) - 1) / (exp (h * nu / (k * T)) - 1) * spectrum h c k beta T nu0 = spectrum h c k beta T nu.
Proof.
  intros Hh Hc Hk Hn Hn0 HT. pose proof (expm1_pos h k nu T Hh Hk Hn HT) as E1. pose proof (expm1_pos h k nu0 T Hh Hk Hn0 HT) as E0. unfold spectrum.
  set (e := exp (h * nu / (k * T)) - 1) in *. set (e0 := exp (h * nu0 / (k * T)) - 1) in *.
  assert (A : Rpower (nu / nu0) (3 + beta) * (Rpower nu0 beta * nu0 ^ 3) = Rpower nu beta * nu ^ 3).
  { rewrite <- (Rpower_pow 3 nu0), <- (Rpower_pow 3 nu) by assumption. replace (INR 3) with 3 by (cbn; ring). rewrite <- !Rpower_plus. replace (beta + 3) with (3 + beta) by ring. rewrite Rpower_mult_distr; [|now apply Rdiv_lt_0_compat|assumption]. f_equal. field. lra. }
  transitivity (Rpower (nu / nu0) (3 + beta) * (Rpower nu0 beta * nu0 ^ 3) * (2 * h / c ^ 2 / e)); [field; repeat split; lra|]. rewrite A. field. split; lra.
Qed.
Lemma tuned_freq c f w nu : tuned c f w nu -> 0 < c ->
  match sc f, sc w with Some f, _ => f | None, Some w => amap (fun w => c / w) w | None, None => Sc 0 end = Sc nu /\
  (forall A (x y : res A), match sc f, sc w with None, None => x | _, _ => y end = y) /\ (forall A (x y : res A), match sc f, sc w with Some _, Some _ => x | _, _ => y end = y).
Proof.
  intros [n Hn|wl n Hn Hw] Hc; cbn; [repeat split; reflexivity|]. split; [|split; reflexivity]. f_equal. rewrite <- Hw. field. intros ->. lra.
Qed.
(** The operator multiplies the spectrum at the reference frequency to give the spectrum at the frequency. *)
Theorem C90_black_body h c k temperatures f f0 w w0 beta nu nu0 : 0 < h -> 0 < c -> 0 < k -> tuned c f w nu -> tuned c f0 w0 nu0 -> Forall (fun T => 0 < T) temperatures ->
  (exists d, black_body h c k (Ar temperatures) (sc f) (sc f0) (sc w) (sc w0) (Sc beta) = Ok (Ar d) /\
     Forall2 (fun T x => x * spectrum h c k beta T nu0 = spectrum h c k beta T nu) temperatures d) /\
  (forall T, 0 < T -> exists x, black_body h c k (Sc T) (sc f) (sc f0) (sc w) (sc w0) (Sc beta) = Ok (Sc x) /\ x * spectrum h c k beta T nu0 = spectrum h c k beta T nu).
Proof.
  intros Hh Hc Hk T1 T0 F. assert (Hn : 0 < nu) by now destruct T1. assert (Hn0 : 0 < nu0) by now destruct T0.
  destruct (tuned_freq c f w nu T1 Hc) as (E1 & N1 & A1). destruct (tuned_freq c f0 w0 nu0 T0 Hc) as (E0 & N0 & A0).
  unfold black_body. split.
  - rewrite N1, N0, A1, A0, E1, E0. cbn [ndim Nat.eqb negb to_float abin amap bind]. unfold zip. rewrite !map_length, Nat.eqb_refl. cbn [bind]. eexists. split; [reflexivity|].
    rewrite map_map. clear -F Hh Hc Hk Hn Hn0. induction F as [|T l HT _ IH]; cbn [map combine]; constructor; [|exact IH]. cbn [fst snd]. now apply ratio_spectrum.
  - intros T HT. rewrite N1, N0, A1, A0, E1, E0. cbn [ndim Nat.eqb negb to_float abin amap bind]. eexists. split; [reflexivity|]. now apply ratio_spectrum.
Qed.
Print Assumptions C90_black_body.
(** The frequency and the reference are given once each. *)
Theorem C90_arguments h c k T f f0 w w0 beta : ((f = None <-> w = None) \/ (f0 = None <-> w0 = None)) -> black_body h c k T f f0 w w0 beta = Err ValueError.
Proof.
  intros H. unfold black_body. destruct f, w, f0, w0; try reflexivity; destruct H as [[H1 H2]|[H1 H2]]; (specialize (H1 eq_refl) || specialize (H2 eq_refl)); discriminate.
Qed.
Print Assumptions C90_arguments.
(** At the reference the diagonal is one; through an intermediate frequency, diagonals are multiplied. *)
Theorem C90_chain h c k T nu0 nu1 nu2 beta x01 x12 x02 : 0 < h -> 0 < c -> 0 < k -> 0 < T -> 0 < nu0 -> 0 < nu1 -> 0 < nu2 ->
  let bb nu nu0 := black_body h c k (Sc T) (Some (Sc nu)) (Some (Sc nu0)) None None (Sc beta) in
  bb nu1 nu0 = Ok (Sc x01) -> bb nu2 nu1 = Ok (Sc x12) -> bb nu2 nu0 = Ok (Sc x02) -> x12 * x01 = x02 /\ (nu1 = nu0 -> x01 = 1).
Proof.
  intros Hh Hc Hk HT H0 H1 H2 bb E01 E12 E02.
  assert (S : forall nu, 0 < nu -> 0 < spectrum h c k beta T nu).
  { intros nu Hn. unfold spectrum. apply Rmult_lt_0_compat; [apply exp_pos|]. apply Rdiv_lt_0_compat; [|now apply expm1_pos]. apply Rdiv_lt_0_compat; [|apply pow_lt; lra]. apply Rmult_lt_0_compat; [lra|now apply pow_lt]. }
  assert (B : forall nu nu0 x, 0 < nu -> 0 < nu0 -> bb nu nu0 = Ok (Sc x) -> x * spectrum h c k beta T nu0 = spectrum h c k beta T nu).
  { intros n n0 x Hn Hn0 E. destruct (C90_black_body h c k [] (Some n) (Some n0) None None beta n n0 Hh Hc Hk (by_frequency c n Hn) (by_frequency c n0 Hn0) (Forall_nil _)) as [_ X].
    destruct (X T HT) as (y & Ey & Hy). unfold bb in E. cbn [sc option_map] in Ey. rewrite E in Ey. injection Ey as <-. exact Hy. }
  apply B in E01, E12, E02; try assumption. pose proof (S nu0 H0). split.
  - apply Rmult_eq_reg_r with (spectrum h c k beta T nu0); [|lra]. rewrite Rmult_assoc, E01, E12, E02. reflexivity.
  - intros ->. apply Rmult_eq_reg_r with (spectrum h c k beta T nu0); [|lra]. rewrite E01. ring.
Qed.
Print Assumptions C90_chain.
Example C90_case : tuned 3 (Some 2) None 2 /\ tuned 3 None (Some 3) 1 /\ Forall (fun T => 0 < T) [1; 2] /\ exists d, black_body 1 3 1 (Ar [1; 2]) (Some (Sc 2)) None None (Some (Sc 3)) (Sc 0) = Ok (Ar d) /\ length d = 2%nat.
Proof. split; [constructor; lra|]. split; [constructor; lra|]. split; [repeat constructor; lra|]. eexists. split; [reflexivity|reflexivity]. Qed.

(** Wrong: an operating frequency that is an array is refused, a reference that is an array is not (the check is made twice on the
    operating frequency); a slope that is an array, although documented, is refused. *)
Theorem C90_reference_refuted h c k T nu0 nu1 : black_body h c k (Sc T) (Some (Ar [nu0; nu1])) (Some (Sc nu0)) None None (Sc 0) = Err TypeError /\
  exists d, black_body h c k (Sc T) (Some (Sc nu0)) (Some (Ar [nu0; nu1])) None None (Sc 0) = Ok (Ar d) /\ length d = 2%nat.
Proof. split; [reflexivity|]. eexists. split; reflexivity. Qed.
Print Assumptions C90_reference_refuted.
Theorem C90_beta_refuted h c k t u nu nu0 a b : black_body h c k (Ar [t; u]) (Some (Sc nu)) (Some (Sc nu0)) None None (Ar [a; b]) = Err TypeError.
Proof. reflexivity. Qed.
Print Assumptions C90_beta_refuted.

(** The power law: s (x / x0)^alpha for each slope; an homothety is absorbed. *)
Theorem C90_power_law x x0 s l p : 0 < x -> 0 < x0 -> new_power_law (Ar l) (Sc x) (Sc x0) (Sc s) = Ok p ->
  (exists d, diagonal p = Ar d /\ Forall2 (fun a v => v * Rpower x0 a = s * Rpower x a) l d) /\
  (forall k, exists q, scaled k p = Ok q /\ diagonal q = amap (Rmult k) (diagonal p)) /\ x_ p = x /\ x0_ p = x0.
Proof.
  intros Hx Hx0 E. injection E as <-. split; [|split; [|split; reflexivity]].
  - eexists. split; [reflexivity|]. cbn [scalar x_ x0_ alpha]. induction l as [|a l IH]; cbn [map]; constructor; [|exact IH].
    rewrite Rmult_assoc. unfold Rdiv. rewrite Rpower_mult_distr; [|apply Rmult_lt_0_compat; [assumption|now apply Rinv_0_lt_compat]|assumption]. rewrite Rmult_assoc, Rinv_l, Rmult_1_r by lra. reflexivity.
  - intros k. eexists. split; [reflexivity|]. unfold diagonal. cbn [amap alpha scalar x_ x0_]. f_equal. rewrite map_map. apply map_ext. intros a. ring.
Qed.
Print Assumptions C90_power_law.
Theorem C90_power_law_scalars alpha x x0 s : (exists p, new_power_law alpha x x0 s = Ok p) <-> (ndim x = 0 /\ ndim x0 = 0 /\ ndim s = 0)%nat.
Proof. unfold new_power_law. destruct x, x0, s; cbn; split; intros H; try (destruct H as [p H]; discriminate); try (destruct H as (? & ? & ?); discriminate); try tauto. eexists. reflexivity. Qed.
Print Assumptions C90_power_law_scalars.
Example C90_power_case : exists p, new_power_law (Ar [-1; 0]) (Sc 2) (Sc 4) (Sc 3) = Ok p.
Proof. eexists. reflexivity. Qed.
(** Wrong: the example of the documentation, which gives 2.75e-11, 2.75e-10 and 2.75e-09 for 1, 10 and 100; the factor is 1.1. *)
Theorem C90_documentation_refuted c : 0 < c -> exists p, new_power_law (Sc (-1)) (Sc (c / (11 / 1000000))) (Sc (c / (10 / 1000000))) (Sc 1) = Ok p /\ diagonal p = Sc (11 / 10).
Proof.
  intros Hc. eexists. split; [reflexivity|]. unfold diagonal. cbn [alpha scalar x_ x0_ amap]. f_equal. replace (c / (11 / 1000000) / (c / (10 / 1000000))) with (10 / 11) by (field; lra).
  replace (-1) with (- (1)) by ring. rewrite Rpower_Ropp, Rpower_1 by lra. field.
Qed.
Print Assumptions C90_documentation_refuted.
