(** C131: plots of pointings. *)
From Coq Require Import List ZArith Bool Lia.
From Verif Require Import Base BaseFacts ScanModel.
Import ListNotations.
Open Scope Z_scope.

(** The pointings that are not masked. *)
Definition flag_at (f : flags) (i : nat) : Prop := match f with FScalar b => b = true | FBools l => nth i l false = true | FInts l => nth i l 0 <> 0 end.
Definition fits (f : flags) (n : nat) : Prop := match f with FScalar _ => True | FBools l => length l = n | FInts l => length l = n end.
Definition shown {C P} (pixel : C -> option P) (coords : list (option C)) (f : flags) (line : list (option P)) : Prop :=
  length line = length coords /\ forall i, (i < length coords)%nat ->
    (flag_at f i -> nth i line None = None) /\
    (~ flag_at f i -> nth i line None = match nth i coords None with Some c => pixel c | None => None end).
(** The marker is at the first position of the line. *)
Definition marks {P} (line : list (option P)) (marker : option P) : Prop :=
  (marker = None /\ forall p, ~ In (Some p) line) \/ exists a p b, line = a ++ Some p :: b /\ marker = Some p /\ forall q, ~ In (Some q) a.

Lemma erase_nth {C} : forall m (l : list (option C)), length m = length l -> length (erase_bools m l) = length l /\ forall i, nth i (erase_bools m l) None = if nth i m false then None else nth i l None.
Proof.
  induction m as [|b m IH]; intros [|x l] E; cbn in E; try discriminate; cbn; [split; [reflexivity | intros [|i]; reflexivity]|]. destruct (IH l ltac:(lia)) as [L N]. split; [now rewrite L|]. intros [|i]; [destruct b; reflexivity | apply N].
Qed.
Lemma first_marks {P} (l : list (option P)) : marks l (first_point l).
Proof.
  induction l as [|[p|] l IH].
  - left. split; [reflexivity | intros p []].
  - right. exists [], p, l. split; [reflexivity|]. split; [reflexivity|]. intros q [].
  - change (first_point (None :: l)) with (first_point l). destruct IH as [[E N] | (a & p & b & El & E & N)].
    + left. split; [exact E|]. intros p [I | I]; [discriminate | exact (N p I)].
    + right. exists (None :: a), p, b. split; [cbn; now rewrite El|]. split; [exact E|]. intros q [I | I]; [discriminate | exact (N q I)].
Qed.
Lemma all_flags_true f n : fits f n -> (0 < n)%nat -> (all_flags f = true <-> forall i, (i < n)%nat -> flag_at f i).
Proof.
  intros F Hn. destruct f as [b|l|l]; cbn in *.
  - split; [intros ->; reflexivity | intros H; exact (H 0%nat Hn)].
  - rewrite forallb_forall. subst n. split; [intros H i Hi; apply H, nth_In, Hi|]. intros H x I. apply (In_nth _ _ false) in I. destruct I as (i & Hi & <-). exact (H i Hi).
  - rewrite forallb_forall. subst n. split; [intros H i Hi; specialize (H _ (nth_In l 0 Hi)); lia|]. intros H x I. apply (In_nth _ _ 0) in I. destruct I as (i & Hi & <-). specialize (H i Hi). lia.
Qed.

(** Over a header, or over a map with an astrometry in a new figure, the pointings that are not
    masked, and only them, are drawn, and the first of them is marked. *)
Theorem C131_plot_partial : forall (C P H : Type) has_wcs (pixel : H -> C -> option P) coords masked m header new h, fits masked (length coords) -> (0 < length coords)%nat ->
  (match masked with FInts _ => False | _ => True end) ->
  (header = Some h \/ header = None /\ m = Some (WithHeader h)) -> (m <> None -> has_wcs h = true -> new = true) ->
  ((forall i, (i < length coords)%nat -> flag_at masked i) /\ plot has_wcs pixel coords masked m header new = (if new then Err ValueError else Ok None) \/
   ~ (forall i, (i < length coords)%nat -> flag_at masked i) /\ exists line marker, plot has_wcs pixel coords masked m header new = Ok (Some (Drawing (match m with None => false | Some _ => has_wcs h end) h line marker)) /\
     shown (pixel h) coords masked line /\ marks line marker).
Proof.
  intros C P H has_wcs pixel coords masked m header new h F Hn Ni Hh Hw. unfold plot. pose proof (all_flags_true masked _ F Hn) as A. destruct (all_flags masked) eqn:Ea; [left; split; [now apply A | reflexivity]|]. right.
  split; [intros K; apply A in K; discriminate|].
  assert (E : exists coords', erase masked coords = Ok coords' /\ length coords' = length coords /\ forall i, (i < length coords)%nat -> (flag_at masked i -> nth i coords' None = None) /\ (~ flag_at masked i -> nth i coords' None = nth i coords None)).
  { destruct masked as [b|l|l]; cbn in F, Ea; [subst b| |contradiction].
    - exists coords. split; [reflexivity|]. split; [reflexivity|]. intros i _. split; [intros K; discriminate | reflexivity].
    - cbn. rewrite F, Nat.eqb_refl. destruct (erase_nth l coords F) as [L N]. eexists. split; [reflexivity|]. split; [exact L|]. intros i _. rewrite N. split; [intros ->; reflexivity|]. intros K. destruct (nth i l false); [contradiction K; reflexivity | reflexivity]. }
  destruct E as (coords' & -> & L & N). cbn [bind].
  assert (Sh : shown (pixel h) coords masked (map (fun c => match c with Some c => pixel h c | None => None end) coords')).
  { split; [now rewrite map_length|]. intros i Hi. destruct (N i Hi) as [N1 N2]. set (g := fun c => match c with Some c => pixel h c | None => None end). assert (G : nth i (map g coords') None = g (nth i coords' None)) by exact (map_nth g coords' None i). rewrite G.
    split; intros K; [rewrite (N1 K) | rewrite (N2 K)]; reflexivity. }
  destruct Hh as [-> | [-> ->]].
  - destruct m as [g|].
    + destruct (has_wcs h) eqn:Ew; cbn [bind fst snd]; [rewrite Hw by (auto; discriminate); cbn [bind fst snd]|]; do 2 eexists; (split; [reflexivity|]; split; [exact Sh | apply first_marks]).
    + cbn [bind fst snd]. do 2 eexists; (split; [reflexivity|]; split; [exact Sh | apply first_marks]).
  - destruct (has_wcs h) eqn:Ew; cbn [bind fst snd]; [rewrite Hw by (auto; discriminate); cbn [bind fst snd]|]; do 2 eexists; (split; [reflexivity|]; split; [exact Sh | apply first_marks]).
Qed.
Print Assumptions C131_plot_partial.
(** The acquisition plots its pointings. *)
Theorem C131_acquisition : forall (C P H : Type) has_wcs (pixel : H -> C -> option P) coords masked m header new h, (header = Some h \/ header = None /\ m = Some (WithHeader h)) ->
  acq_plot has_wcs pixel coords masked m header new = plot has_wcs pixel coords masked m (Some h) new.
Proof. intros C P H has_wcs pixel coords masked m header new h [-> | [-> ->]]; reflexivity. Qed.
Print Assumptions C131_acquisition.
(** Refuted: without map or header, or over an array without header, nothing can be plotted (the
    method get_map_header does not exist). *)
Theorem C131_header_refuted : forall (C P H : Type) has_wcs (pixel : H -> C -> option P) coords b m new, m = None \/ m = Some Plain ->
  acq_plot has_wcs pixel coords (FScalar b) m None new = Err AttributeError /\ plot has_wcs pixel coords (FScalar false) m None new = Err AttributeError.
Proof. intros C P H has_wcs pixel coords b m new [-> | ->]; split; reflexivity. Qed.
Print Assumptions C131_header_refuted.
(** Refuted: a map with an astrometry cannot be the background of the current figure. *)
Theorem C131_figure_refuted : forall (C P H : Type) has_wcs (pixel : H -> C -> option P) coords h, has_wcs h = true -> plot has_wcs pixel coords (FScalar false) (Some (WithHeader h)) None false = Err UnboundLocalError.
Proof. intros C P H has_wcs pixel coords h E. unfold plot. cbn. rewrite E. reflexivity. Qed.
Print Assumptions C131_figure_refuted.
(** Refuted: with flags that are integers, zero or one, the first two pointings are erased instead
    of those whose flag is one. *)
Theorem C131_integers_refuted : forall (C P H : Type) has_wcs (pixel : H -> C -> option P) a b c h, exists d, plot has_wcs pixel [Some a; Some b; Some c] (FInts [0; 0; 1]) None (Some h) true = Ok (Some d) /\ d_line d = [None; None; pixel h c].
Proof. intros. eexists. split; reflexivity. Qed.
Print Assumptions C131_integers_refuted.
Example C131_example : fits (FBools [true; false; false]) 3 /\
  plot (fun _ => true) (fun h c => if c <? 0 then None else Some (h + c)) [Some 1; Some (-2); Some 3] (FBools [true; false; false]) (Some (WithHeader 10)) None true = Ok (Some (Drawing true 10 [None; None; Some 13] (Some 13))) /\
  plot (fun _ => true) (fun h c => Some (h + c)) [Some 1; Some 2] (FBools [true; true]) None (Some 10) false = Ok None.
Proof. repeat split. Qed.
