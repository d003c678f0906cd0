(** Properties C46 and C48: generation and naming of the compiled kernels. *)
From Coq Require Import String Ascii Lia.
From Verif Require Import Base BaseFacts TemplateModel TemplateSpec TemplateFacts SparseModel SparseSpec.
Open Scope nat_scope.

(** ** C46 *)
Theorem C46_parse : forall v rest, clean_variables v -> parse (write_header v ++ rest) = v.
Proof. exact parse_header. Qed.
Print Assumptions C46_parse.

(** strip removes the white space at both ends and nothing else. *)
Definition white : text := map ascii_of_nat [9; 10; 11; 12; 13; 28; 29; 30; 31; 32].
Lemma is_space_white c : is_space c = true <-> In c white.
Proof.
  assert (D : In c white <-> existsb (Ascii.eqb c) white = true).
  { rewrite existsb_exists. split; [intros H; exists c; split; [exact H|apply Ascii.eqb_refl]|intros (b & H & E); apply Ascii.eqb_eq in E; subst; exact H]. }
  rewrite D. destruct c as [[] [] [] [] [] [] [] []]; vm_compute; split; intros H; exact H.
Qed.
Lemma lstrip_white s : exists a, s = a ++ lstrip s /\ Forall (fun c => In c white) a /\ match lstrip s with c :: _ => ~ In c white | [] => True end.
Proof.
  induction s as [|c s (a & E & A & N)]; [exists []; repeat split; constructor|]. cbn [lstrip]. destruct (is_space c) eqn:S.
  - exists (c :: a). split; [cbn [app]; now rewrite <- E|]. split; [constructor; [now apply is_space_white|exact A]|exact N].
  - exists []. split; [reflexivity|]. split; [constructor|]. rewrite <- is_space_white. congruence.
Qed.
Theorem C46_strip : forall s, exists a b, s = a ++ strip s ++ b /\ Forall (fun c => In c white) a /\ Forall (fun c => In c white) b /\
  match strip s with c :: _ => ~ In c white | [] => True end /\ match rev (strip s) with c :: _ => ~ In c white | [] => True end.
Proof.
  intros s. unfold strip. destruct (lstrip_white s) as (a & Ea & A & Na). destruct (lstrip_white (rev (lstrip s))) as (b & Eb & B & Nb).
  exists a, (rev b). rewrite rev_involutive. assert (E : lstrip s = rev (lstrip (rev (lstrip s))) ++ rev b) by (rewrite <- rev_app_distr, <- Eb; symmetry; apply rev_involutive).
  split; [rewrite <- E; exact Ea|]. split; [exact A|]. split; [apply Forall_rev; exact B|]. split; [|exact Nb].
  destruct (rev (lstrip (rev (lstrip s)))) as [|c r]; [exact I|]. rewrite E in Na. exact Na.
Qed.
Print Assumptions C46_strip.

Theorem C46_combinations : forall v n, v <> [] -> NoDup (map fst v) -> Forall (fun d => length (snd d) = n) v ->
  exists cs, combinations v = Ok cs /\ length cs = n /\
    forall i k vs, i < n -> In (k, vs) v ->
      dict_get (nth i cs []) k = Some (nth i vs []) /\ map fst (nth i cs []) = map fst v.
Proof. exact combinations_ok. Qed.
Print Assumptions C46_combinations.

Theorem C46_unequal : forall v d d', In d v -> In d' v -> length (snd d) <> length (snd d') ->
  combinations v = Err ValueError.
Proof. exact combinations_unequal. Qed.
Print Assumptions C46_unequal.

Definition ex_vars : variables := [(lit "kind", [lit "real32"; lit "real64"]); (lit "size", [lit "4"; lit "8"])]%string.
Lemma ex_clean : clean_variables ex_vars.
Proof.
  split; [repeat constructor; cbn; intuition discriminate|].
  repeat (constructor; cbn [fst snd]); try discriminate; cbn; intuition discriminate.
Qed.
Example C46_example :
  write_header ex_vars = lit "{# variables: kind=real32,real64; size=4,8 #}" /\
  combinations ex_vars = Ok [[(lit "kind", lit "real32"); (lit "size", lit "4")];
                             [(lit "kind", lit "real64"); (lit "size", lit "8")]]%string /\
  combinations (parse (lit "{#variables:a=1,2;b = 3#}")) = Err ValueError /\
  List.length (parse sparse_header) = 6 /\
  (match combinations (parse sparse_header) with Ok l => List.length l | _ => 0 end) = 16 /\
  (match combinations (parse operators_header) with Ok l => List.length l | _ => 0 end) = 18.
Proof. repeat split; vm_compute; reflexivity. Qed.

(** FINDING 12n.  Values are strings: a block guarded by a comparison with integers is
    never written, whatever the header.  The hit map, old kernel and old restriction
    routines of operators.f90.j2 are such blocks. *)
Theorem C46_integer_guard_refuted : forall g k l cs, In (InInt k l) g -> forall i r, written g i cs = Ok r -> r = [].
Proof. exact never_written. Qed.
Print Assumptions C46_integer_guard_refuted.

Theorem C46_missing_kernels_refuted :
  expand operators_header guard_old_kernel = Ok [] /\ expand operators_header guard_pT1 = Ok [] /\
  expand operators_header guard_old_restrict = Ok [].
Proof. repeat split; vm_compute; reflexivity. Qed.
Print Assumptions C46_missing_kernels_refuted.

(** ** C48: every kernel requested by the sparse product exists, once *)
Theorem C48_matvec_kernels : forall di ds dv i r v b,
  numpy_dtype dv -> matvec_name di ds dv = Some (i, r, v, b) ->
  exists cs n, expand sparse_header guard_matvec = Ok cs /\
    nth_error (map suffix_irv cs) n = Some (i, r, v) /\
    forall m, nth_error (map suffix_irv cs) m = Some (i, r, v) -> m = n.
Proof. exact matvec_names. Qed.
Print Assumptions C48_matvec_kernels.

(** The vector is converted exactly when its type is no kernel type as wide as the matrix; it
    never loses precision to the matrix when it is a float of 4 or 8 bytes. *)
Theorem C48_conversion : forall di ds dv i r v b,
  numpy_dtype dv -> matvec_name di ds dv = Some (i, r, v, b) ->
  exists n, ds = Float n /\ (n = 4 \/ n = 8) /\
  (b = false <-> exists k, dv = Float k /\ (k = 4 \/ k = 8) /\ n <= k) /\
  (b = true -> v = digits n) /\ (b = false -> exists k, dv = Float k /\ v = digits k).
Proof.
  intros di ds dv i r v b Hd H. unfold matvec_name in H.
  destruct ds as [|n|n|n|n]; try discriminate H.
  destruct (negb (dtype_eqb (Float n) (Float 4) || dtype_eqb (Float n) (Float 8))) eqn:E1; [discriminate|].
  destruct (negb (dtype_eqb di (Int_ 4) || dtype_eqb di (Int_ 8))); [discriminate|].
  cbn in E1. assert (N : n = 4 \/ n = 8) by lia. exists n. split; [reflexivity|]. split; [exact N|]. clear E1.
  injection H as _ _ <- <-.
  destruct dv as [|k|k|k|k]; cbn in Hd;
    try (split; [split; [discriminate|intros [k' [Hk _]]; discriminate]|split; [reflexivity|discriminate]]).
  destruct N as [-> | ->], Hd as [<-|[<-|[<-|[<-|[]]]]]; cbn;
    (split; [split; [intros E; first [discriminate E|eexists; split; [reflexivity|lia]]
      |intros [k' [Hk H]]; injection Hk as <-; first [reflexivity|exfalso; lia]]
      |split; [intros E; first [discriminate E|reflexivity]|intros E; first [discriminate E|eexists; split; reflexivity]]]).
Qed.
Print Assumptions C48_conversion.

Theorem C48_other_kernels :
  (exists cs, expand sparse_header guard_ncolmax1 = Ok cs /\
     map suffix_irv cs = [(lit "4", lit "4", lit "4"); (lit "4", lit "4", lit "8"); (lit "4", lit "8", lit "8");
                          (lit "8", lit "4", lit "4"); (lit "8", lit "4", lit "8"); (lit "8", lit "8", lit "8")]%string) /\
  (exists cs, expand sparse_header guard_kernel = Ok cs /\
     map (fun c => field c "isize") cs = map lit ["1"; "2"; "4"; "8"]%string) /\
  (exists cs, expand operators_header guard_trexp = Ok cs /\
     map (fun c => field c "rsize") cs = map lit ["4"; "8"]%string).
Proof. repeat split; eexists; split; vm_compute; reflexivity. Qed.
Print Assumptions C48_other_kernels.

Example C48_example :
  matvec_name (Int_ 4) (Float 8) (Float 4) = Some (lit "4", lit "8", lit "8", true) /\
  matvec_name (Int_ 8) (Float 4) (Float 8) = Some (lit "8", lit "4", lit "8", false) /\
  matvec_name (Int_ 2) (Float 4) (Float 8) = None.
Proof. repeat split; reflexivity. Qed.

(** FINDING 12m.  A complex vector is converted to the real type of the matrix before a
    compiled product: its imaginary part is lost, while the fallback (other index types)
    keeps it.  Gaussian integers; [astype] keeps the real part. *)
Definition g_ops : ops (Z * Z) :=
  Ops (Z * Z) (0, 0)%Z (1, 0)%Z (fun a b => (fst a + fst b, snd a + snd b)%Z)
      (fun a b => (fst a * fst b - snd a * snd b, fst a * snd b + snd a * fst b)%Z)
      (fun a => (- fst a, - snd a)%Z).
Definition astype_real (v : list (Z * Z)) : list (Z * Z) := map (fun c => (fst c, 0%Z)) v.
Definition matvec_complex (di : dtype) (M : matrix (Z * Z)) (v : list (Z * Z)) : res (option (list (Z * Z))) :=
  match matvec_name di (Float 8) (Complex 16) with
  | Some (_, _, _, convert) => matvec g_ops true (@in_order _) M (if convert then astype_real v else v) None
  | None => matvec g_ops false (@in_order _) M v None
  end.
Theorem C48_complex_refuted :
  let M := Matrix FSR KScalar 1 1 (1, 1) [[Elt 0 [(3, 0)%Z]]] in
  matvec_complex (Int_ 8) M [(1, 2)%Z] = Ok (Some [(3, 0)%Z]) /\
  matvec_complex (Int_ 2) M [(1, 2)%Z] = Ok (Some [(3, 6)%Z]).
Proof. split; reflexivity. Qed.
Print Assumptions C48_complex_refuted.
