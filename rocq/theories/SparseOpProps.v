(** Properties C19 to C24, C47: sparse operators and projections. *)
From Coq Require Import Lia Permutation Ring.
From Verif Require Import Base BaseFacts SparseModel SparseSpec RingFacts SparseExecFacts SparseFacts SparsePyFacts SparseProps
  SparseOpModel SparseOpSpec SparseOpFacts SparseOpFacts2 SparseKernFacts.
Open Scope nat_scope.

Definition nzZ (v : Z) : bool := negb (v =? 0)%Z.
Lemma nzZ_spec v : nzZ v = false <-> v = k0 z_ops.
Proof. unfold nzZ; cbn. lia. Qed.

(** 2 rows, 3 columns, extra dimension 2. *)
Definition op_scalar : sop Z := mk_sop ex_scalar (Some [3; 2]) (Some [2; 2]).
Definition op_rot : sop Z := mk_sop ex_rot None None.

(** ** C19: restriction *)
Theorem C19_restrict : forall (K : Type) (o : ops K), ring_laws o ->
  forall bits (S : sop K) mshape mask,
  well_formed (so_mx S) -> mx_axis (so_mx S) = FSR -> mask_shape S = Some mshape ->
  mx_cols (so_mx S) = length mask * snd (mx_bs (so_mx S)) -> 0 < kept mask ->
  (1 < bits)%Z -> (Z.of_nat (kept mask) < 2 ^ (bits - 1))%Z ->
  exists S', restrict bits S mshape mask = Ok (Some S') /\
    well_formed (so_mx S') /\ mx_rows (so_mx S') = mx_rows (so_mx S) /\
    mx_cols (so_mx S') = kept mask * snd (mx_bs (so_mx S)) /\
    forall flib flib' sched sched' extra v,
      scheduler sched -> scheduler sched' -> allowed_extra (so_mx S) extra ->
      length v = extra * mx_cols (so_mx S') ->
      exists r, matvec o flib sched (so_mx S') v None = Ok (Some r) /\
        matvec o flib' sched' (so_mx S) (expand (k0 o) (extra * snd (mx_bs (so_mx S))) mask v) None = Ok (Some r).
Proof. exact @restrict_spec. Qed.
Print Assumptions C19_restrict.

(** The shapes of the restricted operator are those of the columns that are kept; it can be restricted again. *)
Theorem C19_shapes : forall (K : Type) bits (S S' : sop K) mshape mask,
  (1 < bits)%Z -> (Z.of_nat (kept mask) < 2 ^ (bits - 1))%Z -> mask_shape S = Some mshape ->
  restrict bits S mshape mask = Ok (Some S') ->
  mask_shape S' = Some [kept mask] /\ so_out S' = so_out S /\ so_bout S' = so_bout S /\ mx_bs (so_mx S') = mx_bs (so_mx S) /\
  (mx_kind (so_mx S) = KScalar -> forall rest, so_in S = Some (so_bin S ++ rest) -> so_in S' = Some (kept mask :: rest)) /\
  (mx_kind (so_mx S) <> KScalar -> so_in S' = Some [kept mask; snd (mx_bs (so_mx S))]).
Proof.
  intros K bits S S' mshape mask B H HM E. unfold restrict in E. destruct (mx_axis (so_mx S)); try discriminate.
  destruct (new_index_spec bits mask B 0 ltac:(lia) ltac:(lia)) as [N _].
  destruct (new_index bits mask 0) as [ni n]. cbn [snd] in N. rewrite Z.add_0_l in N. subst n.
  match type of E with bind ?x _ = _ => destruct x as [bshape|]; [|discriminate] end. cbn [bind] in E.
  destruct (negb _); [discriminate|]. destruct (restrict_data _ _) as [data|]; [|discriminate].
  destruct (Z.ltb_spec (Z.of_nat (kept mask)) 0); [lia|]. rewrite Nat2Z.id in E. injection E as <-.
  destruct (mx_kind (so_mx S)) eqn:HK; unfold mask_shape; cbn [so_mx mx_kind so_in so_bin so_out so_bout mx_bs]; repeat split; try reflexivity; try congruence.
  intros _ rest ->. rewrite skipn_app, skipn_all, Nat.sub_diag. reflexivity.
Qed.
Print Assumptions C19_shapes.
Example C19_shapes_case : exists S', restrict 8 (mk_sop (Matrix FSR KBlock 2 6 (2, 3) [[Elt 1 [1; 2; 3; 4; 5; 6]%Z]]) None None) [2] [false; true] = Ok (Some S') /\ so_in S' = Some [1; 3].
Proof. eexists. split; reflexivity. Qed.

Example C19_example :
  mask_shape op_scalar = Some [3] /\ mx_cols ex_scalar = 3 * 1 /\
  restrict 8 op_scalar [3] [false; true; true] =
    Ok (Some (Sop (Matrix FSR KScalar 2 2 (1, 1) [[Elt 1 [5%Z]; Elt (-1) [7%Z]]; [Elt (-1) [9%Z]; Elt 1 [4%Z]]])
                  (Some [2; 2]) (Some [2; 2]) [2] [2])) /\
  expand 0%Z 2 [false; true; true] [1; 2; 3; 4]%Z = [0; 0; 1; 2; 3; 4]%Z.
Proof. repeat split; reflexivity. Qed.

(** Indices of 8 bits: the restriction to 128 columns counts -128 of them (FINDING 12d). *)
Definition op_128 : sop Z := mk_sop (Matrix FSR KScalar 1 128 (1, 1) [[Elt 0 [1%Z]]]) None None.
Theorem C19_int8_refuted :
  well_formed (so_mx op_128) /\ mask_shape op_128 = Some [128] /\
  snd (new_index 8 (repeat true 128) 0) = (-128)%Z /\
  restrict 8 op_128 [128] (repeat true 128) = Err RuntimeError.
Proof.
  split; [|repeat split; vm_compute; reflexivity].
  split; [reflexivity|]. exists 1, 128. repeat split; repeat constructor; reflexivity.
Qed.
Print Assumptions C19_int8_refuted.

(** Block matrices with blocks of one column: every mask of the columns is rejected
    (FINDING 12k). *)
Theorem C19_narrow_blocks_refuted : forall (K : Type) (M : matrix K) bits n mask,
  mx_axis M = FSR -> mx_kind M = KBlock -> snd (mx_bs M) = 1 ->
  restrict bits (mk_sop M None None) [n] mask = Err ValueError.
Proof.
  intros K M bits n mask AX KD B. unfold restrict, mk_sop. rewrite KD.
  destruct (mx_bs M) as [b0 b1] eqn:EB. cbn in B. subst b1. cbn [so_mx so_in Nat.eqb]. rewrite AX, KD. reflexivity.
Qed.
Print Assumptions C19_narrow_blocks_refuted.

(** Nothing kept: the operator without columns cannot be applied (FINDING 12l). *)
Theorem C19_nothing_kept_refuted :
  exists S', restrict 32 op_scalar [3] [false; false; false] = Ok (Some S') /\
    matvec z_ops true (@in_order Z) (so_mx S') [] None = Err ZeroDivisionError.
Proof. eexists; split; reflexivity. Qed.
Print Assumptions C19_nothing_kept_refuted.

(** Unsigned indices: -1 cannot be stored, no operator is restricted. *)
Theorem C19_unsigned_refuted : forall (K : Type) bits (S : sop K) mshape mask, mx_axis (so_mx S) = FSR -> mask_shape S = Some mshape ->
  restrict_unsigned bits S mshape mask = Err ValueError.
Proof.
  intros K bits S mshape mask AX HM. unfold restrict_unsigned, mask_shape in *. rewrite AX.
  destruct (mx_kind (so_mx S)), (so_in S) as [s|]; try discriminate; injection HM as <-; cbn [bind];
    match goal with |- context [list_eq_dec ?a ?b ?c] => destruct (list_eq_dec a b c); [reflexivity|congruence] end.
Qed.
Print Assumptions C19_unsigned_refuted.
Example C19_unsigned_case : mask_shape op_scalar = Some [3] /\ restrict_unsigned 8 op_scalar [3] [true; true; false] = Err ValueError.
Proof. split; reflexivity. Qed.

(** Default shapes of an operator made from blocks: pixels then components. *)
Theorem C18_default_shapes : forall (K : Type) (M : matrix K), well_formed M -> mx_kind M <> KScalar ->
  let S := mk_sop M None None in
  exists si so, so_in S = Some si /\ so_out S = Some so /\ prodn si = mx_cols M /\ prodn so = mx_rows M /\
    (snd (mx_bs M) = 1 -> si = [mx_cols M]) /\ (1 < snd (mx_bs M) -> length si = 2 /\ last si 0 = snd (mx_bs M)) /\
    (fst (mx_bs M) = 1 -> so = [mx_rows M]) /\ (1 < fst (mx_bs M) -> length so = 2 /\ last so 0 = fst (mx_bs M)).
Proof.
  intros K M [C [nr [nc [Hr [Hc _]]]]] NK S.
  assert (E : S = let '(b0, b1) := mx_bs M in
    Sop M (Some (if Nat.eqb b1 1 then [mx_cols M] else [mx_cols M / b1; b1]))
          (Some (if Nat.eqb b0 1 then [mx_rows M] else [mx_rows M / b0; b0])) [] []).
  { unfold S, mk_sop. destruct (mx_kind M); [congruence|..]; destruct (mx_bs M); reflexivity. }
  rewrite E. clear S E.
  assert (P : 0 < fst (mx_bs M) /\ 0 < snd (mx_bs M)).
  { destruct (mx_kind M); cbn in C; try (rewrite C; cbn; lia). lia. }
  destruct (mx_bs M) as [b0 b1]. cbn [fst snd] in *. destruct P as [P0 P1].
  eexists _, _. split; [reflexivity|]. split; [reflexivity|]. rewrite Hr, Hc.
  rewrite !Nat.div_mul by lia.
  destruct (Nat.eqb_spec b0 1), (Nat.eqb_spec b1 1); cbn; repeat split; intros; try lia; try reflexivity.
Qed.
Print Assumptions C18_default_shapes.
Example C18_default_shapes_example : so_in (mk_sop ex_rot None None) = Some [2; 3] /\ so_out (mk_sop ex_block None None) = Some [2; 2].
Proof. split; reflexivity. Qed.

(** The shapes _reshapein and _reshapeout would give (they are not used): the rows, then the
    number of broadcast columns if there are several or if the last axis has one element. *)
Theorem C18_reshapein : forall rows cols e shape, 0 < cols -> 0 < e -> shape <> [] -> prodn shape = e * cols ->
  exists s, reshapein_mx rows cols shape = Ok s /\ prodn s = rows * e /\ nth 0 s 0 = rows /\
    (length s = 2 <-> 1 < e \/ last shape 0 = 1) /\ (length s = 1 <-> e = 1 /\ last shape 0 <> 1).
Proof.
  intros rows cols e shape HC HE HS HP. unfold reshapein_mx. replace (Nat.eqb cols 0) with false by lia.
  rewrite HP, Nat.div_mul by lia. destruct (Nat.ltb_spec 1 e) as [L|L].
  - eexists. split; [reflexivity|]. cbn. repeat split; intros; lia.
  - assert (e = 1) by lia. subst e. destruct (exists_last HS) as [l [a ->]]. rewrite rev_unit, last_last.
    destruct (Nat.eqb_spec a 1); eexists; (split; [reflexivity|]); cbn; repeat split; intros; lia.
Qed.
Print Assumptions C18_reshapein.
(** A vector for a matrix of one column: the output would have two axes. *)
Example C18_reshapein_example : reshapein_mx 5 6 [2; 3] = Ok [5] /\ reshapein_mx 5 6 [6; 2; 2] = Ok [5; 4] /\ reshapein_mx 5 1 [1] = Ok [5; 1].
Proof. repeat split. Qed.

(** ** C20: corestriction *)
Theorem C20_corestrict_partial : forall (K : Type) (o : ops K), ring_laws o ->
  forall (S : sop K) mask,
  well_formed (so_mx S) -> mx_axis (so_mx S) = FSR -> mx_kind (so_mx S) = KScalar ->
  length mask = mx_rows (so_mx S) -> 0 < mx_cols (so_mx S) ->
  exists S', corestrict S mask = Ok S' /\
    well_formed (so_mx S') /\ mx_rows (so_mx S') = kept mask /\ mx_cols (so_mx S') = mx_cols (so_mx S) /\
    forall flib flib' sched sched' extra v,
      scheduler sched -> scheduler sched' -> 1 <= extra ->
      length v = extra * mx_cols (so_mx S) ->
      exists r s, matvec o flib sched (so_mx S) v None = Ok (Some r) /\
        matvec o flib' sched' (so_mx S') v None = Ok (Some s) /\ s = compress extra mask r.
Proof. exact @corestrict_spec. Qed.
Print Assumptions C20_corestrict_partial.

Example C20_example :
  corestrict op_scalar [false; true] =
    Ok (Sop (Matrix FSR KScalar 1 3 (1, 1) [[Elt (-1) [9%Z]; Elt 2 [4%Z]]]) (Some [3; 2]) (Some [1; 2]) [3] [1]) /\
  matvec z_ops true (@in_order Z) ex_scalar [1; 2; 3; 4; 5; 6]%Z None = Ok (Some [32; 44; 20; 24]%Z) /\
  compress 2 [false; true] [32; 44; 20; 24]%Z = [20; 24]%Z.
Proof. repeat split; reflexivity. Qed.

(** Rotations: the corestriction never succeeds (FINDING 10). *)
Theorem C20_rotation_refuted : forall (K : Type) (S : sop K) mask, mx_axis (so_mx S) = FSR ->
  mx_kind (so_mx S) = KRot2 \/ mx_kind (so_mx S) = KRot3 -> class_blocks (mx_kind (so_mx S)) (mx_bs (so_mx S)) ->
  0 < kept mask -> exists e, corestrict S mask = Err e.
Proof. exact @corestrict_rotation. Qed.
Print Assumptions C20_rotation_refuted.

Example C20_rotation_example : corestrict op_rot [true] = Err IndexError.
Proof. reflexivity. Qed.

(** ** C21: P.T * P with one entry per row *)
Theorem C21_ptp_partial : forall (K : Type) (o : ops K), ring_laws o ->
  forall sched flib flib' sched1 sched2 (S : sop K) shp x,
  well_formed (so_mx S) -> mx_axis (so_mx S) = FSR -> mx_kind (so_mx S) <> KBlock ->
  Forall (fun row => length row = 1) (mx_data (so_mx S)) ->
  so_in S = Some shp -> prodn shp = mx_cols (so_mx S) ->
  scheduler sched -> scheduler sched1 -> scheduler sched2 ->
  0 < mx_cols (so_mx S) -> 0 < mx_rows (so_mx S) -> length x = mx_cols (so_mx S) ->
  exists d y z, rule_ptp o sched S = Some (Some d) /\ length d = length x /\
    matvec o flib sched1 (so_mx S) x None = Ok (Some y) /\
    matvec o flib' sched2 (transpose (so_mx S)) y None = Ok (Some z) /\
    z = map2 (kmul o) d x.
Proof. exact @ptp_spec. Qed.
Print Assumptions C21_ptp_partial.

Definition ex_one : matrix Z := Matrix FSR KRot3 9 6 (3, 3) [[Elt 1 [2; 3; 4]%Z]; [Elt 0 [5; 1; 1]%Z]; [Elt 1 [1; 0; 2]%Z]].
Example C21_example :
  rule_ptp z_ops (@in_order Z) (mk_sop ex_one None None) = Some (Some [25; 2; 2; 5; 29; 29]%Z) /\
  (match matvec z_ops true (@in_order Z) ex_one [1; 1; 1; 1; 10; 100]%Z None with
   | Ok (Some y) => matvec z_ops true (@in_order Z) (transpose ex_one) y None
   | _ => Ok None end) = Ok (Some [25; 2; 2; 5; 290; 2900]%Z).
Proof. split; reflexivity. Qed.

(** Broadcast columns: the diagonal is wrong (FINDING 9). *)
Definition ex_broadcast : matrix Z := Matrix FSR KScalar 2 2 (1, 1) [[Elt 0 [2%Z]]; [Elt 1 [3%Z]]].
Theorem C21_broadcast_refuted :
  exists S : sop Z, well_formed (so_mx S) /\ so_in S = Some [2; 2] /\
    rule_ptp z_ops (@in_order Z) S = Some (Some [4; 9; 0; 0]%Z) /\
    (match matvec z_ops true (@in_order Z) (so_mx S) [1; 1; 1; 1]%Z None with
     | Ok (Some y) => matvec z_ops true (@in_order Z) (transpose (so_mx S)) y None
     | _ => Ok None end) = Ok (Some [4; 4; 9; 9]%Z).
Proof.
  exists (mk_sop ex_broadcast (Some [2; 2]) None). split; [|repeat split; reflexivity].
  split; [reflexivity|]. exists 2, 2. repeat split; repeat constructor; reflexivity.
Qed.
Print Assumptions C21_broadcast_refuted.

(** ** C22: construction and sizes *)
Theorem C22_given_data : forall a shape bs nmax ds r,
  init_matrix a shape bs nmax (Some ds) = Ok r <->
  r = ds /\ fits a shape bs ds /\ (nmax = None \/ nmax = Some (last ds 0)).
Proof. exact init_given. Qed.
Print Assumptions C22_given_data.

Theorem C22_allocated_partial : forall a shape bs n ds,
  init_matrix a shape bs (Some n) None = Ok ds -> a = FSR \/ fst bs = snd bs ->
  init_matrix a shape bs (Some n) (Some ds) = Ok ds.
Proof. exact init_alloc. Qed.
Print Assumptions C22_allocated_partial.

Theorem C22_products : forall (K : Type) (o : ops K) flib sched (M : matrix K) v, 0 < mx_cols M ->
  ((exists r, matvec o flib sched M v None = Ok r) <->
   exists e, length v = e * mx_cols M /\ (mx_kind M = KScalar \/ e = 1)).
Proof. exact @matvec_accepts. Qed.
Print Assumptions C22_products.

Theorem C22_products_given_output : forall (K : Type) (o : ops K) flib sched (M : matrix K) v out,
  0 < mx_cols M -> 0 < mx_rows M ->
  ((exists r, matvec o flib sched M v (Some out) = Ok r) <->
   exists e, length v = e * mx_cols M /\ length out = e * mx_rows M /\ (mx_kind M = KScalar \/ e = 1)).
Proof. exact @matvec_accepts_out. Qed.
Print Assumptions C22_products_given_output.

Example C22_example :
  init_matrix FSR (4, 9) (2, 3) None (Some [2; 7]) = Ok [2; 7] /\
  init_matrix FSR (4, 9) (2, 3) None (Some [3; 7]) = Err ValueError /\
  init_matrix FSR (5, 9) (2, 3) None (Some [2; 7]) = Err ValueError /\
  init_matrix FSR (4, 9) (2, 3) (Some 5) None = Ok [2; 5].
Proof. repeat split; reflexivity. Qed.

(** Column formats with rectangular blocks: what the constructor allocates fails its own
    check; with taller blocks it is too small for the product (FINDING 7). *)
Theorem C22_allocation_refuted :
  init_block FSC (4, 6) (2, 3) (Some 1) None = Ok [3; 1] /\
  init_block FSC (4, 6) (2, 3) (Some 1) (Some [3; 1]) = Err ValueError /\
  init_block FSC (4, 6) (2, 3) (Some 1) (Some [2; 1]) = Ok [2; 1] /\
  init_block FSC (6, 4) (3, 2) (Some 1) None = Ok [1; 1] /\
  init_block FSC (6, 4) (3, 2) (Some 1) (Some [2; 1]) = Ok [2; 1].
Proof. repeat split; reflexivity. Qed.
Print Assumptions C22_allocation_refuted.

(** Which blocks FSCBlockMatrix accepts: at most 3 by 3 and not one by one. *)
Theorem C22_block_shapes : forall shape r c nmax dshape,
  let refused := init_block FSC shape (r, c) nmax dshape in
  (1 <= r <= 3 /\ 1 <= c <= 3 /\ ~ (r = 1 /\ c = 1) -> refused = init_matrix FSC shape (r, c) nmax dshape) /\
  (r = 1 /\ c = 1 -> refused = Err ValueError) /\
  (~ (1 <= r <= 3 /\ 1 <= c <= 3) -> refused = Err NotImplementedError).
Proof.
  intros shape r c nmax dshape. cbv zeta. unfold init_block. cbn [fst snd].
  destruct (Nat.eqb_spec r 1), (Nat.eqb_spec c 1), (Nat.leb_spec 1 r), (Nat.leb_spec r 3), (Nat.leb_spec 1 c), (Nat.leb_spec c 3); cbn [andb];
    (split; [|split]); intros; try reflexivity; exfalso; lia.
Qed.
Print Assumptions C22_block_shapes.

(** FSRBlockMatrix does not check the block shape, FSCBlockMatrix does (FINDING 8). *)
Theorem C22_block_shape_refuted :
  init_block FSC (8, 8) (4, 4) (Some 1) None = Err NotImplementedError /\
  init_block FSR (8, 8) (4, 4) (Some 1) None = Ok [2; 1].
Proof. split; reflexivity. Qed.
Print Assumptions C22_block_shape_refuted.

(** ** C23: hit maps *)
Theorem C23_scalar : forall (K : Type) (o : ops K), ring_laws o ->
  forall flib sched norm (S : sop K) extra out op,
  well_formed (so_mx S) -> mx_axis (so_mx S) = FSR -> mx_kind (so_mx S) = KScalar ->
  match so_out S with Some s => prodn s = extra * mx_rows (so_mx S) | None => extra = 1 end ->
  1 <= extra -> scheduler sched -> 0 < mx_cols (so_mx S) -> 0 < mx_rows (so_mx S) ->
  length out = extra * mx_cols (so_mx S) -> op = Assign \/ op = IAdd ->
  exists r, pT1 o flib sched norm S out op = Ok (Some r) /\ length r = length out /\
    forall c, c < length out ->
      at_ o r c = kadd o (previous o op out c)
                         (bigsum o (extra * mx_rows (so_mx S)) (fun i => dense_of o (so_mx S) extra i c)).
Proof. exact @pT1_scalar. Qed.
Print Assumptions C23_scalar.

(** Blocks of several columns: the first component of each group. *)
Theorem C23_blocks_partial : forall (K : Type) (o : ops K), ring_laws o ->
  forall flib sched norm (S : sop K) out op n,
  well_formed (so_mx S) -> mx_axis (so_mx S) = FSR ->
  mx_kind (so_mx S) = KRot3 \/ mx_kind (so_mx S) = KBlock -> 1 < snd (mx_bs (so_mx S)) ->
  match so_out S with Some s => prodn s = mx_rows (so_mx S) | None => True end ->
  scheduler sched -> 0 < mx_rows (so_mx S) ->
  mx_cols (so_mx S) = n * snd (mx_bs (so_mx S)) -> length out = n -> op = Assign \/ op = IAdd ->
  exists r, pT1 o flib sched norm S out op = Ok (Some r) /\ length r = length out /\
    forall c, c < length out ->
      at_ o r c = kadd o (previous o op out c)
                    (bigsum o (mx_rows (so_mx S)) (fun i => dense_of o (so_mx S) 1 i (c * snd (mx_bs (so_mx S))))).
Proof. exact @pT1_first. Qed.
Print Assumptions C23_blocks_partial.

(** Two-dimensional rotations: the sum of the norms. *)
Theorem C23_rotation2d_partial : forall (K : Type) (o : ops K), ring_laws o ->
  forall flib sched norm (S : sop K) out op n,
  well_formed (so_mx S) -> mx_axis (so_mx S) = FSR -> mx_kind (so_mx S) = KRot2 ->
  mx_cols (so_mx S) = n * 2 -> length out = n -> op = Assign \/ op = IAdd ->
  exists r, pT1 o flib sched norm S out op = Ok (Some r) /\ length r = length out /\
    forall c, c < length out ->
      at_ o r c = kadd o (previous o op out c)
        (sum_over o (concat (mx_data (so_mx S))) (fun e =>
           if (e_idx e =? Z.of_nat c)%Z then norm (at_ o (e_val e) 0) (at_ o (e_val e) 1) else k0 o)).
Proof. exact @pT1_rot2. Qed.
Print Assumptions C23_rotation2d_partial.

(** The Fortran accumulation, for any interleaving. *)
Theorem C23_compiled : forall (K : Type) (o : ops K), ring_laws o ->
  forall n w (data : list (list (elt K))) sched out,
  in_range n data -> length out = n -> scheduler sched ->
  exists its r, pT1_kernel n w data = Some its /\ exec o (sched its) out = Some r /\ length r = n /\
    forall c, c < n -> at_ o r c = kadd o (at_ o out c)
      (sum_over o (concat data) (fun e => if (e_idx e =? Z.of_nat c)%Z then w e else k0 o)).
Proof. exact @pT1_kernel_spec. Qed.
Print Assumptions C23_compiled.

Example C23_example :
  pT1 z_ops true (@in_order Z) Z.add op_scalar [10; 20; 30; 40; 50; 60]%Z IAdd = Ok (Some [17; 27; 30; 40; 59; 69]%Z) /\
  pT1 z_ops true (@in_order Z) Z.add op_rot [0; 5]%Z Assign = Ok (Some [0; 3]%Z) /\
  pT1 z_ops true (@in_order Z) Z.add op_scalar [1; 1; 1; 1; 1; 1]%Z OtherOp = Err ValueError.
Proof. repeat split; reflexivity. Qed.

(** FINDING 12i.  Two-dimensional rotations: not the transpose applied to ones, in any
    component; blocks of one column: the first pixel is copied to all. *)
Definition ex_rot2 : matrix Z := Matrix FSR KRot2 2 2 (2, 2) [[Elt 0 [3; 4]%Z]].
Definition ex_narrow : matrix Z := Matrix FSR KBlock 4 2 (2, 1) [[Elt 0 [1; 2]%Z]; [Elt 1 [10; 20]%Z]].
Theorem C23_rotation2d_refuted : forall norm, norm 3%Z 4%Z = 5%Z ->
  pT1 z_ops true (@in_order Z) norm (mk_sop ex_rot2 None None) [0%Z] Assign = Ok (Some [5%Z]) /\
  matvec z_ops true (@in_order Z) (transpose ex_rot2) [1; 1]%Z None = Ok (Some [7; -1]%Z).
Proof. intros norm H. split; [cbn; rewrite H; reflexivity|reflexivity]. Qed.
Print Assumptions C23_rotation2d_refuted.
Theorem C23_narrow_blocks_refuted :
  well_formed ex_narrow /\
  pT1 z_ops true (@in_order Z) Z.add (mk_sop ex_narrow None None) [0; 0]%Z Assign = Ok (Some [3; 3]%Z) /\
  matvec z_ops true (@in_order Z) (transpose ex_narrow) [1; 1; 1; 1]%Z None = Ok (Some [3; 30]%Z).
Proof.
  split; [|split; reflexivity]. split; [cbn; repeat split; try lia; discriminate|].
  exists 2, 2. repeat split; repeat constructor; reflexivity.
Qed.
Print Assumptions C23_narrow_blocks_refuted.

(** ** C24: kernel masks *)

(** One thread: exactly the unseen pixels. *)
Theorem C24_one_thread : forall (K : Type) (o : ops K) (nz : K -> bool),
  (forall v, nz v = false <-> v = k0 o) -> forall (M : matrix K) out op,
  mx_kind M <> KBlock -> in_range (length out) (mx_data M) -> op = KAssign \/ op = KIand ->
  exists r, kernel_mask nz sequential M out op = Ok (Some r) /\ length r = length out /\
    forall c, c < length out ->
      (nth c r false = true <-> ~ seen o (mx_data M) c /\ (op = KIand -> nth c out false = true)).
Proof. exact @mask_sequential. Qed.
Print Assumptions C24_one_thread.

(** Several threads: exact only if all elements in use are non-zero. *)
Theorem C24_any_order_partial : forall (K : Type) (o : ops K) (nz : K -> bool),
  (forall v, nz v = false <-> v = k0 o) -> forall sched (M : matrix K) out op,
  scheduler sched -> no_zero_element o (mx_data M) ->
  mx_kind M <> KBlock -> in_range (length out) (mx_data M) -> op = KAssign \/ op = KIand ->
  exists r, kernel_mask nz sched M out op = Ok (Some r) /\ length r = length out /\
    forall c, c < length out ->
      (nth c r false = true <-> ~ seen o (mx_data M) c /\ (op = KIand -> nth c out false = true)).
Proof. exact @mask_any. Qed.
Print Assumptions C24_any_order_partial.

(** FINDING 12b.  The pointer of fsr_kernel is shared by the threads: with a stored zero,
    a seen pixel may be reported as unseen, and conversely. *)
Definition ex_race : matrix Z := Matrix FSR KScalar 2 2 (1, 1) [[Elt 0 [0%Z]]; [Elt 1 [5%Z]]].
Definition racy (late : bool) (its : list (list (kact Z))) : list (nat * kact Z) :=
  match its with
  | [[a; b]; [c; d]] => if late then [(1, c); (0, a); (1, d); (0, b)] else [(0, a); (1, c); (0, b); (1, d)]
  | _ => sequential its
  end.
Lemma racy_scheduler late : scheduler (racy late).
Proof.
  intros its. unfold racy.
  destruct its as [|[|a [|b [|? ?]]] [|[|c [|d [|? ?]]] [|? ?]]]; try apply merge_sequential.
  destruct late.
  - eapply (merge_cons _ 1); [reflexivity|]. eapply (merge_cons _ 0); [reflexivity|].
    eapply (merge_cons _ 1); [reflexivity|]. eapply (merge_cons _ 0); [reflexivity|]. repeat constructor.
  - eapply (merge_cons _ 0); [reflexivity|]. eapply (merge_cons _ 1); [reflexivity|].
    eapply (merge_cons _ 0); [reflexivity|]. eapply (merge_cons _ 1); [reflexivity|]. repeat constructor.
Qed.
Theorem C24_race_refuted :
  well_formed ex_race /\ scheduler (racy true) /\ scheduler (racy false) /\
  kernel_mask nzZ sequential ex_race [true; true] KAssign = Ok (Some [true; false]) /\
  kernel_mask nzZ (racy true) ex_race [true; true] KAssign = Ok (Some [true; true]) /\
  kernel_mask nzZ (racy false) ex_race [true; true] KAssign = Ok (Some [false; false]).
Proof.
  split; [split; [reflexivity|]; exists 2, 2; repeat split; repeat constructor; reflexivity|].
  split; [apply racy_scheduler|]. split; [apply racy_scheduler|]. repeat split; reflexivity.
Qed.
Print Assumptions C24_race_refuted.

(** Non-negative weights: unseen means a column of zeros. *)
Theorem C24_unseen : forall (K : Type) (o : ops K), ring_laws o -> (forall v : K, v = k0 o \/ v <> k0 o) ->
  forall (P : K -> Prop) (M : matrix K) c,
  nonneg_laws o P -> well_formed M -> mx_axis M = FSR -> mx_kind M = KScalar -> full_records M ->
  (forall row e v, In row (mx_data M) -> In e row -> In v (e_val e) -> P v) ->
  (~ seen o (mx_data M) c <-> forall r, r < mx_rows M -> dense_of o M 1 r c = k0 o).
Proof. exact @unseen_column. Qed.
Print Assumptions C24_unseen.

Theorem C24_lossless : forall (K : Type) (o : ops K), ring_laws o -> forall nz : K -> bool,
  (forall v, nz v = false <-> v = k0 o) ->
  forall flib flib' sched sched' bits (S : sop K) mshape out extra x,
  well_formed (so_mx S) -> mx_axis (so_mx S) = FSR -> mx_kind (so_mx S) <> KBlock ->
  mask_shape S = Some mshape ->
  mx_cols (so_mx S) = length out * snd (mx_bs (so_mx S)) ->
  (exists c, seen o (mx_data (so_mx S)) c) ->
  (1 < bits)%Z -> (Z.of_nat (length out) < 2 ^ (bits - 1))%Z ->
  scheduler sched -> scheduler sched' -> allowed_extra (so_mx S) extra ->
  length x = extra * mx_cols (so_mx S) ->
  exists kernel S' r, kernel_mask nz sequential (so_mx S) out KAssign = Ok (Some kernel) /\
    restrict bits S mshape (map negb kernel) = Ok (Some S') /\
    matvec o flib sched (so_mx S') (compress (extra * snd (mx_bs (so_mx S))) (map negb kernel) x) None = Ok (Some r) /\
    forall y, length y = length x ->
      agree_on_seen o (mx_data (so_mx S)) (extra * snd (mx_bs (so_mx S))) x y ->
      matvec o flib' sched' (so_mx S) y None = Ok (Some r).
Proof. exact @kernel_lossless. Qed.
Print Assumptions C24_lossless.

Example C24_example :
  kernel_mask nzZ sequential ex_scalar [true; true; true] KAssign = Ok (Some [false; true; false]) /\
  kernel_mask nzZ sequential ex_scalar [true; false; true] KIand = Ok (Some [false; false; false]) /\
  (match restrict 32 (mk_sop ex_scalar None None) [3] (map negb [false; true; false]) with
   | Ok (Some S') => matvec z_ops true (@in_order Z) (so_mx S') [1; 3]%Z None | _ => Ok None end) = Ok (Some [22; 12]%Z) /\
  matvec z_ops true (@in_order Z) ex_scalar [1; 999; 3]%Z None = Ok (Some [22; 12]%Z).
Proof. repeat split; reflexivity. Qed.

(** FINDING 12h.  No kernel mask for block matrices; for a scalar matrix whose operator
    has an extra dimension, only the first entries of the mask are computed: here pixel 1
    (entries 2 and 3 of the input) is seen. *)
Theorem C24_blocks_refuted : forall (K : Type) (nz : K -> bool) sched (M : matrix K) out op,
  mx_kind M = KBlock -> concat (mx_data M) <> [] -> kernel_mask nz sched M out op = Err AttributeError.
Proof.
  intros K nz sched M out op KD H. unfold kernel_mask. rewrite KD.
  destruct (concat (mx_data M)); [congruence|reflexivity].
Qed.
Print Assumptions C24_blocks_refuted.
Theorem C24_broadcast_refuted :
  well_formed ex_broadcast /\
  kernel_mask nzZ sequential ex_broadcast (repeat true (prodn [2; 2])) KAssign = Ok (Some [false; false; true; true]) /\
  matvec z_ops true (@in_order Z) ex_broadcast [0; 0; 1; 1]%Z None = Ok (Some [0; 0; 3; 3]%Z).
Proof.
  split; [|split; reflexivity]. split; [reflexivity|]. exists 2, 2. repeat split; repeat constructor; reflexivity.
Qed.
Print Assumptions C24_broadcast_refuted.

(** ** C47: shapes of the operators *)
Theorem C47_shapes_partial : forall (K : Type) (M : matrix K) shapein shapeout S shape rest,
  mx_kind M = KScalar -> S = mk_sop M shapein shapeout ->
  (forall s, shapein = Some s -> exists k, 1 <= k <= length s /\ prodn (firstn k s) = mx_cols M) ->
  (forall s, shapeout = Some s -> exists k, 1 <= k <= length s /\ prodn (firstn k s) = mx_rows M) ->
  shape = so_bin S ++ rest ->
  exists r, reshapein S shape = Some r /\ prodn shape = mx_cols M * prodn rest /\ prodn r = mx_rows M * prodn rest.
Proof. exact @reshape_size. Qed.
Print Assumptions C47_shapes_partial.

Example C47_example :
  let S := mk_sop (Matrix FSR KScalar 6 12 (1, 1) ([] : list (list (elt Z)))) (Some [3; 4; 5]) (Some [2; 3; 5]) in
  so_bin S = [3; 4] /\ so_bout S = [2; 3] /\ reshapein S [3; 4; 5] = Some [2; 3; 5].
Proof. repeat split; reflexivity. Qed.

(** FINDING 12j.  An input shape of a compatible size, no prefix of which is the number of
    columns: the output shape has the wrong size. *)
Theorem C47_no_prefix_refuted :
  let S := mk_sop (Matrix FSR KScalar 2 6 (1, 1) ([] : list (list (elt Z)))) (Some [4; 3]) None in
  reshapein S [4; 3] = Some [2; 3] /\ prodn [4; 3] = 2 * 6 /\ prodn [2; 3] <> 2 * 2.
Proof. repeat split; try reflexivity. discriminate. Qed.
Print Assumptions C47_no_prefix_refuted.
