(** Lemmas for C85. *)
From Coq Require Import String Ascii Sorted Permutation Lia.
From Verif Require Import Base BaseFacts TemplateModel MadModel MadSpec.
Open Scope Z_scope.

(** ** Bytes *)
Lemma bytes_le_length k n : length (bytes_le k n) = k.
Proof. revert n. induction k; intros; cbn; auto. Qed.
Lemma bytes_length big k n : length (bytes big k n) = k.
Proof. unfold bytes. destruct big; [rewrite rev_length|]; apply bytes_le_length. Qed.
Lemma zlen_bytes big k n : zlen (bytes big k n) = Z.of_nat k.
Proof. unfold zlen. now rewrite bytes_length. Qed.
Lemma le_uint_bytes k n : le_uint (bytes_le k n) = n mod 2 ^ (8 * Z.of_nat k).
Proof.
  revert n. induction k as [|k IH]; intros n; [cbn; now rewrite Z.mod_1_r|]. cbn [bytes_le le_uint]. rewrite IH.
  replace (8 * Z.of_nat (S k)) with (8 + 8 * Z.of_nat k) by lia. rewrite Z.pow_add_r by lia. change (2 ^ 8) with 256.
  symmetry. rewrite Z.rem_mul_r; [reflexivity|lia|]. apply Z.pow_pos_nonneg; lia.
Qed.
Lemma uint_bytes big k n : uint big (bytes big k n) = n mod 2 ^ (8 * Z.of_nat k).
Proof. unfold uint, bytes. destruct big; [rewrite rev_involutive|]; apply le_uint_bytes. Qed.
Lemma uint_bits64 big n : bits64 n -> uint big (bytes big 8 n) = n.
Proof. unfold bits64. intros. rewrite uint_bytes. now apply Z.mod_small. Qed.
Lemma uint_bits32 big n : bits32 n -> uint big (bytes big 4 n) = n.
Proof. unfold bits32. intros. rewrite uint_bytes. now apply Z.mod_small. Qed.
Lemma sint_half m n : 0 < m -> - m <= n < m -> (let u := n mod (2 * m) in if 2 * u <? 2 * m then u else u - 2 * m) = n.
Proof.
  intros Hm H. cbv zeta. destruct (Z_lt_le_dec n 0).
  - replace (n mod (2 * m)) with (n + 2 * m) by (apply (Z.mod_unique n (2 * m) (-1)); lia). destruct (Z.ltb_spec (2 * (n + 2 * m)) (2 * m)); lia.
  - rewrite Z.mod_small by lia. destruct (Z.ltb_spec (2 * n) (2 * m)); lia.
Qed.
Lemma sint_int64 big n : int64 n -> sint big (bytes big 8 n) = n.
Proof. intros H. unfold sint. rewrite uint_bytes, zlen_bytes. apply (sint_half (2 ^ 63) n); [reflexivity|exact H]. Qed.
Lemma sint_int32 big n : int32 n -> sint big (bytes big 4 n) = n.
Proof. intros H. unfold sint. rewrite uint_bytes, zlen_bytes. apply (sint_half (2 ^ 31) n); [reflexivity|exact H]. Qed.

(** ** Items of files *)
Lemma firstn_app_exact {A} (l r : list A) n : length l = n -> firstn n (l ++ r) = l.
Proof. intros <-. rewrite firstn_app, Nat.sub_diag, firstn_all. cbn. apply app_nil_r. Qed.
Lemma skipn_app_exact {A} (l r : list A) n : length l = n -> skipn n (l ++ r) = r.
Proof. intros <-. rewrite skipn_app, Nat.sub_diag, skipn_all. reflexivity. Qed.
Lemma chunks_concat {A} size (l : list (list A)) r : Forall (fun x => length x = size) l -> chunks size (length l) (concat l ++ r) = l.
Proof.
  induction 1 as [|x l Hx Hl IH]; [reflexivity|]. cbn [length chunks concat]. rewrite <- app_assoc.
  destruct (Nat.ltb_spec (length (x ++ concat l ++ r)) size) as [H|H]; [rewrite app_length in H; lia|].
  rewrite firstn_app_exact, skipn_app_exact, IH by assumption. reflexivity.
Qed.
Lemma fromfile_concat size (l : list (list Z)) r n : Forall (fun x => length x = size) l -> zlen l = n -> fromfile size n (concat l ++ r) = l.
Proof.
  intros F H. unfold fromfile. unfold zlen in H. destruct (Z.ltb_spec n 0); [lia|]. replace (Z.to_nat n) with (length l) by lia. now apply chunks_concat.
Qed.
Lemma Forall_bytes {A} big k (f : A -> Z) l : Forall (fun x => length x = k) (map (fun a => bytes big k (f a)) l).
Proof. induction l; constructor; [apply bytes_length|assumption]. Qed.

(** ** Sorting *)
Section S.
Context {A : Type} (key : A -> Z).
Lemma insert_perm x l : Permutation (x :: l) (insert key x l).
Proof. induction l as [|y l IH]; cbn; [constructor; constructor|]. destruct (key x <=? key y); [reflexivity|]. rewrite perm_swap. now constructor. Qed.
Lemma sorted_perm l : Permutation l (sorted key l).
Proof. induction l as [|x l IH]; cbn; [constructor|]. rewrite <- insert_perm. now constructor. Qed.
Lemma insert_sorted x l : StronglySorted (fun a b => key a <= key b) l -> StronglySorted (fun a b => key a <= key b) (insert key x l).
Proof.
  induction 1 as [|y l Hl IH Hy]; cbn; [constructor; constructor|]. destruct (Z.leb_spec (key x) (key y)).
  - constructor; [now constructor|]. constructor; [assumption|]. eapply Forall_impl; [|exact Hy]. cbn. intros; lia.
  - constructor; [assumption|]. eapply Permutation_Forall; [apply insert_perm|]. constructor; [lia|assumption].
Qed.
Lemma sorted_sorted l : StronglySorted (fun a b => key a <= key b) (sorted key l).
Proof. induction l; cbn; [constructor|now apply insert_sorted]. Qed.
Lemma sorted_unique l : forall l', Permutation l' l -> StronglySorted (fun a b => key a <= key b) l' ->
  StronglySorted (fun a b => key a < key b) l -> l' = l.
Proof.
  induction l as [|y l IH]; intros l' P S S'; [now apply Permutation_sym, Permutation_nil in P|].
  destruct l' as [|x l']; [now apply Permutation_nil in P|]. inversion S as [|a' b' S1 S2]; subst. inversion S' as [|a' b' S1' S2']; subst.
  assert (x = y) as ->.
  { assert (Hx : In x (y :: l)) by (eapply Permutation_in; [exact P|now left]). assert (Hy : In y (x :: l')) by (eapply Permutation_in; [apply Permutation_sym; exact P|now left]).
    destruct Hx as [Hx|Hx]; [easy|]. destruct Hy as [Hy|Hy]; [easy|]. rewrite Forall_forall in S2, S2'. specialize (S2 y Hy). specialize (S2' x Hx). lia. }
  f_equal. apply IH; [eapply Permutation_cons_inv; exact P|assumption|assumption].
Qed.
Lemma sorted_of_perm l l' : Permutation l' l -> StronglySorted (fun a b => key a < key b) l -> sorted key l' = l.
Proof. intros P S. apply sorted_unique; [|apply sorted_sorted|assumption]. now rewrite <- sorted_perm. Qed.
End S.
Lemma filter_perm {A} (p : A -> bool) l l' : Permutation l l' -> Permutation (List.filter p l) (List.filter p l').
Proof.
  induction 1 as [|x l l' H IH|x y l|l m r H1 IH1 H2 IH2]; cbn; [constructor|destruct (p x); [now constructor|assumption]| |now rewrite IH1].
  destruct (p x), (p y); try reflexivity. apply perm_swap.
Qed.

(** ** Names *)
Definition plain (name : text) : Prop := Forall (fun c => ~ In c (lit "^$*+?{}[]\|()") /\ c <> point) name.
Lemma plain_special name : plain name -> existsb special name = false.
Proof.
  induction 1 as [|c l [Hc _] _ IH]; cbn [existsb]; [reflexivity|]. rewrite IH, orb_false_r. unfold special.
  destruct (existsb (Ascii.eqb c) (lit "^$*+?{}[]\|()")) eqn:E; [|reflexivity]. exfalso. apply Hc. apply existsb_exists in E as (d & Hd & E). apply Ascii.eqb_eq in E. now subst.
Qed.
Lemma match_name_plain name path : plain name -> match_name name path = None \/ exists p, match_name name path = Some p /\ path = name ++ p.
Proof.
  intros H. revert path. induction H as [|c l [_ Hc] _ IH]; intros path; cbn; [right; now exists path|].
  destruct path as [|d path]; [now left|]. destruct (Ascii.eqb_spec c d) as [->|Hd]; cbn [orb].
  - destruct (IH path) as [E|(p & E & ->)]; [now left|right; exists p; now split].
  - replace (Ascii.eqb c point) with false by (symmetry; now apply Ascii.eqb_neq). now left.
Qed.
Lemma match_name_app name p : match_name name (name ++ p) = Some p.
Proof. induction name as [|c l IH]; cbn; [reflexivity|]. now rewrite Ascii.eqb_refl. Qed.
Lemma is_digit_spec c : is_digit c = true <-> (48 <= nat_of_ascii c <= 57)%nat.
Proof. unfold is_digit. cbv zeta. rewrite andb_true_iff, !Nat.leb_le. reflexivity. Qed.
Lemma digits_end_spec l : ~ In newline l -> digits_end l = true <-> Forall (fun c => (48 <= nat_of_ascii c <= 57)%nat) l.
Proof.
  induction l as [|c l IH]; intros N; [split; [constructor|reflexivity]|].
  assert (Hn : Ascii.eqb c newline = false) by (apply Ascii.eqb_neq; intros ->; apply N; now left).
  destruct l as [|d l].
  - cbn [digits_end]. rewrite Hn, orb_false_r, is_digit_spec. split; [intros; constructor; [assumption|constructor]|intros H; now inversion H].
  - change (digits_end (c :: d :: l)) with (is_digit c && digits_end (d :: l)). rewrite andb_true_iff, is_digit_spec, IH by (intros H; apply N; now right).
    split; [intros [H1 H2]; now constructor|intros H; inversion H; now split].
Qed.
Lemma match_path_spec name path : plain name -> ~ In newline path -> match_path name path = true <-> numbered name path.
Proof.
  intros H N. unfold match_path, numbered. split.
  - destruct (match_name_plain name path H) as [E|(p & E & ->)]; rewrite E; [discriminate|]. destruct p as [|q [|d r]]; try discriminate.
    rewrite !andb_true_iff. intros [[Hq Hd] Hr]. apply Ascii.eqb_eq in Hq. subst q. exists (d :: r). split; [reflexivity|]. split; [discriminate|].
    constructor; [now apply is_digit_spec|]. apply digits_end_spec; [|assumption]. intros I. apply N. apply in_or_app. right. right. now right.
  - intros (digits & -> & Hd & F). rewrite match_name_app. destruct digits as [|d r]; [easy|]. inversion F; subst. rewrite !andb_true_iff. repeat split.
    + now apply is_digit_spec.
    + apply digits_end_spec; [|assumption]. intros I. apply N. apply in_or_app. right. right. now right.
Qed.
Lemma numbered_newline name path : ~ In newline name -> numbered name path -> ~ In newline path.
Proof.
  intros H (digits & -> & _ & F) I. apply in_app_or in I. destruct I as [I|[I|I]]; [easy|discriminate|].
  rewrite Forall_forall in F. apply F in I. cbv in I. lia.
Qed.
Lemma number_decimal digits acc : Forall (fun c => (48 <= nat_of_ascii c <= 57)%nat) digits ->
  number acc digits = fold_left (fun a c => 10 * a + Z.of_nat (nat_of_ascii c) - 48) digits acc.
Proof.
  intros F. revert acc. induction F as [|c l Hc _ IH]; intros acc; cbn [number fold_left]; [reflexivity|]. rewrite (proj2 (is_digit_spec c) Hc), IH. f_equal. lia.
Qed.
Lemma after_point_none l best : ~ In point l -> after_point l best = best.
Proof.
  revert best. induction l as [|c l IH]; intros best N; cbn; [reflexivity|]. replace (Ascii.eqb c point) with false by (symmetry; apply Ascii.eqb_neq; intros ->; apply N; now left).
  apply IH. intros I. apply N. now right.
Qed.
Lemma after_point_app l r best : ~ In point r -> after_point (l ++ point :: r) best = r.
Proof.
  intros N. revert best. induction l as [|c l IH]; intros best; [|apply IH]. cbn [app after_point]. rewrite Ascii.eqb_refl. now apply after_point_none.
Qed.
Lemma suffix_number_spec name digits : Forall (fun c => (48 <= nat_of_ascii c <= 57)%nat) digits -> suffix_number (name ++ "."%char :: digits) = decimal digits.
Proof.
  intros F. unfold suffix_number. change "."%char with point. rewrite after_point_app; [now apply number_decimal|].
  intros I. rewrite Forall_forall in F. apply F in I. cbv in I. lia.
Qed.

(** ** Blocks *)
Lemma every_concat {A} n (l : list (list A)) : (0 < n)%nat -> Forall (fun x => length x = n) l ->
  forall fuel, (length l <= fuel)%nat -> forall d, every n fuel (concat l) = map (fun x => hd d x) l.
Proof.
  intros Hn. induction 1 as [|x l Hx _ IH]; intros fuel Hf d; [destruct fuel; reflexivity|].
  destruct fuel as [|fuel]; [cbn in Hf; lia|]. destruct x as [|a x]; [cbn in Hx; lia|]. cbn [concat every app map hd]. f_equal.
  change (a :: x ++ concat l) with ((a :: x) ++ concat l). rewrite skipn_app_exact by assumption. apply IH. cbn in Hf. lia.
Qed.
Lemma concat_length_const {A} n (l : list (list A)) : Forall (fun x => length x = n) l -> length (concat l) = (length l * n)%nat.
Proof. induction 1 as [|x l Hx _ IH]; cbn; [reflexivity|]. rewrite app_length, Hx, IH. reflexivity. Qed.
Lemma zip_with_seq {A B C} (f : A -> B -> C) (g : nat -> A) (l : list B) e : zip_with f (map g (seq 0 (length l))) l = map (fun d => f (g d) (nth d l e)) (seq 0 (length l)).
Proof.
  revert g. induction l as [|y l IH]; intros g; [reflexivity|]. cbn [length seq map zip_with nth]. f_equal. rewrite <- seq_shift, !map_map. rewrite IH. apply map_ext. reflexivity.
Qed.
