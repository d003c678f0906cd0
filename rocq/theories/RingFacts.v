(** Finite sums over a commutative ring given as [ops] with [ring_laws]. *)
From Coq Require Import Lia Permutation Ring.
From Verif Require Import Base BaseFacts SparseModel SparseSpec.
Open Scope nat_scope.

Section Sums.
Context {K : Type} (o : ops K) (RL : ring_laws o).
Local Notation "a + b" := (kadd o a b).
Local Notation "a * b" := (kmul o a b).
Local Notation "- a" := (kopp o a).
Local Notation "0" := (k0 o).

Let RT : ring_theory (k0 o) (k1 o) (kadd o) (kmul o) (fun a b => kadd o a (kopp o b)) (kopp o) eq := RL.
Add Ring Kring : RT.

Lemma bigsum_ext n f g : (forall i, (i < n)%nat -> f i = g i) -> bigsum o n f = bigsum o n g.
Proof. induction n; cbn; intros H; [reflexivity|]. rewrite IHn, H by (intros; auto with arith); reflexivity. Qed.

Lemma bigsum_0 n f : (forall i, (i < n)%nat -> f i = 0) -> bigsum o n f = 0.
Proof. induction n; cbn; intros H; [reflexivity|]. rewrite IHn, H by auto with arith. ring. Qed.

Lemma bigsum_add n f g : bigsum o n (fun i => f i + g i) = bigsum o n f + bigsum o n g.
Proof. induction n; cbn; [ring|]. rewrite IHn; ring. Qed.

Lemma bigsum_opp n f : bigsum o n (fun i => - f i) = - bigsum o n f.
Proof. induction n; cbn; [ring|]. rewrite IHn; ring. Qed.

Lemma bigsum_mul_l n k f : bigsum o n (fun i => k * f i) = k * bigsum o n f.
Proof. induction n; cbn; [ring|]. rewrite IHn; ring. Qed.

Lemma bigsum_mul_r n k f : bigsum o n (fun i => f i * k) = bigsum o n f * k.
Proof. induction n; cbn; [ring|]. rewrite IHn; ring. Qed.

Lemma bigsum_swap n m f :
  bigsum o n (fun i => bigsum o m (fun j => f i j)) = bigsum o m (fun j => bigsum o n (fun i => f i j)).
Proof.
  induction n; cbn; [symmetry; apply bigsum_0; reflexivity|].
  rewrite IHn, <- bigsum_add. reflexivity.
Qed.

Lemma bigsum_single n k f : (k < n)%nat -> bigsum o n (fun i => if Nat.eqb i k then f i else 0) = f k.
Proof.
  induction n; intros H; [lia|]. cbn [bigsum].
  destruct (Nat.eq_dec k n) as [->|D].
  - rewrite Nat.eqb_refl, bigsum_0; [ring|].
    intros i Hi. destruct (Nat.eqb_spec i n); [lia|reflexivity].
  - rewrite IHn by lia. destruct (Nat.eqb_spec n k); [lia|]. ring.
Qed.

Lemma bigsum_app n m f : bigsum o (n + m)%nat f = bigsum o n f + bigsum o m (fun i => f (n + i)%nat).
Proof.
  induction m; cbn.
  - rewrite Nat.add_0_r. ring.
  - rewrite Nat.add_succ_r. cbn. rewrite IHm. ring.
Qed.

Lemma bigsum_blocks n b f :
  bigsum o (n * b)%nat f = bigsum o n (fun k => bigsum o b (fun q => f (k * b + q)%nat)).
Proof.
  induction n; [reflexivity|]. cbn [bigsum]. rewrite <- IHn.
  replace (S n * b)%nat with (n * b + b)%nat by lia. apply bigsum_app.
Qed.

Lemma bigsum_S_l n f : bigsum o (S n) f = f 0%nat + bigsum o n (fun i => f (S i)).
Proof. change (S n) with (1 + n)%nat. rewrite bigsum_app. cbn. ring. Qed.

(** Lists *)
Lemma sum_over_ext {A} (l : list A) f g : (forall a, In a l -> f a = g a) -> sum_over o l f = sum_over o l g.
Proof. induction l; cbn; intros H; [reflexivity|]. rewrite IHl, H by auto; reflexivity. Qed.

Lemma sum_over_0 {A} (l : list A) f : (forall a, In a l -> f a = 0) -> sum_over o l f = 0.
Proof. induction l; cbn; intros H; [reflexivity|]. rewrite IHl, H by auto. ring. Qed.

Lemma sum_over_app {A} (l r : list A) f : sum_over o (l ++ r) f = sum_over o l f + sum_over o r f.
Proof. induction l; cbn; [ring|]. rewrite IHl; ring. Qed.

Lemma sum_over_add {A} (l : list A) f g : sum_over o l (fun a => f a + g a) = sum_over o l f + sum_over o l g.
Proof. induction l; cbn; [ring|]. rewrite IHl; ring. Qed.

Lemma sum_over_mul_l {A} (l : list A) k f : sum_over o l (fun a => k * f a) = k * sum_over o l f.
Proof. induction l; cbn; [ring|]. rewrite IHl; ring. Qed.

Lemma sum_over_mul_r {A} (l : list A) k f : sum_over o l (fun a => f a * k) = sum_over o l f * k.
Proof. induction l; cbn; [ring|]. rewrite IHl; ring. Qed.

Lemma sum_over_map {A B} (h : A -> B) l f : sum_over o (map h l) f = sum_over o l (fun a => f (h a)).
Proof. induction l; cbn; [reflexivity|]. rewrite IHl; reflexivity. Qed.

Lemma sum_over_concat {A} (ls : list (list A)) f :
  sum_over o (concat ls) f = sum_over o ls (fun l => sum_over o l f).
Proof. induction ls; cbn; [reflexivity|]. rewrite sum_over_app, IHls; reflexivity. Qed.

Lemma sum_over_flat_map {A B} (h : A -> list B) l f :
  sum_over o (flat_map h l) f = sum_over o l (fun a => sum_over o (h a) f).
Proof. induction l; cbn; [reflexivity|]. rewrite sum_over_app, IHl; reflexivity. Qed.

Lemma sum_over_perm {A} (l r : list A) f : Permutation l r -> sum_over o l f = sum_over o r f.
Proof. induction 1; cbn; try congruence; ring. Qed.

Lemma sum_over_filter {A} (p : A -> bool) l f :
  sum_over o (filter p l) f = sum_over o l (fun a => if p a then f a else 0).
Proof. induction l; cbn; [reflexivity|]. destruct (p a); cbn; rewrite IHl; ring. Qed.

Lemma sum_over_bigsum_swap {A} (l : list A) n f :
  sum_over o l (fun a => bigsum o n (f a)) = bigsum o n (fun i => sum_over o l (fun a => f a i)).
Proof.
  induction l; cbn; [symmetry; apply bigsum_0; reflexivity|].
  rewrite IHl, <- bigsum_add. reflexivity.
Qed.

Lemma sum_over_seq n a f : sum_over o (seq a n) f = bigsum o n (fun i => f (a + i)%nat).
Proof.
  revert a; induction n; intros a; [reflexivity|].
  rewrite bigsum_S_l. cbn [seq sum_over]. rewrite IHn, Nat.add_0_r. f_equal.
  apply bigsum_ext; intros i _. f_equal; lia.
Qed.

Lemma sum_over_nth {A} (l : list A) (d : A) f : sum_over o l f = bigsum o (length l) (fun i => f (nth i l d)).
Proof.
  induction l; [reflexivity|]. cbn [sum_over length]. rewrite bigsum_S_l, IHl. reflexivity.
Qed.

Lemma ksum_sum_over l : ksum o l = sum_over o l (fun x => x).
Proof. induction l; cbn; [reflexivity|]. unfold ksum in *. rewrite IHl; reflexivity. Qed.

Lemma ksum_map_seq g n : ksum o (map g (seq 0 n)) = bigsum o n g.
Proof. rewrite ksum_sum_over, sum_over_map, sum_over_seq. reflexivity. Qed.

Lemma addl_ksum x ts : addl o x ts = x + ksum o ts.
Proof.
  revert x; induction ts as [|t r IH]; intros x; cbn; [ring|].
  unfold addl in IH; cbn in IH. rewrite IH. unfold ksum; cbn. ring.
Qed.

Lemma if_mul_r (b : bool) x y : (if b then x else 0) * y = if b then x * y else 0.
Proof. destruct b; ring. Qed.

Lemma if_mul_l (b : bool) x y : y * (if b then x else 0) = if b then y * x else 0.
Proof. destruct b; ring. Qed.
End Sums.

Lemma z_ring : ring_laws z_ops.
Proof. unfold ring_laws, z_ops. constructor; cbn [k0 k1 kadd kmul kopp]; intros; ring. Qed.
