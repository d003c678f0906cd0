(** C62: special numbers. *)
From Coq Require Import Reals Lra ZArith.
From Verif Require Import ConstModel.
Open Scope R_scope.
(** Those that are right. *)
Theorem C62_constants_partial : NAN_4 = NaN /\ PINF_8 = Inf false.
Proof. split; reflexivity. Qed.
Print Assumptions C62_constants_partial.
Lemma positive m e : (0 < m)%Z -> 0 < IZR m * powerRZ 2 e.
Proof. intros H. apply Rmult_lt_0_compat; [now apply IZR_lt | apply powerRZ_lt; lra]. Qed.
(** The others are finite; NAN_8, MINF_8 and the three constants of module_math_old are
    positive numbers. *)
Theorem C62_module_math_refuted : (exists x, NAN_8 = Fin x /\ 0 < x) /\ (exists x, MINF_8 = Fin x /\ 0 < x) /\ (exists x, MINF_4 = Fin x /\ x < 0) /\ (exists x, PINF_4 = Fin x /\ 0 < x).
Proof.
  split; [|split; [|split]].
  - exists (IZR (2 ^ 52 + 0xF800000000000) * powerRZ 2 (255 - 1023 - 52)). split; [reflexivity | now apply positive].
  - exists (IZR (2 ^ 52 + 0xF000000000000) * powerRZ 2 (255 - 1023 - 52)). split; [reflexivity | now apply positive].
  - exists (- (IZR (2 ^ 23 + 0x700000) * powerRZ 2 (254 - 127 - 23))). split; [reflexivity|]. pose proof (positive (2 ^ 23 + 0x700000) (254 - 127 - 23) eq_refl). lra.
  - exists (IZR (2 ^ 23 + 0x700000) * powerRZ 2 (254 - 127 - 23)). split; [reflexivity | now apply positive].
Qed.
Print Assumptions C62_module_math_refuted.
Theorem C62_module_math_old_refuted : (exists x, old_NaN = Fin x /\ 0 < x) /\ (exists x, old_mInf = Fin x /\ 0 < x) /\ (exists x, old_pInf = Fin x /\ 0 < x < powerRZ 2 (-1042)).
Proof.
  split; [|split].
  - exists (IZR 0xFFFFFFFF * powerRZ 2 (1 - 1023 - 52)). split; [reflexivity | now apply positive].
  - exists (IZR 0xFFFF0000 * powerRZ 2 (1 - 1023 - 52)). split; [reflexivity | now apply positive].
  - exists (IZR 0x7FFF0000 * powerRZ 2 (1 - 1023 - 52)). split; [reflexivity|]. split; [now apply positive|].
    change (-1042)%Z with (32 + (1 - 1023 - 52))%Z. rewrite powerRZ_add by lra. apply Rmult_lt_compat_r; [apply powerRZ_lt; lra|].
    change 32%Z with (Z.of_nat 32). rewrite <- pow_powerRZ. rewrite pow_IZR. apply IZR_lt. reflexivity.
Qed.
Print Assumptions C62_module_math_old_refuted.
Example C62_example : bits64 0x3FF0000000000000 = Fin (IZR (2 ^ 52) * powerRZ 2 (-52)) /\ bits64 0xFFF8000000000000 = NaN /\ bits64 0xFFF0000000000000 = Inf true /\ bits32 0xFF800000 = Inf true /\ bits32 0x7F800000 = Inf false.
Proof. repeat split. Qed.
