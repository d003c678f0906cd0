(** The dense matrix denoted by a pointing matrix. *)
From Verif Require Import Base SparseModel SparseSpec.
Open Scope nat_scope.

Section S.
Context {K : Type} (o : ops K).

(** (i, v) is stored in the sample: nothing before it has the index -1. *)
Fixpoint entries (row : list (Z * K)) : list (Z * K) :=
  match row with [] => [] | e :: r => if (fst e =? -1)%Z then [] else e :: entries r end.
(** Coefficient of the pixel in the sample. *)
Definition coef (row : list (Z * K)) (pixel : nat) : K :=
  sum_over o (entries row) (fun e => if (fst e =? Z.of_nat pixel)%Z then snd e else k0 o).
(** All indices are -1 or pixels of a map of n pixels. *)
Definition valid (n : nat) (m : list (list (Z * K))) : Prop :=
  forall row, In row m -> forall e, In e row -> (-1 <= fst e < Z.of_nat n)%Z.
(** Sample i of the projection of [x]. *)
Definition projected (m : list (list (Z * K))) (x : list K) (i : nat) : K :=
  bigsum o (length x) (fun j => kmul o (coef (nth i m []) j) (at_ o x j)).
(** Pixel j of the back projection of [t]. *)
Definition back (m : list (list (Z * K))) (t : nat -> K) (j : nat) : K :=
  bigsum o (length m) (fun i => kmul o (coef (nth i m []) j) (t i)).
Definition inner (x y : list K) : K := bigsum o (length x) (fun i => kmul o (at_ o x i) (at_ o y i)).
(** Masked pixels (true) removed, or set to zero. *)
Definition packed {A} (x : list A) (mask : list bool) : list A := map fst (filter (fun xb => negb (snd xb)) (combine x mask)).
Definition zeroed (x : list K) (mask : list bool) : list K := map (fun xb => if snd xb : bool then k0 o else fst xb) (combine x mask).
End S.

(** The pixels of a map, row after row. *)
Definition map_pixels (nx ny : nat) : list (nat * nat) := flat_map (fun iy => map (fun ix => (ix, iy)) (seq 0 nx)) (seq 0 ny).
(** Those of a region (bounds included) with an intersection that is not zero, with the
    absolute value of the intersection. *)
Definition intersected {K} (iszero : K -> bool) (abs : K -> K) (xmin xmax ymin ymax : Z) (area : Z -> Z -> K) (nx ny : nat) : list (Z * K) :=
  map (fun p => (Z.of_nat (fst p + snd p * nx), abs (area (Z.of_nat (fst p)) (Z.of_nat (snd p)))))
      (filter (fun p => ((xmin <=? Z.of_nat (fst p)) && (Z.of_nat (fst p) <=? xmax) && (ymin <=? Z.of_nat (snd p)) && (Z.of_nat (snd p) <=? ymax))%Z
                        && negb (iszero (area (Z.of_nat (fst p)) (Z.of_nat (snd p)))))
              (map_pixels nx ny)).
