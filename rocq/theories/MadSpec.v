(** The MADMAP1 format, written: independent of the reader. *)
From Coq Require Import String Ascii Sorted Permutation.
From Verif Require Import Base TemplateModel.
Open Scope Z_scope.

(** The [k] bytes of an integer, least significant first, or last if [big]. *)
Fixpoint bytes_le (k : nat) (n : Z) : list Z := match k with O => [] | S k => n mod 256 :: bytes_le k (n / 256) end.
Definition bytes (big : bool) (k : nat) (n : Z) : list Z := if big then rev (bytes_le k n) else bytes_le k n.

(** A filter: interval of samples, number of correlations, and one value more (64 bits each). *)
Definition filter_file (big : bool) (first last : Z) (values : list Z) : list Z :=
  bytes big 8 first ++ bytes big 8 last ++ bytes big 8 (zlen values - 1) ++ concat (map (bytes big 8) values).

(** A sample: the 64 bits of the signal, then the weight (32 bits) and the pixel of each entry. *)
Record sample := Sample { signal : Z; entries : list (Z * Z) }.
Definition sample_bytes (big : bool) (s : sample) : list Z :=
  bytes big 8 (signal s) ++ concat (map (fun e => bytes big 4 (fst e) ++ bytes big 4 (snd e)) (entries s)).
(** blocks, detectors, samples *)
Definition tod_file (big : bool) (first last npps npixels : Z) (blocks : list (list (list sample))) : list Z :=
  bytes big 8 first ++ bytes big 8 last ++ bytes big 8 npps ++ bytes big 8 npixels ++
  concat (map (fun b => concat (map (fun d => concat (map (sample_bytes big) d)) b)) blocks).

Definition int64 (n : Z) : Prop := - 2 ^ 63 <= n < 2 ^ 63.
Definition int32 (n : Z) : Prop := - 2 ^ 31 <= n < 2 ^ 31.
Definition bits64 (n : Z) : Prop := 0 <= n < 2 ^ 64.
Definition bits32 (n : Z) : Prop := 0 <= n < 2 ^ 32.
Definition sample_ok (npps : nat) (s : sample) : Prop :=
  bits64 (signal s) /\ length (entries s) = npps /\ Forall (fun e => bits32 (fst e) /\ int32 (snd e)) (entries s).
(** Block of [n] samples by detector. *)
Definition block_ok (ndetectors npps n : nat) (b : list (list sample)) : Prop :=
  length b = ndetectors /\ Forall (fun d => length d = n /\ Forall (sample_ok npps) d) b.

(** The samples of a detector along the blocks. *)
Definition detector {A} (blocks : list (list (list A))) (d : nat) : list A := concat (map (fun b => nth d b []) blocks).

(** The files name.0, name.1, ... *)
Definition numbered (name : text) (n : text) : Prop :=
  exists digits, n = name ++ "."%char :: digits /\ digits <> [] /\ Forall (fun c => (48 <= nat_of_ascii c <= 57)%nat) digits.
Definition decimal (digits : text) : Z := fold_left (fun a c => 10 * a + Z.of_nat (nat_of_ascii c) - 48) digits 0.
