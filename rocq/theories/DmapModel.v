(** C108: acquisitions.py 227-245 (the operator of a distributed acquisition), packedtables/scenes.py 79-105 (distribution of the
    scene), on the processes of DcommModel.

    The response of the detector [d] at the sampling [s] to the pixel [p] is [resp d s p]: it is what the operator of the instrument
    is made of (instrument.get_operator, given by the class of the instrument).  Numbers are those of a ring.  Third parties: the block
    column operator applies the operator of each block of samplings and puts the results side by side, its transpose adds those of
    the blocks; the distribution operator gives its input, its transpose is a reduction (Allreduce) over the communicator, whose
    additions are made in any order: [tree].  Arrays are lists of rows, one for each detector. *)
From Verif Require Import Base SparseModel.
From Verif Require AcqModel.
Open Scope nat_scope.
Section Map.
Context {K : Type} (o : ops K) (resp : nat -> nat -> nat -> K) (npix : nat).
(** ** One process *)
Definition value (x : list K) (d s : nat) : K := ksum o (map (fun p => kmul o (resp d s p) (nth p x (k0 o))) (seq 0 npix)).
(** The operator, 233-244, for the blocks [bs] of the samplings. *)
Definition direct (dets samps : list nat) (bs : list (nat * nat)) (x : list K) : list (list K) :=
  map (fun d => concat (map (fun b => map (value x d) (AcqModel.in_block samps b)) bs)) dets.
Definition vec_add (u v : list K) : list K := map (fun p => kadd o (nth p u (k0 o)) (nth p v (k0 o))) (seq 0 npix).
Definition vec_0 : list K := repeat (k0 o) npix.
(** Transpose of the operator of a block. *)
Definition back_block (dets samps : list nat) (y : list (list K)) : list K :=
  map (fun p => ksum o (map (fun dr => ksum o (map (fun sv => kmul o (resp (fst dr) (fst sv) p) (snd sv)) (combine samps (snd dr)))) (combine dets y))) (seq 0 npix).
(** Transpose of the block column: each block takes its columns. *)
Fixpoint back_from (dets samps : list nat) (bs : list (nat * nat)) (y : list (list K)) : list K :=
  match bs with
  | [] => vec_0
  | b :: r => let part := AcqModel.in_block samps b in
              vec_add (back_block dets part (map (firstn (length part)) y)) (back_from dets samps r (map (skipn (length part)) y))
  end.
(** ** All the processes *)
Inductive tree := Leaf (q : nat) | Node (a b : tree).
Fixpoint leaves (t : tree) : list nat := match t with Leaf q => [q] | Node a b => leaves a ++ leaves b end.
Fixpoint reduce (f : nat -> list K) (t : tree) : list K := match t with Leaf q => f q | Node a b => vec_add (reduce f a) (reduce f b) end.
(** get_distribution_operator, scenes.py 79-105; [c]: the communicator of the scene. *)
Definition distribute (c : list nat) : res unit := if 1 <? length c then Err ValueError else Ok tt.
(** What the process obtains from its operator and its transpose; [held q]: detectors, samplings and blocks of the process q. *)
Definition apply (scene : list nat) (held : nat -> list nat * list nat * list (nat * nat)) (x : list K) (rank : nat) : res (list (list K)) :=
  do _ <- distribute scene;
  let '(dets, samps, bs) := held rank in Ok (direct dets samps bs x).
Definition apply_transpose (scene : list nat) (held : nat -> list nat * list nat * list (nat * nat)) (y : nat -> list (list K)) (t : tree) : res (list K) :=
  do _ <- distribute scene;
  Ok (reduce (fun q => let '(dets, samps, bs) := held q in back_from dets samps bs (y q)) t).
(** tests/test_acquisitions_mpi.py: np.hstack of the processes that share detectors, then np.vstack. *)
Definition hstack (l : list (list (list K))) : list (list K) :=
  match l with [] => [] | a :: _ => map (fun k => concat (map (fun m => nth k m []) l)) (seq 0 (length a)) end.
Definition assemble (ni ns : nat) (local : nat -> list (list K)) : list (list K) :=
  concat (map (fun i => hstack (map (fun j => local (j * ni + i)) (seq 0 ns))) (seq 0 ni)).
End Map.
