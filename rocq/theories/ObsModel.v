(** C97: acquisitions.py 189-225 (pack, unpack, get_observation) and 266-284 (get_noise), instruments.py 257-300 for the checks
    of the noise and its addition.

    The acquisition model gives the value [signal d s] for the detector d and the sampling s, the noise that is drawn is [noise
    d s] (None: the class has no noise model, instruments.py 284-285: get_noise of an acquisition gives it no parameter).
    Tables of values are lists of rows, one for each detector.  Third parties: an operator called with an operation and without
    output raises ValueError, as does an output of another shape. *)
From Verif Require Import Base SparseModel PTModel AcqModel.
Open Scope nat_scope.

Inductive operation := Assign | Iadd | Isub | Imul.
Section Obs.
Context {K D S : Type} (o : ops K).
Definition apply_op (op : operation) (a b : K) : K :=
  match op with Assign => b | Iadd => kadd o a b | Isub => kadd o a (kopp o b) | Imul => kmul o a b end.
Fixpoint zip_with (f : K -> K -> K) (a b : list K) : list K :=
  match a, b with x :: a, y :: b => f x y :: zip_with f a b | _, _ => [] end.
Context (signal : D -> S -> K) (noise : option (D -> S -> K)).
Definition signal_row (samps : list S) (bs : list (nat * nat)) (d : D) : list K := concat (map (fun b => map (signal d) (in_block samps b)) bs).
(** operation(out[:, b], noise), instruments.py 296-299: the shape of the noise is that of the block; one column is broadcast. *)
Definition noise_block (f : D -> S -> K) (op : operation) (samps : list S) (d : D) (row : list K) (b : nat * nat) : res (list K) :=
  let view := firstn (snd b - fst b) (skipn (fst b) row) in
  let n := map (f d) (in_block samps b) in
  do n <- (if Nat.eqb (length n) (length view) then Ok n
           else match n with [x] => Ok (repeat x (length view)) | _ => Err ValueError end);
  Ok (firstn (fst b) row ++ zip_with (apply_op op) view n ++ skipn (fst b + length view) row).
Definition noise_row (f : D -> S -> K) (op : operation) (samps : list S) (bs : list (nat * nat)) (d : D) (row : list K) : res (list K) :=
  fold_left (fun r b => do row <- r; noise_block f op samps d row b) bs (Ok row).
(** get_noise of a buffer, 279-284 *)
Definition get_noise (dets : list D) (samps : list S) (bs : list (nat * nat)) (out : list (list K)) (op : operation) : res (list (list K)) :=
  match noise with
  | None => match bs with [] => Ok out | _ => Err ValueError end
  | Some f => map_res (fun dr => noise_row f op samps bs (fst dr) (snd dr)) (combine dets out)
  end.
(** get_observation, 201-225 *)
Definition get_observation (dets : list D) (samps : list S) (bs : list (nat * nat)) (noiseless : bool) (out : option (list (list K))) (op : operation) : res (list (list K)) :=
  let hx := map (signal_row samps bs) dets in
  do out <- match out, op with
            | None, Assign => Ok hx
            | None, _ => Err ValueError
            | Some out, _ =>
                if Nat.eqb (length out) (length hx) && forallb (fun p => Nat.eqb (length (fst p)) (length (snd p))) (combine out hx)
                then Ok (map (fun p => zip_with (apply_op op) (fst p) (snd p)) (combine out hx)) else Err ValueError
            end;
  if noiseless then Ok out else get_noise dets samps bs out Iadd.
End Obs.
(** pack and unpack of an acquisition, 189-197: the other arguments are not given to those of the layout; [default]: the missing
    value that the layout takes. *)
Definition acq_pack {A} (t : table A) (xshape : list Z) (x : list A) (out : option (list A)) (copy : bool) : res (list A) := pack_view t xshape x.
Definition acq_unpack {A} (default : A) (t : table A) (x : list A) (missing : option A) (garbage : list A) : res (list A) := unpack t x default garbage.
