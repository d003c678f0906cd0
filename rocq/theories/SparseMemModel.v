(** C18: the buffer of [SparseOperator.direct], sparse.py 833-838, also when an exception is raised.

    The content of the output after the call, and the exception; [None]: a compiled kernel accessed memory out of bounds.
    [_matvec] checks the sizes before it writes (SparseModel.matvec). *)
From Verif Require Import Base SparseModel.

Section M.
Context {K : Type} (o : ops K).

Definition direct_memory flib sched (M : matrix K) (input output : list K) (op : reduction) : option (list K * res unit) :=
  match op with
  | OtherOp => Some (output, Err ValueError)
  | _ =>
      let buffer := match op with Assign => repeat (k0 o) (length output) | _ => output end in
      match matvec o flib sched M input (Some buffer) with
      | Err e => Some (buffer, Err e)
      | Ok (Some r) => Some (r, Ok tt)
      | Ok None => None
      end
  end.

(** Calls with the same output, one after the other, whatever they raise; each one with its own interleaving. *)
Record call := Call { c_op : reduction; c_flib : bool; c_sched : list (list (act K)) -> list (nat * act K); c_input : list K }.
Fixpoint calls (M : matrix K) (l : list call) (output : list K) : option (list K * list (res unit)) :=
  match l with
  | [] => Some (output, [])
  | c :: r =>
      match direct_memory (c_flib c) (c_sched c) M (c_input c) output (c_op c) with
      | None => None
      | Some (output, e) => match calls M r output with None => None | Some (output, es) => Some (output, e :: es) end
      end
  end.
End M.
Arguments call K : clear implicits.
