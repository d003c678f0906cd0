(** quantities.py: SI and conversions (1028-1123, 1208-1252), with the objects that derived
    units are: [_get_du] writes the derived units of its input in the quantity found in the
    table, whether it is one of the table of the module or one of the user's (1240).

    Simplifications: scalars, without header; functions given as derived units are not
    modelled; the results are values (UnitModel.quantity), new objects not being in any
    table. *)
From Coq Require Import List Arith Bool QArith Qcanon.
From Verif Require Import Base TemplateModel UnitModel.
Import ListNotations.
Local Open Scope nat_scope.

Section Du.
Context {K : Type} (o : mag_ops K).

(** An object: its magnitude and unit, and the number of its table of derived units.  Tables
    hold objects; the table 0 is that of the module, [units]. *)
Record dobj := DObj { d_q : @quantity K; d_tab : nat }.
Definition otable := list (du_key * option nat).
Record heap := Heap { h_objs : list dobj; h_tabs : list otable }.
Definition table (h : heap) (t : nat) : otable := nth t (h_tabs h) [].

Fixpoint o_find (t : otable) (k : du_key) : option (option nat) :=
  match t with [] => None | (k', v) :: r => if du_key_eqb k' k then Some v else o_find r k end.
Fixpoint set_tab (l : list dobj) (i t : nat) : list dobj :=
  match l, i with [], _ => [] | d :: r, O => DObj (d_q d) t :: r | d :: r, S i => d :: set_tab r i t end.

(** _get_du, 1227-1241: [t] is [input._derived_units]. *)
Definition get_du (h : heap) (t : nat) (v : option nat) : heap * option (@quantity K) :=
  match v with
  | None => (h, None)
  | Some i =>
      match nth_error (h_objs h) i with
      | None => (h, None)                                               (* not reached *)
      | Some d => (Heap (set_tab (h_objs h) i t) (h_tabs h), Some (d_q d))
      end
  end.
(** _check_du, 1208-1224, before the final [.SI] *)
Definition check_du (h : heap) (t : nat) (k : text) (v : Qc) (tab : otable) : heap * option (@quantity K) :=
  match tab with
  | [] => (h, None)
  | _ =>
      match o_find tab (k, Some v) with
      | Some r => get_du h t r
      | None =>
          match o_find tab (k, Some (- v)%Qc) with
          | Some r => let '(h, q) := get_du h t r in (h, option_map (q_inv o) q)
          | None =>
              match o_find tab (k, None) with
              | None => (h, None)
              | Some r =>
                  let '(h, q) := get_du h t r in
                  (h, match q with
                      | None => None
                      | Some q => Some (if Qc_eqb v 1%Qc then q else if Qc_eqb v (- (1))%Qc then q_inv o q else q_pow o q v)
                      end)
              end
          end
      end
  end.
(** SI, 1082-1123, of a quantity whose derived units are the table [t]. *)
Fixpoint si (fuel : nat) (h : heap) (t : nat) (q : @quantity K) : res (heap * @quantity K) :=
  match fuel with
  | O => Err RuntimeError
  | S n =>
      match snd q with
      | [] => Ok (h, q)
      | _ =>
          do f <- fold_left (fun acc kv =>
              do ha <- acc;
              let '(h, a) := ha in
              let '(h, d) := check_du h t (fst kv) (snd kv) (table h t) in
              match d with
              | Some d => do r <- si n h t d; Ok (fst r, q_mul o a (snd r))
              | None =>
                  let '(h, d) := check_du h t (fst kv) (snd kv) (table h 0) in
                  match d with
                  | Some d => do r <- si n h t d; Ok (fst r, q_mul o a (snd r))
                  | None => Ok (h, (fst a, mul1 (snd a) (fst kv) (snd kv)))
                  end
              end) (snd q) (Ok (h, (m1 o, [])));
          Ok (fst f, (mmul o (fst q) (fst (snd f)), snd (snd f)))
      end
  end.
Definition si_of (fuel : nat) (h : heap) (i : nat) : res (heap * @quantity K) :=
  match nth_error (h_objs h) i with
  | Some d => si fuel h (d_tab d) (d_q d)
  | None => Err RuntimeError (* not reached *)
  end.
(** inunit, 1028-1080: the derived units are copied for each of the two quantities (1064-1065,
    476); the result is given beside the state. *)
Definition copy_table (h : heap) (t : nat) : heap * nat := (Heap (h_objs h) (h_tabs h ++ [table h t]), length (h_tabs h)).
Definition convert (fuel : nat) (h : heap) (i : nat) (new : unit_) : res (heap * @quantity K) :=
  match nth_error (h_objs h) i with
  | None => Err RuntimeError (* not reached *)
  | Some d =>
      match snd (d_q d), new with
      | [], _ | _, [] => Ok (h, (fst (d_q d), new))
      | _, _ =>
          let '(h, t1) := copy_table h (d_tab d) in
          do r1 <- si fuel h t1 (m1 o, snd (d_q d));
          let '(h, t2) := copy_table (fst r1) (d_tab d) in
          do r2 <- si fuel h t2 (m1 o, new);
          if dict_eqb (snd (snd r1)) (snd (snd r2))
          then Ok (fst r2, (mmul o (mmul o (fst (snd r1)) (minv o (fst (snd r2)))) (fst (d_q d)), new))
          else Err UnitError
      end
  end.
End Du.
