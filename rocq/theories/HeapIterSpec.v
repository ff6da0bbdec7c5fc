(** What programs with iterators mean: an iterator is the list of what it has still
    to give.  This file is part of the statements. *)
From Verif Require Import Base Header Node Store Heap HeapSpec HeapIter.

(** The entries of a tree in memory in the order of its nodes; [pre] is the key on the
    way to the node.  [None]: parts are in a store. *)
Fixpoint listing (pre : bytes) (n : node) : option (list (bytes * blob)) :=
  match n with
  | Node (Id _) _ _ => None
  | Node (Data p) v k =>
      let own := match blob_opt v with Some b => [(pre ++ p, b)] | None => [] end in
      match k with
      | KId [] => Some own
      | KId _ => None
      | KArc ns =>
          match (fix all (ns : list node) : option (list (bytes * blob)) :=
                   match ns with
                   | [] => Some []
                   | n :: ns =>
                       match listing (pre ++ p) n, all ns with
                       | Some a, Some b => Some (a ++ b)
                       | _, _ => None
                       end
                   end) ns with
          | Some l => Some (own ++ l)
          | None => None
          end
      end
  end.

Record fxst : Type := FX {
  fx_env : fenv;
  fx_iters : list (option (list (bytes * blob)));
  fx_vals : list (option (list blob));
  fx_keys : list (option bytes) }.

(** As for [f_step]: [None] is a program that Rust does not accept, or that panics. *)
Definition fx_step (dbg : bool) (i : xinstr) (x : fxst) : option (fxst * nat) :=
  match i with
  | XOp i =>
      match f_step dbg i (fx_env x) with
      | Some (e, l) => Some (FX e (fx_iters x) (fx_vals x) (fx_keys x), l)
      | None => None
      end
  | XIter r pre =>
      match fvar r (fx_env x) with
      | FNode n =>
          match listing pre n with
          | Some l => Some (FX (fx_env x) (fx_iters x ++ [Some l]) (fx_vals x) (fx_keys x), 0)
          | None => None
          end
      | _ => None
      end
  | XNext j =>
      match nth j (fx_iters x) None with
      | Some ((k, v) :: l) =>
          Some (FX (fx_env x ++ [FValue v]) (upd j (Some l) (fx_iters x)) (fx_vals x) (fx_keys x ++ [Some k]), 0)
      | Some [] => Some (FX (fx_env x ++ [FGone]) (fx_iters x) (fx_vals x) (fx_keys x ++ [None]), 0)
      | None => None
      end
  | XDropIter j => Some (FX (fx_env x) (upd j None (fx_iters x)) (fx_vals x) (fx_keys x), 0)
  | XValues r =>
      match fvar r (fx_env x) with
      | FNode n =>
          match listing [] n with
          | Some l => Some (FX (fx_env x) (fx_iters x) (fx_vals x ++ [Some (map snd l)]) (fx_keys x), 0)
          | None => None
          end
      | _ => None
      end
  | XNextValue j =>
      match nth j (fx_vals x) None with
      | Some (v :: l) =>
          Some (FX (fx_env x ++ [FValue v]) (fx_iters x) (upd j (Some l) (fx_vals x)) (fx_keys x), 0)
      | Some [] => Some (FX (fx_env x ++ [FGone]) (fx_iters x) (fx_vals x) (fx_keys x), 0)
      | None => None
      end
  | XDropValues j => Some (FX (fx_env x) (fx_iters x) (upd j None (fx_vals x)) (fx_keys x), 0)
  | XDropKey k => Some (FX (fx_env x) (fx_iters x) (fx_vals x) (upd k None (fx_keys x)), 0)
  end.
Fixpoint fx_run (dbg : bool) (p : list xinstr) (x : fxst) : option (fxst * nat) :=
  match p with
  | [] => Some (x, 0)
  | i :: p =>
      match fx_step dbg i x with
      | Some (x', l) =>
          match fx_run dbg p x' with Some (x'', l') => Some (x'', l + l') | None => None end
      | None => None
      end
  end.
Definition fx_start : fxst := FX [] [] [] [].

(** A key given out, as [as_ref()] shows it. *)
Definition key_shows (h : heap) (k : option bytes) (a : option addr) : Prop :=
  match k, a with
  | Some k, Some a => exists e, arc_get a h = Done (e, h) /\ snd e = CBytes k
  | None, None => True
  | _, _ => False
  end.
(** In memory [h], the variables and keys are as in [f]. *)
Definition x_shows (h : heap) (f : fxst) (x : xst) : Prop :=
  Forall2 (slot_shows h) (fx_env f) (x_env x) /\ Forall2 (key_shows h) (fx_keys f) (x_keys x).

(** The end of all scopes. *)
Definition x_drop_all (f : fxst) : list xinstr :=
  map XOp (drop_all (length (fx_env f))) ++ map XDropIter (seq 0 (length (fx_iters f))) ++
  map XDropValues (seq 0 (length (fx_vals f))) ++ map XDropKey (seq 0 (length (fx_keys f))).
(** The instruction does not use iterator [j]. *)
Definition leaves_iter (j : nat) (i : xinstr) : Prop :=
  match i with XNext j' => j' <> j | XDropIter j' => j' <> j | _ => True end.
