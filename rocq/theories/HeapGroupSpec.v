(** What programs that group mean: an iterator over groups is the list of the trees it
    has still to give.  This file is part of the statements. *)
From Verif Require Import Base Header Node Store Heap HeapSpec HeapIter HeapIterSpec HeapGroup.

(** The value of a node, if it has one.  [None]: it is in a store. *)
Definition shown (v : blob) : option (option bytes) :=
  match blob_opt v with
  | None => Some None
  | Some (Data b) => Some (Some b)
  | Some (Id _) => None
  end.
(** The groups of a tree in the order of its nodes; [pre] is the key on the way to the
    node.  Where [d] says to stop, the group is all that is there; elsewhere it is the
    entry of the node, if it has one, and then come the groups of its children. *)
Fixpoint grouping (d : bytes -> option bytes -> bool) (pre : bytes) (n : node) : option (list node) :=
  match n with
  | Node (Id _) _ _ => None
  | Node (Data p) v k =>
      match shown v with
      | None => None
      | Some x =>
          if d (pre ++ p) x then
            let own := match x with Some _ => [Node (Data (pre ++ p)) v (KId [])] | None => [] end in
            match k with
            | KId [] => Some own
            | KId _ => None
            | KArc ns =>
                match (fix all (ns : list node) : option (list node) :=
                         match ns with
                         | [] => Some []
                         | n :: ns =>
                             match grouping d (pre ++ p) n, all ns with
                             | Some a, Some b => Some (a ++ b)
                             | _, _ => None
                             end
                         end) ns with
                | Some l => Some (own ++ l)
                | None => None
                end
            end
          else Some [Node (Data (pre ++ p)) v k]
      end
  end.

Record fgst : Type := FG { fg_x : fxst; fg_groups : list (option (list node)) }.
Definition fg_give (v : fslot) (x : fxst) : fxst := FX (fx_env x ++ [v]) (fx_iters x) (fx_vals x) (fx_keys x).

(** As for [f_step]: [None] is a program that Rust does not accept, or that panics. *)
Definition fg_step (dbg : bool) (i : ginstr) (s : fgst) : option (fgst * nat) :=
  match i with
  | GDo i =>
      match fx_step dbg i (fg_x s) with
      | Some (x, l) => Some (FG x (fg_groups s), l)
      | None => None
      end
  | GGroup r d =>
      match fvar r (fx_env (fg_x s)) with
      | FNode n =>
          match grouping d [] n with
          | Some l => Some (FG (fg_x s) (fg_groups s ++ [Some l]), 0)
          | None => None
          end
      | _ => None
      end
  | GNext j =>
      match nth j (fg_groups s) None with
      | Some (n :: l) => Some (FG (fg_give (FNode n) (fg_x s)) (upd j (Some l) (fg_groups s)), 0)
      | Some [] => Some (FG (fg_give FGone (fg_x s)) (fg_groups s), 0)
      | None => None
      end
  | GDrop j => Some (FG (fg_x s) (upd j None (fg_groups s)), 0)
  end.
Fixpoint fg_run (dbg : bool) (p : list ginstr) (s : fgst) : option (fgst * nat) :=
  match p with
  | [] => Some (s, 0)
  | i :: p =>
      match fg_step dbg i s with
      | Some (s', l) =>
          match fg_run dbg p s' with Some (s'', l') => Some (s'', l + l') | None => None end
      | None => None
      end
  end.
Definition fg_start : fgst := FG fx_start [].

(** The end of all scopes. *)
Definition g_drop_all (f : fgst) : list ginstr :=
  map GDo (x_drop_all (fg_x f)) ++ map GDrop (seq 0 (length (fg_groups f))).
(** The instruction does not use the iterator over groups [j]. *)
Definition leaves_groups (j : nat) (i : ginstr) : Prop :=
  match i with GNext j' => j' <> j | GDrop j' => j' <> j | _ => True end.
