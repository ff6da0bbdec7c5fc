(** The loop of examples/large_tree.rs:89-103, which fills a tree in a store and flushes it now and then. *)
From Verif Require Import Base Header Node Combine Iter Api Spec Client Store StoreSpec.

(** What the loop does: [try_insert] (examples/large_tree.rs:97), or [try_reattach] (99, 103). *)
Inductive step : Type :=
| Put (k v : bytes)
| Flush.
(** The entries that are inserted (specification; the keys and values of examples/large_tree.rs:95-96). *)
Fixpoint puts (l : list step) : list (bytes * bytes) :=
  match l with
  | [] => []
  | Put k v :: l => (k, v) :: puts l
  | Flush :: l => puts l
  end.

(** The loop, examples/large_tree.rs:94-103, for any entries, and flushing at any time.  As with [?], the first error ends it.
    The result: the tree and the last id. *)
Fixpoint fill (dbg : bool) (S : store) (l : list step) (t : node) (last : option bytes) (fuel : nat) (s : st S)
  : res (node * option bytes) * st S :=
  match l with
  | [] => (Ok (t, last), s)
  | Put k v :: l =>
      match t_insert dbg (st_read S s) t k v fuel with
      | Ok t' => fill dbg S l t' last fuel s
      | Err => (Err, s)
      | Panic => (Panic, s)
      | Fuel => (Fuel, s)
      end
  | Flush :: l =>
      match t_reattach S t s with
      | (Ok (id, t'), s') => fill dbg S l t' (Some id) fuel s'
      | (Err, s') => (Err, s')
      | (Panic, s') => (Panic, s')
      | (Fuel, s') => (Fuel, s')
      end
  end.

(** From [RadixTree::empty] (examples/large_tree.rs:93) to the last [try_reattach] (103). *)
Definition fill_all (dbg : bool) (S : store) (l : list step) (fuel : nat) (s : st S) : res (node * option bytes) * st S :=
  fill dbg S (l ++ [Flush]) n_empty None fuel s.
