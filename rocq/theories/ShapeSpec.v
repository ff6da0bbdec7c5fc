(** The space a tree takes.  This file is part of the statements; [shape_of] (Client.v)
    is the tree of the nodes of a tree in memory. *)
From Verif Require Import Base Header Node Combine Iter Api Client Spec.

Definition edge (s : shape) : bytes := let (p, _, _) := s in p.

(** The number of nodes, the number of nodes on the longest way from the root,
    and the length of all edges together. *)
Fixpoint nodes (s : shape) : nat := match s with Shape _ _ cs => S (list_sum (map nodes cs)) end.
Fixpoint depth (s : shape) : nat := match s with Shape _ _ cs => S (list_max (map depth cs)) end.
Fixpoint edge_bytes (s : shape) : nat := match s with Shape p _ cs => length p + list_sum (map edge_bytes cs) end.

(** The length of the longest key. *)
Definition longest_key (l : list (bytes * bytes)) : nat := list_max (map (fun e => length (fst e)) l).
