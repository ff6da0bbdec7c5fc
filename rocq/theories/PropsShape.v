(** C78: what is saved depends only on the contents.  C79: the space a tree takes.  [nodes], [depth], [edge_bytes],
    [longest_key]: ShapeSpec.v, [key_bytes]: CostSpec.v, [shape_of]: Client.v. *)
From Verif Require Import MemExamples Base Header Node Combine Iter Api Spec Client Store MemStore CostSpec ShapeSpec ShapeProofs.

(** C78: two trees in memory with the same contents, made by any programs, in whatever builds, are saved in exactly the same
    way: from any state of any store, attached and reattach write the same blobs, return the same id and tree (or fail in
    the same way), and leave the store in the same state. *)
Theorem C78_saved_form :
  forall (S : store) dbg dbg' t u m, reachable dbg t -> reachable dbg' u -> holds detached_read t m -> holds detached_read u m ->
  forall s, t_attached S t s = t_attached S u s /\ t_reattach S t s = t_reattach S u s.
Proof. exact save_contents. Qed.
Print Assumptions C78_saved_form.
Example C78_saved_form_example :
  reachable true (n_single (B"a") (B"1")) /\ reachable true twice_t /\ n_single (B"a") (B"1") <> twice_t /\
  holds mem (n_single (B"a") (B"1")) (m_insert m_empty (B"a") (B"1")) /\ holds mem twice_t (m_insert m_empty (B"a") (B"1")) /\
  exists id t' s', t_reattach mem_store twice_t [] = (Ok (id, t'), s') /\ s' <> [].
Proof.
  split; [apply reach_single|]. split; [exact reach_twice|]. split; [discriminate|]. split; [apply holds_single|]. split; [exact holds_twice|].
  do 3 eexists. split; [vm_compute; reflexivity|discriminate].
Qed.

(** C79: a tree in memory with n keys, however it was made, has at most 2n - 1 nodes (one if it is empty), its edges
    together are no longer than its keys, and no way from the root passes more nodes than the longest key has bytes after
    the root's edge, plus one. *)
Theorem C79_space :
  forall dbg t m l, reachable dbg t -> holds detached_read t m -> lists l m ->
  nodes (shape_of t) <= Nat.max 1 (2 * length l - 1) /\ edge_bytes (shape_of t) <= key_bytes l /\
  depth (shape_of t) <= S (longest_key l - length (edge (shape_of t))).
Proof. exact mem_space. Qed.
Print Assumptions C79_space.
Example C79_space_example : reachable true ex_t /\ holds mem ex_t ex_m /\ exists l, iter_bytes mem ex_t 60 = Ok l /\
  (length l, nodes (shape_of ex_t), key_bytes l, edge_bytes (shape_of ex_t), longest_key l, depth (shape_of ex_t)) = (4, 5, 9, 5, 3, 3).
Proof. split; [exact ex_reachable|]. split; [exact ex_holds|]. eexists. split; vm_compute; reflexivity. Qed.
