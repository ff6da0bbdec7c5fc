(** C96: the in-place joins do at once what loops of single calls do.  [alike] (MergeSpec.v): the two
    trees cannot be told apart by lookups, iteration, or what is written when they are saved.
    The loops: Bulk.v. *)
From Verif Require Import MemExamples StoreExamples InPlaceExamples MixExamples Base Header Node Combine Iter Api Spec Client Store StoreSpec MemStore InPlaceSpec MergeSpec Bulk BulkProofs BulkMix BulkStored.

(** C96: [outer_combine_with] is a loop over the second tree that inserts or combines. *)
Theorem C96_outer :
  forall dbg h t u m mu, reachable dbg t -> reachable dbg u -> holds mem t m -> holds mem u mu ->
  exists x y, t_outer_combine_with dbg mem mem (detach_converter mem) t u (combiner_with mem mem h) ⇓ Ok x /\
    by_one_outer dbg h t u ⇓ Ok y /\ alike x y.
Proof. exact outer_by_one. Qed.
Print Assumptions C96_outer.
Example C96_outer_example : reachable true ex_t /\ holds mem ex_t ex_m /\ reachable true ex_u /\ holds mem ex_u ex_mu /\
  ex_run (by_one_outer true ex_h ex_t ex_u) = Ok [(B"ab", B"1"); (B"abc", B"25"); (B"abd", B"3"); (B"c", B"9")] /\
  ex_run (by_one_outer true (fun _ y => Some y) ex_t ex_u) =
    ex_run (t_outer_combine_with true mem mem (detach_converter mem) ex_t ex_u (combiner_with mem mem (fun _ y => Some y))).
Proof. split; [exact ex_reachable|]; split; [exact ex_holds|]; split; [exact ex_reachable_u|]; split; [exact ex_holds_u|]; vm_compute; split; reflexivity. Qed.

(** C96: [left_combine_with] is a loop over the second tree that combines and skips what is missing. *)
Theorem C96_left :
  forall dbg h t u m mu, reachable dbg t -> reachable dbg u -> holds mem t m -> holds mem u mu ->
  exists x y, t_left_combine_with dbg mem mem t u (combiner_with mem mem h) ⇓ Ok x /\
    by_one_left dbg h t u ⇓ Ok y /\ alike x y.
Proof. exact left_by_one. Qed.
Print Assumptions C96_left.
Example C96_left_example : reachable true ex_t /\ holds mem ex_t ex_m /\ reachable true ex_u /\ holds mem ex_u ex_mu /\
  ex_run (by_one_left true ex_h ex_t ex_u) = Ok [(B"ab", B"1"); (B"abc", B"25"); (B"abd", B"3")].
Proof. split; [exact ex_reachable|]; split; [exact ex_holds|]; split; [exact ex_reachable_u|]; split; [exact ex_holds_u|]; vm_compute; reflexivity. Qed.

(** C96: [inner_combine_with] is a loop over the first tree that combines, and removes what the second lacks. *)
Theorem C96_inner :
  forall dbg h t u m mu, reachable dbg t -> reachable dbg u -> holds mem t m -> holds mem u mu ->
  exists x y, t_inner_combine_with dbg mem mem t u (combiner_with mem mem h) ⇓ Ok x /\
    by_one_inner dbg h t u ⇓ Ok y /\ alike x y.
Proof. exact inner_by_one. Qed.
Print Assumptions C96_inner.
Example C96_inner_example : reachable true ex_t /\ holds mem ex_t ex_m /\ reachable true ex_u /\ holds mem ex_u ex_mu /\
  ex_run (by_one_inner true ex_h ex_t ex_u) = Ok [(B"abc", B"25")].
Proof. split; [exact ex_reachable|]; split; [exact ex_holds|]; split; [exact ex_reachable_u|]; split; [exact ex_holds_u|]; vm_compute; reflexivity. Qed.

(** C96: also if the first tree is in a store: the union with a tree in memory in one call, and inserting
    the entries of that tree one by one, both succeed and answer every lookup alike, with the value of the
    second tree where it has one. *)
Theorem C96_union :
  forall dbg rdA t u m mu, tree_of dbg rdA t m -> reachable dbg u -> holds mem u mu ->
  exists l x y, iter_bytes mem u ⇓ Ok l /\
    t_outer_combine_with dbg rdA mem (detach_converter mem) t u (combiner_with rdA mem (fun _ v => Some v)) ⇓ Ok x /\
    t_from_pairs dbg rdA t l ⇓ Ok y /\
    (forall k, exists v, get_bytes rdA x k ⇓ Ok v /\ get_bytes rdA y k ⇓ Ok v) /\
    holds rdA x (fun k => match mu k with Some v => Some v | None => m k end).
Proof. exact union_by_one. Qed.
Print Assumptions C96_union.
Example C96_union_example :
  tree_of true (mem_read io_s) io_t (meaning p_io) /\ reachable true ex_t /\ holds mem ex_t ex_m /\
  mix_run (mem_read io_s) (t_outer_combine_with true (mem_read io_s) mem (detach_converter mem) io_t ex_t
    (combiner_with (mem_read io_s) mem (fun _ v => Some v)))
  = Ok [(B"a", B"1"); (B"ab", B"1"); (B"abc", B"2"); (B"abd", B"3"); (B"ac", B"3"); (B"b", [])].
Proof. split; [apply io_tree|]. split; [exact ex_reachable|]. split; [exact ex_holds|]. vm_compute; reflexivity. Qed.

(** C96: so do the union that combines the values of common keys, and the loop that looks up each key and inserts the combined value,
    for every closure that does not delete. *)
Theorem C96_outer_stored :
  forall dbg rdA f t u m mu, tree_of dbg rdA t m -> reachable dbg u -> holds mem u mu ->
  exists l x y, iter_bytes mem u ⇓ Ok l /\
    t_outer_combine_with dbg rdA mem (detach_converter mem) t u (combiner_with rdA mem (fun a b => Some (f a b))) ⇓ Ok x /\
    loop_merge dbg rdA f true t l ⇓ Ok y /\
    (forall k, exists v, get_bytes rdA x k ⇓ Ok v /\ get_bytes rdA y k ⇓ Ok v).
Proof. exact outer_stored. Qed.
Print Assumptions C96_outer_stored.
Example C96_outer_stored_example :
  tree_of true (mem_read io_s) io_t (meaning p_io) /\ reachable true ex_u /\ holds mem ex_u ex_mu /\
  mix_run (mem_read io_s) (fun n => l <- iter_bytes mem ex_u n ;; loop_merge true (mem_read io_s) (fun x y => x ++ y) true io_t l n)
  = Ok [(B"a", B"1"); (B"ab", B"2"); (B"abc", B"5"); (B"ac", B"3"); (B"b", B"48"); (B"c", B"9")].
Proof. split; [apply io_tree|]. split; [exact ex_reachable_u|]. split; [exact ex_holds_u|]. vm_compute; reflexivity. Qed.

(** C96: the same for [left_combine_with] in release builds. *)
Theorem C96_left_stored :
  forall dbg rdA f t u m mu, tree_of dbg rdA t m -> reachable dbg u -> holds mem u mu -> dbg = false ->
  exists l x y, iter_bytes mem u ⇓ Ok l /\
    t_left_combine_with dbg rdA mem t u (combiner_with rdA mem (fun a b => Some (f a b))) ⇓ Ok x /\
    loop_merge dbg rdA f false t l ⇓ Ok y /\
    (forall k, exists v, get_bytes rdA x k ⇓ Ok v /\ get_bytes rdA y k ⇓ Ok v).
Proof. exact left_stored. Qed.
Print Assumptions C96_left_stored.
Example C96_left_stored_example :
  tree_of false (mem_read io_s) io_t (meaning p_io) /\ reachable false ex_u /\ holds mem ex_u ex_mu /\
  mix_run (mem_read io_s) (fun n => l <- iter_bytes mem ex_u n ;; loop_merge false (mem_read io_s) (fun x y => x ++ y) false io_t l n)
  = Ok [(B"a", B"1"); (B"ab", B"2"); (B"ac", B"3"); (B"b", B"48")].
Proof. split; [apply io_tree|]. split; [apply (TopOps.reachable_eval false ex_q 50); [exact I|vm_compute; reflexivity]|]. split; [exact ex_holds_u|]. vm_compute; reflexivity. Qed.
