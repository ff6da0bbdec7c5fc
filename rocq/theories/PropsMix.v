(** C73: combining trees that live in different places, in memory or in different
    stores.  [tree_of]: InPlaceSpec.v. *)
From Verif Require Import MemExamples StoreExamples InPlaceExamples MixExamples Base Header Node Combine Iter Api Spec Client
  Store StoreSpec World MemStore MemStoreProofs InPlaceSpec MixTop.

(** C73: in-place operations whose second tree lives elsewhere (another store, or memory) turn the first one
    into what the two contents determine, or panic; the result is read through the store of the first tree alone. *)
Theorem C73_in_place_partial :
  forall dbg rdA rdB t u m mu, tree_of dbg rdA t m -> tree_of dbg rdB u mu ->
  (forall h, ok_or_panic (t_outer_combine_with dbg rdA rdB (detach_converter rdB) t u (combiner_with rdA rdB h))
     (fun x => holds rdA x (m_outer h m mu))) /\
  (forall h, ok_or_panic (t_inner_combine_with dbg rdA rdB t u (combiner_with rdA rdB h)) (fun x => holds rdA x (m_inner h m mu))) /\
  (forall h, ok_or_panic (t_left_combine_with dbg rdA rdB t u (combiner_with rdA rdB h)) (fun x => holds rdA x (m_left h m mu))) /\
  (forall s, ok_or_panic (t_remove_prefix_with dbg rdA rdB t u (selector rdB s)) (fun x => holds rdA x (m_remove_prefix_with s m mu))) /\
  (forall s, downward_rejected s mu ->
     ok_or_panic (t_retain_prefix_with dbg rdA rdB t u (selector rdB s)) (fun x => holds rdA x (m_retain_prefix_with s m mu))).
Proof. exact mixed_in_place. Qed.
Print Assumptions C73_in_place_partial.
Example C73_in_place_partial_example :
  tree_of true detached_read ex_t ex_m /\ tree_of true (mem_read io_s) io_t (meaning p_io) /\
  mix_run detached_read (t_outer_combine_with true detached_read (mem_read io_s) (detach_converter (mem_read io_s)) ex_t io_t
    (combiner_with detached_read (mem_read io_s) ex_h))
  = Ok [(B"a", B"1"); (B"ab", B"12"); (B"abc", B"2"); (B"abd", B"3"); (B"ac", B"3"); (B"b", B"4")] /\
  mix_run (mem_read io_s) (t_remove_prefix_with true (mem_read io_s) detached_read io_t ex_t (selector detached_read mix_sel))
  = Ok [(B"a", B"1"); (B"ac", B"3")].
Proof. split; [exact ex_tree_of|]. split; [apply io_tree|]. split; vm_compute; reflexivity. Qed.

(** C73: the operations that return a new tree in memory, and the predicates. *)
Theorem C73_new_partial :
  forall dbg rdA rdB t u m mu, tree_of dbg rdA t m -> tree_of dbg rdB u mu ->
  (forall h, ok_or_panic (t_outer_combine dbg rdA rdB t u (combiner rdA rdB h)) (fun x => holds detached_read x (m_outer h m mu))) /\
  (forall h, ok_or_panic (t_inner_combine dbg rdA rdB t u (combiner rdA rdB h)) (fun x => holds detached_read x (m_inner h m mu))) /\
  (forall h, ok_or_panic (t_left_combine dbg rdA rdB t u (combiner rdA rdB h)) (fun x => holds detached_read x (m_left h m mu))) /\
  (forall p, ok_or_panic (t_inner_combine_pred rdA rdB t u (predicate rdA rdB p)) (fun b =>
     b = true <-> exists k x y, m k = Some x /\ mu k = Some y /\ p x y = true)) /\
  (forall p, ok_or_panic (t_left_combine_pred rdA rdB t u (predicate rdA rdB p)) (fun b =>
     b = true <-> exists k x, m k = Some x /\ match mu k with Some y => p x y = true | None => True end)).
Proof. exact mixed_new. Qed.
Print Assumptions C73_new_partial.
Example C73_new_partial_example :
  tree_of true (mem_read io_s) io_t (meaning p_io) /\ tree_of true (mem_read mix_s) mix_u (meaning p_mix_u) /\
  tree_of true detached_read ex_t ex_m /\
  mix_run detached_read (t_inner_combine true (mem_read io_s) detached_read io_t ex_t (combiner (mem_read io_s) detached_read ex_h))
  = Ok [(B"ab", B"21"); (B"b", B"4")].
Proof. split; [apply io_tree|]. split; [apply mix_tree_u|]. split; [exact ex_tree_of|]. vm_compute; reflexivity. Qed.

(** C73: with a second tree in memory the in-place operations never fail and never panic; three of them
    in a release build or when the first tree is in memory too. *)
Theorem C73_second_in_memory :
  forall dbg rdA t u m mu, tree_of dbg rdA t m -> reachable dbg u -> holds detached_read u mu ->
  (forall h, exists x, t_outer_combine_with dbg rdA detached_read (detach_converter detached_read) t u (combiner_with rdA detached_read h) ⇓ Ok x /\
     holds rdA x (m_outer h m mu)) /\
  (forall h, exists x, t_inner_combine_with dbg rdA detached_read t u (combiner_with rdA detached_read h) ⇓ Ok x /\ holds rdA x (m_inner h m mu)) /\
  (dbg = false \/ rdA = detached_read ->
   (forall h, exists x, t_left_combine_with dbg rdA detached_read t u (combiner_with rdA detached_read h) ⇓ Ok x /\ holds rdA x (m_left h m mu)) /\
   (forall s, exists x, t_remove_prefix_with dbg rdA detached_read t u (selector detached_read s) ⇓ Ok x /\
      holds rdA x (m_remove_prefix_with s m mu)) /\
   (forall s, downward_rejected s mu -> exists x, t_retain_prefix_with dbg rdA detached_read t u (selector detached_read s) ⇓ Ok x /\
      holds rdA x (m_retain_prefix_with s m mu))).
Proof. exact mixed_total. Qed.
Print Assumptions C73_second_in_memory.
Example C73_second_in_memory_example :
  tree_of true (mem_read io_s) io_t (meaning p_io) /\ reachable true ex_t /\ holds detached_read ex_t ex_m /\
  mix_run (mem_read io_s) (t_outer_combine_with true (mem_read io_s) detached_read (detach_converter detached_read) io_t ex_t
    (combiner_with (mem_read io_s) detached_read ex_h))
  = Ok [(B"a", B"1"); (B"ab", B"21"); (B"abc", B"2"); (B"abd", B"3"); (B"ac", B"3"); (B"b", B"4")].
Proof. split; [apply io_tree|]. split; [exact ex_reachable|]. split; [exact ex_holds|]. vm_compute; reflexivity. Qed.

(** C73: with an attached second tree every one of the in-place operations can panic, in both builds, although
    the first tree is in memory. *)
Theorem C73_second_attached_refuted :
  forall dbg, exists s t m u mu,
  tree_of dbg detached_read t m /\ tree_of dbg (mem_read s) u mu /\
  (forall h, t_outer_combine_with dbg detached_read (mem_read s) (detach_converter (mem_read s)) t u
     (combiner_with detached_read (mem_read s) h) ⇓ Panic) /\
  (forall h, t_inner_combine_with dbg detached_read (mem_read s) t u (combiner_with detached_read (mem_read s) h) ⇓ Panic) /\
  (forall h, t_left_combine_with dbg detached_read (mem_read s) t u (combiner_with detached_read (mem_read s) h) ⇓ Panic) /\
  (forall f, t_remove_prefix_with dbg detached_read (mem_read s) t u (selector (mem_read s) f) ⇓ Panic) /\
  (forall f, t_retain_prefix_with dbg detached_read (mem_read s) t u (selector (mem_read s) f) ⇓ Panic).
Proof. exact mix_panics. Qed.
Print Assumptions C73_second_attached_refuted.
