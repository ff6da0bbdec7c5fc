(** C08: which keys [scan_prefix] yields.  [fork]: RetainSpec.v, [last_edge]: ScanSpec.v, [tree_of]: InPlaceSpec.v. *)
From Verif Require Import MemExamples StoreExamples InPlaceExamples MixExamples Base Header Node Combine Iter Api Spec Client
  Store StoreSpec World MemStore MemStoreProofs InPlaceSpec RetainSpec ScanSpec ScanExact.

(** C08, partly: scan_prefix(p) yields the entries below p in order.  Its keys are right unless the keys of the tree fork
    at p; then the last edge before p is repeated after p in each of them.
    Missing: right keys in that case, see the refutation. *)
Theorem C08_exact_partial :
  forall dbg rd t m p, tree_of dbg rd t m ->
  exists l l' e, scan_bytes rd t p ⇓ Ok l' /\
    lists_where (fun k => starts_with p k = true) l m /\
    Forall2 (fun a b => snd a = snd b /\ exists z, fst a = p ++ z /\ fst b = p ++ e ++ z) l l' /\
    (fork m p /\ last_edge m p e \/ ~ fork m p /\ e = []).
Proof. exact any_scan_exact. Qed.
Print Assumptions C08_exact_partial.
Example C08_exact_example :
  tree_of true detached_read ex_t ex_m /\ fork ex_m (B"abc") /\ last_edge ex_m (B"abc") (B"c") /\
  scan_bytes mem ex_t (B"abc") 60 = Ok [(B"abcc", B"2")] /\
  tree_of true (mem_read io_s) io_t (meaning p_io) /\
  scan_bytes (mem_read io_s) io_t (B"ab") 60 = Ok [(B"abb", B"2")].
Proof.
  split; [exact ex_tree_of|]. split; [left; discriminate|]. split.
  - exists (B"ab"). split; [reflexivity|]. split; [right; left; discriminate|]. split; [discriminate|].
    intros [|a [|b q]] z E Hq Hz; [congruence| |destruct q; discriminate]. cbn in E. injection E as _ E. congruence.
  - split; [vm_compute; reflexivity|]. split; [apply io_tree|]. vm_compute; reflexivity.
Qed.
