(** C20: what [retain_prefix_with] keeps, for any selector.  [retained]: RetainSpec.v. *)
From Verif Require Import MemExamples StoreExamples InPlaceExamples MixExamples Base Header Node Combine Iter Api Spec Client
  Store StoreSpec World MemStore MemStoreProofs InPlaceSpec RetainSpec RetainTop.

(** C20, partly: retain_prefix_with keeps exactly the keys below those selected prefixes that no rejected prefix hides.
    A rejected prefix hides the selected ones below it unless the keys of the first tree fork there.
    Missing: the property asks for all keys below selected prefixes; see the refutation. *)
Theorem C20_any_selector_partial :
  forall dbg t u m mu s, reachable dbg t -> reachable dbg u -> holds mem t m -> holds mem u mu ->
  exists t' m', t_retain_prefix_with dbg mem mem t u (selector mem s) ⇓ Ok t' /\ holds mem t' m' /\ retained s m mu m'.
Proof. exact mem_retain_any. Qed.
Print Assumptions C20_any_selector_partial.

(** "ab" is kept although "a" is rejected, because "ac" makes the keys fork after "a"; "bcd" is hidden by "b". *)
Example C20_any_selector_example :
  let p := PCollect [(B"ab", B"1"); (B"ac", B"2"); (B"bcd", B"3")] in
  let q := PCollect [(B"a", B"no"); (B"ab", B"yes"); (B"b", B"no"); (B"bcd", B"yes")] in
  let s := fun v => beq v (B"yes") in
  allowed p /\ allowed q /\ ~ downward_rejected s (meaning q) /\
  ex_run (fun n => t <- Client.run true p n ;; u <- Client.run true q n ;;
    t_retain_prefix_with true mem mem t u (selector mem s) n) = Ok [(B"ab", B"1")].
Proof.
  cbv zeta. split; [exact Logic.I|]. split; [exact Logic.I|]. split; [|vm_compute; reflexivity].
  intros D. specialize (D (B"a") (B"b") (B"no") (B"yes") eq_refl eq_refl eq_refl). discriminate.
Qed.

(** C20, partly: the same for trees in different places, in memory or in stores; there it can also panic. *)
Theorem C20_any_place_partial :
  forall dbg rdA rdB t u m mu s, tree_of dbg rdA t m -> tree_of dbg rdB u mu ->
  ok_or_panic (t_retain_prefix_with dbg rdA rdB t u (selector rdB s))
    (fun x => exists m', holds rdA x m' /\ retained s m mu m').
Proof. exact mixed_retain_any. Qed.
Print Assumptions C20_any_place_partial.
Example C20_any_place_example :
  tree_of true (mem_read io_s) io_t (meaning p_io) /\ tree_of true detached_read ex_t ex_m /\
  mix_run (mem_read io_s) (t_retain_prefix_with true (mem_read io_s) detached_read io_t ex_t (selector detached_read mix_sel))
  = Ok [(B"ab", B"2"); (B"b", B"4")].
Proof. split; [apply io_tree|]. split; [exact ex_tree_of|]. vm_compute; reflexivity. Qed.
