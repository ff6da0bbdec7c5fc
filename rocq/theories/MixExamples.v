(** Concrete trees that live in different places. *)
From Verif Require Import MemExamples StoreExamples InPlaceExamples Base BaseLemmas Header Node Combine Iter Api Rep Sim Spec Client Top TopOps MemLemmas
  Store StoreSpec World MemStore MemStoreProofs StoreLemmas PanicExamples InPlaceSpec.

Lemma ex_tree_of : tree_of true detached_read ex_t ex_m.
Proof. exact (in_memory true ex_t ex_m ex_reachable ex_holds). Qed.
Definition mix_sel (y : bytes) : bool := negb (beq y (B"9")).
Definition mix_run (rd : reader) (f : nat -> res node) : res (list (bytes * bytes)) := t <- f 60 ;; iter_bytes rd t 60.

(** An edge of the attached tree {"abc", "d"} ends below the key "a" of the tree in memory. *)
Definition p_mix_t : prog := PCollect [(B"", B"2"); (B"a", B"1"); (B"e", B"3")].
Definition mix_t : node := Eval vm_compute in match run true p_mix_t 60 with Ok t => t | _ => n_empty end.
Definition p_mix_u : prog := PCollect [(B"abc", B"1"); (B"d", B"2")].
Definition mix_s : mem_st := Eval vm_compute in ex_state true [CAttach p_mix_u].
Definition mix_u : node := Eval vm_compute in ex_tree true [CAttach p_mix_u] 0.
Lemma mix_tree_t dbg : tree_of dbg detached_read mix_t (meaning p_mix_t).
Proof.
  apply in_memory; [apply (reachable_eval dbg p_mix_t 60)|apply (holds_eval dbg p_mix_t 60)]; try exact Logic.I;
    destruct dbg; vm_compute; reflexivity.
Qed.
Lemma p_mix_short : short_keys (meaning p_mix_u).
Proof.
  intros k H. apply collect_keys in H. cbn in H. unfold short. destruct H as [<-|[<-|[]]]; cbn; lia.
Qed.
Lemma mix_tree_u dbg : tree_of dbg (mem_read mix_s) mix_u (meaning p_mix_u).
Proof.
  apply (in_store dbg mem_store mem_inv mix_s mix_u (meaning p_mix_u) mem_lawful).
  pose proof (ex_attach1 (short_history dbg) dbg p_mix_u (short_attach dbg p_mix_u Logic.I p_mix_short)) as H.
  destruct dbg; apply H; vm_compute; reflexivity.
Qed.

Lemma mix_panics dbg : exists s t m u mu,
  tree_of dbg detached_read t m /\ tree_of dbg (mem_read s) u mu /\
  (forall h, t_outer_combine_with dbg detached_read (mem_read s) (detach_converter (mem_read s)) t u
     (combiner_with detached_read (mem_read s) h) ⇓ Panic) /\
  (forall h, t_inner_combine_with dbg detached_read (mem_read s) t u (combiner_with detached_read (mem_read s) h) ⇓ Panic) /\
  (forall h, t_left_combine_with dbg detached_read (mem_read s) t u (combiner_with detached_read (mem_read s) h) ⇓ Panic) /\
  (forall f, t_remove_prefix_with dbg detached_read (mem_read s) t u (selector (mem_read s) f) ⇓ Panic) /\
  (forall f, t_retain_prefix_with dbg detached_read (mem_read s) t u (selector (mem_read s) f) ⇓ Panic).
Proof.
  exists mix_s, mix_t, (meaning p_mix_t), mix_u, (meaning p_mix_u).
  split; [apply mix_tree_t|]. split; [apply mix_tree_u|].
  split; [|split; [|split; [|split]]]; intros h; (apply (conv_mono_panic _ 60); [|destruct dbg; vm_compute; reflexivity]).
  - intros a b L. apply outer_combine_with_sim; auto using rsim_refl, sim_refl.
    + intros. apply r_detached_sim; auto using rsim_refl.
    + intros. apply detach_conv_sim; auto using rsim_refl.
  - intros a b L. apply inner_combine_with_sim; auto using rsim_refl, sim_refl.
  - intros a b L. apply left_combine_with_sim; auto using rsim_refl, sim_refl.
  - apply mono_remove_prefix_with.
  - apply mono_retain_prefix_with.
Qed.
