(** C99: a tree filled in a store and flushed now and then, as examples/large_tree.rs does.

    [fill_all dbg S l n s] runs the steps [l] on an empty tree and flushes it at the
    end (Fill.v); [puts l] are the entries inserted, in order; [m_of_list] (Spec.v) is
    the map with the last value of each key.  An error ends the run. *)
From Verif Require Import MemExamples StoreExamples FillExamples Base Header Node Combine Iter Api Spec Client Store StoreSpec World
  MemStore MemStoreProofs Fill FillProofs.

(** C99: the tree holds and lists the inserted entries, and so does the tree loaded from the last id.  The run ends with an error only when the store refuses a write. *)
Theorem C99_fill :
  forall dbg S inv s l, lawful S inv -> inv s ->
  (exists t id s', (exists N, forall n, N <= n -> fill_all dbg S l n s = (Ok (t, Some id), s')) /\ inv s' /\
     holds (st_read S s') t (m_of_list (puts l)) /\
     (exists es, iter_bytes (st_read S s') t ⇓ Ok es /\ lists es (m_of_list (puts l))) /\
     exists u, t_load S s' (Some id) = Ok u /\ holds (st_read S s') u (m_of_list (puts l))) \/
  ((exists N, forall n, N <= n -> exists s', fill_all dbg S l n s = (Err, s')) /\ may_refuse S inv).
Proof. exact fill_holds. Qed.
Print Assumptions C99_fill.
Example C99_fill_example : lawful mem_store mem_inv /\ mem_inv ex_s /\ filled often = Ok listing /\ reloaded often = Ok listing.
Proof. split; [exact mem_lawful|]; split; [exact ex_inv|]; vm_compute; auto. Qed.

(** C99: when the tree is flushed, and to which store, makes no difference to what it holds. *)
Theorem C99_flush_times :
  forall dbg S1 S2 inv1 inv2 s1 s2 l1 l2 t1 t2 id1 id2 s1' s2', lawful S1 inv1 -> lawful S2 inv2 -> inv1 s1 -> inv2 s2 ->
  puts l1 = puts l2 ->
  (exists N, forall n, N <= n -> fill_all dbg S1 l1 n s1 = (Ok (t1, id1), s1')) ->
  (exists N, forall n, N <= n -> fill_all dbg S2 l2 n s2 = (Ok (t2, id2), s2')) ->
  forall k, exists r, get_bytes (st_read S1 s1') t1 k ⇓ Ok r /\ get_bytes (st_read S2 s2') t2 k ⇓ Ok r.
Proof. exact fill_same. Qed.
Print Assumptions C99_flush_times.
Example C99_flush_times_example : lawful mem_store mem_inv /\ mem_inv ex_s /\ puts often = puts once /\
  (exists N, forall n, N <= n ->
    fill_all true mem_store often n ex_s = (Ok (fst (fst often_end), Some (snd (fst often_end))), snd often_end)) /\
  (exists N, forall n, N <= n ->
    fill_all true mem_store once n ex_s = (Ok (fst (fst once_end), Some (snd (fst once_end))), snd once_end)) /\
  snd often_end <> snd once_end /\ filled often = Ok listing /\ filled once = Ok listing.
Proof.
  split; [exact mem_lawful|]; split; [exact ex_inv|]; split; [reflexivity|]; split; [exact often_ends|]; split; [exact once_ends|].
  vm_compute. split; [discriminate|]. auto.
Qed.
