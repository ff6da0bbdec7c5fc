(** C67: what failed in-place operations leave behind.  Definitions: InPlaceSpec.v. *)
From Verif Require Import MemExamples StoreExamples InPlaceExamples Base Header Node Combine Iter Api Spec Client Store StoreSpec World
  MemStore MemStoreProofs FailSpec InPlace InPlaceSpec InPlaceTop.

(** C67: the operations with their intermediate states succeed, fail and panic exactly like
    those of the other theorems, with the same resulting tree. *)
Theorem C67_agree :
  forall keep dbg rdA rdB t u,
  (forall k v, agrees (insert_in keep dbg rdA t k v) (t_insert dbg rdA t k v)) /\
  (forall k, agrees (remove_in keep dbg rdA t k) (t_remove dbg rdA t k)) /\
  (forall p, agrees (remove_prefix_in1 keep dbg rdA t p) (t_remove_prefix dbg rdA t p)) /\
  (forall f c, c = downcast_converter \/ c = identity_converter rdB \/ c = detach_converter rdB ->
     agrees (outer_with_in keep dbg rdA rdB c t u f) (t_outer_combine_with dbg rdA rdB c t u f)) /\
  (forall f, agrees (inner_with_in keep dbg rdA rdB t u f) (t_inner_combine_with dbg rdA rdB t u f)) /\
  (forall f, agrees (left_with_in keep dbg rdA rdB t u f) (t_left_combine_with dbg rdA rdB t u f)) /\
  (forall f, agrees (remove_prefix_with_in keep dbg rdA rdB t u f) (t_remove_prefix_with dbg rdA rdB t u f)) /\
  (forall f, agrees (retain_prefix_with_in keep dbg rdA rdB t u f) (t_retain_prefix_with dbg rdA rdB t u f)).
Proof. exact agree_all. Qed.
Print Assumptions C67_agree.
Example C67_agree_example :
  leaves (insert_in true true io_rd io_t (B "a") (B "9")) (io_after true) Err /\
  t_insert true io_rd io_t (B "a") (B "9") ⇓ Err.
Proof. split; [exact (io_fails true)|]. apply (proj1 (C67_agree true true io_rd io_rd io_t io_t)). exists (io_after true). exact (io_fails true). Qed.

(** C67: an insertion that fails because the store cannot be read.  The tree can still be read;
    every key has its old or its new value, unless the vector builder drops what it has not processed. *)
Theorem C67_insert_partial :
  forall keep dbg S inv s t m rd' k v t', lawful S inv -> attached dbg S inv s t m -> flaky rd' (st_read S s) ->
  leaves (insert_in keep dbg rd' t k v) t' Err ->
  exists now, readable (st_read S s) t' now /\ partway (fun _ => keep = false) m (m_insert m k v) now.
Proof. exact insert_failed_all. Qed.
Print Assumptions C67_insert_partial.
Example C67_insert_partial_example :
  lawful mem_store mem_inv /\ attached true mem_store mem_inv io_s io_t (meaning p_io) /\ flaky io_rd (mem_read io_s) /\
  leaves (insert_in true true io_rd io_t (B "a") (B "9")) (io_after true) Err /\
  iter_bytes (mem_read io_s) (io_after true) 60 = Ok [(B "a", B "9"); (B "ab", B "2"); (B "ac", B "3"); (B "b", B "4")].
Proof.
  split; [exact mem_lawful|]. split; [apply io_attached|]. split; [exact io_flaky|]. split; [exact (io_fails true)|].
  vm_compute; reflexivity.
Qed.

(** C67: with a vector builder that keeps what it has not processed, a failed insertion leaves the old
    or the new contents, any later insertion works, and repeating it gives what it should have given. *)
Theorem C67_insert_retry_partial :
  forall dbg S inv s t m rd' k v t', lawful S inv -> attached dbg S inv s t m -> flaky rd' (st_read S s) ->
  leaves (insert_in true dbg rd' t k v) t' Err ->
  exists now, (same now m \/ same now (m_insert m k v)) /\ readable (st_read S s) t' now /\
    (forall k2 v2, exists t2, t_insert dbg (st_read S s) t' k2 v2 ⇓ Ok t2 /\ holds (st_read S s) t2 (m_insert now k2 v2)) /\
    (exists t2, t_insert dbg (st_read S s) t' k v ⇓ Ok t2 /\ holds (st_read S s) t2 (m_insert m k v)).
Proof. exact insert_kept_all. Qed.
Print Assumptions C67_insert_retry_partial.
Example C67_insert_retry_partial_example :
  attached true mem_store mem_inv io_s io_t (meaning p_io) /\ flaky io_rd (mem_read io_s) /\
  leaves (insert_in true true io_rd io_t (B "a") (B "9")) (io_after true) Err.
Proof. split; [apply io_attached|]. split; [exact io_flaky|exact (io_fails true)]. Qed.

(** C67: removals that fail. *)
Theorem C67_remove_partial :
  forall keep dbg rd rd' t m t', tree_of dbg rd t m -> flaky rd' rd ->
  (forall k, leaves (remove_in keep dbg rd' t k) t' Err ->
     exists now, readable rd t' now /\ partway (fun _ => keep = false) m (m_remove m k) now) /\
  (forall p, leaves (remove_prefix_in1 keep dbg rd' t p) t' Err ->
     exists now, readable rd t' now /\ partway (fun _ => keep = false) m (m_remove_prefix m p) now).
Proof. exact remove_failed_all. Qed.
Print Assumptions C67_remove_partial.
Example C67_remove_partial_example :
  tree_of true (mem_read io_s) io_t (meaning p_io) /\ flaky io_rd (mem_read io_s) /\
  exists t', leaves (remove_in true true io_rd io_t (B "ab")) t' Err.
Proof.
  split; [apply io_tree|]. split; [exact io_flaky|]. apply (proj1 (proj2 (C67_agree true true io_rd io_rd io_t io_t))).
  exact io_remove_fails.
Qed.

(** C67: combines in place that fail because one of the stores cannot be read, or because the closure
    returns an error.  Every key has its old or its new value, except: if the closure fails for the two
    values of a key that key can be lost, and if the vector builder drops what it has not processed any
    key can be lost. *)
Theorem C67_combine_partial :
  forall keep dbg rdA rdB rdA' rdB' t u m mu f' h t',
  flaky rdA' rdA -> flaky rdB' rdB -> tree_of dbg rdA t m -> tree_of dbg rdB u mu ->
  flaky2 f' (combiner_with rdA rdB h) ->
  (forall c, c = detach_converter rdB' \/ (c = downcast_converter /\ rdB = detached_read) \/
     (c = identity_converter rdB' /\ rdB = rdA) ->
   leaves (outer_with_in keep dbg rdA' rdB' c t u f') t' Err ->
     exists now, readable rdA t' now /\
       partway (fun k => keep = false \/ hit rdA rdB f' m mu k) m (m_outer h m mu) now) /\
  (leaves (inner_with_in keep dbg rdA' rdB' t u f') t' Err ->
     exists now, readable rdA t' now /\
       partway (fun k => keep = false \/ hit rdA rdB f' m mu k) m (m_inner h m mu) now) /\
  (leaves (left_with_in keep dbg rdA' rdB' t u f') t' Err ->
     exists now, readable rdA t' now /\
       partway (fun k => keep = false \/ hit rdA rdB f' m mu k) m (m_left h m mu) now).
Proof. exact combine_failed_all. Qed.
Print Assumptions C67_combine_partial.
Example C67_combine_partial_example :
  tree_of true detached_read m1_t (meaning p_io) /\ tree_of true detached_read m2_t (meaning p_m2) /\
  flaky2 fussy (combiner_with detached_read detached_read (fun x y => Some (x ++ y))) /\
  leaves (outer_with_in true true detached_read detached_read downcast_converter m1_t m2_t fussy) (fussy_after true) Err /\
  iter_bytes detached_read (fussy_after true) 60 = Ok [(B "a", B "1x"); (B "ac", B "3"); (B "b", B "4")].
Proof.
  split; [exact m1_tree|]. split; [exact m2_tree|]. split; [exact fussy_flaky|]. split; [exact (fussy_fails true)|].
  vm_compute; reflexivity.
Qed.

(** C67: removing or retaining all keys below those of another tree that are selected by a closure. *)
Theorem C67_prefix_partial :
  forall keep dbg rdA rdB rdA' rdB' t u m mu f' s t',
  flaky rdA' rdA -> flaky rdB' rdB -> tree_of dbg rdA t m -> tree_of dbg rdB u mu -> flaky1 f' (selector rdB s) ->
  (leaves (remove_prefix_with_in keep dbg rdA' rdB' t u f') t' Err ->
     exists now, readable rdA t' now /\ partway (fun _ => keep = false) m (m_remove_prefix_with s m mu) now) /\
  (downward_rejected s mu -> leaves (retain_prefix_with_in keep dbg rdA' rdB' t u f') t' Err ->
     exists now, readable rdA t' now /\ partway (fun _ => keep = false) m (m_retain_prefix_with s m mu) now).
Proof. exact prefix_failed_all. Qed.
Print Assumptions C67_prefix_partial.
Example C67_prefix_partial_example :
  tree_of true detached_read m1_t (meaning p_io) /\ tree_of true detached_read m3_t (meaning p_m3) /\
  flaky1 picky (selector detached_read (fun _ => true)) /\
  exists t', leaves (remove_prefix_with_in true true detached_read detached_read m1_t m3_t picky) t' Err /\
  iter_bytes detached_read t' 60 = Ok [(B "a", B "1"); (B "ac", B "3"); (B "b", B "4")].
Proof. exact picky_example. Qed.

(** C67: a failed operation need not leave the tree as it was. *)
Theorem C67_atomic_refuted :
  exists s t m rd' k v t', attached true mem_store mem_inv s t m /\ flaky rd' (mem_read s) /\
  leaves (insert_in true true rd' t k v) t' Err /\ m k <> Some v /\ get_bytes (mem_read s) t' k ⇓ Ok (Some v).
Proof. exact insert_not_atomic. Qed.
Print Assumptions C67_atomic_refuted.

(** C67: if the vector builder drops what it has not processed, a failed insertion loses other keys. *)
Theorem C67_insert_loss_refuted :
  exists s t m rd' k v t' k', attached true mem_store mem_inv s t m /\ flaky rd' (mem_read s) /\
  leaves (insert_in false true rd' t k v) t' Err /\ k' <> k /\ m k' <> None /\ get_bytes (mem_read s) t' k' ⇓ Ok None.
Proof. exact insert_loses. Qed.
Print Assumptions C67_insert_loss_refuted.

(** C67: if the closure fails, the key it was called for is lost, whatever the builder does. *)
Theorem C67_combine_loss_refuted :
  exists t u m mu h f' t' k, tree_of true detached_read t m /\ tree_of true detached_read u mu /\
  flaky2 f' (combiner_with detached_read detached_read h) /\
  leaves (outer_with_in true true detached_read detached_read downcast_converter t u f') t' Err /\
  m k <> None /\ m_outer h m mu k <> None /\ get_bytes detached_read t' k ⇓ Ok None.
Proof. exact combine_loses. Qed.
Print Assumptions C67_combine_loss_refuted.
