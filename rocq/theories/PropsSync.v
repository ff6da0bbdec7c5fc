(** The properties of paging files in the files of the browser file system, and of trees
    on them (C90).

    [unused_file d f s]: in the state [s] of the file system the file [f] in the
    directory [d] was never changed, or was deleted and not changed since; other threads
    go on using the file system, but do not change this file or delete its directory.
    Their calls, restarts and all faults are part of [s], see SyncDev.v.
    For [prun], [notes] and [all_right] see PagingSpec.v and PropsPaging.v. *)
From Verif Require Import SyncExamples Base BaseLemmas Header Node Combine Iter Api Spec Client Store StoreSpec World
  U64 File Chunk WebFile WebFs WebFsSpec Paging PagingSpec PagingStore SyncDev SyncTop.
Local Open Scope N_scope.

(** C90: any calls of a paging file in an unused file, with any faults, calls of other threads and restarts between them: ids returned since the last opening load their bytes, and nothing panics. *)
Theorem C90_session :
  forall d f ps, page_size_ok ps ->
  forall s cs rs s', unused_file d f s -> Forall (size_ok ps) cs ->
  prun (sync_dev d f) ps cs (s, None) = (rs, s') -> all_right false (Ledger [] []) cs rs.
Proof. exact sync_session. Qed.
Print Assumptions C90_session.
Example C90_session_example : page_size_ok 64 /\ unused_file sy_d sy_f (sy_state sy_others) /\ Forall (size_ok 64) sy_pairs /\
  prun (sync_dev sy_d sy_f) 64 sy_pairs (sy_state sy_others, None) = (sy_shown, sy_end) /\
  sy_shown =
  [Ok ODone; Ok (OId 4); Err; Ok (OId 20); Ok ODone; Ok (OId 68); Ok (OData (B "first")); Ok (OData (long 30 x01)); Ok ODone;
   Ok (OData (long 30 x02))].
Proof.
  split; [split; reflexivity|]. split; [exact sy_unused_others|]. split; [exact sy_pairs_ok|]. split; [exact sy_run|]. exact sy_results.
Qed.

(** C90: without syncs, then with one sync, then with only reads and reopenings, the synced blobs stay through faults, calls of others and restarts; they load when the file system works and the file has less than 2^31 bytes. *)
Theorem C90_once :
  forall d f ps, page_size_ok ps ->
  forall s cs cs2 rs s', unused_file d f s ->
  Forall (size_ok ps) cs -> Forall no_sync cs -> Forall only_reads cs2 ->
  prun (sync_dev d f) ps (cs ++ PSync :: cs2) (s, None) = (rs, s') ->
  all_right true (Ledger [] []) (cs ++ PSync :: cs2) rs /\
  (sync_works d f (fst s') -> snd s' <> None -> forall id b,
    In (id, b) (saved (notes (cs ++ PSync :: cs2) rs (Ledger [] []))) ->
    fst (pstep (sync_dev d f) ps (PLoad id) s') = Ok (OData b)).
Proof. exact sync_once. Qed.
Print Assumptions C90_once.
Example C90_once_example : page_size_ok 64 /\ unused_file sy_d sy_f (sy_state (firstn 4 sy_others)) /\
  (Forall (size_ok 64) once_hist /\ Forall no_sync once_hist /\ Forall only_reads once_later) /\
  prun (sync_dev sy_d sy_f) 64 (once_hist ++ PSync :: once_later) (sy_state (firstn 4 sy_others), None) = (sy_once_results, sy_once) /\
  sy_once_results = [Ok ODone; Ok (OId 4); Ok (OId 20); Ok (OId 68); Ok (OData (B "first")); Ok ODone;
                     Ok ODone; Ok (OData (long 30 x02)); Ok (OData (B "first")); Ok (OData (long 30 x01))] /\
  sync_works sy_d sy_f (fst sy_once) /\ snd sy_once <> None.
Proof.
  split; [split; reflexivity|]. split; [exact sy_once_unused|]. split; [exact once_ok|]. split; [exact sy_once_run|].
  split; [exact sy_once_shown|]. exact sy_once_works.
Qed.

(** C90: an open paging file in such a file keeps the contract of a blob store, so the theorems C25-C34 hold for trees on it. *)
Theorem C90_lawful :
  forall d f ps any, page_size_ok ps -> ~ In quest f ->
  lawful (paging_store (sync_dev d f) ps) (paging_inv (sync_dev d f) (unused_file d f) any ps).
Proof. exact sync_lawful. Qed.
Print Assumptions C90_lawful.
Example C90_lawful_example : page_size_ok 512 /\ ~ In quest sy_f /\
  paging_inv (sync_dev sy_d sy_f) (unused_file sy_d sy_f) true 512 st_start.
Proof. split; [split; reflexivity|]. split; [apply quest_free_ok; vm_compute; reflexivity|]. apply st_inv. Qed.

(** C90: any history of trees on such a file, then one sync, then only reads and reopenings, whatever fails and whatever other threads do: the trees have their contents; and if the sync succeeded and the file system works, every id that a successful reattach returned loads the contents the tree had then. *)
Theorem C90_durable :
  forall d f ps dbg s h, page_size_ok ps -> ~ In quest f ->
  paging_inv (sync_dev d f) (unused_file d f) false ps s -> history_ok dbg h ->
  let S := paging_store (sync_dev d f) ps in
  exists oks w, exec dbg S (World.start (S:=S) s) h ⇓ Ok (oks, w) /\ length oks = length h /\
    Forall2 (holds (st_read S (w_st w))) (w_trees w) (m_trees (model no_maps h oks)) /\
    forall cs rs s2, Forall only_reads cs ->
    prun (sync_dev d f) ps (PSync :: cs) (fst (w_st w)) = (Ok ODone :: rs, s2) ->
    sync_works d f (fst s2) -> snd s2 <> None ->
    Forall2 (fun id m => exists t, t_load S (s2, []) (Some id) = Ok t /\ holds (st_read S (s2, [])) t m)
      (w_ids w) (m_saved (model no_maps h oks)).
Proof. exact sync_durable. Qed.
Print Assumptions C90_durable.
Example C90_durable_example : paging_inv (sync_dev sy_d sy_f) (unused_file sy_d sy_f) false 512 st_start /\ history_ok true wb_hist /\
  match st_exec with Ok (oks, w) => oks = [true; true; true; true; true; true; true; true; true] /\
    length (w_ids w) = 4%nat /\ length (w_trees w) = 2%nat | _ => False end /\
  fst (prun (sync_dev sy_d sy_f) 512 [PSync; POpen] (fst (w_st st_world))) = [Ok ODone; Ok ODone] /\
  sync_works sy_d sy_f (fst st_end) /\ snd st_end <> None.
Proof. split; [apply st_inv|]. split; [exact wb_hist_ok|]. split; [exact st_oks|]. exact st_sync. Qed.
