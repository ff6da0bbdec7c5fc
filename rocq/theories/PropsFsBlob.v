(** Blobs and trees in a file of the browser file system (C65).

    [fs_run l new_fs = (rs, s)]: the events [l] (commands with the faults that happen
    during them, and restarts of the page) had the results [rs].  [fs_store d f] is the
    blob store made of the file [f] in the directory [d].  See WebFsSpec.v, WebFsBlob.v. *)
From Verif Require Import WebFsBlobExamples Base BaseLemmas Header Node Combine Iter Api Tree Rep Spec Client Top Store StoreSpec
  World U64 File Chunk WebFile WebSpec WebFs WebFsSpec WebFsBlob WebFsBlobProofs WebFsDurable.
Local Open Scope N_scope.

(** C65: in any history of the file system, with other files, faults and restarts: as long as nothing writes into, truncates or deletes the file, a blob that was appended with success is what loading at its position gives, whenever the file is open. *)
Theorem C65_blob_kept :
  forall d f b t l1 l2 rs s n, let l := l1 ++ Call (KAppend d f b) t :: l2 in
  ~ In quest f -> Forall event_ok l -> Forall (fun e => ~ rewrites d f e) l ->
  4 + N.of_nat (length b) < i32_lim ->
  fs_run l new_fs = (rs, s) -> nth (length l1) rs Err = Ok (RNum n) ->
  fst (fs_call (KFlush d f) [] s) = Ok RUnit ->
  fst (fs_call (KLoad d f n) [] s) = Ok (RBytes b).
Proof. exact fs_blob_kept. Qed.
Print Assumptions C65_blob_kept.
Example C65_blob_kept_example : let l := bl_hist1 ++ Call (KAppend (B "d") (B "blobs") (B "second")) [] :: bl_hist2 in
  ~ In quest (B "blobs") /\ Forall event_ok l /\ Forall (fun e => ~ rewrites (B "d") (B "blobs") e) l /\
  nth (length bl_hist1) (fst (fs_run l new_fs)) Err = Ok (RNum 9) /\
  fst (fs_call (KFlush (B "d") (B "blobs")) [] bl_fs) = Ok RUnit /\
  fst (fs_call (KLoad (B "d") (B "blobs") 9) [] bl_fs) = Ok (RBytes (B "second")).
Proof.
  split; [apply quest_free_ok; vm_compute; reflexivity|]. split; [exact bl_ok|]. split; [exact bl_kept|].
  split; [exact bl_result|]. split; [exact bl_flush|exact bl_load].
Qed.

(** C65: the file is a lawful blob store: a write fails or returns an id, never panics, and the blob can be read under this id after any further writes, with any calls on other files, faults and restarts between the writes. *)
Theorem C65_lawful : forall d f, lawful (fs_store d f) (fs_inv d f).
Proof. exact fs_lawful. Qed.
Print Assumptions C65_lawful.
Example C65_lawful_example : fs_inv (B "d") (B "blobs") (new_fs, ft_todo).
Proof. exact ft_inv. Qed.

(** C65: any history of trees on a file of the browser file system, whatever happens to the other files, whatever faults happen and however often the page restarts: the trees have their contents; and after any further such events every id that a successful reattach returned loads the contents the tree had then. *)
Theorem C65_durable :
  forall dbg d f s h, fs_inv d f s -> history_ok dbg h ->
  exists oks w, exec dbg (fs_store d f) (start (S:=fs_store d f) s) h ⇓ Ok (oks, w) /\ length oks = length h /\
    Forall2 (holds (st_read (fs_store d f) (w_st w))) (w_trees w) (m_trees (model no_maps h oks)) /\
    forall l rs s2, Forall (beside d f) l -> fs_run l (fst (w_st w)) = (rs, s2) ->
    Forall2 (fun id m => exists t, t_load (fs_store d f) (s2, []) (Some id) = Ok t /\
                                   holds (st_read (fs_store d f) (s2, [])) t m)
      (w_ids w) (m_saved (model no_maps h oks)).
Proof. exact fs_durable. Qed.
Print Assumptions C65_durable.
Example C65_durable_example : fs_inv (B "d") (B "blobs") ft_start /\ history_ok true wb_hist /\
  match ft_exec with Ok (oks, w) => oks = [true; true; false; true; false; true; true; true; true] /\
    length (w_ids w) = 2%nat /\ length (w_trees w) = 2%nat | _ => False end /\
  Forall (beside (B "d") (B "blobs")) ft_later.
Proof. split; [exact ft_inv|]. split; [exact wb_hist_ok|]. split; [exact ft_oks|exact ft_later_ok]. Qed.
