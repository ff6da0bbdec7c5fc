(** The properties of paging files and of trees on them (C49, C60).

    [prun D ps cs (s, None) = (rs, s')]: the calls [cs] were made on a paging file with
    pages of [ps] bytes over a file in the state [s] and had the results [rs].  The
    ledger [notes cs rs (Ledger [] [])] lists the blobs appended since the file was
    last opened and those that were synced.  [all_right durable]: nothing panicked,
    each fresh blob could be loaded, and with [durable] loading a synced one gave the
    same bytes or an error.  See PagingSpec.v, also for what is assumed of the file
    below ([file_dev]). *)
From Verif Require Import PagingExamples Base BaseLemmas Header Node Combine Iter Api Spec Client Store StoreSpec World
  U64 File Chunk WebFile WebSpec Paging PagingSpec PagingRun PagingWeb PagingStore PagingStoreProofs.
Local Open Scope N_scope.

(** C49, partly: over any file that keeps what was written, whatever fails: ids returned since the file was opened load their bytes and nothing panics; if the file knows its length, synced blobs stay through reopening, and load when the file can be read.  Missing: blobs of [ps - 11] to [ps - 4] bytes ([ps - 8] to [ps - 4] if 8 divides [ps]), see C49_panic_refuted and C49_lost_refuted, and that files in the browser cache know their length, see C49_web_refuted. *)
Theorem C49_history_partial :
  forall D ex inv ps, file_dev D true inv -> (ex = true -> exact_length D inv) -> page_size_ok ps ->
  forall s F cs rs s', inv s F -> Forall (size_ok ps) cs -> prun D ps cs (s, None) = (rs, s') ->
  all_right ex (Ledger [] []) cs rs /\
  forall good, readable D inv good -> good (fst s') -> snd s' <> None -> forall id d,
    let l := notes cs rs (Ledger [] []) in
    In (id, d) (fresh l) \/ ex = true /\ In (id, d) (saved l) ->
    fst (pstep D ps (PLoad id) s') = Ok (OData d).
Proof. exact paging_history. Qed.
Print Assumptions C49_history_partial.
Example C49_history_example : file_dev plain_dev true plain_inv /\ exact_length plain_dev plain_inv /\ page_size_ok 64 /\
  plain_inv (plain_new pg_faults) empty_file /\ Forall (size_ok 64) pg_hist /\
  prun plain_dev 64 pg_hist (plain_new pg_faults, None) = (pg_results, pg_end) /\
  pg_results =
  [Ok ODone; Ok (OId 4); Err; Ok (OId 20); Ok ODone; Ok (OId 68); Ok (OData (B "first")); Ok (OData (long 30 x01)); Ok (OData (long 30 x02)); Err;
   Err; Ok ODone; Ok (OData (B "first")); Ok (OData (long 30 x01)); Ok (OId 68); Ok (OData (long 30 x01)); Ok (OData (B "new"))] /\
  readable plain_dev plain_inv plain_good /\ plain_good (fst pg_end) /\ snd pg_end <> None.
Proof.
  split; [exact plain_file_dev|]. split; [exact plain_exact|]. split; [split; reflexivity|]. split; [apply plain_new_inv|].
  split; [exact pg_sizes|]. split; [exact pg_run|]. split; [exact pg_shown|]. split; [exact plain_readable|]. exact pg_good.
Qed.

(** C49, partly: a paging file over a new file in the browser cache, with any faults of the cache, any syncs and reopenings: ids returned since the last opening load their bytes, and nothing panics. *)
Theorem C49_web_session_partial :
  forall ps, page_size_ok ps ->
  forall t cs rs s', Forall (size_ok ps) cs -> prun web_dev ps cs (with_faults t new_web_file, None) = (rs, s') ->
  all_right false (Ledger [] []) cs rs.
Proof. exact paging_web_session. Qed.
Print Assumptions C49_web_session_partial.
Example C49_web_session_example : page_size_ok 64 /\ Forall (size_ok 64) pg_hist /\
  fst (prun web_dev 64 pg_hist (with_faults [true; false; true] new_web_file, None)) <> [].
Proof. split; [split; reflexivity|]. split; [exact pg_sizes|]. vm_compute; discriminate. Qed.

(** C49, partly: over a new file in the browser cache, for a history without sync, then one sync, then only reads and reopenings, with any faults, the synced blobs stay; they load when the cache works and the file has less than 2^31 bytes. *)
Theorem C49_web_once_partial :
  forall ps, page_size_ok ps ->
  forall t cs cs2 rs s', Forall (size_ok ps) cs -> Forall no_sync cs -> Forall only_reads cs2 ->
  prun web_dev ps (cs ++ PSync :: cs2) (with_faults t new_web_file, None) = (rs, s') ->
  all_right true (Ledger [] []) (cs ++ PSync :: cs2) rs /\
  (works (fst s') -> snd s' <> None -> forall id d,
    In (id, d) (saved (notes (cs ++ PSync :: cs2) rs (Ledger [] []))) ->
    fst (pstep web_dev ps (PLoad id) s') = Ok (OData d)).
Proof. exact paging_web_once. Qed.
Print Assumptions C49_web_once_partial.
Example C49_web_once_example : page_size_ok 64 /\ (Forall (size_ok 64) once_hist /\ Forall no_sync once_hist /\ Forall only_reads once_later) /\
  prun web_dev 64 (once_hist ++ PSync :: once_later) (with_faults [] new_web_file, None) = (once_results, once_end) /\
  once_results = [Ok ODone; Ok (OId 4); Ok (OId 20); Ok (OId 68); Ok (OData (B "first")); Ok ODone;
                  Ok ODone; Ok (OData (long 30 x02)); Ok (OData (B "first")); Ok (OData (long 30 x01))] /\
  works (fst once_end) /\ snd once_end <> None.
Proof.
  split; [split; reflexivity|]. split; [exact once_ok|]. split; [exact once_run|]. split; [exact once_shown|]. exact once_works.
Qed.

(** C49 fails on files in the browser cache: after two syncs, data that could be read before is gone after opening the file again, and its id is given to other data. *)
Theorem C49_web_refuted :
  exists cs, Forall (size_ok 32) cs /\
  cs = [POpen; PAppend (B "first"); PSync; PAppend (B "second item 123"); PAppend (B "third item 1234"); PSync;
        PLoad 36; PLoad 68; POpen; PLoad 36; PLoad 68; PAppend (B "xxx"); PLoad 36] /\
  fst (prun web_dev 32 cs (new_web_file, None)) =
    [Ok ODone; Ok (OId 4); Ok ODone; Ok (OId 36); Ok (OId 68); Ok ODone;
     Ok (OData (B "second item 123")); Ok (OData (B "third item 1234")); Ok ODone; Err; Err; Ok (OId 36); Ok (OData (B "xxx"))].
Proof. exact (ex_intro _ lost_hist (conj lost_sizes (conj eq_refl paging_web_lost))). Qed.
Print Assumptions C49_web_refuted.

(** C49 fails for large blobs: one that passes the size check panics ... *)
Theorem C49_panic_refuted :
  fst (prun plain_dev 64 [POpen; PAppend (long 57 x01)] (plain_new [], None)) = [Ok ODone; Panic].
Proof. exact paging_panic. Qed.
Print Assumptions C49_panic_refuted.
(** ... and one that fills the page exactly is lost at once. *)
Theorem C49_lost_refuted :
  fst (prun plain_dev 64 [POpen; PAppend (long 56 x01); PLoad 68] (plain_new [], None)) = [Ok ODone; Ok (OId 68); Err].
Proof. exact paging_lost. Qed.
Print Assumptions C49_lost_refuted.

(** C60, partly: an open paging file keeps the contract of a blob store, through faults, syncs and calls by others, so the theorems C25-C34 hold for trees on it.  Missing: trees with blobs that are too large (see C49). *)
Theorem C60_lawful_partial :
  forall D any ex inv ps (P : dv D -> Prop), file_dev D any inv -> (ex = true -> exact_length D inv) -> any = true \/ ex = true ->
  page_size_ok ps -> (forall s, P s -> exists F, inv s F /\ (any = true \/ f_len F mod ps = 0)) ->
  lawful (paging_store D ps) (paging_inv D P any ps).
Proof. exact paging_lawful. Qed.
Print Assumptions C60_lawful_partial.
Example C60_lawful_example : file_dev web_dev true web_any /\
  (forall f, new_file f -> exists F, web_any f F /\ (true = true \/ f_len F mod 512 = 0)) /\
  paging_inv web_dev new_file true 512 bt_start.
Proof.
  split; [exact web_file_dev|]. split; [|apply bt_inv]. intros f (t & ->). exists empty_file. split; [apply new_any|now left].
Qed.

(** C60, partly: any history of trees on a paging file over a file that knows its length, whatever faults happen: the trees have their contents, and after a sync every id that a successful reattach returned loads the contents the tree had then, after any further appends, faults, syncs and reopenings, if the file can be read.  Missing: as before. *)
Theorem C60_durable_partial :
  forall D inv ps dbg s h, file_dev D true inv -> exact_length D inv -> page_size_ok ps ->
  paging_inv D (fun x => exists F, inv x F) true ps s -> history_ok dbg h ->
  exists oks w, exec dbg (paging_store D ps) (World.start (S:=paging_store D ps) s) h ⇓ Ok (oks, w) /\ length oks = length h /\
    Forall2 (holds (st_read (paging_store D ps) (w_st w))) (w_trees w) (m_trees (model no_maps h oks)) /\
    forall cs rs s2 good, Forall (size_ok ps) cs ->
    prun D ps (PSync :: cs) (fst (w_st w)) = (Ok ODone :: rs, s2) ->
    readable D inv good -> good (fst s2) -> snd s2 <> None ->
    Forall2 (fun id m => exists t, t_load (paging_store D ps) (s2, []) (Some id) = Ok t /\
                                   holds (st_read (paging_store D ps) (s2, [])) t m)
      (w_ids w) (m_saved (model no_maps h oks)).
Proof. exact paging_durable. Qed.
Print Assumptions C60_durable_partial.
Example C60_durable_example : paging_inv plain_dev (fun x => exists F, plain_inv x F) true 512 pt_start /\ history_ok true wb_hist /\
  match pt_exec with Ok (oks, w) => oks = [true; true; true; true; true; true; true; true; true] /\
    length (w_ids w) = 4%nat /\ length (w_trees w) = 2%nat | _ => False end /\
  fst (prun plain_dev 512 (PSync :: pt_later) (fst (w_st pt_world))) = map Ok [ODone; OId 668; ODone; OId 668; ODone; ODone] /\
  plain_good (fst pt_end) /\ snd pt_end <> None.
Proof. split; [exact pt_inv|]. split; [exact wb_hist_ok|]. split; [exact pt_oks|]. exact pt_sync. Qed.

(** C60, partly: the same on a new file in the browser cache, with one sync at the end and only reads and reopenings after it, as the browser crate does it.  Missing: as before, and more than one sync (see C49_web_refuted). *)
Theorem C60_web_durable_partial :
  forall ps dbg s h, page_size_ok ps ->
  paging_inv web_dev new_file false ps s -> history_ok dbg h ->
  exists oks w, exec dbg (paging_store web_dev ps) (World.start (S:=paging_store web_dev ps) s) h ⇓ Ok (oks, w) /\
    length oks = length h /\
    Forall2 (holds (st_read (paging_store web_dev ps) (w_st w))) (w_trees w) (m_trees (model no_maps h oks)) /\
    forall cs rs s2, Forall only_reads cs ->
    prun web_dev ps (PSync :: cs) (fst (w_st w)) = (Ok ODone :: rs, s2) ->
    works (fst s2) -> snd s2 <> None ->
    Forall2 (fun id m => exists t, t_load (paging_store web_dev ps) (s2, []) (Some id) = Ok t /\
                                   holds (st_read (paging_store web_dev ps) (s2, [])) t m)
      (w_ids w) (m_saved (model no_maps h oks)).
Proof. exact paging_web_durable. Qed.
Print Assumptions C60_web_durable_partial.
Example C60_web_durable_example : paging_inv web_dev new_file false 512 bt_start /\ history_ok true wb_hist /\
  match bt_exec with Ok (oks, w) => oks = [true; true; true; true; true; true; true; true; true] /\
    length (w_ids w) = 4%nat /\ length (w_trees w) = 2%nat | _ => False end /\
  fst (prun web_dev 512 [PSync; POpen] (fst (w_st bt_world))) = [Ok ODone; Ok ODone] /\
  works (fst bt_end) /\ snd bt_end <> None.
Proof. split; [apply bt_inv|]. split; [exact wb_hist_ok|]. split; [exact bt_oks|]. exact bt_sync. Qed.
