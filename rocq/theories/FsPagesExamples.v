(** An example of a database file that is written page by page. *)
From Verif Require Import WebFsExamples WebSyncExamples Base BaseLemmas Header Node Store U64 File Chunk WebFile WebSpec
  WebPagesSpec WebFs WebFsSpec WebFsStaleSpec WebFsPagesSpec WebVfs WebFsStaleExamples.
Local Open Scope N_scope.

(** Two pages, the first of which is written again; another file; a failing write; another directory, deleted while it is open; a
    restart; then the second page is written again. *)
Definition page_hist : list event := db_hist2 ++
  [Call (KOpenFile (B "d") (B "log")) []; Call (KWrite (B "d") (B "log") 3 (B "x")) [];
   Call (db_write (B "d") (B "db") 1024 (page x04)) [true]; Call (KOpenDir (B "e")) [];
   Call (KDeleteDir (B "e")) []; Restart; Call (KOpenDir (B "d")) []; Call (db_open (B "d") (B "db")) [];
   Call (db_write (B "d") (B "db") 512 (page x05)) []].
Lemma page_hist_ok : ~ In quest (B "db") /\ Forall event_ok page_hist /\ deleted_closed (B "d") page_hist /\
  Forall (page_event 512 (B "d") (B "db")) page_hist /\
  fst (fs_call (db_file_size (B "d") (B "db")) [] (snd (fs_run page_hist new_fs))) = Ok (RNum 1024) /\
  fst (db_read (B "d") (B "db") 0 2000 [] [] [] (snd (fs_run page_hist new_fs))) = Ok (page x03 ++ page x05).
Proof.
  split; [intros H; cbn in H; repeat (destruct H as [H|H]; [discriminate|]); contradiction|].
  split; [apply event_okb_ok; vm_compute; reflexivity|]. split.
  { apply never_deleted. intros t H. cbn in H. repeat (destruct H as [H|H]; [discriminate|]). exact H. }
  split; [|split; vm_compute; reflexivity].
  unfold page_hist, db_hist2, db_hist. cbn [app].
  repeat constructor; cbn [page_event db_write]; try (intros; discriminate);
    try first [now exists 0|now exists 1|now exists 2].
Qed.
