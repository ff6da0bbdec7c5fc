(** Database files that are written page by page (C64).

    [page_effects P d f l rs no_pages p]: by the events [l] and their results [rs], page
    [i] is in the file if [p i] is [Some n], and was overwritten [n] times since it was
    put there.  [fs_effects_any l rs .. (W, D)]: the file is open if [file_open W d f].
    See WebFsPagesSpec.v, WebPagesSpec.v, WebFsSpec.v, WebFsStaleSpec.v. *)
From Verif Require Import WebFsExamples WebSyncExamples FsPagesExamples Base BaseLemmas Header Node Store U64 File Chunk WebFile WebSpec
  WebPagesSpec WebFs WebFsSpec WebFsStaleSpec WebFsPagesSpec WebVfs WebFsPages.
Local Open Scope N_scope.

(** C64, partly: if a database file is written page by page, then, whatever happens to other files and directories (its own is not deleted while it is open), whichever cache operations fail and however often the page restarts, its size is the end of the last of the pages that were overwritten most often (not, as it should be, of the last page), and what is read is cut there. *)
Theorem C64_pages_partial :
  forall P d f l rs s, 0 < P -> ~ In quest f -> Forall event_ok l -> deleted_closed d l ->
  Forall (page_event P d f) l -> fs_run l new_fs = (rs, s) ->
  exists W D p n, fs_effects_any l rs (new_world, fun _ => false) (W, D) /\ page_effects P d f l rs no_pages p /\ busiest_end P p n /\
    (forall t, fst (fs_call (db_file_size d f) t s) = if running W && file_open W d f then Ok (RNum n) else Err) /\
    (forall start k t1 t2 b, fst (db_read d f start k t1 [] t2 s) = Ok b ->
       N.of_nat (length b) = N.min n (start + k) - start).
Proof. exact vfs_pages. Qed.
Print Assumptions C64_pages_partial.
Example C64_pages_example : ~ In quest (B "db") /\ Forall event_ok page_hist /\ deleted_closed (B "d") page_hist /\
  Forall (page_event 512 (B "d") (B "db")) page_hist /\
  fst (fs_call (db_file_size (B "d") (B "db")) [] (snd (fs_run page_hist new_fs))) = Ok (RNum 1024) /\
  fst (db_read (B "d") (B "db") 0 2000 [] [] [] (snd (fs_run page_hist new_fs))) = Ok (page x03 ++ page x05).
Proof. exact page_hist_ok. Qed.

(** C64, partly: so the size of such a file is right exactly if no page was overwritten more often than the last one. *)
Theorem C64_last_page_partial :
  forall P d f l rs s, 0 < P -> ~ In quest f -> Forall event_ok l -> deleted_closed d l ->
  Forall (page_event P d f) l -> fs_run l new_fs = (rs, s) ->
  exists W D p, fs_effects_any l rs (new_world, fun _ => false) (W, D) /\ page_effects P d f l rs no_pages p /\
  (running W = true -> file_open W d f = true -> forall t i n, p i = Some n -> (forall j n', p j = Some n' -> j <= i) ->
     (fst (fs_call (db_file_size d f) t s) = Ok (RNum ((i + 1) * P)) <-> forall j n', p j = Some n' -> n' <= n)).
Proof. exact vfs_last_page. Qed.
Print Assumptions C64_last_page_partial.
