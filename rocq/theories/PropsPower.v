(** Power failures and the paged file store (C77).

    [lives dbg ps new_disk l d]: [l] is what happened to a store with page size [ps]
    on a new file - calls with any I/O errors and crashes, calls of [sync], flushes
    of the file by its owner, power failures - and [d] is the machine afterwards.  A
    power failure may undo any of the changes made to the file since it was last
    flushed.  [kept [] [] l] are the blocks written and not lost in a power failure
    before the next flush.  See PowerSpec.v. *)
From Verif Require Import PowerExamples MemExamples Base BaseLemmas Header Node Store U64 File PagedFile PagedSpec PowerSpec PowerProofs.
Local Open Scope N_scope.

(** C77: what was written before a flush of the file survives all later power failures; the store can be opened, read and
    written again.  Missing: [sync] is no such flush, see the refutation. *)
Theorem C77_flushed_partial :
  forall dbg ps l d, page_size_ok ps -> lives dbg ps new_disk l d -> Forall (happening_ok dbg) l ->
  Forall (fun h => match h with
    | HCall _ r => r = Err \/ exists a, r = Ok a
    | HSync r => r = Ok tt
    | _ => True end) l /\
  (is_open (d_now d) -> forall id x, In (id, x) (kept [] [] l) -> read_now dbg ps (d_now d) id = Ok x) /\
  fst (step dbg ps (d_now d) (OReopen, None)) = Ok [] /\ is_open (reopened dbg ps (d_now d)) /\
  (forall id x, In (id, x) (kept [] [] l) -> read_now dbg ps (reopened dbg ps (d_now d)) id = Ok x) /\
  (forall x, N.of_nat (length x) + 8 <= ps -> HEADER + 2 * ps * (tries l + 1) < max_file ->
     exists id, write_now dbg ps (reopened dbg ps (d_now d)) x = Ok id /\
       forall id' x', In (id', x') (kept [] [] l) -> of_be id' < of_be id).
Proof. exact (fun dbg ps l d Hp => power_kept dbg ps Hp l d). Qed.
Print Assumptions C77_flushed_partial.
Example C77_flushed_partial_example :
  page_size_ok 64 /\ Forall (happening_ok true) pw_kept_l /\ (exists seen, lives true 64 new_disk pw_kept_l (Disk pw_kept seen)) /\
  kept [] [] pw_kept_l = [(to_be 8 9, B "hello")] /\ is_open pw_kept /\
  read_now true 64 pw_kept (to_be 8 9) = Ok (B "hello") /\ read_now true 64 pw_kept (to_be 8 18) = Ok [] /\
  write_now true 64 pw_kept (B "again") = Ok (to_be 8 27).
Proof.
  split; [repeat split; reflexivity || discriminate|]. split; [repeat constructor|]. split; [exact pw_kept_lives|].
  split; [reflexivity|]. split; [vm_compute; exact Logic.I|]. split; [vm_compute; reflexivity|]. split; vm_compute; reflexivity.
Qed.

(** C77: a block was written, then [sync] succeeded; after a power failure, reading it returns something else. *)
Theorem C77_sync_refuted :
  exists ps id x l d x', page_size_ok ps /\ lives true ps new_disk l d /\
  l = [HCall (OReopen, None) (Ok []); HCall (OWrite x, None) (Ok id); HSync (Ok tt); HPower; HCall (OReopen, None) (Ok [])] /\
  is_open (d_now d) /\ read_now true ps (d_now d) id = Ok x' /\ x' <> x.
Proof. exact pw_sync_bad. Qed.
Print Assumptions C77_sync_refuted.
