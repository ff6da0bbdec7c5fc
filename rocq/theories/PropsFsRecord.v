(** Loading a record by its position in a file of the browser file system (C93).

    [fs_run l new_fs = (rs, s)]: the events [l] (commands with the faults that happen
    during them, and restarts of the page) had the results [rs].  A record is a length in
    four bytes, then the data.  See WebFsSpec.v, WebFsStaleSpec.v, WebFsRecordSpec.v. *)
From Verif Require Import WebFsRecordExamples Base BaseLemmas Header Node Store U64 File Chunk WebFile WebSpec WebFs WebFsSpec
  WebFsStaleSpec WebFsRecordSpec WebFsRecord WebFsLoad WebFsRecordLarge.
Local Open Scope N_scope.

(** C93: in any history, with other files, faults and restarts: a record that was put at a position by one successful call is what loading there gives (an error only if the cache fails then), whenever the file is open, as long as no later call writes to its bytes, cuts them off or deletes the file; other parts of the file may be written, even without success.  Missing: records written in several pieces ([C93_pieces_refuted]) and ones of which some bytes are written again. *)
Theorem C93_kept_partial :
  forall d f o b l1 e l2 rs1 r rs2 s, ~ In quest f ->
  Forall event_ok (l1 ++ e :: l2) -> deleted_closed d (l1 ++ e :: l2) ->
  fs_run (l1 ++ e :: l2) new_fs = (rs1 ++ r :: rs2, s) -> length rs1 = length l1 ->
  stores d f o b e r -> Forall2 (leaves d f o (record_len b)) l2 rs2 ->
  record_len b < i32_lim -> o + record_len b < i64_lim ->
  fst (fs_call (KFlush d f) [] s) = Ok RUnit ->
  fst (fs_call (KLoad d f o) [] s) = Ok (RBytes b) /\
  forall t, fst (fs_call (KLoad d f o) t s) = Ok (RBytes b) \/ fst (fs_call (KLoad d f o) t s) = Err.
Proof. exact fs_record_kept. Qed.
Print Assumptions C93_kept_partial.
Example C93_kept_example : ~ In quest (B"x") /\ Forall event_ok (rc_hist1 ++ rc_event :: rc_hist2) /\
  deleted_closed (B"d") (rc_hist1 ++ rc_event :: rc_hist2) /\
  fs_run (rc_hist1 ++ rc_event :: rc_hist2) new_fs = (rc_results1 ++ Ok RUnit :: rc_results2, rc_fs) /\
  length rc_results1 = length rc_hist1 /\ stores (B"d") (B"x") 3 (B"hello") rc_event (Ok RUnit) /\
  Forall2 (leaves (B"d") (B"x") 3 (record_len (B"hello"))) rc_hist2 rc_results2 /\
  record_len (B"hello") < i32_lim /\ 3 + record_len (B"hello") < i64_lim /\
  fst (fs_call (KFlush (B"d") (B"x")) [] rc_fs) = Ok RUnit.
Proof.
  split; [apply quest_free_ok; vm_compute; reflexivity|]. split; [exact rc_ok|]. split; [exact rc_closed|]. split; [exact rc_run|].
  split; [reflexivity|]. split; [exact rc_stores|]. split; [exact rc_leaves|]. split; [apply rc_sizes|]. split; [apply rc_sizes|exact rc_flush].
Qed.

(** C93: in any history: where the fourth byte of the length (the last one) is not zero, loading does not panic.  And if all calls that changed the file succeeded, whatever loading returns is a record whose bytes are the contents of the file there, at any position.  Missing: zero bytes and holes ([C93_hole_refuted]), changes that failed ([C93_torn_refuted]). *)
Theorem C93_bytes_partial :
  forall d f l rs s, ~ In quest f -> Forall event_ok l -> deleted_closed d l -> fs_run l new_fs = (rs, s) ->
  exists W D, fs_effects_any l rs (new_world, fun _ => false) (W, D) /\
  (forall o t, o + 4 < u64_max -> o + 3 < f_len (contents W d f) -> f_at (contents W d f) (o + 3) <> x00 ->
     fst (fs_call (KLoad d f o) t s) <> Panic) /\
  (Forall2 (changed_well d f) l rs -> forall o t b, fst (fs_call (KLoad d f o) t s) = Ok (RBytes b) ->
     o + record_len b <= f_len (contents W d f) /\ f_read (contents W d f) o (N.to_nat (record_len b)) = record b).
Proof. exact fs_load_right. Qed.
Print Assumptions C93_bytes_partial.
Example C93_bytes_example : ~ In quest (B"x") /\ Forall event_ok rw_hist /\ deleted_closed (B"d") rw_hist /\
  fs_run rw_hist new_fs = (rw_results, rw_fs) /\ Forall2 (changed_well (B"d") (B"x")) rw_hist rw_results /\
  fst (fs_call (KLoad (B"d") (B"x") 12) [] rw_fs) = Ok (RBytes (B"tail")).
Proof.
  split; [apply quest_free_ok; vm_compute; reflexivity|]. split; [exact rw_ok|]. split; [exact rw_closed|]. split; [exact rw_run|].
  split; [exact rw_well|exact rw_load].
Qed.

(** C93, a finding: loading in a hole of a file panics; then calls on other files fail too. *)
Theorem C93_hole_refuted :
  fst (fs_run [Call (KOpenDir (B"d")) []; Call (KOpenFile (B"d") (B"x")) []; Call (KOpenFile (B"d") (B"y")) [];
               Call (KWrite (B"d") (B"x") 8 (B"far")) []; Call (KLength (B"d") (B"x")) [];
               Call (KRead (B"d") (B"x") 0 4) []; Call (KLoad (B"d") (B"x") 0) []; Call (KLength (B"d") (B"y")) []] new_fs) =
  [Ok RUnit; Ok RUnit; Ok RUnit; Ok RUnit; Ok (RNum 11); Ok (RBytes [x00; x00; x00; x00]); Panic; Err].
Proof. vm_compute. reflexivity. Qed.
Print Assumptions C93_hole_refuted.

(** C93, a finding: so does loading at the end of a file. *)
Theorem C93_end_refuted :
  fst (fs_run [Call (KOpenDir (B"d")) []; Call (KOpenFile (B"d") (B"x")) []; Call (KAppend (B"d") (B"x") (B"blob")) [];
               Call (KLength (B"d") (B"x")) []; Call (KLoad (B"d") (B"x") 0) []; Call (KLoad (B"d") (B"x") 8) [];
               Call (KLoad (B"d") (B"x") 0) []] new_fs) =
  [Ok RUnit; Ok RUnit; Ok (RNum 0); Ok (RNum 8); Ok (RBytes (B"blob")); Panic; Err].
Proof. vm_compute. reflexivity. Qed.
Print Assumptions C93_end_refuted.

(** C93, a finding: a record whose length and data were written one after the other can be read but not loaded. *)
Theorem C93_pieces_refuted :
  fst (fs_run [Call (KOpenDir (B"d")) []; Call (KOpenFile (B"d") (B"x")) []; Call (KWrite (B"d") (B"x") 0 (to_be 4 5)) [];
               Call (KWrite (B"d") (B"x") 4 (B"hello")) []; Call (KRead (B"d") (B"x") 0 9) []; Call (KLoad (B"d") (B"x") 0) []] new_fs) =
  [Ok RUnit; Ok RUnit; Ok RUnit; Ok RUnit; Ok (RBytes (record (B"hello"))); Err].
Proof. vm_compute. reflexivity. Qed.
Print Assumptions C93_pieces_refuted.

(** C93, a finding: after a write into a record that failed at its last step, reading gives the new data and loading the old, also after a restart. *)
Theorem C93_torn_refuted :
  fst (fs_run [Call (KOpenDir (B"d")) []; Call (KOpenFile (B"d") (B"x")) []; Call (KWrite (B"d") (B"x") 0 (record (B"aaaa"))) [];
               Call (KWrite (B"d") (B"x") 4 (B"bbbb")) [false; false; false; true]; Restart;
               Call (KOpenDir (B"d")) []; Call (KOpenFile (B"d") (B"x")) [];
               Call (KRead (B"d") (B"x") 0 8) []; Call (KLoad (B"d") (B"x") 0) []] new_fs) =
  [Ok RUnit; Ok RUnit; Ok RUnit; Err; Ok RUnit; Ok RUnit; Ok RUnit; Ok (RBytes (record (B"bbbb"))); Ok (RBytes (B"aaaa"))].
Proof. vm_compute. reflexivity. Qed.
Print Assumptions C93_torn_refuted.

(** C93, a finding: a record that takes two gigabytes or more is appended, but cannot be loaded. *)
Theorem C93_large_refuted :
  forall b, i32_lim <= record_len b -> N.of_nat (length b) < usize_lim ->
  fst (fs_run [Call (KOpenDir (B"d")) []; Call (KOpenFile (B"d") (B"x")) []; Call (KAppend (B"d") (B"x") b) [];
               Call (KLength (B"d") (B"x")) []; Call (KLoad (B"d") (B"x") 0) []] new_fs) =
  [Ok RUnit; Ok RUnit; Ok (RNum 0); Ok (RNum (record_len b)); Err].
Proof. exact large_record. Qed.
Print Assumptions C93_large_refuted.
Example C93_large_example : exists b, i32_lim <= record_len b /\ N.of_nat (length b) < usize_lim.
Proof. exact large_exists. Qed.
