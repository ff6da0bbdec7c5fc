(** The properties of the file system in the browser cache (C62-C64).

    [fs_run l new_fs = (rs, s)]: the events [l] (commands with the faults that happen
    during them, and restarts of the page) had the results [rs].
    [fs_effects l rs new_world W]: with these results, the events lead to the world [W],
    in which every file of every directory has its contents.  See WebFsSpec.v,
    WebSyncSpec.v. *)
From Verif Require Import WebFsExamples WebSyncExamples Base BaseLemmas Header Node Store U64 File Chunk WebFile WebSpec
  WebFs WebFsSpec WebFsStaleSpec WebFsProofs WebSync WebSyncSpec WebSyncProofs WebVfs WebVfsProofs.
Local Open Scope N_scope.

(** C62, partly: any history of commands, faults and restarts acts on separate files with separate contents: each result is right for the contents of the file it names, and no command changes another file.  Missing: names of files with a question mark, see C62_name_refuted; deleting a directory that is open refutes it (C62_stale_refuted and C62_lost_refuted), C62_any_history_partial says what happens then. *)
Theorem C62_history_partial :
  forall l rs s, Forall event_ok l -> deletes_closed l -> fs_run l new_fs = (rs, s) ->
  exists W, fs_effects l rs new_world W.
Proof. exact fs_histories. Qed.
Print Assumptions C62_history_partial.
Example C62_history_example : Forall event_ok fs_hist /\ deletes_closed fs_hist /\
  fst (fs_run fs_hist new_fs) =
  [Ok RUnit; Ok RUnit; Ok RUnit; Ok RUnit; Ok RUnit; Ok RUnit; Ok RUnit; Ok RUnit; Ok (RNum 5); Ok (RBytes (B "blob"));
   Ok RUnit; Ok RUnit; Ok (RBool false); Err; Ok (RBool true); Ok (RBool true); Ok RUnit; Ok (RBool false);
   Ok (RBytes (B "mine")); Ok (RNum 6); Ok RUnit; Err].
Proof. split; [exact fs_hist_ok|]. split; [exact fs_hist_closed|exact fs_hist_results]. Qed.

(** C62, partly: what a write put into a file is what a later read of these bytes gives (or an error), whatever happens to other files and however often the page restarts in between. *)
Theorem C62_read_your_writes_partial :
  forall a d f o b t mid t' z rs s,
  let l := a ++ Call (KWrite d f o b) t :: mid ++ Call (KRead d f o (o + N.of_nat (length b))) t' :: z in
  Forall event_ok l -> deletes_closed l -> Forall (fun e => ~ concerns d f e) mid ->
  fs_run l new_fs = (rs, s) -> nth (length a) rs Err = Ok RUnit ->
  let r := nth (length a + 1 + length mid) rs Err in r = Err \/ r = Ok (RBytes b).
Proof. exact fs_read_your_writes. Qed.
Print Assumptions C62_read_your_writes_partial.
Example C62_read_your_writes_example :
  let l := fs_hist1 ++ Call (KWrite (B "d") (B "a") 2 (B "mine")) [] :: fs_hist2 ++
    Call (KRead (B "d") (B "a") 2 (2 + N.of_nat (length (B "mine")))) [] :: fs_hist3 in
  Forall event_ok l /\ deletes_closed l /\ Forall (fun e => ~ concerns (B "d") (B "a") e) fs_hist2 /\
  nth (length fs_hist1) (fst (fs_run l new_fs)) Err = Ok RUnit /\
  nth (length fs_hist1 + 1 + length fs_hist2) (fst (fs_run l new_fs)) Err = Ok (RBytes (B "mine")).
Proof.
  split; [exact fs_hist_ok|]. split; [exact fs_hist_closed|]. split; [exact fs_hist2_other|].
  split; vm_compute; reflexivity.
Qed.

(** C62 fails: after an open directory was deleted, its files are still there. *)
Theorem C62_stale_refuted : exists s, fs_run stale_hist new_fs = (stale_results, s) /\
  Forall event_ok stale_hist /\ ~ exists W, fs_effects stale_hist stale_results new_world W.
Proof. exact stale_refuted. Qed.
Print Assumptions C62_stale_refuted.

(** C62 fails: what is written after that is gone after a restart. *)
Theorem C62_lost_refuted : exists s, fs_run lost_hist new_fs = (lost_results, s) /\
  Forall event_ok lost_hist /\ ~ exists W, fs_effects lost_hist lost_results new_world W.
Proof. exact lost_refuted. Qed.
Print Assumptions C62_lost_refuted.

(** C62 fails: deleting the file "a?b" deletes the file "a". *)
Theorem C62_name_refuted : exists s, fs_run quest_hist new_fs = (quest_results, s) /\
  deletes_closed quest_hist /\ ~ exists W, fs_effects quest_hist quest_results new_world W.
Proof. exact quest_refuted. Qed.
Print Assumptions C62_name_refuted.

(** C63: calls of any number of threads, however they interleave, return what the calls would return one after the other in the order in which they were made; so a call made after another has returned comes after it. *)
Theorem C63_linear :
  forall s0 tr n, net_run (net_start s0) tr n ->
  exists ts, length ts = length (invoked tr) /\
  forall k r c, In (Return k r) tr -> nth_error (invoked tr) k = Some c -> c <> KShutdown ->
  exists r', nth_error (fst (fs_run (calls (invoked tr) ts) s0)) k = Some r' /\ seen_as r r'.
Proof. exact sync_linear. Qed.
Print Assumptions C63_linear.
Example C63_linear_example : (exists n, net_run (net_start new_fs) sync_trace n) /\
  In (Return 3 (Ok (RBytes (B "xy")))) sync_trace /\ In (Return 5 Err) sync_trace /\
  invoked sync_trace = [KOpenDir (B "d"); KOpenFile (B "d") (B "a"); KWrite (B "d") (B "a") 0 (B "xy");
    KRead (B "d") (B "a") 0 2; KShutdown; KLength (B "d") (B "a")].
Proof. split; [exact sync_trace_runs|]. split; [cbn; tauto|]. split; [cbn; tauto|reflexivity]. Qed.

(** C63: in such an execution files have separate contents as in C62. *)
Theorem C63_contents :
  forall tr n, net_run (net_start new_fs) tr n ->
  (forall ts, Forall event_ok (calls (invoked tr) ts) /\ deletes_closed (calls (invoked tr) ts)) ->
  exists ts rs W, length ts = length (invoked tr) /\ fs_effects (calls (invoked tr) ts) rs new_world W /\
  forall k r c, In (Return k r) tr -> nth_error (invoked tr) k = Some c -> c <> KShutdown ->
  exists r', nth_error rs k = Some r' /\ seen_as r r'.
Proof. exact sync_effects. Qed.
Print Assumptions C63_contents.
Example C63_contents_example : (exists n, net_run (net_start new_fs) sync_trace n) /\
  forall ts, Forall event_ok (calls (invoked sync_trace) ts) /\ deletes_closed (calls (invoked sync_trace) ts).
Proof. split; [exact sync_trace_runs|exact sync_trace_ok]. Qed.

(** C63: no call is stuck: from every state, without further calls, the loop can get to where every call made so far can return. *)
Theorem C63_progress :
  forall s0 tr n, net_run (net_start s0) tr n ->
  exists tr' n', Forall quiet tr' /\ net_run n tr' n' /\
  forall k c, nth_error (invoked tr) k = Some c -> c <> KShutdown -> exists r, net_step n' (Return k r) n'.
Proof. exact sync_progress. Qed.
Print Assumptions C63_progress.
Example C63_progress_example : exists n, net_run (net_start new_fs) sync_trace n.
Proof. exact sync_trace_runs. Qed.

(** C64, partly: what reading a database file gives are bytes of the file, whatever the history, and whatever other threads do between its two commands.  Missing: that a read is short only at the end of the file, see C64_size_refuted. *)
Theorem C64_read_partial :
  forall l d f start n t1 mid t2 r s',
  let all := l ++ Call (KLength d f) t1 :: mid in
  Forall event_ok all ->
  db_read d f start n t1 mid t2 (snd (fs_run l new_fs)) = (r, s') ->
  r = Err \/ (r = Panic /\ u64_max <= start + n) \/
  exists W D b, fs_effects_any all (fst (fs_run all new_fs)) (new_world, fun _ => false) (W, D) /\
    r = Ok b /\ N.of_nat (length b) <= n /\ (b <> [] -> start + N.of_nat (length b) <= f_len (contents W d f)) /\
    b = f_read (contents W d f) start (length b).
Proof. exact db_read_right. Qed.
Print Assumptions C64_read_partial.
Example C64_read_example : Forall event_ok (db_hist ++ [Call (KLength (B "d") (B "db")) []]) /\
  fst (db_read (B "d") (B "db") 512 512 [] [] [] (snd (fs_run db_hist new_fs))) = Ok (page x02).
Proof. split; [apply db_ok|exact db_before]. Qed.

(** C64 fails: two pages are written, then the first again; now the file has two pages, but [file_size] gives one and reading the second gives nothing. *)
Theorem C64_size_refuted :
  Forall (fun r => r = Ok RUnit) (fst (fs_run db_hist2 new_fs)) /\
  (forall W, fs_effects db_hist2 (fst (fs_run db_hist2 new_fs)) new_world W -> f_len (contents W (B "d") (B "db")) = 1024) /\
  fst (fs_call (db_file_size (B "d") (B "db")) [] (snd (fs_run db_hist2 new_fs))) = Ok (RNum 512) /\
  fst (db_read (B "d") (B "db") 512 512 [] [] [] (snd (fs_run db_hist2 new_fs))) = Ok [].
Proof.
  split; [rewrite db_results; repeat constructor|]. split; [exact db_world|]. split; [exact db_size|exact db_after].
Qed.
Print Assumptions C64_size_refuted.
