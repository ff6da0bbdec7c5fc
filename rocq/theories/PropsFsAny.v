(** The properties of the file system in the browser cache when open directories are
    deleted (C62, C63).

    [fs_effects_any l rs (new_world, fun _ => false) (W, D)]: with these results, the
    events lead to the world [W], in which the directories in [D] are deleted but still
    open.  See WebFsStaleSpec.v. *)
From Verif Require Import WebFsStaleExamples Base BaseLemmas Header Node Store U64 File Chunk WebFile WebSpec
  WebFs WebFsSpec WebFsStaleSpec WebFsStale WebFsClosed WebSync WebSyncSpec.
Local Open Scope N_scope.

(** C62, partly: in any history, also one that deletes open directories, each result is right for separate files with separate contents, where a directory that is deleted while it is open stays as it is until the next restart and is then empty.  Missing: names of files with a question mark, see C62_name_refuted. *)
Theorem C62_any_history_partial :
  forall l rs s, Forall event_ok l -> fs_run l new_fs = (rs, s) ->
  exists WD, fs_effects_any l rs (new_world, fun _ => false) WD.
Proof. exact fs_any_histories. Qed.
Print Assumptions C62_any_history_partial.
Example C62_any_history_example : Forall event_ok any_hist /\ ~ deletes_closed any_hist /\
  fst (fs_run any_hist new_fs) =
  [Ok RUnit; Ok RUnit; Ok RUnit; Ok RUnit; Ok RUnit; Ok RUnit; Ok (RBool true); Ok RUnit; Ok (RBytes (B"aXY")); Ok (RBool false);
   Ok RUnit; Ok (RBool true); Ok RUnit; Ok RUnit; Ok RUnit; Ok (RNum 0); Ok RUnit; Ok RUnit; Ok (RBytes (B"mine"))].
Proof. split; [exact any_hist_ok|]. split; [exact any_hist_not_closed|exact any_hist_results]. Qed.

(** C62, partly: what a write put into a file of a directory that is never deleted while it is open is what a later read of these bytes gives (or an error), whatever happens to other files and directories and however often the page restarts in between. *)
Theorem C62_any_read_your_writes_partial :
  forall a d f o b t mid t' z rs s,
  let l := a ++ Call (KWrite d f o b) t :: mid ++ Call (KRead d f o (o + N.of_nat (length b))) t' :: z in
  Forall event_ok l -> deleted_closed d l -> Forall (fun e => ~ concerns d f e) mid ->
  fs_run l new_fs = (rs, s) -> nth (length a) rs Err = Ok RUnit ->
  let r := nth (length a + 1 + length mid) rs Err in r = Err \/ r = Ok (RBytes b).
Proof. exact fs_any_read_your_writes. Qed.
Print Assumptions C62_any_read_your_writes_partial.
Example C62_any_read_your_writes_example :
  Forall event_ok any_hist /\ deleted_closed (B"d") any_hist /\ Forall (fun e => ~ concerns (B"d") (B"a") e) any_hist2 /\
  nth (length any_hist1) (fst (fs_run any_hist new_fs)) Err = Ok RUnit /\
  nth (length any_hist1 + 1 + length any_hist2) (fst (fs_run any_hist new_fs)) Err = Ok (RBytes (B"mine")).
Proof.
  split; [exact any_hist_ok|]. split; [exact any_hist_d|]. split; [exact any_hist2_other|].
  rewrite any_hist_results. split; reflexivity.
Qed.

(** C62: whatever a history deletes, at the next restart the file system is exactly as after some history that is at most one event longer and deletes no open directory. *)
Theorem C62_restarted :
  forall l rs s, Forall event_ok l -> fs_run l new_fs = (rs, s) ->
  exists l' rs', Forall event_ok l' /\ deletes_closed l' /\ (length l' <= S (length l))%nat /\ fs_run l' new_fs = (rs', fs_restart s).
Proof. exact closed_restart. Qed.
Print Assumptions C62_restarted.
Example C62_restarted_example : Forall event_ok any_hist /\ ~ deletes_closed any_hist /\ length any_hist = 19%nat.
Proof. split; [exact any_hist_ok|]. split; [exact any_hist_not_closed|reflexivity]. Qed.

(** C63: in every execution of several threads files have separate contents as in C62, also when open directories are deleted. *)
Theorem C63_any_contents :
  forall tr n, net_run (net_start new_fs) tr n -> (forall ts, Forall event_ok (calls (invoked tr) ts)) ->
  exists ts rs WD, length ts = length (invoked tr) /\ fs_effects_any (calls (invoked tr) ts) rs (new_world, fun _ => false) WD /\
  forall k r c, In (Return k r) tr -> nth_error (invoked tr) k = Some c -> c <> KShutdown ->
  exists r', nth_error rs k = Some r' /\ seen_as r r'.
Proof. exact sync_any_effects. Qed.
Print Assumptions C63_any_contents.
Example C63_any_contents_example : (exists n, net_run (net_start new_fs) sync_trace n) /\
  forall ts, Forall event_ok (calls (invoked sync_trace) ts).
Proof. split; [exact sync_trace_runs|]. intros ts. apply sync_trace_ok. Qed.
