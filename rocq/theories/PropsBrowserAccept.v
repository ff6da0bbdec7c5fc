(** That calls on files in the browser cache succeed (C74).

    A call with the list of faults [[]] is one during which no operation of the browser
    fails.  [cache_size], [total]: how many bytes the browser stores for the file, or for
    the whole file system.  [fs_effects_any]: what the history did, when open directories
    may be deleted.  See WebSpec.v, WebFsSpec.v and WebFsStaleSpec.v for the rest. *)
From Verif Require Import WebAcceptExamples Base BaseLemmas Header Node Store U64 File Chunk WebFile WebSpec WebFs WebFsSpec
  WebFsStaleSpec WebAccept WebFsAccept.
Local Open Scope N_scope.

(** C74: after any history with any faults, if the browser works now, stores less than [2^61] bytes and the file has less than [2^31] bytes, then writes and appends that end before [2^31], truncations and opening the file again succeed. *)
Theorem C74_file :
  forall cs rs f, run cs new_web_file = (rs, f) ->
  exists F, effects (map fst cs) rs empty_file F /\ shows f F /\
    (f_len F < 2147483648 -> cache_size (w_cache f) < 2305843009213693952 ->
     (forall o d, o + N.of_nat (length d) < 2147483648 -> fst (step (CWrite o d, []) f) = Ok None) /\
     (forall d n, length_now f = Ok n -> n + N.of_nat (length d) < 2147483648 ->
        fst (step (CAppend d, []) f) = Ok (Some n)) /\
     (forall n, fst (step (CTruncate n, []) f) = Ok None) /\
     fst (step (COpen, []) f) = Ok None).
Proof. exact web_accepted. Qed.
Print Assumptions C74_file.
Example C74_file_example : run web_hist new_web_file = (web_results, web_file) /\
  web_results = [Ok None; Ok None; Err; Ok None; Ok None] /\ length_now web_file = Ok 5 /\
  cache_size (w_cache web_file) < 2305843009213693952 /\
  fst (step (CAppend (B"more"), []) web_file) = Ok (Some 5) /\ fst (step (CTruncate 3, []) web_file) = Ok None.
Proof. split; [exact web_run|]. vm_compute; auto 8. Qed.

(** C74: after any history of commands with any faults, page closings and restarts (names without question marks), if the browser works now and stores less than [2^61] bytes, then every command succeeds that concerns directories, files in open directories, or open files of less than [2^31] bytes, as long as it writes below [2^31]; and reads below the length that is reported give the bytes of the file. *)
Theorem C74_commands :
  forall l rs s, Forall event_ok l -> fs_run l new_fs = (rs, s) ->
  exists W D, fs_effects_any l rs (new_world, fun _ => false) (W, D) /\
  (running W = true -> total (fs_objs s) < 2305843009213693952 ->
   (forall d, fst (fs_call (KOpenDir d) [] s) = Ok RUnit /\ exists b, fst (fs_call (KDeleteDir d) [] s) = Ok (RBool b)) /\
   (forall d f, dir_open W d = true -> ~ In quest f ->
      fst (fs_call (KOpenFile d f) [] s) = Ok RUnit /\
      (exists b, fst (fs_call (KFileExists d f) [] s) = Ok (RBool b)) /\
      (exists b, fst (fs_call (KDeleteFile d f) [] s) = Ok (RBool b))) /\
   (forall d f, file_open W d f = true -> ~ In quest f -> f_len (contents W d f) < 2147483648 ->
      fst (fs_call (KFlush d f) [] s) = Ok RUnit /\
      exists n, fst (fs_call (KLength d f) [] s) = Ok (RNum n) /\ n <= f_len (contents W d f) /\
        (forall a e, a <= e -> e <= n ->
           fst (fs_call (KRead d f a e) [] s) = Ok (RBytes (f_read (contents W d f) a (N.to_nat (e - a))))) /\
        (changes W + 1 < u64_max ->
           (forall o b, o + N.of_nat (length b) < 2147483648 -> fst (fs_call (KWrite d f o b) [] s) = Ok RUnit) /\
           (forall b, n + 4 + N.of_nat (length b) < 2147483648 -> fst (fs_call (KAppend d f b) [] s) = Ok (RNum n)) /\
           (forall m, fst (fs_call (KTruncate d f m) [] s) = Ok RUnit)))).
Proof. exact fs_accepts. Qed.
Print Assumptions C74_commands.
Example C74_commands_example : Forall event_ok acc_hist /\
  fs_run acc_hist new_fs = (acc_results, acc_fs) /\ total (fs_objs acc_fs) < 2305843009213693952 /\
  (forall W D, fs_effects_any acc_hist acc_results (new_world, fun _ => false) (W, D) ->
     running W = true /\ dir_open W (B"d") = true /\ dir_open W (B"e") = true /\ file_open W (B"d") (B"a") = true /\
     f_len (contents W (B"d") (B"a")) < i32_lim /\ changes W + 1 < u64_max) /\
  fst (fs_call (KWrite (B"d") (B"a") 3 (B"p me")) [] acc_fs) = Ok RUnit /\
  fst (fs_call (KOpenFile (B"e") (B"c")) [] acc_fs) = Ok RUnit.
Proof.
  split; [exact acc_ok|]. split; [exact acc_run|]. split; [exact acc_small|].
  split; [exact acc_open|]. vm_compute. auto.
Qed.

(** C74: which directories and files are open, and whether the file system runs, follows from the calls and their results. *)
Theorem C74_open :
  forall l rs W DW V DV, fs_effects_any l rs (new_world, fun _ => false) (W, DW) ->
  fs_effects_any l rs (new_world, fun _ => false) (V, DV) ->
  running W = running V /\ (forall d, dir_open W d = dir_open V d) /\ forall d f, file_open W d f = file_open V d f.
Proof. exact open_determined. Qed.
Print Assumptions C74_open.
Example C74_open_example : exists W D, fs_effects_any acc_hist acc_results (new_world, fun _ => false) (W, D).
Proof.
  destruct (C74_commands acc_hist acc_results acc_fs acc_ok acc_run) as (W & D & H & _). exists W, D. exact H.
Qed.
