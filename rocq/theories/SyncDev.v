(** A file of the browser file system as the file below a paging file.  This file is
    part of the statements. *)
From Verif Require Import Base BaseLemmas Header Node Store U64 File Chunk WebFile WebFs WebFsSpec Paging PagingSpec.
Local Open Scope N_scope.

(** The file system; for each coming call of the paging file the events before it (of
    this and other threads) and the faults during it; and the number of writes to
    come. *)
Record sync_file : Type := SyncFile { sf_fs : fs; sf_todo : list (list event * list bool); sf_left : N }.
(** A call through [SyncFile], browser/src/sync_fs.rs:184-228. *)
Definition sf_call (c : cmd) : wm sync_file reply := fun s =>
  let e := hd ([], []) (sf_todo s) in
  let (r, s') := fs_call c (snd e) (snd (fs_run (fst e) (sf_fs s))) in
  (r, SyncFile s' (tl (sf_todo s)) (sf_left s)).
Definition as_num (r : reply) : res N := match r with RNum n => Ok n | _ => Err end.
Definition as_bytes (r : reply) : res bytes := match r with RBytes d => Ok d | _ => Err end.

(** [SyncFile::length], [read] and [write], sync_fs.rs:184-228.  Opening again makes a
    new [WebCacheFs] if the loop of the old one has ended, and opens the directory and
    the file.  Simplified: no file reaches [2^63] bytes, slices on wasm32 have less
    than [2^32] bytes, and no program writes more often than [sf_left] says; writes
    beyond that count as refused. *)
Definition sync_dev (d f : bytes) : dev := {|
  dv := sync_file;
  dv_length := r <~ sf_call (KLength d f) ;; wret (as_num r);
  dv_read := fun a b => r <~ sf_call (KRead d f a b) ;; wret (as_bytes r);
  dv_write := fun o b => fun s =>
    if (o + N.of_nat (length b) <? i64_lim) && (N.of_nat (length b) <? usize_lim) && (0 <? sf_left s) then
      (r <~ sf_call (KWrite d f o b) ;; wret (Ok tt)) (SyncFile (sf_fs s) (sf_todo s) (sf_left s - 1))
    else (Err, s);
  dv_open := fun s =>
    (_ <~ sf_call (KOpenDir d) ;; _ <~ sf_call (KOpenFile d f) ;; wret (Ok tt))
      (SyncFile (if fs_up (sf_fs s) then sf_fs s else fs_restart (sf_fs s)) (sf_todo s) (sf_left s))
|}.

(** Events of other threads: anything but changing or deleting the file or its directory. *)
Definition apart (d f : bytes) (e : event) : Prop := event_ok e /\ ~ concerns d f e.
Definition all_apart (d f : bytes) (todo : list (list event * list bool)) : Prop :=
  Forall (fun e => Forall (apart d f) (fst e)) todo.
(** How many events are to come. *)
Definition events (todo : list (list event * list bool)) : N :=
  fold_right (fun e n => N.of_nat (length (fst e)) + n) 0 todo.
(** A file system after a history [l], then used by a paging file in [f] and by others
    beside it, less than [2^64] times altogether. *)
Definition in_history (d f : bytes) (l : list event) (s : sync_file) : Prop :=
  ~ In quest f /\ Forall event_ok l /\ (exists rs, fs_run l new_fs = (rs, sf_fs s)) /\
  all_apart d f (sf_todo s) /\ N.of_nat (length l) + sf_left s + events (sf_todo s) < u64_max.
(** The directory [d] was not deleted while it was open, since the last restart. *)
Definition not_stale (d : bytes) (l : list event) : Prop :=
  forall a1 t1 a2 t2 a3, l = a1 ++ Call (KOpenDir d) t1 :: a2 ++ Call (KDeleteDir d) t2 :: a3 -> In Restart a2 \/ In Restart a3.
(** A file that was never changed, or was deleted from a directory that is not itself
    deleted, and not changed since: it is empty. *)
Definition unused_file (d f : bytes) (s : sync_file) : Prop := exists l, in_history d f l s /\
  (Forall (fun e => ~ concerns d f e) l \/
   exists l1 t l2 rs b, l = l1 ++ Call (KDeleteFile d f) t :: l2 /\ not_stale d l1 /\ fs_run l new_fs = (rs, sf_fs s) /\
     nth (length l1) rs Err = Ok (RBool b) /\ Forall (fun e => ~ concerns d f e) l2).
(** Nothing fails or is done by others from now on, the file is open, and it has less
    than [2^31] bytes. *)
Definition sync_works (d f : bytes) (s : sync_file) : Prop :=
  sf_todo s = [] /\ exists n, fst (fs_call (KLength d f) [] (sf_fs s)) = Ok (RNum n) /\ n < i32_lim.
