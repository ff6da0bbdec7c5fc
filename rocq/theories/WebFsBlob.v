(** Blobs in a file of the file system, next to other files.  This file is part of the
    statements. *)
From Verif Require Import Base BaseLemmas Header Node Store U64 File Chunk WebFile WebFs WebFsSpec.
Local Open Scope N_scope.

(** The event may change the file [f] in the directory [d] other than by appending. *)
Definition rewrites (d f : bytes) (e : event) : Prop :=
  match e with
  | Call (KDeleteDir d') _ => d' = d
  | Call (KDeleteFile d' f') _ | Call (KWrite d' f' _ _) _ | Call (KTruncate d' f' _) _ => d' = d /\ f' = f
  | _ => False
  end.

(** [BlobStore for SyncFile], browser/src/sync_fs.rs:230-268, with what happens around
    it.  The state has the file system and, for each coming write, the events before
    it (of this and other threads) and the faults during it.  Reading opens the file if
    it is not open, after a restart if the loop has ended; reads have no fault.
    Simplified: slices on wasm32 have less than [2^31] bytes, so a larger blob (which
    cannot occur) counts as refused. *)
Definition reopened (d f : bytes) (s : fs) : fs :=
  snd (fs_run [Call (KOpenDir d) []; Call (KOpenFile d f) []] (if fs_up s then s else fs_restart s)).
Definition fs_store (d f : bytes) : store := {|
  st := fs * list (list event * list bool);
  st_read := fun s id =>
    if (length id =? 8)%nat then
      match fst (fs_call (KLoad d f (of_be id)) [] (reopened d f (fst s))) with
      | Ok (RBytes b) => Ok b
      | Ok _ => Err
      | Err => Err | Panic => Panic | Fuel => Fuel
      end
    else Err;
  st_write := fun s b =>
    if i32_lim <=? 4 + N.of_nat (length b) then (Err, s) else
    let e := hd ([], []) (snd s) in
    let (r, s') := fs_call (KAppend d f b) (snd e) (snd (fs_run (fst e) (fst s))) in
    (match r with
     | Ok (RNum n) => Ok (to_be 8 n)
     | Ok _ => Err
     | Err => Err | Panic => Panic | Fuel => Fuel
     end, (s', tl (snd s)))
|}.

(** Events of other threads: anything but changing the file [f] other than by
    appending, and deleting its directory. *)
Definition beside (d f : bytes) (e : event) : Prop := event_ok e /\ ~ rewrites d f e.
(** The states that such events reach. *)
Definition fs_inv (d f : bytes) (s : st (fs_store d f)) : Prop :=
  ~ In quest f /\
  (exists l rs, Forall (beside d f) l /\ fs_run l new_fs = (rs, fst s)) /\
  Forall (fun e => Forall (beside d f) (fst e)) (snd s).
