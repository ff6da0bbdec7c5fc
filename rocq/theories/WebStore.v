(** Files in the browser cache that are only appended to, and the blob store made of
    them.  This file is part of the statements. *)
From Verif Require Import Base BaseLemmas Header Node Store U64 File Chunk WebFile WebSpec.
Local Open Scope N_scope.

(** Histories without [write] and [truncate]. *)
Definition append_only (c : call * list bool) : Prop :=
  match fst c with CAppend _ | COpen => True | _ => False end.
(** What was appended with success. *)
Fixpoint appended (cs : list (call * list bool)) (rs : list (res (option N))) : bytes :=
  match cs, rs with
  | (CAppend d, _) :: cs, Ok _ :: rs => d ++ appended cs rs
  | _ :: cs, _ :: rs => appended cs rs
  | _, _ => []
  end.

(** What happens around the coming writes of a tree: the faults during the write, and
    then further calls on the file. *)
Definition web_schedule : Type := list (list bool * list (call * list bool)).

(** [BlobStore for SyncFile], browser/src/sync_fs.rs:230-268, executed by
    web_cache_fs.rs:158-190 as [load_length_prefixed] and [append_length_prefixed].
    Simplified: the commands are not sent through a channel; reads have no fault;
    slices on wasm32 have less than [2^31] bytes, so a larger blob (which cannot
    occur) counts as refused. *)
Definition web_store : store := {|
  st := wfile * web_schedule;
  st_read := fun s id =>
    if (length id =? 8)%nat then fst (wf_load_lp (of_be id) (with_faults [] (fst s))) else Err;
  st_write := fun s d =>
    let e := hd ([], []) (snd s) in
    if i32_lim <=? 4 + N.of_nat (length d) then (Err, s) else
    let (r, f) := (o <~ wf_append_lp d ;; wret (Ok (to_be 8 o))) (with_faults (fst e) (fst s)) in
    (r, (snd (run (snd e) f), tl (snd s)))
|}.

(** The states that histories of appending calls on a new file reach. *)
Definition web_inv (s : st web_store) : Prop :=
  (exists cs rs, Forall append_only cs /\ run cs new_web_file = (rs, fst s)) /\
  Forall (fun e => Forall append_only (snd e)) (snd s).
