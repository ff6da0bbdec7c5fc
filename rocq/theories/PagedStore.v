(** The paged file store as a blob store for trees, with I/O errors and crashes.
    This file is part of the statements. *)
From Verif Require Import Base BaseLemmas Header Node Store U64 File PagedFile PagedSpec.

(** What happens around the coming writes of a tree: the fault during the write (see
    [PagedSpec.fault]), and then any calls that are made on the store or on its
    file before the tree gets back to it: reads, writes, I/O errors, crashes and
    reopening.  An empty schedule means that all goes well. *)
Definition schedule : Type := list (fault * list (op * fault)).

Section PagedStore.
Context (dbg : bool) (ps : N).

(** If the calls leave no open store, the file is opened once more, now without
    a fault; this succeeds, see [C38_crash]. *)
Definition ensure_open (s : inner) (p : phase) : inner :=
  match p with
  | Opened s' => s'
  | Closed _ => match reopened dbg ps p with Opened s' => s' | Closed _ => s end
  end.

(** [BlobStore for PagedFileStore], src/store/paged_file_store.rs:273-285, over
    [pf_read] and [pf_write].  Simplified: reads do not change the state here (in
    the code they fill the page cache, which does not change any answer by
    [C36_read]) and do not fail (failing reads are the subject of C34). *)
Definition paged_store : store := {|
  st := inner * schedule;
  st_read := fun s id => read_now dbg ps (Opened (fst s)) id;
  st_write := fun s d =>
    let e := hd (None, []) (snd s) in
    let (r, p) := step dbg ps (Opened (fst s)) (OWrite d, fst e) in
    (r, (ensure_open (fst s) (snd (run dbg ps p (snd e))), tl (snd s)))
|}.

(** The states that histories of calls on a new file reach; the calls of the
    schedule must be allowed, too. *)
Definition paged_inv (s : st paged_store) : Prop :=
  (exists cs evs, history dbg cs /\ run dbg ps new_file cs = (evs, Opened (fst s))) /\
  Forall (fun e => history dbg (snd e)) (snd s).
End PagedStore.
