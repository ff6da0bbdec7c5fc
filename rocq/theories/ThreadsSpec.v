(** Threads that share one store.  This file is part of the statements.

    Both stores of the code keep their data behind one lock: [MemStore] is an
    [Arc<Mutex<..>>] locked once in each [read] and once in each [write]
    (src/store/mem_store.rs:8-45), [PagedFileStore] is an [Arc<Mutex<Inner>>] whose
    [read] and [write] lock it once (src/store/paged_file_store.rs:15-16,276-285).  A
    store is [Clone], [Send] and [Sync] (src/store/blob_store.rs:11-17), so several
    threads can hold trees attached to the same store.  A call of the API then
    interleaves with the calls of the other threads at each access of the store: the
    others' writes happen before, between and after the writes of one call, and each
    of its reads sees some moment in between.  Reads change nothing a
    later call can observe (PagedStore.v says how the cached blobs are treated).

    The writes of all threads, in the order in which they take the lock, form a list
    of pairs of a thread and the data it writes. *)
From Verif Require Import Base Header Node Store StoreSpec Spec Client World.

Definition log := list (nat * bytes).

(** The other threads' writes before the next write of thread [i]. *)
Fixpoint ahead (i : nat) (l : log) : list bytes :=
  match l with
  | [] => []
  | (j, d) :: l => if j =? i then [] else d :: ahead i l
  end.
(** The next write of thread [i], and what comes after it. *)
Fixpoint next (i : nat) (l : log) : option bytes :=
  match l with
  | [] => None
  | (j, d) :: l => if j =? i then Some d else next i l
  end.
Fixpoint later (i : nat) (l : log) : log :=
  match l with
  | [] => []
  | (j, d) :: l => if j =? i then l else later i l
  end.

(** The store as thread [i] experiences it. *)
Record shared (S : store) : Type := Shared {
  base : st S;                        (* the state just after the thread's last write *)
  coming : log;                       (* the writes that follow *)
  moments : list (bytes -> nat);      (* for each of the thread's writes to come: how many of the other
                                         threads' writes before it a read of an id sees *)
  as_logged : bool                    (* the thread wrote what the log says *)
}.
Arguments Shared {S}.
Arguments base {S}.
Arguments coming {S}.
Arguments moments {S}.
Arguments as_logged {S}.

(** A read sees a state between two writes of the thread.  Two reads of one id
    between the same two writes see the same moment here; that is no restriction for
    an id that was returned by a write before, as all these moments agree about it
    ([law_read]). *)
Definition thread (S : store) (i : nat) : store := {|
  st := shared S;
  st_read := fun x id =>
    st_read S (after S (base x) (firstn (hd (fun _ => 0) (moments x) id) (ahead i (coming x)))) id;
  st_write := fun x d =>
    let (r, s) := st_write S (after S (base x) (ahead i (coming x))) d in
    (r, Shared s (later i (coming x)) (tl (moments x))
          (as_logged x && match next i (coming x) with Some d' => beq d d' | None => false end))
|}.

(** The thread [i] carries out the history [h] while all threads together make the
    writes [l] to the store, first in the state [s]: all writes of the thread are in
    the log, in order, and the log has no others of it. *)
Definition runs (dbg : bool) (S : store) (s : st S) (l : log) (i : nat) (h : list cmd)
  (oks : list bool) (ts : list node) (ids : list bytes) : Prop :=
  exists ms x, exec dbg (thread S i) (start (S := thread S i) (Shared s l ms true)) h ⇓ Ok (oks, World x ts ids) /\
    as_logged x = true /\ next i (coming x) = None.

(** The state of the store after the writes of a log. *)
Definition state_after (S : store) (s : st S) (l : log) : st S := after S s (map snd l).
