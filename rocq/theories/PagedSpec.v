(** Histories of a paged file store: writes, reads, reopening, I/O errors and
    crashes. *)
From Verif Require Import Base BaseLemmas Header Node Store U64 File PagedFile.
Local Open Scope N_scope.

(** What a user does with a store: [write], [read], or dropping it (if there is
    one) and opening the file again with [PagedFileStore::new]. *)
Inductive op : Type :=
| OWrite (d : bytes)
| ORead (id : bytes)
| OReopen.

(** Each call comes with a fault: [None] if all its file operations succeed, else
    the point at which one fails, see [File.fh].  The code returns at the first
    failing file operation, so a crash of the process at some point of a call is
    a failure at that point followed by [OReopen]. *)
Definition fault : Type := option (nat * nat).

(** The file while there is no store, or a store. *)
Inductive phase : Type :=
| Closed (f : file)
| Opened (s : inner).

Definition contents (p : phase) : file :=
  match p with Closed f => f | Opened s => h_file (i_fh s) end.
Definition plan (flt : fault) (s : inner) : inner :=
  Inner (FH (h_file (i_fh s)) (h_pos (i_fh s)) flt) (i_pages s) (i_recent s) (i_last s).

Section Spec.
Context (dbg : bool) (ps : N).

(** One call: its outcome ([Err] if there is no store) and the state after it. *)
Definition step (p : phase) (c : op * fault) : res bytes * phase :=
  match fst c, p with
  | OReopen, _ =>
      match open dbg ps (FH (contents p) 0 (snd c)) with
      | (Ok s, _) => (Ok [], Opened s)
      | (Err, h) => (Err, Closed (h_file h))
      | (Panic, h) => (Panic, Closed (h_file h))
      | (Fuel, h) => (Fuel, Closed (h_file h))
      end
  | _, Closed f => (Err, p)
  | OWrite d, Opened s => let (r, s') := pf_write dbg ps d (plan (snd c) s) in (r, Opened s')
  | ORead id, Opened s => let (r, s') := pf_read dbg ps id (plan (snd c) s) in (r, Opened s')
  end.

Fixpoint run (p : phase) (cs : list (op * fault)) : list (op * res bytes) * phase :=
  match cs with
  | [] => ([], p)
  | c :: cs =>
      let (r, p1) := step p c in
      let (evs, p2) := run p1 cs in ((fst c, r) :: evs, p2)
  end.

(** Page sizes: multiples of 8 up to 2^32 (0 is excluded). *)
Definition page_size_ok : Prop := ps mod 8 = 0 /\ 8 <= ps /\ ps <= 4294967296.

(** Ids that may be passed to [read]: eight bytes, and in a debug build not zero and
    not within 4096 of 2^64, see C41. *)
Definition readable (id : bytes) : Prop :=
  length id = 8%nat /\ (dbg = true -> 0 < of_be id /\ of_be id + 4096 < u64_max).
Definition op_ok (c : op * fault) : Prop :=
  match fst c with ORead id => readable id | _ => True end.

Definition is_write (c : op * fault) : bool := match fst c with OWrite _ => true | _ => false end.
(** There is room for the writes of a history and one more: a file has less than
    2^63 bytes and a write adds at most two pages. *)
Definition room (cs : list (op * fault)) : Prop :=
  4096 + 2 * ps * (N.of_nat (length (filter is_write cs)) + 1) < max_file.

Definition history (cs : list (op * fault)) : Prop := Forall op_ok cs.
Definition no_faults (cs : list (op * fault)) : Prop := Forall (fun c => snd c = None) cs.

(** The writes that succeeded, in order: the id returned and the data. *)
Fixpoint written (evs : list (op * res bytes)) : list (bytes * bytes) :=
  match evs with
  | (OWrite d, Ok id) :: evs => (id, d) :: written evs
  | _ :: evs => written evs
  | [] => []
  end.
(** Outcome of one more call without faults. *)
Definition read_now (p : phase) (id : bytes) : res bytes := fst (step p (ORead id, None)).
Definition write_now (p : phase) (d : bytes) : res bytes := fst (step p (OWrite d, None)).
Definition reopened (p : phase) : phase := snd (step p (OReopen, None)).
Definition is_open (p : phase) : Prop := match p with Opened _ => True | Closed _ => False end.
Definition last_id (p : phase) : option bytes :=
  match p with Opened s => pf_last_id s | Closed _ => None end.
End Spec.

(** A new file. *)
Definition new_file : phase := Closed (File 0 (fun _ => x00)).
