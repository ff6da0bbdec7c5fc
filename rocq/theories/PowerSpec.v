(** Power failures of a machine on which a paged file store is used.

    The operating system keeps what is written to a file in memory and writes it to
    the disk at some time, in any order; only flushing the file ([fsync]) waits for
    that.  This models the operating system and the hardware, not code in /repo,
    except for [pf_sync]. *)
From Verif Require Import Base BaseLemmas Header Node Store U64 File PagedFile PagedSpec.
Local Open Scope N_scope.

(** [PagedFileStore::sync], src/store/paged_file_store.rs:286-288.  It does not
    touch the file; in particular it does not flush it. *)
Definition pf_sync : wm inner unit := wret (Ok tt).

(** A byte of a version of a file; after its end there are zeros. *)
Definition byte_at (v : file) (i : N) : byte := if i <? f_len v then f_at v i else x00.

(** What a power failure may leave of a file that had the contents [seen] at some
    time since it was last flushed: the length is that of some version and so is
    every byte.  The bytes 16 to 23, which are inside one disk block and always
    written together, come from one version. *)
Definition remains (seen : file -> Prop) (g : file) : Prop :=
  (exists v, seen v /\ f_len g = f_len v) /\
  (exists v, seen v /\ forall i, 16 <= i < 24 -> i < f_len g -> f_at g i = byte_at v i) /\
  (forall i, i < f_len g -> exists v, seen v /\ f_at g i = byte_at v i).

(** A machine: the store or its file, and the contents the file had since it was
    last flushed. *)
Record disk : Type := Disk { d_now : phase; d_seen : file -> Prop }.

(** What happened: a call on the store with its fault and outcome, a call of
    [sync] with its outcome, a flush of the file by its owner (for instance
    [File::sync_all] on a handle made with [File::try_clone] before the file was
    given to the store), or a power failure. *)
Inductive happening : Type :=
| HCall (c : op * fault) (r : res bytes)
| HSync (r : res unit)
| HFlush
| HPower.

Section Spec.
Context (dbg : bool) (ps : N).

(** The contents of the file at any time during a call: those it would have if
    the call had been interrupted there. *)
Definition during (p : phase) (o : op) (v : file) : Prop :=
  exists flt, v = contents (snd (step dbg ps p (o, flt))).

Inductive lives : disk -> list happening -> disk -> Prop :=
| lives_nil d : lives d [] d
| lives_call p seen c r p' l d :
    step dbg ps p c = (r, p') ->
    lives (Disk p' (fun v => seen v \/ during p (fst c) v)) l d ->
    lives (Disk p seen) (HCall c r :: l) d
| lives_sync p s seen r s' l d :
    p = Opened s -> pf_sync s = (r, s') -> lives (Disk (Opened s') seen) l d ->
    lives (Disk p seen) (HSync r :: l) d
| lives_flush p seen l d :
    lives (Disk p (fun v => v = contents p)) l d -> lives (Disk p seen) (HFlush :: l) d
| lives_power p seen g l d :
    remains seen g -> lives (Disk (Closed g) (fun v => v = g)) l d ->
    lives (Disk p seen) (HPower :: l) d.

(** A new file on the disk. *)
Definition new_disk : disk := Disk new_file (fun v => v = contents new_file).

Definition happening_ok (h : happening) : Prop :=
  match h with HCall c _ => op_ok dbg c | _ => True end.
End Spec.

(** The blocks that were written and not lost with a power failure: [pending] are
    those written since the last flush, [safe] those written before it. *)
Fixpoint kept (pending safe : list (bytes * bytes)) (l : list happening) : list (bytes * bytes) :=
  match l with
  | [] => pending ++ safe
  | HCall (OWrite d, _) (Ok id) :: l => kept ((id, d) :: pending) safe l
  | HCall _ _ :: l => kept pending safe l
  | HSync _ :: l => kept pending safe l
  | HFlush :: l => kept [] (pending ++ safe) l
  | HPower :: l => kept [] safe l
  end.

(** The writes that were tried. *)
Definition tries (l : list happening) : N :=
  N.of_nat (length (filter (fun h => match h with HCall c _ => is_write c | _ => false end) l)).
