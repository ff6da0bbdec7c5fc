(** Histories in which a file is opened with different page sizes. *)
From Verif Require Import Base BaseLemmas Header Node Store U64 File PagedFile PagedSpec.
Local Open Scope N_scope.

(** As [PagedSpec.op]; whoever opens the file chooses the page size. *)
Inductive sop : Type :=
| SWrite (d : bytes)
| SRead (id : bytes)
| SOpen (ps : N).

Section Spec.
Context (dbg : bool).

(** The page size of the last [SOpen] and the file or the store. *)
Definition sstate : Type := N * phase.
Definition sstep (q : sstate) (c : sop * fault) : res bytes * sstate :=
  match fst c with
  | SWrite d => let (r, p) := step dbg (fst q) (snd q) (OWrite d, snd c) in (r, (fst q, p))
  | SRead id => let (r, p) := step dbg (fst q) (snd q) (ORead id, snd c) in (r, (fst q, p))
  | SOpen ps => let (r, p) := step dbg ps (snd q) (OReopen, snd c) in (r, (ps, p))
  end.

(** A call, the page size of the store it was made on and its outcome. *)
Definition sevent : Type := N * sop * res bytes.
Fixpoint srun (q : sstate) (cs : list (sop * fault)) : list sevent * sstate :=
  match cs with
  | [] => ([], q)
  | c :: cs =>
      let (r, q1) := sstep q c in
      let (evs, q2) := srun q1 cs in ((fst q1, fst c, r) :: evs, q2)
  end.

(** Any page size from 1 to 2^32; most are refused. *)
Definition sop_ok (c : sop * fault) : Prop :=
  match fst c with
  | SWrite _ => True
  | SRead id => readable dbg id
  | SOpen ps => 1 <= ps /\ ps <= 4294967296
  end.
Definition shistory (cs : list (sop * fault)) : Prop := Forall sop_ok cs.

(** The writes that succeeded: the page size of the store, the id returned and the
    data. *)
Fixpoint swritten (evs : list sevent) : list (N * bytes * bytes) :=
  match evs with
  | (ps, SWrite d, Ok id) :: evs => (ps, id, d) :: swritten evs
  | _ :: evs => swritten evs
  | [] => []
  end.

(** The outcome of reading [id] from the store, and from the file after it is opened
    with page size [ps]. *)
Definition sread (q : sstate) (id : bytes) : res bytes := fst (sstep q (SRead id, None)).
Definition sopened (q : sstate) (ps : N) : sstate := snd (sstep q (SOpen ps, None)).
End Spec.

Definition snew : sstate := (0, new_file).
