(** A concrete history of a file that is opened with page sizes 64, 16, 12 and 24. *)
From Verif Require Export MemExamples.
From Verif Require Import Base BaseLemmas Header Node Store U64 File PagedFile PagedSpec PagedSizesSpec.
Local Open Scope N_scope.

(** Page size 12 is refused; then there is no store until the file is opened again. *)
Definition sz_hist : list (sop * fault) :=
  [(SOpen 64, None); (SWrite (repeat x02 30), None); (SWrite (repeat x03 30), None);
   (SOpen 16, None); (SRead (to_be 8 34), None); (SRead (to_be 8 98), None); (SWrite (B "hello"), None);
   (SOpen 12, None); (SWrite (B "x"), None); (SOpen 24, Some (3, 1)%nat); (SOpen 24, None);
   (SWrite (B "world"), Some (1, 3)%nat); (SWrite (B "again"), None); (SRead (to_be 8 34), None); (SRead (to_be 8 98), None)].
Definition sz_run (dbg : bool) := srun dbg snew sz_hist.
Definition sz_evs dbg := fst (sz_run dbg).
Definition sz_end dbg := snd (sz_run dbg).
Lemma sz_run_eq dbg : srun dbg snew sz_hist = (sz_evs dbg, sz_end dbg).
Proof. unfold sz_evs, sz_end, sz_run. now destruct (srun dbg snew sz_hist). Qed.
Lemma sz_ok dbg : shistory dbg sz_hist.
Proof.
  repeat (apply Forall_cons; [first [exact Logic.I | split; [reflexivity|intros _; split; reflexivity] | split; discriminate]|]); apply Forall_nil.
Qed.

Lemma sz_other :
  exists dbg ps id d cs evs q, shistory dbg cs /\ Forall (fun c => snd c = None) cs /\
  srun dbg snew cs = (evs, q) /\ In (ps, id, d) (swritten evs) /\
  exists ps', page_size_ok ps' /\ sread dbg (sopened dbg q ps') id = Err.
Proof.
  set (cs := [(SOpen 64, None); (SWrite (repeat x02 30), None); (SWrite (repeat x03 30), None)] : list (sop * fault)).
  exists true, 64, (to_be 8 34), (repeat x02 30), cs, (fst (srun true snew cs)), (snd (srun true snew cs)).
  split; [repeat (apply Forall_cons; [first [exact Logic.I | split; discriminate]|]); apply Forall_nil|].
  split; [repeat (apply Forall_cons; [reflexivity|]); apply Forall_nil|].
  split; [now destruct (srun true snew cs)|].
  split; [vm_compute; auto|].
  exists 16. split; [repeat split; discriminate|vm_compute; reflexivity].
Qed.
