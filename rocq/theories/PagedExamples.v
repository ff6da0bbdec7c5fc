(** A concrete history of a paged file store, and witnesses. *)
From Verif Require Export MemExamples.
From Verif Require Import Base BaseLemmas Header Node Store U64 File PagedFile PagedSpec.
Local Open Scope N_scope.

(** Page size 64.  Blobs of 5 and 50 bytes fill the first page up to offset 63; the
    next one opens the second page. *)
Definition pg_clean : list (op * fault) :=
  [(OReopen, None); (OWrite (B "hello"), None); (OWrite (repeat x01 50), None); (ORead (to_be 8 9), None);
   (OWrite (repeat x02 30), None); (OWrite (repeat x03 57), None); (OReopen, None); (ORead (to_be 8 63), None);
   (OWrite (B "world"), None); (ORead (to_be 8 98), None)].
(** The same with a crash while the second page is begun (the padding was
    committed), a torn write of data without a crash, an error while reopening,
    and an error inside a read. *)
Definition pg_hist : list (op * fault) :=
  [(OReopen, None); (OWrite (B "hello"), None); (OWrite (repeat x01 56), Some (10, 0)%nat); (OReopen, None);
   (OWrite (repeat x02 30), None); (OWrite (repeat x03 10), Some (1, 7)%nat); (OWrite (B "world"), None);
   (OReopen, Some (5, 1)%nat); (OReopen, None); (ORead (to_be 8 98), Some (0, 0)%nat); (ORead (to_be 8 77), None)].
Definition pg_crash : list (op * fault) :=
  [(OReopen, None); (OWrite (B "hello"), None); (OWrite (repeat x01 56), Some (10, 0)%nat); (OReopen, None)].

Definition pg_run (dbg : bool) (cs : list (op * fault)) := run dbg 64 new_file cs.
Definition pg_evs dbg cs := fst (pg_run dbg cs).
Definition pg_end dbg cs := snd (pg_run dbg cs).
Lemma pg_run_eq dbg cs : run dbg 64 new_file cs = (pg_evs dbg cs, pg_end dbg cs).
Proof. unfold pg_evs, pg_end, pg_run. now destruct (run dbg 64 new_file cs). Qed.

Lemma pg_page : page_size_ok 64.
Proof. repeat split; reflexivity || discriminate. Qed.
Ltac ok_ops := repeat (apply Forall_cons; [first [exact Logic.I | split; [reflexivity|intros _; split; reflexivity]]|]); apply Forall_nil.
Lemma pg_clean_ok dbg : history dbg pg_clean.
Proof. ok_ops. Qed.
Lemma pg_hist_ok dbg : history dbg pg_hist.
Proof. ok_ops. Qed.
Lemma pg_crash_ok dbg : history dbg pg_crash.
Proof. ok_ops. Qed.
Lemma pg_clean_nf : no_faults pg_clean.
Proof. repeat (apply Forall_cons; [reflexivity|]); apply Forall_nil. Qed.

Lemma pg_crash_bad :
  is_open (pg_end false pg_crash) /\ last_id (pg_end false pg_crash) = Some (to_be 8 64) /\
  read_now false 64 (pg_end false pg_crash) (to_be 8 64) = Err.
Proof. vm_compute. auto. Qed.
Lemma pg_last_bad :
  exists dbg ps cs evs p id, page_size_ok ps /\ history dbg cs /\ run dbg ps new_file cs = (evs, p) /\ is_open p /\
  last_id p = Some id /\ read_now dbg ps p id = Err.
Proof.
  exists false, 64, pg_crash, (pg_evs false pg_crash), (pg_end false pg_crash), (to_be 8 64).
  split; [exact pg_page|]. split; [exact (pg_crash_ok false)|]. split; [apply pg_run_eq|]. exact pg_crash_bad.
Qed.
Lemma pg_ids_bad :
  exists ps cs evs p, page_size_ok ps /\ history true cs /\ run true ps new_file cs = (evs, p) /\ is_open p /\
     read_now true ps p (to_be 8 0) = Panic /\ read_now true ps p (to_be 8 18446744073709551000) = Panic.
Proof.
  exists 64, pg_clean, (pg_evs true pg_clean), (pg_end true pg_clean).
  split; [exact pg_page|]. split; [exact (pg_clean_ok true)|]. split; [apply pg_run_eq|]. vm_compute. auto.
Qed.
