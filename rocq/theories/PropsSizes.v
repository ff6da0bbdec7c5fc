(** The page sizes of the paged file store (C92).

    [srun dbg snew cs = (evs, q)]: the calls [cs] were made on an initially empty
    file; every opening of the file chooses a page size.  [evs] are the calls, each
    with the page size of the store and its outcome, and [q] is the state at the end.
    [swritten evs] are the successful writes: page size, id, data.  Each call may be
    given an I/O error or a crash.  See PagedSizesSpec.v. *)
From Verif Require Import PagedSizesExamples Base BaseLemmas Header Node Store U64 File PagedFile PagedSpec PagedSizesSpec PagedSizes PagedSizesBad.
Local Open Scope N_scope.

(** C92: no call panics, a read of an id gives the data written or an error, ids
    increase, and after the file is opened with the page size with which the data
    was written the data can be read. *)
Theorem C92_sizes :
  forall dbg cs evs q, shistory dbg cs -> srun dbg snew cs = (evs, q) ->
  (forall ps o r, In (ps, o, r) evs -> r = Err \/ exists a, r = Ok a) /\
  (forall pre ps id d post ps0 d0, evs = pre ++ (ps, SRead id, Ok d) :: post ->
     In (ps0, id, d0) (swritten pre) -> d = d0) /\
  (forall pre ps d id post ps0 id0 d0, evs = pre ++ (ps, SWrite d, Ok id) :: post ->
     In (ps0, id0, d0) (swritten pre) -> of_be id0 < of_be id) /\
  (forall ps id d, In (ps, id, d) (swritten evs) -> sread dbg (sopened dbg q ps) id = Ok d).
Proof. exact sizes_kept. Qed.
Print Assumptions C92_sizes.
Example C92_sizes_example : shistory true sz_hist /\ srun true snew sz_hist = (sz_evs true, sz_end true) /\
  map (fun e => (fst (fst e), of_be (snd (fst e)), snd e)) (swritten (sz_evs true)) =
    [(64, 34, repeat x02 30); (64, 98, repeat x03 30); (16, 107, B "hello"); (24, 119, B "again")] /\
  In (16, SRead (to_be 8 98), Ok (repeat x03 30)) (sz_evs true) /\ In (12, SOpen 12, Err) (sz_evs true) /\
  sread true (sopened true (sz_end true) 64) (to_be 8 34) = Ok (repeat x02 30).
Proof. split; [exact (sz_ok true)|]; split; [apply sz_run_eq|]. vm_compute. repeat split; auto 20. Qed.

(** C92: with another page size the data may be unreadable, without any I/O error. *)
Theorem C92_other_size_refuted :
  exists dbg ps id d cs evs q, shistory dbg cs /\ Forall (fun c => snd c = None) cs /\
  srun dbg snew cs = (evs, q) /\ In (ps, id, d) (swritten evs) /\
  exists ps', page_size_ok ps' /\ sread dbg (sopened dbg q ps') id = Err.
Proof. exact sz_other. Qed.
Print Assumptions C92_other_size_refuted.

(** C92: a page size that is not a multiple of 8 is refused; the file is unchanged. *)
Theorem C92_refused :
  forall dbg ps p flt, ps mod 8 <> 0 -> step dbg ps p (OReopen, flt) = (Err, Closed (contents p)).
Proof. exact open_refused. Qed.
Print Assumptions C92_refused.
Example C92_refused_example : 100 mod 8 <> 0 /\ f_len (contents (snd (sz_end true))) = 4215.
Proof. split; [discriminate|vm_compute; reflexivity]. Qed.

(** C92: page size 0 is accepted, but then every write and every read panics. *)
Theorem C92_zero_refuted :
  forall dbg, exists s, step dbg 0 new_file (OReopen, None) = (Ok [], Opened s) /\
  (forall d, N.of_nat (length d) + 8 <= u64_max -> fst (step dbg 0 (Opened s) (OWrite d, None)) = Panic) /\
  (forall id, length id = 8%nat -> fst (step dbg 0 (Opened s) (ORead id, None)) = Panic).
Proof. exact size_zero. Qed.
Print Assumptions C92_zero_refuted.
Example C92_zero_refuted_example : N.of_nat (length (B "hello")) + 8 <= u64_max /\ length (to_be 8 9) = 8%nat.
Proof. split; [discriminate|reflexivity]. Qed.

(** C92: page sizes above 2^32 are accepted; a blob of 2^32 bytes can be written, and
    when the file has been opened again it is read as an empty blob. *)
Theorem C92_large_refuted :
  forall dbg, exists ps d id q, ps mod 8 = 0 /\ N.of_nat (length d) = 4294967296 /\
  run dbg ps new_file [(OReopen, None); (OWrite d, None); (OReopen, None); (ORead id, None)] =
    ([(OReopen, Ok []); (OWrite d, Ok id); (OReopen, Ok []); (ORead id, Ok [])], q).
Proof. exact large_zero. Qed.
Print Assumptions C92_large_refuted.
