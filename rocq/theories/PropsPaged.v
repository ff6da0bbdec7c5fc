(** The properties of the paged file store (C36-C41, C55).

    [run dbg ps new_file cs = (evs, p)]: the calls [cs] were made on an initially
    empty file with page size [ps]; [evs] are the calls with their outcomes and [p]
    is the state at the end.  Each call may be given an I/O error or a crash.
    [history dbg cs] excludes reads of the ids of C41.  [room ps cs]: the file does
    not reach 2^63 bytes.  See PagedSpec.v. *)
From Verif Require Import PagedExamples Base BaseLemmas Header Node Store U64 File PagedFile PagedSpec PagedTop.
Local Open Scope N_scope.

(** C36: what was written can be read whenever the store is open. *)
Theorem C36_read :
  forall dbg ps cs evs p id d, page_size_ok ps -> history dbg cs -> run dbg ps new_file cs = (evs, p) ->
  In (id, d) (written evs) -> is_open p -> read_now dbg ps p id = Ok d.
Proof. exact (fun dbg ps cs evs p id d Hp Hh Hr => pf_read_back dbg ps Hp cs evs p Hh Hr id d). Qed.
Print Assumptions C36_read.
Example C36_read_example : page_size_ok 64 /\ history true pg_clean /\
  run true 64 new_file pg_clean = (pg_evs true pg_clean, pg_end true pg_clean) /\
  map (fun e => (of_be (fst e), snd e)) (written (pg_evs true pg_clean)) =
    [(9, B "hello"); (63, repeat x01 50); (98, repeat x02 30); (107, B "world")] /\
  is_open (pg_end true pg_clean) /\ read_now true 64 (pg_end true pg_clean) (to_be 8 63) = Ok (repeat x01 50).
Proof. split; [exact pg_page|]; split; [exact (pg_clean_ok true)|]; split; [apply pg_run_eq|]; vm_compute; auto. Qed.

(** C36: ids increase, so they are distinct. *)
Theorem C36_ids_increase :
  forall dbg ps cs evs p a id d b id' d' c,
  page_size_ok ps -> history dbg cs -> run dbg ps new_file cs = (evs, p) ->
  written evs = a ++ (id, d) :: b ++ (id', d') :: c -> of_be id < of_be id'.
Proof. exact (fun dbg ps cs evs p a id d b id' d' c Hp Hh Hr => pf_increasing dbg ps Hp cs evs p Hh Hr a id d b id' d' c). Qed.
Print Assumptions C36_ids_increase.
Example C36_ids_increase_example : page_size_ok 64 /\ history true pg_clean /\
  exists b, written (pg_evs true pg_clean) = [] ++ (to_be 8 9, B "hello") :: b ++ (to_be 8 107, B "world") :: [].
Proof.
  split; [exact pg_page|]; split; [exact (pg_clean_ok true)|].
  exists [(to_be 8 63, repeat x01 50); (to_be 8 98, repeat x02 30)]. vm_compute; reflexivity.
Qed.

(** C36: without faults every block of at most [page size - 8] bytes is accepted, and no other. *)
Theorem C36_accepted :
  forall dbg ps cs1 evs p, page_size_ok ps -> history dbg ((OReopen, None) :: cs1) ->
  no_faults ((OReopen, None) :: cs1) -> room ps ((OReopen, None) :: cs1) -> run dbg ps new_file ((OReopen, None) :: cs1) = (evs, p) ->
  is_open p /\
  (forall r, In (OReopen, r) evs -> r = Ok []) /\
  (forall d r, In (OWrite d, r) evs -> N.of_nat (length d) + 8 <= ps -> exists id, r = Ok id) /\
  (forall d r, In (OWrite d, r) evs -> ps < N.of_nat (length d) + 8 -> r = Err).
Proof. exact (fun dbg ps cs1 evs p Hp Hh Hn W Hr => pf_clean_replies dbg ps Hp _ evs p Hh Hr cs1 eq_refl Hn W). Qed.
Print Assumptions C36_accepted.
Example C36_accepted_example : page_size_ok 64 /\ history true pg_clean /\ no_faults pg_clean /\ room 64 pg_clean /\
  pg_clean = (OReopen, None) :: tl pg_clean /\
  In (OWrite (repeat x01 50), Ok (to_be 8 63)) (pg_evs true pg_clean) /\
  In (OWrite (repeat x03 57), Err) (pg_evs true pg_clean).
Proof.
  split; [exact pg_page|]; split; [exact (pg_clean_ok true)|]; split; [exact pg_clean_nf|]; split; [reflexivity|]; split; [reflexivity|].
  vm_compute; tauto.
Qed.

(** C36: no call ever panics. *)
Theorem C36_no_panic :
  forall dbg ps cs evs p o r, page_size_ok ps -> history dbg cs -> run dbg ps new_file cs = (evs, p) ->
  In (o, r) evs -> r = Err \/ exists a, r = Ok a.
Proof. exact (fun dbg ps cs evs p o r Hp Hh Hr => pf_no_panic dbg ps Hp cs evs p Hh Hr o r). Qed.
Print Assumptions C36_no_panic.
Example C36_no_panic_example : page_size_ok 64 /\ history true pg_hist /\ length (pg_evs true pg_hist) = 11%nat.
Proof. split; [exact pg_page|]; split; [exact (pg_hist_ok true)|]; vm_compute; reflexivity. Qed.

(** C37: after any history, opening the file again succeeds and keeps every blob; the last id is that of the last write. *)
Theorem C37_reopen :
  forall dbg ps cs evs p, page_size_ok ps -> history dbg cs -> no_faults cs -> room ps cs ->
  run dbg ps new_file cs = (evs, p) ->
  fst (step dbg ps p (OReopen, None)) = Ok [] /\
  (forall id d, In (id, d) (written evs) -> read_now dbg ps (reopened dbg ps p) id = Ok d) /\
  (forall d, N.of_nat (length d) + 8 <= ps -> exists id, write_now dbg ps (reopened dbg ps p) d = Ok id) /\
  last_id (reopened dbg ps p) = match rev (written evs) with [] => None | (id, _) :: _ => Some id end.
Proof.
  exact (fun dbg ps cs evs p Hp Hh Hn W Hr =>
    conj (proj1 (pf_crash dbg ps cs evs p Hp Hh Hr)) (conj (proj1 (proj2 (proj2 (pf_crash dbg ps cs evs p Hp Hh Hr))))
    (conj (fun d L => match proj2 (proj2 (proj2 (pf_crash dbg ps cs evs p Hp Hh Hr))) d L W with
                      | ex_intro _ id (conj E _) => ex_intro _ id E end)
          (proj2 (pf_reopen_last dbg ps cs evs p Hp Hh Hr Hn W))))).
Qed.
Print Assumptions C37_reopen.
Example C37_reopen_example : page_size_ok 64 /\ history true pg_clean /\ no_faults pg_clean /\ room 64 pg_clean /\
  last_id (reopened true 64 (pg_end true pg_clean)) = Some (to_be 8 107) /\
  read_now true 64 (reopened true 64 (pg_end true pg_clean)) (to_be 8 98) = Ok (repeat x02 30).
Proof. split; [exact pg_page|]; split; [exact (pg_clean_ok true)|]; split; [exact pg_clean_nf|]; split; [reflexivity|]; vm_compute; auto. Qed.

(** C38: whatever failed and wherever the process stopped, reopening succeeds, every acknowledged write is there, and writing goes on. *)
Theorem C38_crash :
  forall dbg ps cs evs p, page_size_ok ps -> history dbg cs -> run dbg ps new_file cs = (evs, p) ->
  fst (step dbg ps p (OReopen, None)) = Ok [] /\ is_open (reopened dbg ps p) /\
  (forall id d, In (id, d) (written evs) -> read_now dbg ps (reopened dbg ps p) id = Ok d) /\
  (forall d, N.of_nat (length d) + 8 <= ps -> room ps cs -> exists id, write_now dbg ps (reopened dbg ps p) d = Ok id /\
     forall id' d', In (id', d') (written evs) -> of_be id' < of_be id).
Proof. exact pf_crash. Qed.
Print Assumptions C38_crash.
Example C38_crash_example : page_size_ok 64 /\ history true pg_crash /\ room 64 pg_crash /\
  nth 2 (pg_evs true pg_crash) (OReopen, Panic) = (OWrite (repeat x01 56), Err) /\
  read_now true 64 (pg_end true pg_crash) (to_be 8 9) = Ok (B "hello") /\
  write_now true 64 (pg_end true pg_crash) (repeat x02 30) = Ok (to_be 8 98).
Proof. split; [exact pg_page|]; split; [exact (pg_crash_ok true)|]; split; [reflexivity|]; vm_compute; auto. Qed.

(** C55: the same without reopening: after I/O errors in any calls, the open store still has everything and accepts writes. *)
Theorem C55_io_errors :
  forall dbg ps cs evs p, page_size_ok ps -> history dbg cs -> run dbg ps new_file cs = (evs, p) -> is_open p ->
  (forall id d, In (id, d) (written evs) -> read_now dbg ps p id = Ok d) /\
  (forall d, N.of_nat (length d) + 8 <= ps -> room ps cs -> exists id, write_now dbg ps p d = Ok id /\
     forall id' d', In (id', d') (written evs) -> of_be id' < of_be id).
Proof.
  exact (fun dbg ps cs evs p Hp Hh Hr Ho =>
    conj (fun id d H => pf_read_back dbg ps Hp cs evs p Hh Hr id d H Ho)
         (fun d => proj1 (pf_write_now dbg ps Hp cs evs p Hh Hr d Ho))).
Qed.
Print Assumptions C55_io_errors.
Example C55_io_errors_example : page_size_ok 64 /\ history true (firstn 7 pg_hist) /\ room 64 pg_hist /\ is_open (pg_end true (firstn 7 pg_hist)) /\
  nth 5 (pg_evs true (firstn 7 pg_hist)) (OReopen, Panic) = (OWrite (repeat x03 10), Err) /\
  map (fun e => (of_be (fst e), snd e)) (written (pg_evs true (firstn 7 pg_hist))) =
    [(9, B "hello"); (98, repeat x02 30); (114, B "world")].
Proof.
  split; [exact pg_page|]; split; [ok_ops|]; split; [reflexivity|]; vm_compute; auto.
Qed.

(** C39 is false: a crash after a page was closed and before the block was written leaves a last id that cannot be read. *)
Theorem C39_refuted :
  exists dbg ps cs evs p id, page_size_ok ps /\ history dbg cs /\ run dbg ps new_file cs = (evs, p) /\ is_open p /\
  last_id p = Some id /\ read_now dbg ps p id = Err.
Proof. exact pg_last_bad. Qed.
Print Assumptions C39_refuted.

(** C39, what holds: without faults [last_id] is the id of the last write (also after reopening, C37). *)
Theorem C39_last_id_no_faults_partial :
  forall dbg ps cs evs p, page_size_ok ps -> history dbg cs -> run dbg ps new_file cs = (evs, p) ->
  no_faults cs -> room ps cs -> is_open p ->
  last_id p = match rev (written evs) with [] => None | (id, _) :: _ => Some id end.
Proof. exact (fun dbg ps cs evs p Hp Hh Hr => pf_last_clean dbg ps Hp cs evs p Hh Hr). Qed.
Print Assumptions C39_last_id_no_faults_partial.
Example C39_last_id_no_faults_partial_example : page_size_ok 64 /\ history true pg_clean /\ no_faults pg_clean /\ room 64 pg_clean /\
  is_open (pg_end true pg_clean) /\ last_id (pg_end true pg_clean) = Some (to_be 8 107).
Proof. split; [exact pg_page|]; split; [exact (pg_clean_ok true)|]; split; [exact pg_clean_nf|]; split; [reflexivity|]; vm_compute; auto. Qed.

(** C39, what holds: in general [last_id] is on a page boundary (this is the refuted case), or reads as a block that was passed to some write; and it is not before any acknowledged write. *)
Theorem C39_last_id_partial :
  forall dbg ps cs evs p, page_size_ok ps -> history dbg cs -> run dbg ps new_file cs = (evs, p) -> is_open p ->
  (forall id, last_id p = Some id ->
     of_be id mod ps = 0 \/ exists d flt, In (OWrite d, flt) cs /\ read_now dbg ps p id = Ok d) /\
  (forall id d, In (id, d) (written evs) -> exists id', last_id p = Some id' /\ of_be id <= of_be id').
Proof. exact (fun dbg ps cs evs p Hp Hh Hr => pf_last_any dbg ps Hp cs evs p Hh Hr). Qed.
Print Assumptions C39_last_id_partial.
Example C39_last_id_partial_example : page_size_ok 64 /\ history true pg_hist /\ is_open (pg_end true pg_hist) /\
  last_id (pg_end true pg_hist) = Some (to_be 8 114).
Proof. split; [exact pg_page|]; split; [exact (pg_hist_ok true)|]; vm_compute; auto. Qed.

(** C40: a block that is too large is refused and nothing changes, in any state of the store. *)
Theorem C40_rejected :
  forall dbg ps s d, page_size_ok ps -> ps < N.of_nat (length d) + 8 -> pf_write dbg ps d s = (Err, s).
Proof. exact (fun dbg ps s d Hp => top_write_big dbg ps Hp d s). Qed.
Print Assumptions C40_rejected.
Example C40_rejected_example : page_size_ok 64 /\ 64 < N.of_nat (length (repeat x03 57)) + 8 /\
  is_open (pg_end true pg_clean) /\ write_now true 64 (pg_end true pg_clean) (repeat x03 57) = Err.
Proof. split; [exact pg_page|]; split; [reflexivity|]. vm_compute. auto. Qed.

(** C41 is false: an id that does not have eight bytes panics in every state; so do, in a debug build, zero and ids close to 2^64. *)
Theorem C41_refuted :
  (forall dbg ps s id, length id <> 8%nat -> fst (pf_read dbg ps id s) = Panic) /\
  (exists ps cs evs p, page_size_ok ps /\ history true cs /\ run true ps new_file cs = (evs, p) /\ is_open p /\
     read_now true ps p (to_be 8 0) = Panic /\ read_now true ps p (to_be 8 18446744073709551000) = Panic).
Proof.
  exact (conj (fun dbg ps s id H => f_equal fst (top_read_bad dbg ps id s H))
    pg_ids_bad).
Qed.
Print Assumptions C41_refuted.

(** C41, what holds: all other ids give a blob or an error in every reachable state, also under I/O errors ([readable]: eight bytes, and in a debug build not zero and below 2^64 - 4096). *)
Theorem C41_read_any_partial :
  forall dbg ps cs evs p id flt, page_size_ok ps -> history dbg cs -> run dbg ps new_file cs = (evs, p) ->
  is_open p -> readable dbg id ->
  (fst (step dbg ps p (ORead id, flt)) = Err \/ exists d, fst (step dbg ps p (ORead id, flt)) = Ok d) /\
  is_open (snd (step dbg ps p (ORead id, flt))).
Proof. exact (fun dbg ps cs evs p id flt Hp Hh Hr => pf_read_any dbg ps Hp cs evs p Hh Hr id flt). Qed.
Print Assumptions C41_read_any_partial.
Example C41_read_any_partial_example : page_size_ok 64 /\ history false pg_hist /\ is_open (pg_end false pg_hist) /\
  readable false (to_be 8 0) /\ readable false (to_be 8 18446744073709551000) /\
  read_now false 64 (pg_end false pg_hist) (to_be 8 0) = Err /\
  read_now false 64 (pg_end false pg_hist) (to_be 8 18446744073709551000) = Ok [].
Proof.
  split; [exact pg_page|]; split; [exact (pg_hist_ok false)|]; split; [vm_compute; exact Logic.I|];
  split; [split; [reflexivity|discriminate]|]; split; [split; [reflexivity|discriminate]|]; vm_compute; auto.
Qed.
