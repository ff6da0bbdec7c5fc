(** The properties of the program of the browser crate (C91).

    [ends f s r s']: the program [f], started in the state [s], ends with the result [r]
    and in the state [s'].  [tree_test_sync] returns the four numbers that it logs and
    the tree that it logs last.  See BrowserMain.v. *)
From Verif Require Import BrowserMainExamples Base BaseLemmas Header Node Combine Iter Api Spec Client Store StoreSpec
  MemStore MemStoreProofs U64 File Chunk WebFile WebFs WebFsSpec Paging PagingSpec PagingStore SyncDev AcceptSpec
  WebFsAccept BrowserMain BrowserMainProofs Decimals BrowserAccept.

(** C91: whatever was done with the browser cache before and whatever fails, for any directory, file, page size and pairs: the program ends, does not panic, and returns an error or counts the different keys four times and ends up with a tree that has the last value for each key. *)
Theorem C91_program :
  forall dbg d f ps elems h s, page_size_ok ps -> ~ In quest f ->
  Forall event_ok h -> (exists rs, fs_run h new_fs = (rs, sf_fs s)) ->
  Forall (fun e => fst e = []) (sf_todo s) -> (N.of_nat (length h) + 4 + sf_left s < u64_max)%N ->
  exists r s', ends (tree_test_sync dbg d f ps elems) s r s' /\
    (r = Err \/ exists u, r = Ok (repeat (different elems) 4, u) /\ holds mem u (pairs_map elems)).
Proof. exact browser_program. Qed.
Print Assumptions C91_program.
Example C91_program_example : page_size_ok 512 /\ ~ In quest sy_f /\
  (Forall event_ok sy_hist /\ (exists rs, fs_run sy_hist new_fs = (rs, sf_fs (bm_state [])))) /\
  (forall t, Forall (fun e => fst e = []) (sf_todo (bm_state (bm_faults t)))) /\
  (N.of_nat (length sy_hist) + 4 + sf_left (bm_state []) < u64_max)%N /\
  bm_shown (tree_test_sync true sy_d sy_f 512 bm_elems 200 (bm_state (bm_faults [[]; []; []; [false]]))) =
    (Ok ([6; 6; 6; 6], [(0, 1); (1, 0); (1, 3); (2, 300); (3, 400); (1, 3)]), 998%N) /\
  bm_shown (tree_test_sync true sy_d sy_f 512 bm_elems 200 (bm_state (bm_faults [[]; []; []; []; []; []; []; [true]]))) =
    (Err, 998%N).
Proof.
  split; [split; reflexivity|]. split; [apply quest_free_ok; vm_compute; reflexivity|]. split; [exact bm_hist|].
  split; [exact bm_faults_alone|]. split; [vm_compute; reflexivity|]. split; [exact bm_fine|exact bm_failed].
Qed.

(** C91: when no browser operation fails, the keys, the values and the records of a node fit a page, and the files stay below the size that the browser cache is assumed to have, the program succeeds. *)
Theorem C91_succeeds :
  forall dbg d f ps elems b h s, page_size_ok ps -> ~ In quest f ->
  Forall event_ok h -> (exists rs, fs_run h new_fs = (rs, sf_fs s)) ->
  sf_todo s = [] -> (N.of_nat (length h) + 4 + sf_left s < u64_max)%N ->
  (kids_max <= b)%N -> (b + 12 <= ps)%N -> entries_within b elems ->
  (N.of_nat (writes_max (different elems)) < sf_left s)%N ->
  (total (fs_objs (sf_fs s)) + (N.of_nat (writes_max (different elems)) + 1) * ps < quota)%N ->
  exists u s', ends (tree_test_sync dbg d f ps elems) s (Ok (repeat (different elems) 4, u)) s' /\ holds mem u (pairs_map elems).
Proof. exact browser_succeeds. Qed.
Print Assumptions C91_succeeds.
Example C91_succeeds_example : page_size_ok 131072 /\ ~ In quest sy_f /\
  (Forall event_ok sy_hist /\ (exists rs, fs_run sy_hist new_fs = (rs, sf_fs (bm_state [])))) /\
  sf_todo (bm_state []) = [] /\ (N.of_nat (length sy_hist) + 4 + sf_left (bm_state []) < u64_max)%N /\
  (kids_max + 12 <= 131072)%N /\ entries_within kids_max bm_elems /\
  (N.of_nat (writes_max (different bm_elems)) < sf_left (bm_state []))%N /\
  (total (fs_objs (sf_fs (bm_state []))) + (N.of_nat (writes_max (different bm_elems)) + 1) * 131072 < quota)%N.
Proof.
  split; [split; reflexivity|]. split; [apply quest_free_ok; vm_compute; reflexivity|]. split; [exact bm_hist|]. split; [reflexivity|].
  split; [vm_compute; reflexivity|]. split; [vm_compute; discriminate|]. split; [exact bm_within|]. split; vm_compute; reflexivity.
Qed.

(** C91: the program itself, with the directory "sync", the file "test", pages of a megabyte and the two million numbers, counts two million four times and ends up with a tree in which each decimal number below two million, and nothing else, is a key and has itself as value. *)
Theorem C91_two_million :
  forall dbg h s, Forall event_ok h -> (exists rs, fs_run h new_fs = (rs, sf_fs s)) ->
  sf_todo s = [] -> (N.of_nat (length h) + 4 + sf_left s < u64_max)%N ->
  (12000004 < sf_left s)%N -> (total (fs_objs (sf_fs s)) + 12000005 * 1048576 < quota)%N ->
  exists u s' m, ends (tree_test_sync dbg b_sync b_test 1048576 (numbers (N.to_nat 2000000))) s (Ok (repeat (N.to_nat 2000000) 4, u)) s' /\
    holds mem u m /\ forall k v, m k = Some v <-> v = k /\ exists i, (N.of_nat i < 2000000)%N /\ k = decimal i.
Proof. exact browser_itself. Qed.
Print Assumptions C91_two_million.
Example C91_two_million_example :
  (Forall event_ok sy_hist /\ (exists rs, fs_run sy_hist new_fs = (rs, sf_fs (SyncFile sy_fs [] 13000000)))) /\
  (N.of_nat (length sy_hist) + 4 + 13000000 < u64_max)%N /\ (total (fs_objs sy_fs) + 12000005 * 1048576 < quota)%N /\
  (sy_d, sy_f) = (b_sync, b_test) /\ numbers 12 = map (fun k => (k, k)) [B"0"; B"1"; B"2"; B"3"; B"4"; B"5"; B"6"; B"7"; B"8"; B"9"; B"10"; B"11"].
Proof.
  split; [exact bm_hist|]. split; [vm_compute; reflexivity|]. split; [vm_compute; reflexivity|]. split; vm_compute; reflexivity.
Qed.

(** C91: the same program on any store that keeps its contract and whose sync keeps what was written; with room for the tree and a sync that works it succeeds. *)
Theorem C91_any_store :
  forall dbg S inv sync elems s, lawful S inv -> keeping S inv sync -> inv s ->
  exists r s', ends (do_test dbg S sync elems) s r s' /\
    (r = Err \/ exists u, r = Ok (repeat (different elems) 4, u) /\ holds mem u (pairs_map elems)) /\
    forall b, (kids_max <= b)%N -> entries_within b elems -> takes S b (writes_max (different elems)) s ->
      (forall s1, inv s1 -> fst (sync s1) = Ok tt) -> r <> Err.
Proof. exact (fun dbg S inv sync elems s L => do_test_ok dbg S inv L sync elems s). Qed.
Print Assumptions C91_any_store.
Example C91_any_store_example : lawful mem_store mem_inv /\ keeping mem_store mem_inv noop_sync /\ mem_inv ex_s /\
  different bm_elems = 6 /\ entries_within kids_max bm_elems /\ takes mem_store kids_max (writes_max (different bm_elems)) ex_s.
Proof.
  split; [exact mem_lawful|]. split; [exact (noop_sync_keeping _ _ mem_lawful)|]. split; [exact ex_inv|]. split; [reflexivity|].
  split; [exact bm_within|]. apply AcceptTop.mem_takes; [exact ex_inv|]. reflexivity.
Qed.

(** C91: on stores where sync does nothing, like the store in memory and the paged file, the program succeeds if the store accepts the writes. *)
Theorem C91_accepted :
  forall dbg S inv elems s b, lawful S inv -> inv s -> (kids_max <= b)%N -> entries_within b elems ->
  takes S b (writes_max (different elems)) s ->
  exists u s', ends (do_test dbg S noop_sync elems) s (Ok (repeat (different elems) 4, u)) s' /\ holds mem u (pairs_map elems).
Proof. exact main_accepts. Qed.
Print Assumptions C91_accepted.
Example C91_accepted_example : lawful mem_store mem_inv /\ mem_inv ex_s /\ entries_within kids_max bm_elems /\
  takes mem_store kids_max (writes_max (different bm_elems)) ex_s.
Proof.
  split; [exact mem_lawful|]. split; [exact ex_inv|]. split; [exact bm_within|]. apply AcceptTop.mem_takes; [exact ex_inv|]. reflexivity.
Qed.
