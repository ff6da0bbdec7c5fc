(** Several threads work on trees attached to one store (C72).

    [thread S i] is the store as thread [i] experiences it: other threads write before
    and between its writes, and each read sees some moment in between.  [runs]: the
    thread carries out a history of calls while all threads together make the writes
    of a log.  See ThreadsSpec.v; histories and their model on plain maps are those of
    World.v. *)
From Verif Require Import MemExamples StoreExamples ThreadsExamples Base Header Node Combine Iter Api Spec Client Top
  Store StoreSpec World U64 MemStore MemStoreProofs ThreadsSpec ThreadsProofs.

(** C72: whatever the other threads write, and whenever, all calls of a thread return, they fail only if the
    store refuses a write, and the thread's trees and saved ids have the contents they would have without the
    other threads. *)
Theorem C72_progress :
  forall dbg S inv s l i ms h, lawful S inv -> inv s -> history_ok dbg h ->
  exists oks w, exec dbg (thread S i) (start (S := thread S i) (Shared s l ms true)) h ⇓ Ok (oks, w) /\
    length oks = length h /\ (In false oks -> may_refuse S inv) /\
    Forall2 (holds (st_read (thread S i) (w_st w))) (w_trees w) (m_trees (model no_maps h oks)) /\
    Forall2 (fun id m => exists t, t_load (thread S i) (w_st w) (Some id) = Ok t /\ holds (st_read (thread S i) (w_st w)) t m)
      (w_ids w) (m_saved (model no_maps h oks)).
Proof. exact (fun dbg S inv s l i ms h L I H => threads_progress S inv L i s l dbg ms h I H). Qed.
Print Assumptions C72_progress.
Example C72_progress_example : lawful mem_store mem_inv /\ mem_inv [] /\ history_ok true (th_h x41) /\
  map fst th_log = [0; 1; 1; 0; 0; 1; 0; 1; 1; 0; 1; 0; 1; 1; 0; 0] /\
  (t <- Ok (nth 0 (w_trees (snd (th_end 0 x41))) n_empty) ;;
   get_bytes (st_read (thread mem_store 0) (w_st (snd (th_end 0 x41)))) t [x41; x02] 400) = Ok (Some (repeat x02 200)).
Proof. split; [exact mem_lawful|]. split; [exact mem_inv_empty|]. split; [apply th_ok|]. split; vm_compute; reflexivity. Qed.

(** C72: the trees of all threads and the ids they saved stay readable for everybody: in the state of the store
    after the writes of all threads, and whatever is written later. *)
Theorem C72_shared :
  forall dbg S inv s l i h oks ts ids later, lawful S inv -> inv s -> history_ok dbg h ->
  runs dbg S s l i h oks ts ids ->
  let s' := state_after S s (l ++ later) in
  Forall2 (holds (st_read S s')) ts (m_trees (model no_maps h oks)) /\
  Forall2 (fun id m => exists t, t_load S s' (Some id) = Ok t /\ holds (st_read S s') t m)
    ids (m_saved (model no_maps h oks)).
Proof.
  exact (fun dbg S inv s l i h oks ts ids later L I H R => threads_later S inv L i s l dbg h oks ts ids later I H R).
Qed.
Print Assumptions C72_shared.
(** The same log is a run of both threads; afterwards each can load what the other has saved. *)
Example C72_shared_example : lawful mem_store mem_inv /\ mem_inv [] /\ history_ok true (th_h x41) /\ history_ok true (th_h x42) /\
  runs true mem_store [] th_log 0 (th_h x41) (fst (th_end 0 x41)) (w_trees (snd (th_end 0 x41))) (w_ids (snd (th_end 0 x41))) /\
  runs true mem_store [] th_log 1 (th_h x42) (fst (th_end 1 x42)) (w_trees (snd (th_end 1 x42))) (w_ids (snd (th_end 1 x42))) /\
  (let s' := state_after mem_store [] (th_log ++ [(2, B"more")]) in
   length s' = 17 /\
   map (fun i => t <- t_load mem_store s' (Some (nth 0 (w_ids (snd (th_end i (if i =? 0 then x41 else x42)))) [])) ;;
                 get_bytes (st_read mem_store s') t [if i =? 0 then x41 else x42; x02; x05] 400) [0; 1] =
   [Ok (Some (repeat x41 300)); Ok (Some (repeat x42 300))]).
Proof.
  split; [exact mem_lawful|]. split; [exact mem_inv_empty|]. split; [apply th_ok|]. split; [apply th_ok|].
  split; [exact th_runs0|]. split; [exact th_runs1|]. vm_compute. split; reflexivity.
Qed.
