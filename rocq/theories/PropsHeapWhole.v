(** Programs that use the whole in-memory API, on memory that is shared (C87).

    [w_run] (HeapWhole.v) runs a program on reference counted memory.  It has trees,
    iterators over entries, values, scans and groups, keys and blobs that share their
    memory, values, questions that decide what is done, and reads of bytes.  [w_runs]
    (HeapWholeSpec.v) says what the same program does where a tree is a map from keys to
    values, an iterator the list of what it has still to give, and nothing is shared.
    [w_may] leaves out only the uses of [filter_prefix], [has_prefix] and
    [retain_prefix_with] where they are known not to do what they say (C04, C10, C20).
    [w_holds dbg h ms s]: in memory [h], all variables, keys, blobs and all bytes that
    were read are as in [ms]. *)
From Verif Require Import HeapWholeExamples Base Header Node Store Spec Client Heap HeapSpec HeapIter HeapIterSpec HeapTree HeapTreeSpec HeapGroup HeapWhole HeapWholeSpec HeapWholeTop.

(** C87: no program that uses the whole in-memory API has undefined behaviour or panics, and all it has and reads is as if trees were maps and nothing were shared. *)
Theorem C87_values :
  forall dbg p ms, w_runs w_may p ms_start ms -> exists s h, w_runs_to dbg p s h /\ w_holds dbg h ms s.
Proof. exact whole_values. Qed.
Print Assumptions C87_values.
Example C87_values_example :
  w_runs w_may (w_build ++ w_use) ms_start m_used /\
  match w_run true 60 (w_build ++ w_use) w_start [] with
  | Done (s, h) => w_vecs s = [Some (B"ababc"); Some big; Some (B"ababc"); Some (B"zb"); Some (B"1"); Some (B"b"); Some (B"b")] | _ => False
  end.
Proof. split; [apply grows_may; exact (w_runs_app _ _ _ _ _ _ w_build_runs w_use_runs)|vm_compute; reflexivity]. Qed.

(** C87: what a program does is determined, and defined: as long as it uses only what is there, each instruction has a result and each question an answer. *)
Theorem C87_determined :
  forall p ms ms', w_runs w_may p ms_start ms -> w_runs w_may p ms_start ms' -> ms = ms'.
Proof. intros p ms ms'. exact (w_runs_det w_may w_may p ms_start ms ms'). Qed.
Print Assumptions C87_determined.
Theorem C87_defined :
  forall p ms i, w_runs w_may p ms_start ms -> w_may i ms -> w_alive i ms ->
  match i with
  | WIf q _ => exists P, q_asks q (ms_env ms) = Some P /\ (P \/ ~ P)
  | _ => exists ms', w_does i ms ms'
  end.
Proof. exact w_total. Qed.
Print Assumptions C87_defined.
Example C87_defined_example :
  w_runs w_may (w_build ++ w_use) ms_start m_used /\ w_alive (WGroup 0 short) m_used /\ w_alive (WNext 1) m_used /\
  w_alive (WIf (QPrefix 0 (B"ab")) (WBlob 0)) m_used /\ ~ w_alive (WNext 0) m_used /\ ~ w_alive (WReadKey 1) m_used.
Proof.
  split; [apply grows_may; exact (w_runs_app _ _ _ _ _ _ w_build_runs w_use_runs)|].
  repeat split; try discriminate; intros H; apply H; reflexivity.
Qed.

(** C87: when everything goes out of scope, only empty vectors of children are left (C58). *)
Theorem C87_leftover :
  forall dbg p ms, w_runs w_may p ms_start ms ->
  exists s h, w_runs_to dbg (p ++ w_drop_all ms) s h /\ Forall (fun x => snd x = CNodes []) (in_use h).
Proof. exact whole_leftover. Qed.
Print Assumptions C87_leftover.
Example C87_leftover_example :
  exists ms, w_runs w_may (map WTree in_out) ms_start ms /\
  match w_run false 20 (map WTree in_out ++ w_drop_all ms) w_start [] with Done (_, h) => in_use h = [(1, CNodes [])] | _ => False end.
Proof.
  eexists. split; [unfold in_out, map; do 3 (eapply w_next; [exact I|apply do_tree; reflexivity|]); apply w_done|]. vm_compute. reflexivity.
Qed.

(** C87: and nothing is left if the program only builds, copies, joins and reads trees, none of which [canonicalize] empties. *)
Theorem C87_freed :
  forall dbg p ms, w_runs w_grows p ms_start ms ->
  exists s h, w_runs_to dbg (p ++ w_drop_all ms) s h /\ in_use h = [].
Proof. exact whole_freed. Qed.
Print Assumptions C87_freed.
Example C87_freed_example :
  w_runs w_grows (w_build ++ w_use) ms_start m_used /\
  match w_run true 60 (w_build ++ w_use) w_start [] with Done (_, h) => 5 < length (in_use h) | _ => False end /\
  match w_run true 60 ((w_build ++ w_use) ++ w_drop_all m_used) w_start [] with Done (_, h) => in_use h = [] | _ => False end.
Proof.
  split; [exact (w_runs_app _ _ _ _ _ _ w_build_runs w_use_runs)|]. split; vm_compute; [repeat constructor|reflexivity].
Qed.

(** C87: an iterator over a tree or over the entries with a prefix gives what the tree held when it was made, then the end, whatever the program does in between. *)
Theorem C87_snapshot :
  forall dbg p i r m l q ms ms2,
  w_runs w_may p ms_start ms -> mvar r (ms_env ms) = Some m ->
  (i = WIter r /\ lists l m \/ exists pre, i = WScan r pre /\ scans m pre l) ->
  Forall (keeps_iter (length (ms_iters ms))) q -> w_runs w_may q (m_iter l ms) ms2 ->
  exists s h, w_runs_to dbg (p ++ i :: q ++ repeat (WNext (length (ms_iters ms))) (S (length l))) s h /\
    Forall2 (key_shows h) (map (fun e => Some (fst e)) l ++ [None]) (skipn (length (ms_keys ms2)) (x_keys (w_x s))) /\
    Forall2 (var_holds dbg h) (map (fun e => Some (MValue (snd e))) l ++ [None]) (skipn (length (ms_env ms2)) (w_env s)).
Proof. exact w_snapshot. Qed.
Print Assumptions C87_snapshot.
Example C87_snapshot_example :
  exists q ms2, w_runs w_may w_build ms_start m_built /\ mvar 0 (ms_env m_built) = Some mmap /\
  scans mmap (B"ab") [(B"abab", B"1"); (B"ababc", big); (B"ababd", B"3")] /\
  q = map WTree [TRemovePrefix 0 (B"a"); TInsert 1 (B"abc") []; TDrop 1; TDrop 0] /\
  Forall (keeps_iter 0) q /\ w_runs w_may q (m_iter [(B"abab", B"1"); (B"ababc", big); (B"ababd", B"3")] m_built) ms2.
Proof.
  do 2 eexists. split; [apply grows_may, w_build_runs|]. split; [reflexivity|]. split; [exact mmap_scans|]. split; [reflexivity|].
  split; [repeat constructor|]. unfold map, m_built. do 4 (by_step (apply do_tree; reflexivity)). apply w_done.
Qed.
