(** Saving is incremental (C70).

    [counting S]: the store [S] with a counter of the calls of [write].  [book sz
    no_books h oks]: the account of the history [h] with the outcomes [oks], where
    [sz p] is the number of entries and of key bytes of the tree built by [p];
    [change sz i c = Some x]: [c] changes tree [i], and [x] depends on the key (or
    the small tree) in [c] only.  See CostSpec.v. *)
From Verif Require Import CostExamples Base Header Node Combine Iter Api Spec Client Top Store StoreSpec World
  U64 MemStore MemStoreProofs CostSpec CostTop.

(** C70: counting does not change what a history does, and a history of calls writes at most what its account says: storing a tree costs what was changed since it was loaded, cloned or stored last. *)
Theorem C70_writes :
  forall dbg S inv sz s h, lawful S inv -> inv s -> history_ok dbg h -> Forall (measured sz) h ->
  exists oks w n, exec dbg S (start s) h ⇓ Ok (oks, w) /\
    exec dbg (counting S) (start (S := counting S) (s, 0)) h ⇓
      Ok (oks, World (S := counting S) (w_st w, n) (w_trees w) (w_ids w)) /\
    n <= spent (book sz no_books h oks).
Proof. exact (fun dbg S inv sz s h L I => writes_bounded dbg S inv L sz s I h). Qed.
Print Assumptions C70_writes.
Example C70_writes_example : lawful mem_store mem_inv /\ mem_inv [] /\ history_ok true cost_more /\ Forall (measured cost_sz) cost_more /\
  snd (w_st (snd (cost_run cost_more cost_start))) = 81 /\
  spent (book cost_sz no_books cost_more (fst (cost_run cost_more cost_start))) = 443.
Proof.
  split; [exact mem_lawful|]; split; [exact mem_inv_empty|]; split; [exact (cost_more_ok true)|]; split; [exact cost_measured|];
  split; vm_compute; reflexivity.
Qed.

(** C70: storing a tree again after the changes [cs] writes at most as many blocks as the changes cost, and one for the root, however large the tree is. *)
Theorem C70_resave :
  forall dbg S inv sz s h i cs xs oks w oks' w', lawful S inv -> inv s ->
  history_ok dbg (h ++ CReattach i :: cs ++ [CReattach i]) ->
  Forall2 (fun c x => change sz i c = Some x) cs xs -> Forall (measured sz) cs ->
  exec dbg (counting S) (start (S := counting S) (s, 0)) (h ++ [CReattach i]) ⇓ Ok (oks ++ [true], w) ->
  exec dbg (counting S) w (cs ++ [CReattach i]) ⇓ Ok (oks', w') ->
  snd (w_st w') <= snd (w_st w) + list_sum xs + 1.
Proof. exact (fun dbg S inv sz s h i cs xs oks w oks' w' L I => resave dbg S inv L sz s I h i cs xs oks w oks' w'). Qed.
Print Assumptions C70_resave.
Example C70_resave_example : history_ok true (cost_first ++ CReattach 0 :: cost_changes ++ [CReattach 0]) /\
  Forall2 (fun c x => change cost_sz 0 c = Some x) cost_changes cost_xs /\ Forall (measured cost_sz) cost_changes /\
  exec true (counting mem_store) cost_start (cost_first ++ [CReattach 0]) ⇓ Ok ([true] ++ [true], cost_mid) /\
  exec true (counting mem_store) cost_mid (cost_changes ++ [CReattach 0]) ⇓ Ok cost_end /\
  snd (w_st cost_mid) = 74 /\ snd (w_st (snd cost_end)) = 78 /\ list_sum cost_xs = 50.
Proof.
  split; [exact (cost_hist_ok true)|]; split; [repeat constructor|]; split; [exact cost_changes_measured|];
  split; [exact cost_mid_run|]; split; [exact cost_end_run|]. repeat split.
Qed.

(** C70: the same for a tree that was just loaded from an id. *)
Theorem C70_load_save :
  forall dbg S inv sz s h j cs xs oks w oks' w', lawful S inv -> inv s ->
  history_ok dbg (h ++ CLoad j :: cs ++ [CReattach (length (w_trees w))]) ->
  Forall2 (fun c x => change sz (length (w_trees w)) c = Some x) cs xs -> Forall (measured sz) cs ->
  exec dbg (counting S) (start (S := counting S) (s, 0)) h ⇓ Ok (oks, w) ->
  exec dbg (counting S) w (CLoad j :: cs ++ [CReattach (length (w_trees w))]) ⇓ Ok (oks', w') ->
  snd (w_st w') <= snd (w_st w) + list_sum xs + 1.
Proof. exact (fun dbg S inv sz s h j cs xs oks w oks' w' L I => load_save dbg S inv L sz s I h j cs xs oks w oks' w'). Qed.
Print Assumptions C70_load_save.
Example C70_load_save_example : length (w_trees cost_mid) = 1 /\
  history_ok true ((cost_first ++ [CReattach 0]) ++ CLoad 0 :: cost_load ++ [CReattach 1]) /\
  Forall2 (fun c x => change cost_sz 1 c = Some x) cost_load cost_load_xs /\ Forall (measured cost_sz) cost_load /\
  exec true (counting mem_store) cost_start (cost_first ++ [CReattach 0]) ⇓ Ok ([true] ++ [true], cost_mid) /\
  exec true (counting mem_store) cost_mid (CLoad 0 :: cost_load ++ [CReattach 1]) ⇓ Ok cost_loaded /\
  snd (w_st (snd cost_loaded)) = 77 /\ list_sum cost_load_xs = 41.
Proof.
  split; [reflexivity|]; split; [exact (cost_load_ok true)|]; split; [repeat constructor|]; split; [exact cost_load_measured|];
  split; [exact cost_mid_run|]; split; [exact cost_loaded_run|]. repeat split.
Qed.
