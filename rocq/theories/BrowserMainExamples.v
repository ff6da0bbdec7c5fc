(** Examples of runs of the program of the browser crate. *)
From Verif Require Export SyncExamples AcceptExamples.
From Verif Require Import Base BaseLemmas Header Node Combine Iter Api Spec Client Top Store StoreSpec World U64 File
  Chunk WebFile WebFs WebFsSpec Paging PagingSpec PagingStore SyncDev AcceptSpec BrowserMain.

(** Pairs with a key that comes twice, an empty key and value, and values that are blobs of their own. *)
Definition bm_elems : list (bytes * bytes) :=
  [(B"0", B"zero"); (B"12", long 300 x01); (B"1", B"one"); ([], B"x"); (B"0", []); (B"123", long 400 x02); (B"2", B"two")].
(** The file was used before, and some browser operations fail. *)
Definition bm_state (todo : list (list event * list bool)) : sync_file := SyncFile sy_fs todo 1000.
Definition bm_faults (t : list (list bool)) : list (list event * list bool) := map (fun t => ([], t)) t.
Definition bm_shown (r : res (list nat * node) * sync_file) : res (list nat * list (nat * nat)) * N :=
  (x <- fst r ;; l <- iter_bytes detached_read (snd x) 200 ;; Ok (fst x, map (fun e => (length (fst e), length (snd e))) l),
   sf_left (snd r)).
Lemma bm_fine : bm_shown (tree_test_sync true sy_d sy_f 512 bm_elems 200 (bm_state (bm_faults [[]; []; []; [false]]))) =
  (Ok ([6; 6; 6; 6], [(0, 1); (1, 0); (1, 3); (2, 300); (3, 400); (1, 3)]), 998%N).
Proof. vm_compute. reflexivity. Qed.
Lemma bm_failed : bm_shown (tree_test_sync true sy_d sy_f 512 bm_elems 200 (bm_state (bm_faults [[]; []; []; []; []; []; []; [true]]))) =
  (Err, 998%N).
Proof. vm_compute. reflexivity. Qed.
Lemma bm_faults_alone t : Forall (fun e => fst e = []) (sf_todo (bm_state (bm_faults t))).
Proof. cbn [bm_state sf_todo]. unfold bm_faults. induction t as [|x t IH]; cbn; constructor; auto. Qed.
Lemma bm_hist : Forall event_ok sy_hist /\ (exists rs, fs_run sy_hist new_fs = (rs, sf_fs (bm_state []))).
Proof.
  split; [apply event_okb_ok; vm_compute; reflexivity|]. eexists. apply surjective_pairing.
Qed.
Lemma bm_within : entries_within kids_max bm_elems.
Proof. unfold bm_elems. repeat (apply Forall_cons; [split; vm_compute; discriminate|]). apply Forall_nil. Qed.
