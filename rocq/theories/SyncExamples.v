(** Examples of paging files in files of the browser file system. *)
From Verif Require Export WebFsExamples.
From Verif Require Import Base BaseLemmas Header Node Combine Iter Api Spec Client Top Store StoreSpec World U64 File
  Chunk WebFile WebFs WebFsSpec Paging PagingSpec PagingStore SyncDev.
From Verif Require SyncDevProofs.
Local Open Scope N_scope.

Definition sy_d : bytes := B"sync".
Definition sy_f : bytes := B"test".
(** The directory was deleted while it was open, before the first restart.  The file was
    used before the last restart, and is deleted, after a failed attempt, and opened
    again, as browser/src/browser.rs:93-109 does; another file stays in use, and another
    directory is deleted while it is open. *)
Definition sy_before : list event :=
  [Call (KOpenDir sy_d) []; Call (KDeleteDir sy_d) []; Restart;
   Call (KOpenDir sy_d) []; Call (KOpenFile sy_d sy_f) []; Call (KWrite sy_d sy_f 0 (B"old data")) [];
   Call (KOpenFile sy_d (B"log")) []; Call (KWrite sy_d (B"log") 3 (B"entry")) [];
   Restart; Call (KOpenDir (B"e")) []; Call (KDeleteDir (B"e")) []; Call (KOpenDir sy_d) []; Call (KDeleteFile sy_d sy_f) [true]].
Definition sy_after : list event :=
  [Call (KOpenFile sy_d sy_f) []; Call (KOpenFile sy_d (B"log")) []; Call (KWrite sy_d (B"log") 1 (B"again")) []].
Definition sy_hist : list event := sy_before ++ Call (KDeleteFile sy_d sy_f) [] :: sy_after.
Definition sy_fs : fs := snd (fs_run sy_hist new_fs).
(** What others do between the calls, and faults. *)
Definition sy_others : list (list event * list bool) :=
  [([Call (KWrite sy_d (B"log") 2 (B"mine")) []], []);
   ([Call (KRead sy_d sy_f 0 9) []; Call (KOpenDir (B"e")) []], [true]);
   ([Call (KDeleteDir (B"e")) []; Call (KOpenDir (B"a")) []], []);
   ([Call (KDeleteFile sy_d (B"log")) []; Call (KDeleteDir (B"a")) []; Call (KLength sy_d sy_f) [true]], [true; true]);
   ([Call (KFlush sy_d sy_f) []], [true; true])].
Definition sy_state (todo : list (list event * list bool)) : sync_file := SyncFile sy_fs todo 1000.

Definition concernsb (d f : bytes) (e : event) : bool :=
  match e with
  | Call (KDeleteDir d') _ => bytes_eqb d' d
  | Call (KDeleteFile d' f') _ | Call (KWrite d' f' _ _) _ | Call (KTruncate d' f' _) _
  | Call (KAppend d' f' _) _ => bytes_eqb d' d && bytes_eqb f' f
  | _ => false
  end.
Lemma concernsb_ok d f e : concernsb d f e = false -> ~ concerns d f e.
Proof.
  destruct e as [[]|]; cbn; auto; intros H Hc; try destruct Hc; subst;
    now rewrite ?WebFsSim.beq_refl in H.
Qed.
Definition apartb (d f : bytes) (e : event) : bool := event_okb e && negb (concernsb d f e).
Lemma apartb_ok d f e : apartb d f e = true -> apart d f e.
Proof.
  unfold apartb, apart. intros H. apply andb_prop in H as [H1 H2]. split.
  - pose proof (event_okb_ok [e]) as K. cbn [forallb] in K. rewrite H1 in K. specialize (K eq_refl). now inversion K as [|x l A B].
  - apply concernsb_ok. now apply Bool.negb_true_iff in H2.
Qed.
Lemma all_apartb d f todo : forallb (fun e => forallb (apartb d f) (fst e)) todo = true -> all_apart d f todo.
Proof.
  intros H. unfold all_apart. rewrite Forall_forall. intros e He. rewrite forallb_forall in H. specialize (H e He).
  rewrite Forall_forall. intros x Hx. rewrite forallb_forall in H. apply apartb_ok. now apply H.
Qed.
Lemma sy_unused todo : forallb (fun e => forallb (apartb sy_d sy_f) (fst e)) todo = true -> events todo < 1000 ->
  unused_file sy_d sy_f (sy_state todo).
Proof.
  intros Ht Hn. exists sy_hist. split.
  - split; [apply quest_free_ok; vm_compute; reflexivity|]. split; [apply event_okb_ok; vm_compute; reflexivity|].
    split; [eexists; apply surjective_pairing|].
    split; [now apply all_apartb|]. cbn [sf_left sf_todo sy_state].
    assert (N.of_nat (length sy_hist) = 17) as -> by (vm_compute; reflexivity). unfold u64_max. lia.
  - right. exists sy_before, [], sy_after, (fst (fs_run sy_hist new_fs)), true.
    split; [reflexivity|]. split; [apply SyncDevProofs.not_staleb; vm_compute; reflexivity|]. split; [apply surjective_pairing|].
    split; [vm_compute; reflexivity|].
    repeat (apply Forall_cons; [apply concernsb_ok; vm_compute; reflexivity|]). apply Forall_nil.
Qed.
Lemma sy_unused_others : unused_file sy_d sy_f (sy_state sy_others).
Proof. apply sy_unused; vm_compute; reflexivity. Qed.

(** A session with syncs and reopenings, while others use the file system. *)
Definition sy_pairs : list pcall :=
  [POpen; PAppend (B"first"); PSync; PAppend (long 30 x01); PSync; PAppend (long 30 x02); PLoad 4; PLoad 20; PSync; PLoad 68].
Lemma sy_pairs_ok : Forall (size_ok 64) sy_pairs.
Proof. unfold sy_pairs. repeat (apply Forall_cons; [cbn; intuition (try reflexivity; try lia)|]). all: try (apply Forall_nil). Qed.
Definition sy_shown : list (res pout) := fst (prun (sync_dev sy_d sy_f) 64 sy_pairs (sy_state sy_others, None)).
Definition sy_end : pfile (sync_dev sy_d sy_f) := snd (prun (sync_dev sy_d sy_f) 64 sy_pairs (sy_state sy_others, None)).
Lemma sy_run : prun (sync_dev sy_d sy_f) 64 sy_pairs (sy_state sy_others, None) = (sy_shown, sy_end).
Proof. unfold sy_shown, sy_end. now destruct (prun (sync_dev sy_d sy_f) 64 sy_pairs (sy_state sy_others, None)). Qed.
Lemma sy_results : sy_shown =
  [Ok ODone; Ok (OId 4); Err; Ok (OId 20); Ok ODone; Ok (OId 68); Ok (OData (B"first")); Ok (OData (long 30 x01)); Ok ODone;
   Ok (OData (long 30 x02))].
Proof. vm_compute. reflexivity. Qed.
(** One sync at the end, and only reads and reopenings afterwards. *)
Definition sy_once : pfile (sync_dev sy_d sy_f) :=
  snd (prun (sync_dev sy_d sy_f) 64 (once_hist ++ PSync :: once_later) (sy_state (firstn 4 sy_others), None)).
Definition sy_once_results : list (res pout) :=
  fst (prun (sync_dev sy_d sy_f) 64 (once_hist ++ PSync :: once_later) (sy_state (firstn 4 sy_others), None)).
Lemma sy_once_unused : unused_file sy_d sy_f (sy_state (firstn 4 sy_others)).
Proof. apply sy_unused; vm_compute; reflexivity. Qed.
Lemma sy_once_run : prun (sync_dev sy_d sy_f) 64 (once_hist ++ PSync :: once_later) (sy_state (firstn 4 sy_others), None) =
  (sy_once_results, sy_once).
Proof.
  unfold sy_once_results, sy_once.
  now destruct (prun (sync_dev sy_d sy_f) 64 (once_hist ++ PSync :: once_later) (sy_state (firstn 4 sy_others), None)).
Qed.
Lemma sy_once_shown : sy_once_results =
  [Ok ODone; Ok (OId 4); Ok (OId 20); Ok (OId 68); Ok (OData (B"first")); Ok ODone;
   Ok ODone; Ok (OData (long 30 x02)); Ok (OData (B"first")); Ok (OData (long 30 x01))].
Proof. vm_compute. reflexivity. Qed.
Lemma sy_once_works : sync_works sy_d sy_f (fst sy_once) /\ snd sy_once <> None.
Proof. split; [split; [vm_compute; reflexivity|]; exists 102; split; vm_compute; reflexivity|]. vm_compute. discriminate. Qed.

(** ** Trees *)
Definition st_open : pfile (sync_dev sy_d sy_f) := snd (prun (sync_dev sy_d sy_f) 512 [POpen; POpen; POpen; POpen] (sy_state sy_others, None)).
Definition st_start : pfile (sync_dev sy_d sy_f) * paging_schedule := (st_open, bt_todo).
Definition st_exec : res (list bool * World.world (paging_store (sync_dev sy_d sy_f) 512)) :=
  exec true _ (World.start (S:=paging_store (sync_dev sy_d sy_f) 512) st_start) wb_hist 400.
Definition st_world : World.world (paging_store (sync_dev sy_d sy_f) 512) :=
  match st_exec with Ok (_, w) => w | _ => World.start (S:=paging_store (sync_dev sy_d sy_f) 512) st_start end.
Definition st_end : pfile (sync_dev sy_d sy_f) := snd (prun (sync_dev sy_d sy_f) 512 [PSync; POpen] (fst (w_st st_world))).
Lemma st_inv any : paging_inv (sync_dev sy_d sy_f) (unused_file sy_d sy_f) any 512 st_start.
Proof.
  split; [|split; [vm_compute; discriminate|]].
  - exists (sy_state sy_others), [POpen; POpen; POpen; POpen]. eexists. split; [apply sy_unused_others|]. split; [repeat constructor|].
    split; [right; repeat constructor|]. apply surjective_pairing.
  - unfold st_start, bt_todo. cbn [snd].
    repeat (apply Forall_cons; [repeat (apply Forall_cons; [cbn; intuition (try reflexivity; try lia)|]); apply Forall_nil|]).
    apply Forall_nil.
Qed.
Lemma st_oks : match st_exec with Ok (oks, w) => oks = [true; true; true; true; true; true; true; true; true] /\
  length (w_ids w) = 4%nat /\ length (w_trees w) = 2%nat | _ => False end.
Proof. vm_compute. auto. Qed.
Lemma st_sync : fst (prun (sync_dev sy_d sy_f) 512 [PSync; POpen] (fst (w_st st_world))) = [Ok ODone; Ok ODone] /\
  sync_works sy_d sy_f (fst st_end) /\ snd st_end <> None.
Proof.
  split; [vm_compute; reflexivity|]. split; [|vm_compute; discriminate].
  split; [vm_compute; reflexivity|]. eexists. split; [vm_compute; reflexivity|]. vm_compute; reflexivity.
Qed.
