(** Histories with records, for the examples. *)
From Verif Require Export WebFsBlobExamples WebFsStaleExamples.
From Verif Require Import Base BaseLemmas Header Node Store U64 File Chunk WebFile WebSpec WebFs WebFsSpec
  WebFsStaleSpec WebFsRecordSpec WebFsRecord WebFsLoad.
Local Open Scope N_scope.

(** A record is written into the middle of another one's place, the file is written around
    it, once without success, and cut after it, and the page restarts. *)
Definition rc_hist1 : list event :=
  [Call (KOpenDir (B"d")) []; Call (KOpenFile (B"d") (B"x")) []; Call (KWrite (B"d") (B"x") 0 (B"................")) []].
Definition rc_event : event := Call (KWrite (B"d") (B"x") 3 (record (B"hello"))) [].
Definition rc_hist2 : list event :=
  [Call (KWrite (B"d") (B"x") 0 (B"abc")) []; Call (KWrite (B"d") (B"x") 12 (B"yz")) [false; true];
   Call (KTruncate (B"d") (B"x") 12) [false; true]; Call (KDeleteFile (B"d") (B"x")) [true];
   Call (KAppend (B"d") (B"x") (B"tail")) []; Restart; Call (KOpenDir (B"d")) []; Call (KOpenFile (B"d") (B"x")) []].
Definition rc_hist : list event := rc_hist1 ++ rc_event :: rc_hist2.
Definition rc_fs : fs := snd (fs_run rc_hist new_fs).
Definition rc_results1 : list (res reply) := [Ok RUnit; Ok RUnit; Ok RUnit].
Definition rc_results2 : list (res reply) := [Ok RUnit; Err; Err; Err; Ok (RNum 14); Ok RUnit; Ok RUnit; Ok RUnit].
Lemma rc_run : fs_run rc_hist new_fs = (rc_results1 ++ Ok RUnit :: rc_results2, rc_fs).
Proof. vm_compute. reflexivity. Qed.
Lemma rc_ok : Forall event_ok rc_hist.
Proof. apply event_okb_ok. vm_compute. reflexivity. Qed.
Lemma rc_closed : deleted_closed (B"d") rc_hist.
Proof. apply never_deleted. intros t H. cbn in H. repeat destruct H as [H|H]; try discriminate. exact H. Qed.
Lemma rc_stores : stores (B"d") (B"x") 3 (B"hello") rc_event (Ok RUnit).
Proof. apply St_write. Qed.
Lemma rc_leaves : Forall2 (leaves (B"d") (B"x") 3 (record_len (B"hello"))) rc_hist2 rc_results2.
Proof.
  unfold rc_hist2, rc_results2.
  apply Forall2_cons; [intros _ _; left; vm_compute; discriminate|].
  apply Forall2_cons; [intros _ _; right; vm_compute; discriminate|].
  apply Forall2_cons; [intros _ _; vm_compute; discriminate|].
  apply Forall2_cons; [intros _ _ x; discriminate|].
  apply Forall2_cons; [intros _ _; exists 14; split; [reflexivity|]; right; vm_compute; discriminate|].
  repeat (apply Forall2_cons; [exact Logic.I|]). apply Forall2_nil.
Qed.
Lemma rc_sizes : record_len (B"hello") < i32_lim /\ 3 + record_len (B"hello") < i64_lim.
Proof. split; vm_compute; reflexivity. Qed.
Lemma rc_flush : fst (fs_call (KFlush (B"d") (B"x")) [] rc_fs) = Ok RUnit.
Proof. vm_compute. reflexivity. Qed.

(** Only successful changes: a record written in one piece and partly over other data, and
    loads at several positions. *)
Definition rw_hist : list event :=
  [Call (KOpenDir (B"d")) []; Call (KOpenFile (B"d") (B"x")) []; Call (KWrite (B"d") (B"x") 0 (B"................")) [];
   rc_event; Call (KWrite (B"d") (B"x") 10 (B"w")) []; Call (KAppend (B"d") (B"x") (B"tail")) []; Restart;
   Call (KOpenDir (B"d")) []; Call (KOpenFile (B"d") (B"x")) []].
Definition rw_fs : fs := snd (fs_run rw_hist new_fs).
Definition rw_results : list (res reply) :=
  [Ok RUnit; Ok RUnit; Ok RUnit; Ok RUnit; Ok RUnit; Ok (RNum 12); Ok RUnit; Ok RUnit; Ok RUnit].
Lemma rw_run : fs_run rw_hist new_fs = (rw_results, rw_fs).
Proof. vm_compute. reflexivity. Qed.
Lemma rw_ok : Forall event_ok rw_hist.
Proof. apply event_okb_ok. vm_compute. reflexivity. Qed.
Lemma rw_closed : deleted_closed (B"d") rw_hist.
Proof. apply never_deleted. intros t H. cbn in H. repeat destruct H as [H|H]; try discriminate. exact H. Qed.
Lemma rw_well : Forall2 (changed_well (B"d") (B"x")) rw_hist rw_results.
Proof. unfold rw_hist, rw_results, changed_well, rc_event. repeat (apply Forall2_cons; [intros _; eauto|]). apply Forall2_nil. Qed.
Lemma rw_load : fst (fs_call (KLoad (B"d") (B"x") 12) [] rw_fs) = Ok (RBytes (B"tail")).
Proof. vm_compute. reflexivity. Qed.
