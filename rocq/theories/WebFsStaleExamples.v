(** Examples of histories in which open directories are deleted. *)
From Verif Require Export WebFsExamples WebSyncExamples.
From Verif Require Import Base BaseLemmas Header Node Store U64 File Chunk WebFile WebSpec WebFs WebFsSpec WebFsProofs WebFsStaleSpec WebFsStale.
Local Open Scope N_scope.

(** The directory e is deleted twice while it is open, and used until the restart. *)
Definition any_hist1 : list event :=
  [Call (KOpenDir (B"d")) []; Call (KOpenDir (B"e")) []; Call (KOpenFile (B"d") (B"a")) []; Call (KOpenFile (B"e") (B"a")) [];
   Call (KWrite (B"e") (B"a") 0 (B"abc")) []].
Definition any_hist2 : list event :=
  [Call (KDeleteDir (B"e")) []; Call (KWrite (B"e") (B"a") 1 (B"XY")) []; Call (KRead (B"e") (B"a") 0 3) []; Call (KDeleteDir (B"e")) [];
   Call (KOpenDir (B"e")) []; Call (KFileExists (B"e") (B"a")) []; Restart; Call (KOpenDir (B"e")) []; Call (KOpenFile (B"e") (B"a")) [];
   Call (KLength (B"e") (B"a")) []; Call (KOpenDir (B"d")) []; Call (KOpenFile (B"d") (B"a")) []].
Definition any_hist : list event := any_hist1 ++ Call (KWrite (B"d") (B"a") 0 (B"mine")) [] :: any_hist2 ++
  [Call (KRead (B"d") (B"a") 0 (0 + N.of_nat (length (B"mine")))) []].
Lemma any_hist_ok : Forall event_ok any_hist.
Proof. apply event_okb_ok. vm_compute. reflexivity. Qed.
Lemma any_hist_not_closed : ~ deletes_closed any_hist.
Proof.
  intros H. specialize (H (any_hist1 ++ [Call (KWrite (B"d") (B"a") 0 (B"mine")) []]) _ (B"e") [] eq_refl [Call (KOpenDir (B"d")) []] _ [] eq_refl).
  repeat (destruct H as [H|H]; [discriminate H|]). exact H.
Qed.
Lemma any_hist_results : fst (fs_run any_hist new_fs) =
  [Ok RUnit; Ok RUnit; Ok RUnit; Ok RUnit; Ok RUnit; Ok RUnit; Ok (RBool true); Ok RUnit; Ok (RBytes (B"aXY")); Ok (RBool false);
   Ok RUnit; Ok (RBool true); Ok RUnit; Ok RUnit; Ok RUnit; Ok (RNum 0); Ok RUnit; Ok RUnit; Ok (RBytes (B"mine"))].
Proof. vm_compute. reflexivity. Qed.
Lemma never_deleted d l : (forall t, ~ In (Call (KDeleteDir d) t) l) -> deleted_closed d l.
Proof. intros H a b t ->. exfalso. apply (H t), in_elt. Qed.
Lemma any_hist_d : deleted_closed (B"d") any_hist.
Proof. apply never_deleted. intros t H. cbn in H. repeat (destruct H as [H|H]; [discriminate H|]). exact H. Qed.
Lemma any_hist2_other : Forall (fun e => ~ concerns (B"d") (B"a") e) any_hist2.
Proof.
  unfold any_hist2. repeat (apply Forall_cons; [cbn; intros H; (exact H || discriminate H || (destruct H; discriminate))|]).
  apply Forall_nil.
Qed.
