(** Examples for WebAccept.v and WebFsAccept.v. *)
From Verif Require Export WebSyncExamples WebTreeExamples.
From Verif Require Import Base BaseLemmas Header Node Store U64 File Chunk WebFile WebSpec WebFs WebFsSpec WebFsSim WebFsProofs
  WebAccept WebFsStaleSpec WebFsStale WebFsLike WebFsAccept.
Local Open Scope N_scope.

Fixpoint flags_all (l : list event) (rs : list (res reply)) x :=
  match l, rs with
  | e :: l, r :: rs => flags_all l rs (flags_after e r x)
  | _, _ => x
  end.
Lemma effects_all l rs W W' : fs_effects_any l rs W W' -> forall x, agree (flags (fst W)) x -> agree (flags (fst W')) (flags_all l rs x).
Proof.
  induction 1 as [|e l r rs W W' W'' HE HS IH]; intros x Hx; [exact Hx|]. cbn [flags_all]. apply IH.
  eapply agree_trans; [exact (any_flags _ _ _ _ HE)|]. now apply agree_after.
Qed.
Lemma any_changes l rs W W' : fs_effects_any l rs W W' -> changes (fst W') <= changes (fst W) + N.of_nat (length l).
Proof.
  induction 1 as [|e l r rs W W' W'' HE HS IH]; [lia|]. cbn [length].
  assert (changes (fst W') <= changes (fst W) + 1); [|lia].
  destruct HE as [W D c t r W' _ HE|W D d t _|W D d t _|W D W' _ _ _ _ _ H]; cbn [fst]; [exact (effect_changes _ _ _ _ HE)|lia..].
Qed.

(** A history with a write that fails halfway, an open directory that is deleted, a
    restart, another open directory that is deleted, and a truncation. *)
Definition acc_hist1 : list event :=
  [Call (KOpenDir (B"d")) []; Call (KOpenFile (B"d") (B"a")) []; Call (KWrite (B"d") (B"a") 0 (B"hello world")) [];
   Call (KOpenDir (B"e")) []; Call (KDeleteDir (B"e")) [];
   Call (KDeleteFile (B"d") (B"b")) [true]; Restart; Call (KOpenDir (B"d")) []; Call (KOpenFile (B"d") (B"a")) [];
   Call (KOpenDir (B"e")) []; Call (KOpenFile (B"e") (B"c")) []; Call (KDeleteDir (B"e")) []].
Definition acc_hist : list event := acc_hist1 ++ [Call (KTruncate (B"d") (B"a") 5) []].
Definition acc_results : list (res reply) :=
  [Ok RUnit; Ok RUnit; Ok RUnit; Ok RUnit; Ok (RBool true); Err; Ok RUnit; Ok RUnit; Ok RUnit; Ok RUnit; Ok RUnit; Ok (RBool true); Ok RUnit].
Definition acc_fs : fs := snd (fs_run acc_hist new_fs).
Lemma acc_run : fs_run acc_hist new_fs = (acc_results, acc_fs).
Proof. vm_compute. reflexivity. Qed.
Lemma acc_ok : Forall event_ok acc_hist. Proof. apply event_okb_ok. vm_compute. reflexivity. Qed.
Lemma acc_open W D : fs_effects_any acc_hist acc_results (new_world, fun _ => false) (W, D) ->
  running W = true /\ dir_open W (B"d") = true /\ dir_open W (B"e") = true /\
  file_open W (B"d") (B"a") = true /\ f_len (contents W (B"d") (B"a")) < i32_lim /\ changes W + 1 < u64_max.
Proof.
  intros H. destruct (effects_all _ _ _ _ H (flags new_world)) as (E1 & E2 & E3); [repeat split|]. cbn [flags fst snd] in E1, E2, E3.
  rewrite E1, !E2, E3. do 4 (split; [vm_compute; reflexivity|]). clear E1 E2 E3. split.
  - unfold acc_hist in H. apply any_app in H as (rs1 & rs2 & WD1 & Er & L & _ & H).
    inversion H as [|? ? r rs' ? WD2 ? HE HR]; subst. inversion HR; subst. clear H HR.
    assert (r = Ok RUnit) as ->.
    { apply (f_equal (fun l => nth (length acc_hist1) l Err)) in Er. rewrite <- L in Er at 2. rewrite app_nth2, Nat.sub_diag in Er by lia.
      cbn in Er. now symmetry. }
    inversion HE as [W1 D1 c t r W2 _ HE1| | |]; subst.
    inversion HE1 as [| | | | | | | | | | | | |? ? d0 f0 ? k w q F' Hch Hfo Hef Hq Hc Hr| | | | | | | | |]; subst.
    inversion Hch; subst. cbn [with_contents contents]. rewrite upd2_eq.
    inversion Hef; subst; try discriminate; try congruence. cbn [f_set_len f_len].
    match goal with |- N.min _ ?x < _ => apply N.le_lt_trans with 5; [apply N.le_min_l|reflexivity] end.
  - apply any_changes in H. cbn [fst] in H. assert (20 < u64_max) by reflexivity. cbn in H. lia.
Qed.
Lemma acc_small : total (fs_objs acc_fs) < 2305843009213693952. Proof. vm_compute. reflexivity. Qed.
