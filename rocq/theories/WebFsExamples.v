(** Examples of histories of the file system in the browser cache. *)
From Verif Require Export PagingExamples.
From Verif Require Import Base BaseLemmas Header Node Store U64 File Chunk WebFile WebSpec WebFs WebFsSpec WebFsProofs.
Local Open Scope N_scope.

(** Two directories, two files in one of them, a fault, a restart, deletions. *)
Definition fs_hist1 : list event :=
  [Call (KOpenDir (B"d")) []; Call (KOpenFile (B"d") (B"a")) []; Call (KOpenFile (B"d") (B"ab")) [];
   Call (KOpenDir (B"e")) []; Call (KOpenFile (B"e") (B"a")) []].
Definition fs_hist2 : list event :=
  [Call (KWrite (B"d") (B"ab") 0 (B"other")) []; Call (KWrite (B"e") (B"a") 1 (B"there")) [];
   Call (KAppend (B"d") (B"ab") (B"blob")) []; Call (KLoad (B"d") (B"ab") 5) [];
   Restart; Call (KOpenDir (B"d")) []; Call (KFileExists (B"d") (B"b")) []; Call (KDeleteFile (B"d") (B"ab")) [true];
   Call (KDeleteFile (B"d") (B"ab")) []; Call (KDeleteDir (B"e")) []; Call (KOpenFile (B"d") (B"a")) [];
   Call (KFileExists (B"d") (B"ab")) []].
Definition fs_hist3 : list event := [Call (KLength (B"d") (B"a")) []; Call KShutdown []; Call (KLength (B"d") (B"a")) []].
Definition fs_hist : list event :=
  fs_hist1 ++ Call (KWrite (B"d") (B"a") 2 (B"mine")) [] :: fs_hist2 ++
  Call (KRead (B"d") (B"a") 2 (2 + N.of_nat (length (B"mine")))) [] :: fs_hist3.
Definition fs_results : list (res reply) :=
  [Ok RUnit; Ok RUnit; Ok RUnit; Ok RUnit; Ok RUnit; Ok RUnit; Ok RUnit; Ok RUnit; Ok (RNum 5); Ok (RBytes (B"blob"));
   Ok RUnit; Ok RUnit; Ok (RBool false); Err; Ok (RBool true); Ok (RBool true); Ok RUnit; Ok (RBool false);
   Ok (RBytes (B"mine")); Ok (RNum 6); Ok RUnit; Err].
Lemma fs_hist_results : fst (fs_run fs_hist new_fs) = fs_results.
Proof. vm_compute. reflexivity. Qed.

Definition quest_free (f : bytes) : bool := forallb (fun c => negb (Byte.eqb c quest)) f.
Lemma quest_free_ok f : quest_free f = true -> ~ In quest f.
Proof.
  unfold quest_free. rewrite forallb_forall. intros H Hq. specialize (H _ Hq). now vm_compute in H.
Qed.
Definition event_okb (e : event) : bool :=
  match e with
  | Restart | Call KShutdown _ | Call (KOpenDir _) _ | Call (KDeleteDir _) _ => true
  | Call (KOpenFile _ f) _ | Call (KFileExists _ f) _ | Call (KDeleteFile _ f) _ | Call (KFlush _ f) _
  | Call (KLength _ f) _ => quest_free f
  | Call (KWrite _ f _ b) _ | Call (KAppend _ f b) _ => quest_free f && (N.of_nat (length b) <? usize_lim)
  | Call (KRead _ f _ _) _ | Call (KTruncate _ f _) _ | Call (KLoad _ f _) _ => quest_free f
  end.
Lemma event_okb_ok l : forallb event_okb l = true -> Forall event_ok l.
Proof.
  rewrite forallb_forall, Forall_forall. intros H e He. specialize (H e He).
  destruct e as [[]|]; cbn in *; auto using quest_free_ok.
  all: apply andb_prop in H as [H1 H2]; split; [now apply quest_free_ok|now apply N.ltb_lt].
Qed.
Lemma fs_hist_ok : Forall event_ok fs_hist.
Proof. apply event_okb_ok. vm_compute. reflexivity. Qed.

(** A decision for [deletes_closed]: [os] are the directories opened so far. *)
Fixpoint closedb (os : list bytes) (l : list event) : bool :=
  match l with
  | [] => true
  | Restart :: l => closedb [] l
  | Call (KOpenDir d) _ :: l => closedb (d :: os) l
  | Call (KDeleteDir d) _ :: l => negb (existsb (bytes_eqb d) os) && closedb os l
  | Call _ _ :: l => closedb os l
  end.
Lemma in_split_mid {A} (a : list A) x b : forall p q, p ++ q = a ++ x :: b ->
  (exists r, p = a ++ x :: r /\ r ++ q = b) \/ (exists r, a = p ++ r /\ q = r ++ x :: b).
Proof.
  induction a as [|y a IH]; intros p q E.
  - destruct p as [|z p]; [right; exists []; auto|]. injection E as <- E. left. now exists p.
  - destruct p as [|z p]; [right; exists (y :: a); auto|]. injection E as <- E.
    destruct (IH p q E) as [(r & -> & E')|(r & -> & E')]; [left|right]; exists r; auto.
Qed.
Lemma closedb_ok l : forall p os, (forall d, existsb (bytes_eqb d) os = false -> forall p1 t p2, p = p1 ++ Call (KOpenDir d) t :: p2 -> In Restart p2) ->
  closedb os l = true ->
  forall a b d t, l = a ++ Call (KDeleteDir d) t :: b -> forall a1 a2 t', p ++ a = a1 ++ Call (KOpenDir d) t' :: a2 -> In Restart a2.
Proof.
  induction l as [|e l IH]; intros p os Hp Hc a b d t E a1 a2 t' Ea; [destruct a; discriminate|].
  destruct a as [|e' a].
  - injection E as -> ->. cbn in Hc. apply andb_prop in Hc as [Hc _]. apply Bool.negb_true_iff in Hc.
    rewrite app_nil_r in Ea. exact (Hp d Hc a1 t' a2 Ea).
  - injection E as <- ->.
    assert (p ++ e :: a = (p ++ [e]) ++ a) as Ep by (now rewrite <- app_assoc). rewrite Ep in Ea.
    assert (forall os', (forall d, existsb (bytes_eqb d) os' = false -> forall p1 t p2, p ++ [e] = p1 ++ Call (KOpenDir d) t :: p2 -> In Restart p2) ->
      closedb os' (a ++ Call (KDeleteDir d) t :: b) = true -> In Restart a2) as K.
    { intros os' H1 H2. exact (IH (p ++ [e]) os' H1 H2 a b d t eq_refl a1 a2 t' Ea). }
    assert (forall os' d0, existsb (bytes_eqb d0) os' = false -> (forall d0, existsb (bytes_eqb d0) os' = false -> existsb (bytes_eqb d0) os = false) ->
      (forall t0, e <> Call (KOpenDir d0) t0) ->
      forall p1 t0 p2, p ++ [e] = p1 ++ Call (KOpenDir d0) t0 :: p2 -> In Restart p2) as K2.
    { intros os' d0 H0 Hs He p1 t0 p2 Eq. apply in_split_mid in Eq as [(r & E1 & <-)|(r & -> & E2)].
      - apply in_or_app. left. exact (Hp d0 (Hs d0 H0) p1 t0 r E1).
      - destruct r as [|? [|]]; try discriminate. injection E2 as E2 _. exfalso. now apply (He t0). }
    destruct e as [c t0|]; [destruct c as [d0| | | | | | | | | | | |]|]; cbn [closedb] in Hc;
      try (apply (K os); [intros d1 H1; eapply (K2 os); auto; discriminate|exact Hc]).
    + apply (K (d0 :: os)); [|exact Hc]. intros d1 H1. cbn [existsb] in H1. apply Bool.orb_false_elim in H1 as [H1 H2].
      eapply (K2 os); auto. intros t1 X. injection X as -> _. now rewrite WebFsSim.beq_refl in H1.
    + apply andb_prop in Hc as [_ Hc]. apply (K os); [intros d1 H1; eapply (K2 os); auto; discriminate|exact Hc].
    + apply (K []); [|exact Hc]. intros d1 _ p1 t0 p2 Eq. apply in_split_mid in Eq as [(r & E1 & <-)|(r & -> & E2)].
      * apply in_or_app. right. now left.
      * destruct r as [|? [|]]; discriminate.
Qed.
Lemma closedb_closed l : closedb [] l = true -> deletes_closed l.
Proof.
  intros H a b d t E a1 a2 t' Ea. apply (closedb_ok l [] []) with (a := a) (b := b) (d := d) (t := t) (a1 := a1) (t' := t'); auto.
  intros d0 _ [|] ? ? X; discriminate.
Qed.
Lemma fs_hist_closed : deletes_closed fs_hist.
Proof. apply closedb_closed. vm_compute. reflexivity. Qed.
Lemma fs_hist2_other : Forall (fun e => ~ concerns (B"d") (B"a") e) fs_hist2.
Proof.
  unfold fs_hist2. repeat (apply Forall_cons; [cbn; intros H; (exact H || discriminate H || (destruct H; discriminate))|]).
  apply Forall_nil.
Qed.

(** ** Deleting an open directory *)
Definition stale_hist : list event :=
  [Call (KOpenDir (B"d")) []; Call (KOpenFile (B"d") (B"a")) []; Call (KWrite (B"d") (B"a") 0 (B"x")) [];
   Call (KDeleteDir (B"d")) []; Call (KRead (B"d") (B"a") 0 1) []].
Definition stale_results : list (res reply) :=
  [Ok RUnit; Ok RUnit; Ok RUnit; Ok (RBool true); Ok (RBytes (B"x"))].
Lemma stale_run : fst (fs_run stale_hist new_fs) = stale_results.
Proof. vm_compute. reflexivity. Qed.
Definition lost_hist : list event :=
  [Call (KOpenDir (B"d")) []; Call (KDeleteDir (B"d")) []; Call (KOpenDir (B"d")) []; Call (KOpenFile (B"d") (B"a")) [];
   Call (KWrite (B"d") (B"a") 0 (B"x")) []; Restart; Call (KOpenDir (B"d")) []; Call (KFileExists (B"d") (B"a")) []].
Definition lost_results : list (res reply) :=
  [Ok RUnit; Ok (RBool true); Ok RUnit; Ok RUnit; Ok RUnit; Ok RUnit; Ok RUnit; Ok (RBool false)].
Lemma lost_run : fst (fs_run lost_hist new_fs) = lost_results.
Proof. vm_compute. reflexivity. Qed.
(** ** A name with a question mark *)
Definition quest_hist : list event :=
  [Call (KOpenDir (B"d")) []; Call (KOpenFile (B"d") (B"a")) []; Call (KWrite (B"d") (B"a") 0 (B"x")) [];
   Call (KDeleteFile (B"d") (B"a?b")) []; Restart; Call (KOpenDir (B"d")) []; Call (KFileExists (B"d") (B"a")) []].
Definition quest_results : list (res reply) :=
  [Ok RUnit; Ok RUnit; Ok RUnit; Ok (RBool true); Ok RUnit; Ok RUnit; Ok (RBool false)].
Lemma quest_run : fst (fs_run quest_hist new_fs) = quest_results.
Proof. vm_compute. reflexivity. Qed.

Ltac fs_inv := repeat match goal with
  | H : fs_effects (_ :: _) _ _ _ |- _ => inversion H; clear H; subst
  | H : fs_effects [] _ _ _ |- _ => inversion H; clear H; subst
  end.
Lemma write_ok d f o b t r W W' : fs_effect (Call (KWrite d f o b) t) r W W' -> r = Ok RUnit ->
  contents W' d f = f_write (contents W d f) o b.
Proof.
  intros H ->. inversion H as [| | | | | | | | | | | | |? ? d0 f0 ? k w q F' Hch Hfo Hef Hq Hc Hr| | | | | | | | |]; subst.
  inversion Hch; subst. cbn [with_contents contents]. rewrite upd2_eq.
  inversion Hef; subst; [reflexivity|discriminate|]. congruence.
Qed.
Lemma exists_false d f t W W' : fs_effect (Call (KFileExists d f) t) (Ok (RBool false)) W W' -> blank (contents W d f).
Proof.
  intros H. inversion H as [| | | | | | | | |? ? ? ? ? H1 H2 H3 H4| | | |? ? d0 f0 ? k w q F' Hch Hfo Hef Hq Hc Hr| | | | | | | | |]; subst; auto.
  inversion Hch.
Qed.
Lemma exists_after_write d f x (W W1 W2 : world) : contents W1 d f = f_write (contents W d f) 0 [x] ->
  contents W2 d f = contents W1 d f -> blank (contents W2 d f) -> x = x00.
Proof.
  intros E1 E2 B. rewrite E2, E1 in B. specialize (B 0). cbn [f_write f_len f_at length] in B.
  assert (0 < N.max (f_len (contents W d f)) (0 + N.of_nat 1)) as H by lia. specialize (B H). exact B.
Qed.
Lemma stale_refuted : exists s, fs_run stale_hist new_fs = (stale_results, s) /\
  Forall event_ok stale_hist /\ ~ exists W, fs_effects stale_hist stale_results new_world W.
Proof.
  exists (snd (fs_run stale_hist new_fs)). split; [rewrite <- stale_run; apply surjective_pairing|]. split.
  { apply event_okb_ok. vm_compute. reflexivity. }
  intros (W & H). unfold stale_hist, stale_results in H. fs_inv.
  match goal with H : fs_effect (Call (KDeleteDir _) _) _ _ ?W', H' : fs_effect (Call (KRead _ _ _ _) _) _ ?W' _ |- _ =>
    assert (contents W' (B"d") (B"a") = empty_file) as E; [inversion H; subst|inversion H'; subst] end;
    try reflexivity;
    try match goal with H : change _ _ _ _ _ |- _ => solve [inversion H] end.
  match goal with H : 1 <= f_len _ |- _ => rewrite E in H; cbn in H; lia end.
Qed.
Lemma lost_refuted : exists s, fs_run lost_hist new_fs = (lost_results, s) /\
  Forall event_ok lost_hist /\ ~ exists W, fs_effects lost_hist lost_results new_world W.
Proof.
  exists (snd (fs_run lost_hist new_fs)). split; [rewrite <- lost_run; apply surjective_pairing|]. split.
  { apply event_okb_ok. vm_compute. reflexivity. }
  intros (W & H). unfold lost_hist, lost_results in H. fs_inv.
  match goal with A : fs_effect (Call (KWrite _ _ _ _) _) _ _ ?W1, R : fs_effect Restart _ ?W1 ?W2, O : fs_effect (Call (KOpenDir _) _) _ ?W2 ?W3,
    X : fs_effect (Call (KFileExists _ _) _) _ ?W3 _ |- _ =>
    apply write_ok in A; [|reflexivity]; apply (unconcerned _ _ _ _ (B"d") (B"a")) in R; [|cbn; tauto];
    apply (unconcerned _ _ _ _ (B"d") (B"a")) in O; [|cbn; tauto]; apply exists_false in X;
    rewrite R in O; pose proof (exists_after_write _ _ _ _ _ _ A O X); discriminate end.
Qed.
Lemma quest_refuted : exists s, fs_run quest_hist new_fs = (quest_results, s) /\
  deletes_closed quest_hist /\ ~ exists W, fs_effects quest_hist quest_results new_world W.
Proof.
  exists (snd (fs_run quest_hist new_fs)). split; [rewrite <- quest_run; apply surjective_pairing|]. split.
  { apply closedb_closed. vm_compute. reflexivity. }
  intros (W & H). unfold quest_hist, quest_results in H. fs_inv.
  match goal with A : fs_effect (Call (KWrite _ _ _ _) _) _ _ ?W0, D : fs_effect (Call (KDeleteFile _ _) _) _ ?W0 ?W1,
    R : fs_effect Restart _ ?W1 ?W2, O : fs_effect (Call (KOpenDir _) _) _ ?W2 ?W3,
    X : fs_effect (Call (KFileExists _ _) _) _ ?W3 _ |- _ =>
    apply write_ok in A; [|reflexivity]; apply (unconcerned _ _ _ _ (B"d") (B"a")) in R; [|cbn; tauto];
    apply (unconcerned _ _ _ _ (B"d") (B"a")) in D; [|cbn; intros [_ Y]; discriminate];
    apply (unconcerned _ _ _ _ (B"d") (B"a")) in O; [|cbn; tauto]; apply exists_false in X;
    rewrite R, D in O; pose proof (exists_after_write _ _ _ _ _ _ A O X); discriminate end.
Qed.
