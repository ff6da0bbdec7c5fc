(** The entries of a plain tree in order. *)
From Verif Require Import Base BaseLemmas Tree PrefixProofs FindProofs.
From Coq Require Import Sorting.Sorted.

(** Lexicographic order on byte strings. *)
Fixpoint lexlt (a b : bytes) : Prop :=
  match a, b with
  | _, [] => False
  | [], _ :: _ => True
  | x :: a', y :: b' => (bnum x < bnum y)%N \/ (x = y /\ lexlt a' b')
  end.

Lemma lexlt_app p a b : lexlt (p ++ a) (p ++ b) <-> lexlt a b.
Proof.
  induction p as [|x p IH]; cbn; [tauto|]. rewrite <- IH. split; [intros [H|[_ H]]; [lia|exact H]|].
  intros H. right. auto.
Qed.

Lemma lexlt_irrefl a : ~ lexlt a a.
Proof. induction a as [|x a IH]; cbn; [tauto|]. intros [H|[_ H]]; [lia|auto]. Qed.

Lemma lexlt_trans a b c : lexlt a b -> lexlt b c -> lexlt a c.
Proof.
  revert b c. induction a as [|x a IH]; intros [|y b] [|z c]; cbn; try tauto.
  intros [H|[-> H]] [H'|[-> H']]; try (left; lia). right. eauto.
Qed.

Lemma lexlt_total a b : a = b \/ lexlt a b \/ lexlt b a.
Proof.
  revert b. induction a as [|x a IH]; intros [|y b]; cbn; auto.
  destruct (N.lt_trichotomy (bnum x) (bnum y)) as [H|[H|H]]; auto.
  apply bnum_inj in H. subst y. destruct (IH b) as [->|[H|H]]; auto.
Qed.

Fixpoint entries (path : bytes) (t : tree) {struct t} : list (bytes * bytes) :=
  match t with
  | T p v cs =>
      (match v with Some x => [(path ++ p, x)] | None => [] end) ++
      (fix go (cs : list tree) : list (bytes * bytes) :=
         match cs with [] => [] | c :: cs' => entries (path ++ p) c ++ go cs' end) cs
  end.

Definition entriesl (path : bytes) (cs : list tree) : list (bytes * bytes) := flat_map (entries path) cs.

Lemma entries_T path p v cs : entries path (T p v cs) =
  (match v with Some x => [(path ++ p, x)] | None => [] end) ++ entriesl (path ++ p) cs.
Proof.
  unfold entriesl. destruct v; cbn; [f_equal|]; (induction cs as [|c cs IH]; [reflexivity|]; cbn; now rewrite IH).
Qed.
Global Arguments entries : simpl never.

Lemma lkids_some_in cs z x : lkids cs z = Some x -> exists c, In c cs /\ starts c z = true /\ lookup c z = Some x.
Proof.
  induction cs as [|c cs IH]; [discriminate|]. cbn. destruct (starts c z) eqn:E.
  - intros H. exists c. auto.
  - intros H. destruct (IH H) as (c' & ? & ?). exists c'. auto.
Qed.

Lemma entries_in t : (ksorted (tc t) /\ Forall cc (tc t)) -> forall path k x,
  In (k, x) (entries path t) <-> exists z, k = path ++ z /\ lookup t z = Some x.
Proof.
  induction t as [p v cs IH] using tree_ind'. intros [S C] path k x. cbn [tc] in *.
  rewrite entries_T, in_app_iff. unfold entriesl. rewrite in_flat_map. split.
  - intros [H|(c & Hc & H)].
    + destruct v as [y|]; [|destruct H]. destruct H as [[= <- <-]|[]]. exists p. split; [reflexivity|].
      apply lookup_here.
    + pose proof (proj1 (Forall_forall _ _) C c Hc) as Cc.
      eapply Forall_forall in IH; [|exact Hc].
      apply IH in H as (z & -> & Hz); [|now apply croot_kids, cc_croot].
      exists (p ++ z). rewrite app_assoc. split; [reflexivity|]. eapply lookup_child; eauto.
  - intros (z & -> & Hz). rewrite lookup_raw in Hz. unfold rawlook in Hz.
    destruct (strip p z) as [r|] eqn:E; [|discriminate]. apply strip_spec in E. subst z.
    destruct r as [|y r].
    + left. subst v. rewrite app_nil_r. now left.
    + right. destruct (lkids_some_in _ _ _ Hz) as (c & Hc & St & Hl). exists c. split; [exact Hc|].
      pose proof (proj1 (Forall_forall _ _) C c Hc) as Cc.
      eapply Forall_forall in IH; [|exact Hc].
      apply IH; [now apply croot_kids, cc_croot|]. exists (y :: r). now rewrite app_assoc.
Qed.

Lemma lookup_some_prefix t z x : lookup t z = Some x -> exists r, z = tp t ++ r.
Proof.
  destruct t as [p v cs]. rewrite lookup_raw. unfold rawlook. cbn.
  destruct (strip p z) as [r|] eqn:E; [|discriminate]. apply strip_spec in E. eauto.
Qed.

Definition elt (e e' : bytes * bytes) : Prop := lexlt (fst e) (fst e').

Lemma sorted_app {A} (R : A -> A -> Prop) l l' : StronglySorted R l -> StronglySorted R l' ->
  (forall a b, In a l -> In b l' -> R a b) -> StronglySorted R (l ++ l').
Proof.
  induction 1 as [|a l S IH F]; intros S' H; [exact S'|]. cbn. constructor.
  - apply IH; auto. intros; apply H; auto. now right.
  - apply Forall_app. split; [exact F|]. apply Forall_forall. intros b Hb. apply H; [now left|exact Hb].
Qed.

Lemma entries_sorted t : (ksorted (tc t) /\ Forall cc (tc t)) -> forall path,
  StronglySorted elt (entries path t).
Proof.
  induction t as [p v cs IH] using tree_ind'. intros [S C] path. cbn [tc] in *. rewrite entries_T.
  assert (forall c e, In c cs -> In e (entries (path ++ p) c) ->
    exists y q r, tp c = y :: q /\ fst e = (path ++ p) ++ y :: r) as HE.
  { intros c [k x] Hc He. pose proof (proj1 (Forall_forall _ _) C c Hc) as Cc.
    apply entries_in in He as (z & -> & Hz); [|now apply croot_kids, cc_croot].
    destruct (cc_nonempty_prefix _ Cc) as (y & q & E).
    destruct (lookup_some_prefix _ _ _ Hz) as [r ->]. exists y, q, (q ++ r). rewrite E. auto. }
  apply sorted_app.
  - destruct v; repeat constructor.
  - unfold entriesl. clear v. induction S as [|c cs Sc IHc F]; [constructor|].
    inversion IH; inversion C; subst. cbn. apply sorted_app.
    + apply H1. now apply croot_kids, cc_croot.
    + apply IHc; auto. intros; eapply HE; eauto. now right.
    + intros e e' He He'. apply in_flat_map in He' as (c' & Hc' & He').
      destruct (HE c e (or_introl eq_refl) He) as (y & q & r & E1 & Ef).
      destruct (HE c' e' (or_intror Hc') He') as (y' & q' & r' & E1' & Ef').
      unfold elt. rewrite Ef, Ef'. apply lexlt_app. cbn. left.
      eapply Forall_forall in F; [|exact Hc']. unfold klt in F. now rewrite E1, E1' in F.
  - intros e e' He He'. unfold entriesl in He'. apply in_flat_map in He' as (c' & Hc' & He').
    destruct (HE c' e' Hc' He') as (y' & q' & r' & E1' & Ef').
    destruct v as [x|]; [|destruct He]. destruct He as [<-|[]]. unfold elt. rewrite Ef'. cbn [fst].
    rewrite <- (app_nil_r (path ++ p)) at 1. apply lexlt_app. exact I.
Qed.

(** A strictly sorted list is determined by its elements. *)
Lemma sorted_unique l l' : StronglySorted elt l -> StronglySorted elt l' ->
  (forall e, In e l <-> In e l') -> l = l'.
Proof.
  intros S. revert l'. induction S as [|a l S IH F]; intros l' S' H.
  - destruct l' as [|b l']; [reflexivity|]. destruct (proj2 (H b) (or_introl eq_refl)).
  - destruct l' as [|b l']; [destruct (proj1 (H a) (or_introl eq_refl))|].
    apply StronglySorted_inv in S' as [S' F'].
    assert (a = b) as <-.
    { destruct (proj1 (H a) (or_introl eq_refl)) as [E|Ha]; [auto|].
      destruct (proj2 (H b) (or_introl eq_refl)) as [E|Hb]; [auto|].
      eapply Forall_forall in F; [|exact Hb]. eapply Forall_forall in F'; [|exact Ha].
      exfalso. unfold elt in *. eapply lexlt_irrefl, lexlt_trans; eauto. }
    f_equal. apply IH; [exact S'|]. intros e. split; intros He.
    + destruct (proj1 (H e) (or_intror He)) as [<-|]; [|assumption]. exfalso.
      eapply Forall_forall in F; [|exact He]. now apply lexlt_irrefl in F.
    + destruct (proj2 (H e) (or_intror He)) as [<-|]; [|assumption]. exfalso.
      eapply Forall_forall in F'; [|exact He]. now apply lexlt_irrefl in F'.
Qed.

Lemma entries_path path t : entries path t = map (fun e => (path ++ fst e, snd e)) (entries [] t).
Proof.
  enough (forall q, entries (path ++ q) t = map (fun e => (path ++ fst e, snd e)) (entries q t)) as H.
  { specialize (H []). now rewrite app_nil_r in H. }
  induction t as [p v cs IH] using tree_ind'. intros q. rewrite !entries_T, map_app. f_equal.
  - destruct v; cbn; [now rewrite app_assoc|reflexivity].
  - unfold entriesl. rewrite <- app_assoc. set (r := q ++ p). clearbody r. clear q. revert r.
    induction IH as [|c cs Hc _ IHc]; intros r; [reflexivity|].
    cbn. now rewrite map_app, Hc, IHc.
Qed.
