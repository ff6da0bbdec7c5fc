(** Grouping a tree that failed operations left behind. *)
From Verif Require Import Base BaseLemmas Header Node Iter Api Tree Rep Entries IterProofs WeakFind WeakIter.

Section Group.
Context (ids : bool) (rd : reader).

Notation NR := (NRep ids rd True).
Notation RR := (Rep ids rd).
Notation frame := (frame ids rd).
Notation WSt := (WSt ids rd entries).

Context (descend : bytes -> noderef -> res bool).
Context (Hd : forall path r, exists b, descend path r = Ok b).

Definition wgrel (n : node) (es : list (bytes * bytes)) : Prop :=
  exists t, RR n t /\ wroot t /\ entries [] t = es.

Lemma w_setp_grel n t path : RR n t -> wroot t -> wgrel (set_prefix_slice n (path ++ tp t)) (entries path t).
Proof.
  destruct t as [p v cs]. intros H Hc. cbn [tp]. exists (T (path ++ p) v cs).
  apply Rep_inv in H as (RP & RV & ns & RK & F). split; [|split].
  - eapply Rep_mk; cbn; eauto. now left.
  - exact Hc.
  - apply entries_setp.
Qed.

Lemma w_setv_grel n p x cs path : RR n (T p (Some x) cs) ->
  wgrel (set_kids (set_prefix_slice n path) (KId [])) [(path, x)].
Proof.
  intros H. destruct (setv_grel ids rd n p x cs path H) as (t & R & C & E).
  exists t. split; [exact R|]. split; [now apply croot_wroot|exact E].
Qed.

(** One step: yields a tree holding the next entries, possibly none. *)
Lemma w_gb_next0_in : forall fuel path stack es m, WSt path stack es m -> m < fuel ->
  (es = [] /\ exists s, gb_next0 rd descend fuel (KV path stack) = Ok (None, s)) \/
  exists n e1 e2 path' stack' m',
    gb_next0 rd descend fuel (KV path stack) = Ok (Some n, KV path' stack') /\
    es = e1 ++ e2 /\ wgrel n e1 /\ WSt path' stack' e2 m' /\ m' < m.
Proof.
  induction fuel as [|fuel IH]; intros path stack es m HS Hf; [lia|].
  cbn [gb_next0]. cbn [kv_stack kv_path].
  assert (forall path' stack' es' m', WSt path' stack' es' m' -> es' = es -> m' < m ->
    (es = [] /\ exists s, gb_next0 rd descend fuel (KV path' stack') = Ok (None, s)) \/
    exists n e1 e2 path2 stack2 m2,
      gb_next0 rd descend fuel (KV path' stack') = Ok (Some n, KV path2 stack2) /\
      es = e1 ++ e2 /\ wgrel n e1 /\ WSt path2 stack2 e2 m2 /\ m2 < m) as Rec.
  { intros path' stack' es' m' HS' -> Hm. specialize (IH _ _ _ _ HS' ltac:(lia)).
    destruct IH as [IH|(n & e1 & e2 & path2 & stack2 & m2 & E1 & E2 & E4 & E5 & E6)]; [now left|right].
    exists n, e1, e2, path2, stack2, m2. repeat split; auto; lia. }
  destruct stack as [|[len [it|]] rest].
  - inversion HS; subst. left. eauto.
  - apply w_St_frame in HS as [(-> & m' & HS & Hm)|(r & it' & c & es' & m' & -> & Hr & Hc & -> & HS & ->)].
    + eapply Rec; eauto.
    + destruct c as [p v cs]. rewrite (NRep_prefix _ _ _ _ _ _ _ Hr). cbn [bind].
      destruct (Hd (path ++ p) r) as (d & ->). cbn [bind].
      destruct (NR_to_owned _ _ _ _ Hr) as (n & En & Rn).
      destruct d.
      * destruct (NRep_children_owned ids rd True (or_intror I) _ _ _ _ Hr) as (o & -> & Ho). cbn [bind].
        assert (frame o cs) as HF by (destruct o; auto).
        inversion Hc as [? ? ? _ _ C]; subst.
        pose proof (w_St_push ids rd entries path p o cs _ _ _ HF C HS) as HS'.
        pose proof (cost_le o cs) as CL. rewrite size_T in *. rewrite entries_T in *.
        pose proof (NRep_value _ _ _ _ _ _ _ Hr) as HV. destruct v as [x|].
        -- destruct HV as (b & -> & RV). rewrite En. cbn [bind app]. right.
           exists (set_kids (set_prefix_slice n (path ++ p)) (KId [])), [(path ++ p, x)].
           do 4 eexists. split; [reflexivity|]. split; [reflexivity|].
           split; [eapply w_setv_grel; eauto|]. split; [exact HS'|lia].
        -- rewrite HV. eapply Rec; [exact HS'|reflexivity|lia].
      * rewrite En. cbn [bind]. rewrite key_pop_app. right.
        exists (set_prefix_slice n (path ++ p)), (entries path (T p v cs)), es', path.
        do 2 eexists. split; [reflexivity|]. split; [reflexivity|].
        split; [exact (w_setp_grel n _ path Rn (wcc_wroot _ Hc))|]. split; [exact HS|]. rewrite size_T. lia.
  - apply w_St_pop in HS as (m' & HS & Hm). eapply Rec; eauto.
Qed.

Lemma w_gb_collect_in : forall fuel path stack es m, WSt path stack es m -> m + 1 < fuel ->
  exists l ess, collect (gb_next rd descend) fuel (KV path stack) = Ok l /\ Forall2 wgrel l ess /\ concat ess = es.
Proof.
  induction fuel as [|fuel IH]; intros path stack es m HS Hf; [lia|].
  cbn [collect]; unfold gb_next at 1.
  destruct (w_gb_next0_in fuel _ _ _ _ HS ltac:(lia)) as [[-> (s & ->)]|(n & e1 & e2 & path' & stack' & m' & -> & -> & G & HS' & Hm)];
    cbn [bind].
  - exists [], []. auto.
  - destruct (IH _ _ _ _ HS' ltac:(lia)) as (l & ess & -> & F & <-). cbn [bind].
    exists (n :: l), (e1 :: ess). cbn. auto.
Qed.

Theorem w_gb_collect_ok fuel n t : RR n t -> wroot t -> 3 * size t + 6 < fuel ->
  exists l ess, collect (gb_next rd descend) fuel (kv_new n) = Ok l /\ Forall2 wgrel l ess /\
    concat ess = entries [] t.
Proof.
  intros H Hc Hf. destruct fuel as [|fuel]; [lia|]. destruct t as [p v cs].
  pose proof (Rep_NRep _ _ True _ _ H) as Hr.
  assert (WSt [] [(0, Some (IOwned []))] [] 2) as H0.
  { apply (w_St_cons ids rd entries [] 0 (Some (IOwned [])) [] [] [] 0); [|constructor|constructor].
    split; [left; eauto|]. exists []. cbn. auto. }
  assert (exists fuel', fuel = S fuel') as (fuel' & ->) by (destruct fuel; [lia|eauto]).
  rewrite collect_S. unfold gb_next at 1. cbn [gb_next0 kv_new it_next kv_stack kv_path app].
  rewrite (NRep_prefix _ _ _ _ _ _ _ Hr). cbn [bind].
  destruct (Hd p (ROwned n)) as (d & ->). cbn [bind].
  destruct d.
  - destruct (NRep_children_owned ids rd True (or_intror I) _ _ _ _ Hr) as (o & -> & Ho). cbn [bind].
    assert (frame o cs) as HF by (destruct o; auto).
    destruct Hc as [_ C]. cbn [tc] in C.
    pose proof (w_St_push ids rd entries [] p o cs _ _ _ HF C H0) as HS'. rewrite app_nil_r in HS'. cbn [app] in HS'.
    pose proof (cost_le o cs) as CL. rewrite size_T in *. rewrite entries_T in *. cbn [app] in *.
    pose proof (NRep_value _ _ _ _ _ _ _ Hr) as HV. destruct v as [x|].
    + destruct HV as (b & -> & RV). cbn [bind r_to_owned].
      destruct (w_gb_collect_in (S fuel') _ _ _ _ HS' ltac:(lia)) as (l & ess & -> & F & E).
      cbn [bind]. eexists _, ([(p, x)] :: ess). split; [reflexivity|]. split; [|cbn; now rewrite E].
      constructor; [|exact F]. eapply w_setv_grel; eauto.
    + rewrite HV. cbn [app].
      destruct (w_gb_next0_in fuel' _ _ _ _ HS' ltac:(lia)) as [[En (s & ->)]|(m & e1 & e2 & path' & stack' & m' & -> & E2 & G & HS2 & Hm)];
        cbn [bind]; unfold entriesl, El in *.
      * exists [], []. rewrite En. auto.
      * destruct (w_gb_collect_in (S fuel') _ _ _ _ HS2 ltac:(lia)) as (l & ess & -> & F & <-).
        cbn [bind]. exists (m :: l), (e1 :: ess). auto.
  - cbn [bind r_to_owned].
    assert (key_pop p (length p) = []) as -> by (unfold key_pop; now rewrite Nat.sub_diag).
    destruct (w_gb_collect_in (S fuel') _ _ _ _ H0 ltac:(lia)) as (l & ess & -> & F & E).
    cbn [bind]. eexists _, (entries [] (T p v cs) :: ess). split; [reflexivity|].
    split; [|cbn; rewrite E; apply app_nil_r]. constructor; [|exact F].
    exists (T p v cs). split; [|split; [exact Hc|reflexivity]].
    apply Rep_inv in H as (RP & RV & ns & RK & F'). eapply Rep_mk; cbn; eauto. now left.
Qed.

End Group.
