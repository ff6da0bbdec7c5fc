(** Iterating over trees that need not be canonical, see WeakFind.v: the proofs of
    Entries.v and IterProofs.v, which only need ordered children with non-empty edges. *)
From Verif Require Import Base BaseLemmas Header Node Iter Api Tree Rep JoinBase PrefixProofs FindProofs Entries
  IterProofs WeakFind.
From Coq Require Import Sorting.Sorted.

Lemma w_lookup_child p v cs c z x : ksorted cs -> Forall wcc cs -> In c cs -> lookup c z = Some x ->
  lookup (T p v cs) (p ++ z) = Some x.
Proof.
  intros S C Hin H. pose proof (proj1 (Forall_forall _ _) C c Hin) as Hc.
  destruct (wcc_prefix _ Hc) as (y & q & E).
  pose proof (lookup_some_starts _ _ _ _ _ E H) as St.
  rewrite lookup_raw. unfold rawlook. rewrite strip_app.
  destruct z as [|b z]; [now rewrite starts_nil in St|]. now rewrite (wlkids_in cs c).
Qed.

Lemma w_entries_in t : (ksorted (tc t) /\ Forall wcc (tc t)) -> forall path k x,
  In (k, x) (entries path t) <-> exists z, k = path ++ z /\ lookup t z = Some x.
Proof.
  induction t as [p v cs IH] using tree_ind'. intros [S C] path k x. cbn [tc] in *.
  rewrite entries_T, in_app_iff. unfold entriesl. rewrite in_flat_map. split.
  - intros [H|(c & Hc & H)].
    + destruct v as [y|]; [|destruct H]. destruct H as [[= <- <-]|[]]. exists p. split; [reflexivity|].
      apply lookup_here.
    + pose proof (proj1 (Forall_forall _ _) C c Hc) as Cc.
      eapply Forall_forall in IH; [|exact Hc].
      apply IH in H as (z & -> & Hz); [|now apply wroot_kids, wcc_wroot].
      exists (p ++ z). rewrite app_assoc. split; [reflexivity|]. eapply w_lookup_child; eauto.
  - intros (z & -> & Hz). rewrite lookup_raw in Hz. unfold rawlook in Hz.
    destruct (strip p z) as [r|] eqn:E; [|discriminate]. apply strip_spec in E. subst z.
    destruct r as [|y r].
    + left. subst v. rewrite app_nil_r. now left.
    + right. destruct (lkids_some_in _ _ _ Hz) as (c & Hc & WSt & Hl). exists c. split; [exact Hc|].
      pose proof (proj1 (Forall_forall _ _) C c Hc) as Cc.
      eapply Forall_forall in IH; [|exact Hc].
      apply IH; [now apply wroot_kids, wcc_wroot|]. exists (y :: r). now rewrite app_assoc.
Qed.

Lemma w_entries_sorted t : (ksorted (tc t) /\ Forall wcc (tc t)) -> forall path,
  StronglySorted elt (entries path t).
Proof.
  induction t as [p v cs IH] using tree_ind'. intros [S C] path. cbn [tc] in *. rewrite entries_T.
  assert (forall c e, In c cs -> In e (entries (path ++ p) c) ->
    exists y q r, tp c = y :: q /\ fst e = (path ++ p) ++ y :: r) as HE.
  { intros c [k x] Hc He. pose proof (proj1 (Forall_forall _ _) C c Hc) as Cc.
    apply w_entries_in in He as (z & -> & Hz); [|now apply wroot_kids, wcc_wroot].
    destruct (wcc_prefix _ Cc) as (y & q & E).
    destruct (lookup_some_prefix _ _ _ Hz) as [r ->]. exists y, q, (q ++ r). rewrite E. auto. }
  apply sorted_app.
  - destruct v; repeat constructor.
  - unfold entriesl. clear v. induction S as [|c cs Sc IHc F]; [constructor|].
    inversion IH; inversion C; subst. cbn. apply sorted_app.
    + apply H1. now apply wroot_kids, wcc_wroot.
    + apply IHc; auto. intros; eapply HE; eauto. now right.
    + intros e e' He He'. apply in_flat_map in He' as (c' & Hc' & He').
      destruct (HE c e (or_introl eq_refl) He) as (y & q & r & E1 & Ef).
      destruct (HE c' e' (or_intror Hc') He') as (y' & q' & r' & E1' & Ef').
      unfold elt. rewrite Ef, Ef'. apply lexlt_app. cbn. left.
      eapply Forall_forall in F; [|exact Hc']. unfold klt in F. now rewrite E1, E1' in F.
  - intros e e' He He'. unfold entriesl in He'. apply in_flat_map in He' as (c' & Hc' & He').
    destruct (HE c' e' Hc' He') as (y' & q' & r' & E1' & Ef').
    destruct v as [x|]; [|destruct He]. destruct He as [<-|[]]. unfold elt. rewrite Ef'. cbn [fst].
    rewrite <- (app_nil_r (path ++ p)) at 1. apply lexlt_app. exact I.
Qed.

Section Iter.
Context (ids : bool) (rd : reader).

Notation NR := (NRep ids rd True).
Notation IR := (IRepT ids rd True).
Notation RR := (Rep ids rd).
Notation frame := (frame ids rd).
Notation vrel := (vrel rd).
Notation erel := (erel rd).

(** [WSt E path stack es m]: the iterator state still has to go through [es] (what
    [E] assigns to the subtrees on its stack), within [m] steps. *)
Section St.
Context {A : Type} (E : bytes -> tree -> list A).
Definition El (path : bytes) (cs : list tree) : list A := flat_map (E path) cs.

Inductive WSt : bytes -> list (nat * option iter) -> list A -> nat -> Prop :=
| w_St_nil path : WSt path [] [] 0
| w_St_cons path len o cs rest es m :
    frame o cs -> Forall wcc cs -> WSt (key_pop path len) rest es m ->
    WSt path ((len, o) :: rest) (El path cs ++ es) (cost o cs + m).
End St.

(** A frame with its first node. *)
Lemma w_St_frame {A} (E : bytes -> tree -> list A) path len it rest es m :
  WSt E path ((len, Some it) :: rest) es m ->
  (it_next it = None /\ exists m', WSt E path ((len, None) :: rest) es m' /\ m' < m) \/
  (exists r it' c es' m', it_next it = Some (r, it') /\ NR r c /\ wcc c /\ es = E path c ++ es' /\
     WSt E path ((len, Some it') :: rest) es' m' /\ m = 3 * size c + m').
Proof.
  intros H. inversion H as [|? ? ? cs ? es' m' HF HC HR]; subst. cbn [frame] in HF.
  destruct cs as [|c cs].
  - apply IRepT_nil in HF as [-> _]. left. split; [reflexivity|].
    exists (1 + m'). split; [|cbn; lia]. exact (w_St_cons E path len None [] rest es' m' eq_refl HC HR).
  - apply IRepT_cons in HF as (r & it' & -> & Hr & Hi & _). right. inversion HC; subst.
    exists r, it', c, (El E path cs ++ es'), (cost (Some it') cs + m').
    split; [reflexivity|]. split; [exact Hr|]. split; [assumption|].
    split; [unfold El; cbn; now rewrite app_assoc|].
    split; [now apply w_St_cons|]. cbn [cost]. rewrite sizes_cons. lia.
Qed.

Lemma w_St_pop {A} (E : bytes -> tree -> list A) path len rest es m :
  WSt E path ((len, None) :: rest) es m -> exists m', WSt E (key_pop path len) rest es m' /\ m' < m.
Proof.
  intros H. inversion H as [|? ? ? cs ? es' m' HF HC HR]; subst. cbn in HF. subst cs.
  exists m'. cbn. split; [exact HR|lia].
Qed.

Lemma w_St_push {A} (E : bytes -> tree -> list A) path p o cs rest es m :
  frame o cs -> Forall wcc cs -> WSt E path rest es m ->
  WSt E (path ++ p) ((length p, o) :: rest) (El E (path ++ p) cs ++ es) (cost o cs + m).
Proof. intros F C H. apply w_St_cons; auto. now rewrite key_pop_app. Qed.

Lemma w_kv_next0_in : forall fuel path stack es m, WSt entries path stack es m -> m < fuel ->
  match es with
  | [] => exists s, kv_next0 rd fuel (KV path stack) = Ok (None, s)
  | e :: es' => exists b path' stack' m',
      kv_next0 rd fuel (KV path stack) = Ok (Some (fst e, b), KV path' stack') /\
      vrel b (snd e) /\ WSt entries path' stack' es' m' /\ m' < m
  end.
Proof.
  induction fuel as [|fuel IH]; intros path stack es m HS Hf; [lia|].
  cbn [kv_next0]. cbn [kv_stack kv_path].
  destruct stack as [|[len [it|]] rest].
  - inversion HS; subst. eauto.
  - apply w_St_frame in HS as [(-> & m' & HS & Hm)|(r & it' & c & es' & m' & -> & Hr & Hc & -> & HS & ->)].
    + specialize (IH _ _ _ _ HS ltac:(lia)). destruct es; [exact IH|].
      destruct IH as (b & path' & stack' & m2 & E1 & E2 & E3 & E4). exists b, path', stack', m2.
      repeat split; auto; lia.
    + destruct c as [p v cs]. rewrite (NRep_prefix _ _ _ _ _ _ _ Hr). cbn [bind].
      destruct (NRep_children_owned ids rd True (or_intror I) _ _ _ _ Hr) as (o & -> & Ho). cbn [bind].
      assert (frame o cs) as HF by (destruct o; auto).
      inversion Hc as [? ? ? _ _ C]; subst.
      pose proof (w_St_push entries path p o cs _ _ _ HF C HS) as HS'.
      pose proof (cost_le o cs) as CL. rewrite size_T in *. rewrite entries_T.
      pose proof (NRep_value _ _ _ _ _ _ _ Hr) as HV. destruct v as [x|].
      * destruct HV as (b & -> & RV). cbn [app]. cbn [kv_path]. do 4 eexists. split; [reflexivity|].
        split; [exact RV|]. split; [exact HS'|]. lia.
      * rewrite HV. cbn [app]. specialize (IH _ _ _ _ HS' ltac:(lia)). unfold El in IH.
        unfold entriesl. destruct (flat_map (entries (path ++ p)) cs ++ es'); [exact IH|].
        destruct IH as (b & path' & stack' & m2 & E1 & E2 & E3 & E4). exists b, path', stack', m2.
        repeat split; auto; lia.
  - apply w_St_pop in HS as (m' & HS & Hm). specialize (IH _ _ _ _ HS ltac:(lia)).
    destruct es; [exact IH|].
    destruct IH as (b & path' & stack' & m2 & E1 & E2 & E3 & E4). exists b, path', stack', m2.
    repeat split; auto; lia.
Qed.

(** At the root the subtree may be empty or have an empty edge. *)
Lemma w_kv_next0_root fuel path n t : RR n t -> wroot t -> 3 + 3 * size t < fuel ->
  match entries path t with
  | [] => exists s, kv_next0 rd fuel (KV path [(0, Some (IOwned [n]))]) = Ok (None, s)
  | e :: es' => exists b path' stack' m',
      kv_next0 rd fuel (KV path [(0, Some (IOwned [n]))]) = Ok (Some (fst e, b), KV path' stack') /\
      vrel b (snd e) /\ WSt entries path' stack' es' m' /\ m' < 3 + 3 * size t
  end.
Proof.
  intros H Hc Hf. destruct t as [p v cs]. destruct fuel as [|fuel]; [lia|]. cbn [kv_next0 it_next kv_stack kv_path].
  pose proof (Rep_NRep _ _ True _ _ H) as Hr.
  rewrite (NRep_prefix _ _ _ _ _ _ _ Hr). cbn [bind].
  destruct (NRep_children_owned ids rd True (or_intror I) _ _ _ _ Hr) as (o & -> & Ho). cbn [bind].
  assert (frame o cs) as HF by (destruct o; auto).
  destruct (wroot_kids _ Hc) as [_ C]. cbn [tc] in C.
  assert (WSt entries path [(0, Some (IOwned []))] [] 2) as H0.
  { apply (w_St_cons entries path 0 (Some (IOwned [])) [] [] [] 0); [|constructor|constructor].
    split; [left; eauto|]. exists []. cbn. auto. }
  pose proof (w_St_push entries path p o cs _ _ _ HF C H0) as HS'.
  pose proof (cost_le o cs) as CL. rewrite size_T in *. rewrite entries_T. rewrite app_nil_r in HS'.
  pose proof (NRep_value _ _ _ _ _ _ _ Hr) as HV. destruct v as [x|].
  - destruct HV as (b & -> & RV). cbn [app]. cbn [kv_path]. do 4 eexists. split; [reflexivity|].
    split; [exact RV|]. split; [exact HS'|]. lia.
  - rewrite HV. cbn [app]. pose proof (w_kv_next0_in fuel _ _ _ _ HS' ltac:(lia)) as IH. unfold El in IH.
    unfold entriesl. destruct (flat_map (entries (path ++ p)) cs); [exact IH|].
    destruct IH as (b & path' & stack' & m2 & E1 & E2 & E3 & E4). exists b, path', stack', m2.
    repeat split; auto; lia.
Qed.

Lemma w_kv_collect_in : forall es fuel path stack m, WSt entries path stack es m -> length es + m + 1 < fuel ->
  exists l, collect (kv_next rd) fuel (KV path stack) = Ok l /\ Forall2 erel l es.
Proof.
  induction es as [|e es IH]; intros fuel path stack m HS Hf; (destruct fuel as [|fuel]; [lia|]);
    cbn [collect length] in *; unfold kv_next at 1.
  - destruct (w_kv_next0_in fuel _ _ _ _ HS ltac:(lia)) as (s & ->). cbn [bind]. eauto.
  - destruct (w_kv_next0_in fuel _ _ _ _ HS ltac:(lia)) as (b & path' & stack' & m' & -> & V & HS' & Hm).
    cbn [bind]. destruct (IH fuel _ _ _ HS' ltac:(lia)) as (l & -> & F). cbn [bind].
    eexists. split; [reflexivity|]. constructor; [|exact F]. split; auto.
Qed.

Theorem w_kv_collect_ok fuel path n t : RR n t -> wroot t ->
  length (entries path t) + 3 * size t + 5 < fuel ->
  exists l, collect (kv_next rd) fuel (KV path [(0, Some (IOwned [n]))]) = Ok l /\
    Forall2 erel l (entries path t).
Proof.
  intros H Hc Hf. destruct fuel as [|fuel]; [lia|]. cbn [collect]. unfold kv_next at 1.
  pose proof (w_kv_next0_root fuel path n t H Hc ltac:(lia)) as HK.
  destruct (entries path t) as [|e es].
  - destruct HK as (s & ->). cbn [bind]. eauto.
  - destruct HK as (b & path' & stack' & m' & -> & V & HS' & Hm). cbn [bind length] in *.
    destruct (w_kv_collect_in es fuel _ _ _ HS' ltac:(lia)) as (l & -> & F). cbn [bind].
    eexists. split; [reflexivity|]. constructor; [|exact F]. split; auto.
Qed.

End Iter.
