(** When attaching and reattaching succeed. *)
From Verif Require Import Base BaseLemmas Header Node Combine Iter Api Tree Rep Sim Spec Client Top TopOps
  PrefixProofs FindProofs Entries IterProofs MemLemmas Store StoreSpec StoreProofs World WorldProofs FailSpec FailProofs Logged
  StoreLemmas U64 MemStore MemStoreProofs File FileProofs PagedFile PagedFileProofs PagedSpec PagedTop PagedStore PagedStoreProofs
  AcceptSpec AcceptProofs.
Local Open Scope nat_scope.

Lemma takes_logged S b k : forall s l, takes S b k s -> takes (logged S) b k (s, l).
Proof.
  induction k as [|k IH]; intros s l H; [exact Logic.I|]. intros d Hd. destruct (H d Hd) as (id & s' & E & H').
  exists id, (s', l ++ logs (Ok id) d). cbn [logged st_write fst snd]. rewrite E. split; [reflexivity|]. now apply IH.
Qed.

Lemma tree_fits b g m l : croot g -> Spec.same (lookup g) m -> lists l m -> entries_within b l ->
  tfits b g /\ 3 * size g + 1 <= writes_max (length l).
Proof.
  intros C E Hl W.
  assert (lists (entries [] g) m) as Hg.
  { apply lists_entries; [exact C|]. intros k. symmetry. apply E. }
  assert (l = entries [] g) as Eq by exact (lists_where_unique _ _ _ _ Hl Hg). split.
  - apply tfits_ok; [exact C|]. intros k x Hk. rewrite E in Hk. unfold entries_within in W. rewrite Forall_forall in W.
    apply (W (k, x)). apply Hl. auto.
  - rewrite Eq. pose proof (croot_size g C). unfold writes_max. unfold bytes in *. lia.
Qed.

Section Accept.
Context (dbg : bool) (S : store) (inv : st S -> Prop) (L : lawful S inv) (b : N) (Hb : (kids_max <= b)%N).
Notation LS := (logged S).
Notation linv := (linv S inv).
Notation LL := (logged_strict S inv L).

Lemma attached_logged s t m : attached dbg S inv s t m -> exists l ids, linv (s, l) /\ tok LS ids (s, l) t m.
Proof.
  intros (s0 & h & oks & w & i & I0 & H & C & <- & Ht & Hm).
  destruct (strict_history dbg LS linv LL (s0, []) h (linv_start S inv s0 I0) H) as (oks' & w' & C' & _ & _ & ids & W).
  destruct (exec_logged S inv L dbg (start (S:=LS) (s0, [])) _ _ _ (linv_start S inv s0 I0) C') as [C2 I2].
  pose proof (conv_unique _ _ _ C C2) as E. injection E as -> ->. destruct W as (_ & T & _).
  pose proof (Forall2_nth _ _ _ i T) as N. cbn [fw w_trees] in Ht. rewrite Ht, Hm in N.
  exists (snd (w_st w')), ids. cbn [fw w_st]. rewrite <- surjective_pairing. auto.
Qed.

Lemma acc_attached_tk (tk : nat -> st S -> Prop) s t m l : (forall k s, tk (Datatypes.S k) s -> tk k s) ->
  (forall k s d, tk (Datatypes.S k) s -> (len d <= b)%N -> exists id s', st_write S s d = (Ok id, s') /\ tk k s') ->
  inv s -> reachable dbg t -> holds mem t m -> lists l m -> entries_within b l ->
  tk (writes_max (length l)) s ->
  exists t' s', t_attached S t s = (Ok t', s') /\ inv s' /\ holds (st_read S s') t' m /\ tk 0 s'.
Proof.
  intros TS TW I Hr Hm Hl W T. destruct (reachable_good dbg t Hr) as (g & G). pose proof G as (Rg & C & E).
  assert (Spec.same (lookup g) m) as Em.
  { intros k. symmetry. revert k. exact (holds_lookup false detached_read t g m Rg C Hm). }
  destruct (tree_fits b g m l C Em Hl W) as [F Hs].
  pose proof (good_attach LS true _ _ (s, []) G) as (R & _ & _).
  set (tk' := fun k (x : st LS) => tk k (fst x)).
  assert (forall k x, tk' (Datatypes.S k) x -> tk' k x) as TS' by (intros k x; apply TS).
  assert (forall k x d, tk' (Datatypes.S k) x -> (len d <= b)%N -> exists id x', st_write LS x d = (Ok id, x') /\ tk' k x') as TW'.
  { intros k [x lg] d H Hd. destruct (TW k x d H Hd) as (id & x' & Ex & H'). exists id, (x', lg ++ logs (Ok id) d).
    cbn [logged st_write fst snd]. rewrite Ex. split; [reflexivity|exact H']. }
  destruct (acc_serialize LS linv LL b Hb tk' TS' TW' true g t (s, []) 0 (linv_start S inv s I) R F) as (bs & s1 & E1 & I1 & _ & T1 & _).
  { eapply (tk_le LS tk' TS'); [|exact T]. lia. }
  pose proof (attached_ok LS linv LL true g t (s, []) (linv_start S inv s I) R (or_introl eq_refl))
    as (r & s2 & E2 & I2 & _ & H2).
  destruct (fwd_attached S inv L t (s, [])) as [Ef _]. rewrite E2 in Ef. cbn [fst snd] in Ef.
  destruct H2 as [[-> _]|(t' & -> & R' & E')].
  - exfalso. destruct (serialize_ok LS linv LL true g t (s, []) (linv_start S inv s I) R (or_introl eq_refl))
      as (r & s3 & E3 & _ & _ & H3). rewrite E1 in E3. injection E3 as <- <-.
    destruct H3 as [[H3 _]|(bs' & H3 & Hw)]; [discriminate|]. injection H3 as <-.
    destruct (written_deserialize _ _ _ _ _ Hw) as (n' & En & _). unfold t_attached, wbind in E2. rewrite E1, En in E2. discriminate.
  - exists t', (fst s2). split; [exact Ef|]. split; [apply I2|]. split.
    2: { unfold t_attached, wbind, wret in E2. rewrite E1 in E2. injection E2 as _ <-. exact T1. }
    eapply holds_ext; [exact Em|].
    apply good_holds with (ids := true); [|exact C]. eapply Rep_mono; [|intros X; exact X|exact R'].
    intros id x. now apply (linv_more S inv L).
Qed.

Lemma acc_attached s t m l : inv s -> reachable dbg t -> holds mem t m -> lists l m -> entries_within b l ->
  takes S b (writes_max (length l)) s ->
  exists t' s', t_attached S t s = (Ok t', s') /\ inv s' /\ holds (st_read S s') t' m.
Proof.
  intros I Hr Hm Hl W T.
  destruct (acc_attached_tk (takes S b) s t m l (takes_S S b) (fun k x d H Hd => H d Hd) I Hr Hm Hl W T) as (t' & s' & E & I' & H & _).
  exists t', s'. auto.
Qed.

Lemma acc_reattach s t m l : attached dbg S inv s t m -> lists l m -> entries_within b l ->
  takes S b (writes_max (length l)) s ->
  exists id t' s', t_reattach S t s = (Ok (id, t'), s') /\ inv s' /\ t_load S s' (Some id) = Ok t' /\ holds (st_read S s') t' m.
Proof.
  intros A Hl W T. destruct (attached_logged s t m A) as (log & ids & I & g & (R & C & E) & Em & Sh).
  destruct (tree_fits b g m l C Em Hl W) as [F Hs].
  pose proof (tshort_ok ids g m C Em Sh) as Ts.
  destruct (acc_serialize LS linv LL b Hb (takes LS b) (takes_S LS b) (fun k x d H Hd => H d Hd) ids g t (s, log) 1 I R F) as (bs & s1 & E1 & I1 & _ & T1 & Lb).
  { eapply takes_le; [|exact (takes_logged S b _ s log T)]. lia. }
  destruct (wacc_write LS linv LL b (takes LS b) (fun k x d H Hd => H d Hd) bs s1 0 I1 T1) as (id1 & s4 & E4 & _).
  { cbn beta in Lb. unfold kids_max in Hb. lia. }
  pose proof (reattach_ok LS linv LL ids g t (s, log) I R Ts) as (r & s2 & E2 & I2 & _ & H2).
  destruct (fwd_reattach S inv L t (s, log)) as [Ef _]. rewrite E2 in Ef. cbn [fst snd] in Ef.
  destruct H2 as [[-> _]|((id & t') & -> & Ld & R' & E')].
  - exfalso. destruct (serialize_ok LS linv LL ids g t (s, log) I R Ts) as (r & s3 & E3 & _ & _ & H3).
    rewrite E1 in E3. injection E3 as <- <-.
    destruct H3 as [[H3 _]|(bs' & H3 & Hw)]; [discriminate|]. injection H3 as <-.
    destruct (written_deserialize _ _ _ _ _ Hw) as (n' & En & _). unfold t_reattach, wbind in E2.
    rewrite E1, E4, En in E2. discriminate.
  - cbn [fst snd] in *. assert (forall i x, st_read LS s2 i = Ok x -> st_read S (fst s2) i = Ok x) as Up.
    { intros i x. now apply (linv_more S inv L). }
    exists id, t', (fst s2). split; [exact Ef|]. split; [apply I2|]. split.
    + unfold t_load in *. destruct (st_read LS s2 id) eqn:Er; try discriminate. now rewrite (Up _ _ Er).
    + eapply holds_ext; [exact Em|]. apply good_holds with (ids := ids); [|exact C].
      eapply Rep_mono; [exact Up|intros X; exact X|exact R'].
Qed.
End Accept.

(* ------------------------------------------------------------------ *)
(** The stores. *)

Lemma mem_takes b k : forall s, mem_inv s -> (top s + N.of_nat k < u64_max)%N -> takes mem_store b k s.
Proof.
  induction k as [|k IH]; intros s I H; [exact Logic.I|]. intros d _.
  destruct (st_write mem_store s d) as [r s'] eqn:E. pose proof E as E0.
  assert ((top s + 1 < u64_max)%N) as Ht by lia.
  cbn [mem_store st_write] in E. unfold top in Ht. replace (_ =? u64_max)%N with false in E by (symmetry; apply N.eqb_neq; lia).
  unfold mem_write in E. cbn [andb] in E. injection E as <- <-. eexists _, _. split; [reflexivity|].
  apply IH.
  - exact (proj1 (law_write _ _ mem_lawful _ _ _ _ I E0)).
  - rewrite N.mod_small by exact Ht. fold (top s) in *. rewrite bt_insert_top.
    + unfold top at 1. rewrite bt_last_snoc. lia.
    + eapply Forall_impl; [|apply top_max; exact I]. cbn. intros. lia.
Qed.

Lemma paged_takes dbg ps b : page_size_ok ps -> (b + 8 <= ps)%N -> forall k cs evs s, history dbg cs ->
  PagedSpec.run dbg ps new_file cs = (evs, Opened s) -> room_for ps k cs -> takes (paged_store dbg ps) b k (s, []).
Proof.
  intros Hok Hb. induction k as [|k IH]; intros cs evs s H E R; [exact Logic.I|]. intros d Hd.
  assert (PagedSpec.room ps cs) as R1 by (unfold room_for, room in *; lia).
  destruct (pf_write_now dbg ps Hok cs evs (Opened s) H E d Logic.I) as [A _].
  destruct (A ltac:(lia) R1) as (id & Ew & _). unfold write_now in Ew.
  cbn [paged_store st_write fst snd hd tl]. destruct (step dbg ps (Opened s) (OWrite d, None)) as [r p] eqn:Es.
  cbn [fst] in Ew. subst r. 
  assert (exists s', p = Opened s') as [s' ->].
  { cbn in Es. destruct (pf_write _ _ _ _) as [r s']. injection Es as _ <-. eauto. }
  exists id, (s', []). split; [reflexivity|].
  apply (IH (cs ++ [(OWrite d, None)]) (evs ++ [(OWrite d, Ok id)])).
  - apply Forall_app. split; [exact H|repeat constructor].
  - rewrite run_app, E. cbn [PagedSpec.run]. rewrite Es. reflexivity.
  - unfold room_for in *. rewrite filter_app, app_length. cbn [filter is_write fst length]. lia.
Qed.

Lemma paged_attach dbg ps cs evs s t m l : page_size_ok ps -> (kids_max + 8 <= ps)%N -> history dbg cs ->
  PagedSpec.run dbg ps new_file cs = (evs, Opened s) -> reachable dbg t -> holds mem t m -> lists l m ->
  entries_within (ps - 8) l -> room_for ps (writes_max (length l)) cs ->
  exists t' s', t_attached (paged_store dbg ps) t (s, []) = (Ok t', s') /\ holds (st_read (paged_store dbg ps) s') t' m.
Proof.
  intros Hok Hps H E Hr Hm Hl W R.
  destruct (acc_attached dbg (paged_store dbg ps) (paged_inv dbg ps) (paged_lawful dbg ps Hok) (ps - 8) ltac:(lia) (s, []) t m l)
    as (t' & s' & A & _ & B); eauto.
  - split; [cbn; eauto|constructor].
  - eapply paged_takes; eauto. lia.
Qed.
Lemma paged_reattach dbg ps cs evs s t m l : page_size_ok ps -> (kids_max + 8 <= ps)%N -> history dbg cs ->
  PagedSpec.run dbg ps new_file cs = (evs, Opened s) ->
  attached dbg (paged_store dbg ps) (paged_inv dbg ps) (s, []) t m -> lists l m ->
  entries_within (ps - 8) l -> room_for ps (writes_max (length l)) cs ->
  exists id t' s', t_reattach (paged_store dbg ps) t (s, []) = (Ok (id, t'), s') /\
    t_load (paged_store dbg ps) s' (Some id) = Ok t' /\ holds (st_read (paged_store dbg ps) s') t' m.
Proof.
  intros Hok Hps H E A Hl W R.
  destruct (acc_reattach dbg (paged_store dbg ps) (paged_inv dbg ps) (paged_lawful dbg ps Hok) (ps - 8) ltac:(lia) (s, []) t m l)
    as (id & t' & s' & X & _ & Y & Z); eauto.
  - eapply paged_takes; eauto. lia.
  - eauto 6.
Qed.
