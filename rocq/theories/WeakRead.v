(** Reading trees that need not be canonical: the other queries. *)
From Verif Require Import Base BaseLemmas Header Node Combine Iter Api Tree Rep JoinBase JoinProofs WithProofs PrefixProofs FindProofs
  Entries IterProofs ScanProofs Sim Spec Client Top TopOps MemLemmas Store StoreSpec StoreProofs World WorldProofs
  StoreLemmas StoreTop FailSpec WeakFind WeakIter InPlace InPlaceSpec InPlaceTop.
From Coq Require Import Sorting.Sorted.

Lemma w_under_in k t z x : wroot t -> In (z, x) (under k t) <-> exists w, z = k ++ w /\ lookup t z = Some x.
Proof.
  intros Hc. unfold under. rewrite filter_In. cbn [fst]. rewrite pre_spec, w_entries_in by exact Hc.
  cbn. split.
  - intros ((w & -> & H) & (u & E)). exists u. auto.
  - intros (w & -> & H). eauto.
Qed.
Lemma w_under_sorted k t : wroot t -> StronglySorted elt (under k t).
Proof. intros Hc. apply filter_sorted, w_entries_sorted. exact Hc. Qed.
Lemma w_under_sub t t' k p d : wroot t -> wroot t' -> k = p ++ d -> (exists e, tp t' = d ++ e) ->
  (forall z, lookup t (k ++ z) = lookup t' (d ++ z)) -> under k t = entries p t'.
Proof.
  intros Hc Hc' -> (e & E) H. apply sorted_unique.
  - now apply w_under_sorted.
  - apply w_entries_sorted. exact Hc'.
  - intros [z x]. rewrite w_under_in, w_entries_in by auto. split.
    + intros (w & -> & Hl). exists (d ++ w). rewrite app_assoc. split; [reflexivity|]. now rewrite <- H.
    + intros (w & -> & Hl). destruct (lookup_some_prefix _ _ _ Hl) as [r ->]. rewrite E in *.
      exists (e ++ r). rewrite <- !app_assoc in *. split; [reflexivity|].
      now rewrite (app_assoc p), H.
Qed.
Lemma w_lists_under t m k : wroot t -> same m (lookup t) ->
  lists_where (fun x => starts_with k x = true) (under k t) m.
Proof.
  intros C E. split.
  - pose proof (w_under_sorted k t C) as S. clear -S. induction S; constructor; auto.
  - intros z x. rewrite w_under_in by auto. rewrite starts_with_spec. rewrite (E z). split.
    + intros (w & -> & L). eauto.
    + intros (L & w & ->). eauto.
Qed.

Section Read.
Context (ids : bool) (rd : reader).
Notation NR := (NRep ids rd True).
Notation RR := (Rep ids rd).
Notation erel := (erel rd).
Notation vrel := (vrel rd).

Theorem w_scan_values_ok fuel n t k : RR n t -> wroot t -> 4 * size t + 6 < fuel ->
  exists l e, t_scan_prefix rd n k fuel = Ok l /\
    Forall2 (fun a b => (exists z, fst b = k ++ z /\ fst a = k ++ e ++ z) /\ vrel (snd a) (snd b)) l (under k t).
Proof.
  intros H Hc Hf. unfold t_scan_prefix, scan_prefix.
  assert (forall l, Forall2 erel l (under k t) ->
    Forall2 (fun a b => (exists z, fst b = k ++ z /\ fst a = k ++ [] ++ z) /\ vrel (snd a) (snd b)) l (under k t)) as Right.
  { intros l F. assert (forall e, In e (under k t) -> exists z, fst e = k ++ z) as Hu.
    { intros [z x] Hi. apply w_under_in in Hi as (w & E & _); [|exact Hc]. eauto. }
    induction F as [|a b la lb [E V] F IH]; constructor.
    - split; [|exact V]. destruct (Hu b (or_introl eq_refl)) as [z Ez]. exists z. split; [exact Ez|]. cbn [app]. rewrite <- Ez. exact E.
    - apply IH. intros e He. apply Hu. now right. }
  destruct (w_find_ok ids rd fuel (ROwned n) t k (Rep_NRep _ _ _ _ _ H) Hc ltac:(lia)) as (x & Ex & Hp).
  rewrite Ex. cbn [bind].
  destruct x as [r|r m|]; cbn [w_find_post] in Hp.
  - destruct Hp as (t' & N' & C' & (p & Ep) & Sz & Hcc & Hz). destruct N' as [_ (n' & E' & R')]. rewrite E'. cbn [bind].
    rewrite (w_under_sub t t' k p (tp t') Hc C' Ep); [| |exact Hz].
    2:{ exists []. now rewrite app_nil_r. }
    pose proof (entries_size k t').
    destruct (w_kv_collect_ok ids rd fuel k n' t' R' C') as (l & -> & F); [lia|].
    exists l, (tp t'). split; [reflexivity|].
    rewrite (entries_path k) in F. rewrite (entries_path p).
    assert (forall e, In e (entries [] t') -> exists z, fst e = tp t' ++ z) as Hu.
    { intros [z x] Hi. apply w_entries_in in Hi as (w & -> & Hl); [|exact C'].
      now apply lookup_some_prefix in Hl. }
    clear -F Ep Hu. revert l F. induction (entries [] t') as [|e es IH]; intros l F; cbn [map] in *; inversion F as [|a0 b0 l0 l1 Hh Ht]; subst; constructor.
    + destruct Hh as [E V]. destruct (Hu e (or_introl eq_refl)) as [z Ez]. cbn [fst snd] in *. split; [|exact V].
      exists z. unfold bytes in *. rewrite Ez in *. rewrite E, !app_assoc. auto.
    + apply IH; [|assumption]. intros e' He'. apply Hu. now right.
  - destruct Hp as (t' & N' & C' & Ln & (p & Ep) & Lk & Sz & Hz). destruct N' as [_ (n' & -> & R')]. cbn [bind].
    rewrite slice_to_ok by lia. cbn [bind].
    assert (firstn (length k - m) k = p) as ->.
    { rewrite Ep, app_length, firstn_length, Nat.min_l by lia. rewrite Nat.add_sub.
      rewrite firstn_app, Nat.sub_diag, firstn_all. cbn. apply app_nil_r. }
    pose proof (entries_size p t').
    destruct (w_kv_collect_ok ids rd fuel p n' t' R' C') as (l & -> & F); [lia|].
    exists l, []. split; [reflexivity|]. apply Right.
    rewrite (w_under_sub t t' k p (firstn m (tp t')) Hc C' Ep); [exact F| |exact Hz].
    exists (skipn m (tp t')). now rewrite firstn_skipn.
  - assert (under k t = []) as E0.
    { destruct (under k t) as [|[z x] l] eqn:E; [reflexivity|]. exfalso.
      assert (In (z, x) (under k t)) as Hi by (rewrite E; now left).
      apply w_under_in in Hi as (w & -> & Hl); [|exact Hc]. destruct Hp as [_ Hp]. now rewrite Hp in Hl. }
    cbn [bind]. exists [], []. rewrite kv_collect_nil by lia. split; [reflexivity|]. apply Right. rewrite E0. constructor.
Qed.

Theorem w_contains_key_ok fuel n t k : RR n t -> wroot t -> size t < fuel ->
  contains_key rd fuel n k = Ok (match lookup t k with Some _ => true | None => false end).
Proof.
  intros H Hc Hf. destruct (w_get_ok ids rd fuel n t k H Hc Hf) as (o & Hg & Ho).
  unfold get in Hg. unfold contains_key. destruct (find rd fuel (ROwned n) k) as [x| | |]; cbn [bind] in *; try discriminate.
  injection Hg as <-. f_equal. destruct (lookup t k) as [y|].
  - destruct Ho as (b & Ho & _). destruct x; try discriminate. now rewrite Ho.
  - destruct x; auto. now rewrite Ho.
Qed.
Theorem w_has_prefix_ok fuel n t k : RR n t -> wroot t -> size t < fuel ->
  exists b, has_prefix rd fuel n k = Ok b /\ ((exists z, lookup t (k ++ z) <> None) -> b = true).
Proof.
  intros H Hc Hf. unfold has_prefix.
  destruct (w_find_ok ids rd fuel (ROwned n) t k (Rep_NRep _ _ _ _ _ H) Hc Hf) as (x & -> & Hp). cbn [bind].
  eexists. split; [reflexivity|]. destruct x as [r|r m|]; auto. intros (z & Hz). destruct Hp as [_ Hp].
  exfalso. apply Hz, Hp.
Qed.
Theorem w_filter_prefix_ok fuel n t k sub : RR n t -> wroot t -> size t < fuel ->
  exists n' t', filter_prefix rd fuel n k sub = Ok n' /\ RR n' t' /\ wroot t' /\
    (forall z, lookup t' (sub ++ z) = lookup t (k ++ z)) /\
    (forall w, lookup t' w <> None -> exists z, w = sub ++ z).
Proof.
  intros H Hc Hf. unfold filter_prefix.
  destruct (w_find_ok ids rd fuel (ROwned n) t k (Rep_NRep _ _ _ _ _ H) Hc Hf) as (x & -> & Hp). cbn [bind].
  destruct x as [r|r m|]; cbn [w_find_post] in Hp.
  - destruct Hp as (t' & N' & C' & _ & _ & Hcc & Hz). destruct N' as [_ (n' & Er & R')]. rewrite Er in *. cbn [bind] in *.
    destruct t' as [p v cs]. pose proof (Rep_inv _ _ _ _ _ _ R') as (RP & RV & ns & RK & F).
    exists (set_prefix_slice n' sub), (T sub v cs). split; [reflexivity|]. split.
    { eapply Rep_mk; cbn; eauto. now left. }
    split; [exact C'|]. split.
    + intros z. rewrite Hz. cbn [tp]. now rewrite !lookup_self.
    + intros w Hw. destruct (lookup (T sub v cs) w) eqn:E; [|congruence].
      apply lookup_some_prefix in E. exact E.
  - destruct Hp as (t' & N' & C' & Ln & _ & _ & _ & Hz).
    destruct t' as [p v cs]. rewrite (NRep_prefix _ _ _ _ _ _ _ N'). cbn [bind].
    destruct N' as [_ (n' & -> & R')]. cbn [bind tp] in *. rewrite slice_from_ok by lia. cbn [bind].
    pose proof (Rep_inv _ _ _ _ _ _ R') as (RP & RV & ns & RK & F).
    eexists _, (T (sub ++ skipn m p) v cs). split; [reflexivity|]. split.
    { eapply Rep_mk; cbn; eauto. now left. }
    split; [exact C'|]. split.
    + intros z. rewrite Hz, !lookup_raw. unfold rawlook. rewrite strip_app_l, strip_app.
      rewrite <- (firstn_skipn m p) at 2. now rewrite strip_app_l, strip_app.
    + intros w Hw. destruct (lookup (T (sub ++ skipn m p) v cs) w) eqn:E; [|congruence].
      apply lookup_some_prefix in E as [z ->]. cbn [tp]. rewrite <- app_assoc. eauto.
  - exists n_empty, tempty. split; [reflexivity|]. split.
    { eapply Rep_mk with (ns := []); cbn; eauto; [now left|]. right; left; auto. }
    split; [split; constructor|]. split.
    + intros z. rewrite tempty_lookup. destruct Hp as [_ Hp]. now rewrite Hp.
    + intros w Hw. now rewrite tempty_lookup in Hw.
Qed.
End Read.
