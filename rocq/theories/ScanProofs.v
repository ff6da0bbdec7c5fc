(** Correctness of the prefix scan. *)
From Verif Require Import Base BaseLemmas Header Node Iter Api Tree Rep PrefixProofs FindProofs Entries IterProofs Canon.
From Coq Require Import Sorting.Sorted.

Lemma entries_size path t : length (entries path t) <= size t.
Proof.
  revert path. induction t as [p v cs IH] using tree_ind'. intros path.
  rewrite entries_T, app_length, size_T. unfold entriesl.
  assert (length (flat_map (entries (path ++ p)) cs) <= sizes cs) as H.
  { induction IH as [|c cs Hc _ IHc]; [cbn; lia|]. cbn [flat_map]. rewrite app_length, sizes_cons.
    specialize (Hc (path ++ p)). lia. }
  destruct v; cbn [length]; unfold bytes in *; lia.
Qed.

Lemma vals_size t : length (vals t) <= size t.
Proof. rewrite (vals_entries t []), map_length. apply entries_size. Qed.

(** Does [k] start with [p]? *)
Definition pre (p k : bytes) : bool := match strip p k with Some _ => true | None => false end.

Lemma pre_spec p k : pre p k = true <-> exists z, k = p ++ z.
Proof.
  unfold pre. destruct (strip p k) as [z|] eqn:E.
  - apply strip_spec in E. split; eauto.
  - split; [discriminate|]. intros [z ->]. now rewrite strip_app in E.
Qed.

Definition under (k : bytes) (t : tree) : list (bytes * bytes) :=
  filter (fun e => pre k (fst e)) (entries [] t).

Lemma filter_sorted {A} (R : A -> A -> Prop) f l : StronglySorted R l -> StronglySorted R (filter f l).
Proof.
  induction 1 as [|a l So IH F]; cbn; [constructor|]. destruct (f a); [|exact IH].
  constructor; [exact IH|]. rewrite Forall_forall in *. intros x Hx. apply F. now apply filter_In in Hx.
Qed.

Lemma under_in k t z x : croot t -> In (z, x) (under k t) <-> exists w, z = k ++ w /\ lookup t z = Some x.
Proof.
  intros Hc. unfold under. rewrite filter_In. cbn [fst]. rewrite pre_spec, entries_in by now apply croot_kids.
  cbn. split.
  - intros ((w & -> & H) & (u & E)). exists u. auto.
  - intros (w & -> & H). eauto.
Qed.

Lemma under_sorted k t : croot t -> StronglySorted elt (under k t).
Proof. intros Hc. apply filter_sorted, entries_sorted. now apply croot_kids. Qed.

(** Entries of the subtree found, seen from the path leading to it. *)
Lemma under_sub t t' k p d : croot t -> croot t' -> k = p ++ d -> (exists e, tp t' = d ++ e) ->
  (forall z, lookup t (k ++ z) = lookup t' (d ++ z)) -> under k t = entries p t'.
Proof.
  intros Hc Hc' -> (e & E) H. apply sorted_unique.
  - now apply under_sorted.
  - apply entries_sorted. now apply croot_kids.
  - intros [z x]. rewrite under_in, entries_in by (auto; now apply croot_kids). split.
    + intros (w & -> & Hl). exists (d ++ w). rewrite app_assoc. split; [reflexivity|]. now rewrite <- H.
    + intros (w & -> & Hl). destruct (lookup_some_prefix _ _ _ Hl) as [r ->]. rewrite E in *.
      exists (e ++ r). rewrite <- !app_assoc in *. split; [reflexivity|].
      now rewrite (app_assoc p), H.
Qed.

Section Scan.
Context (ids : bool) (rd : reader).
Notation NR := (NRep ids rd True).
Notation RR := (Rep ids rd).
Notation erel := (erel rd).
Notation vrel := (vrel rd).

(** Where no key and no branching is at the prefix itself, or the prefix is empty,
    the scan is right. *)
Theorem scan_ok fuel n t k : RR n t -> croot t -> 4 * size t + 6 < fuel ->
  (k = [] \/ (lookup t k = None /\
     forall c1 c2 z1 z2, lookup t (k ++ c1 :: z1) <> None -> lookup t (k ++ c2 :: z2) <> None -> c1 = c2)) ->
  exists l, t_scan_prefix rd n k fuel = Ok l /\ Forall2 erel l (under k t).
Proof.
  intros H Hc Hf Hk. unfold t_scan_prefix, scan_prefix.
  destruct (find_ok ids rd fuel (ROwned n) t k (Rep_NRep _ _ _ _ _ H) Hc ltac:(lia)) as (x & -> & Hp). cbn [bind].
  destruct x as [r|r m|]; cbn [find_post] in Hp.
  - destruct Hp as (t' & N' & C' & (p & Ep) & Sz & Hcc & Hz). destruct N' as [_ (n' & -> & R')]. cbn [bind].
    assert (tp t' = [] \/ tp t' <> []) as [Et|Et] by (destruct (tp t'); [now left|right; discriminate]).
    + rewrite Et in *. rewrite app_nil_r in Ep. subst p.
      rewrite (under_sub t t' k k [] Hc C'); [|now rewrite app_nil_r|rewrite Et; exists []; reflexivity|exact Hz].
      pose proof (entries_size k t'). eapply kv_collect_ok; eauto. lia.
    + exfalso. destruct Hk as [->|[Hk1 Hk2]].
      { symmetry in Ep. apply app_eq_nil in Ep as [_ Ep]. congruence. }
      destruct (croot_edge t' C') as [E|(a & b & u & w & Nab & E1 & E2)].
      * intros ->. now apply Et.
      * specialize (Hz []). rewrite !app_nil_r in Hz. congruence.
      * apply Nab. eapply Hk2; rewrite Hz; eassumption.
  - destruct Hp as (t' & N' & C' & Ln & (p & Ep) & Lk & Sz & Hz). destruct N' as [_ (n' & -> & R')]. cbn [bind].
    rewrite slice_to_ok by lia. cbn [bind].
    assert (firstn (length k - m) k = p) as ->.
    { subst k. rewrite app_length, firstn_length, Nat.min_l by lia. rewrite Nat.add_sub.
      rewrite firstn_app, Nat.sub_diag, firstn_all. cbn. apply app_nil_r. }
    rewrite (under_sub t t' k p (firstn m (tp t')) Hc C' Ep); [| |exact Hz].
    + pose proof (entries_size p t'). eapply kv_collect_ok; eauto. lia.
    + exists (skipn m (tp t')). now rewrite firstn_skipn.
  - assert (under k t = []) as ->.
    { destruct (under k t) as [|[z x] l] eqn:E; [reflexivity|]. exfalso.
      assert (In (z, x) (under k t)) as Hi by (rewrite E; now left).
      apply under_in in Hi as (w & -> & Hl); [|exact Hc]. destruct Hp as [_ Hp]. now rewrite Hp in Hl. }
    cbn [bind]. exists []. rewrite kv_collect_nil by lia. auto.
Qed.

(** In every case the scan yields the right values in the right order, each key
    with the right prefix; when a node ends exactly at the prefix, the keys have
    the node's edge inserted after the prefix. *)
Theorem scan_values_ok fuel n t k : RR n t -> croot t -> 4 * size t + 6 < fuel ->
  exists l e, t_scan_prefix rd n k fuel = Ok l /\
    Forall2 (fun a b => (exists z, fst b = k ++ z /\ fst a = k ++ e ++ z) /\ vrel (snd a) (snd b)) l (under k t).
Proof.
  intros H Hc Hf. unfold t_scan_prefix, scan_prefix.
  assert (forall l, Forall2 erel l (under k t) ->
    Forall2 (fun a b => (exists z, fst b = k ++ z /\ fst a = k ++ [] ++ z) /\ vrel (snd a) (snd b)) l (under k t)) as Right.
  { intros l F. assert (forall e, In e (under k t) -> exists z, fst e = k ++ z) as Hu.
    { intros [z x] Hi. apply under_in in Hi as (w & E & _); [|exact Hc]. eauto. }
    induction F as [|a b la lb [E V] F IH]; constructor.
    - split; [|exact V]. destruct (Hu b (or_introl eq_refl)) as [z Ez]. exists z. split; [exact Ez|]. cbn [app]. rewrite <- Ez. exact E.
    - apply IH. intros e He. apply Hu. now right. }
  destruct (find_ok ids rd fuel (ROwned n) t k (Rep_NRep _ _ _ _ _ H) Hc ltac:(lia)) as (x & Ex & Hp).
  rewrite Ex. cbn [bind].
  destruct x as [r|r m|]; cbn [find_post] in Hp.
  - destruct Hp as (t' & N' & C' & (p & Ep) & Sz & Hcc & Hz). destruct N' as [_ (n' & E' & R')]. rewrite E'. cbn [bind].
    rewrite (under_sub t t' k p (tp t') Hc C' Ep); [| |exact Hz].
    2:{ exists []. now rewrite app_nil_r. }
    pose proof (entries_size k t').
    destruct (kv_collect_ok ids rd fuel k n' t' R' C') as (l & -> & F); [lia|].
    exists l, (tp t'). split; [reflexivity|].
    rewrite (entries_path k) in F. rewrite (entries_path p).
    assert (forall e, In e (entries [] t') -> exists z, fst e = tp t' ++ z) as Hu.
    { intros [z x] Hi. apply entries_in in Hi as (w & -> & Hl); [|now apply croot_kids].
      now apply lookup_some_prefix in Hl. }
    clear -F Ep Hu. revert l F. induction (entries [] t') as [|e es IH]; intros l F; cbn [map] in *; inversion F as [|a0 b0 l0 l1 Hh Ht]; subst; constructor.
    + destruct Hh as [E V]. destruct (Hu e (or_introl eq_refl)) as [z Ez]. cbn [fst snd] in *. split; [|exact V].
      exists z. unfold bytes in *. rewrite Ez in *. rewrite E, !app_assoc. auto.
    + apply IH; [|assumption]. intros e' He'. apply Hu. now right.
  - destruct Hp as (t' & N' & C' & Ln & (p & Ep) & Lk & Sz & Hz). destruct N' as [_ (n' & -> & R')]. cbn [bind].
    rewrite slice_to_ok by lia. cbn [bind].
    assert (firstn (length k - m) k = p) as ->.
    { rewrite Ep, app_length, firstn_length, Nat.min_l by lia. rewrite Nat.add_sub.
      rewrite firstn_app, Nat.sub_diag, firstn_all. cbn. apply app_nil_r. }
    pose proof (entries_size p t').
    destruct (kv_collect_ok ids rd fuel p n' t' R' C') as (l & -> & F); [lia|].
    exists l, []. split; [reflexivity|]. apply Right.
    rewrite (under_sub t t' k p (firstn m (tp t')) Hc C' Ep); [exact F| |exact Hz].
    exists (skipn m (tp t')). now rewrite firstn_skipn.
  - assert (under k t = []) as E0.
    { destruct (under k t) as [|[z x] l] eqn:E; [reflexivity|]. exfalso.
      assert (In (z, x) (under k t)) as Hi by (rewrite E; now left).
      apply under_in in Hi as (w & -> & Hl); [|exact Hc]. destruct Hp as [_ Hp]. now rewrite Hp in Hl. }
    cbn [bind]. exists [], []. rewrite kv_collect_nil by lia. split; [reflexivity|]. apply Right. rewrite E0. constructor.
Qed.
End Scan.
