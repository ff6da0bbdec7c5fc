(** Lemmas behind the properties of in-memory trees. *)
From Verif Require Import Base BaseLemmas Header Node Combine Iter Api Tree Rep JoinBase JoinProofs
  WithProofs PrefixProofs PredProofs FindProofs Entries IterProofs Canon ScanProofs Sim Spec Client Top TopOps.
From Coq Require Import Sorting.Sorted.

Notation mem := detached_read (only parsing).

Section Mem.
Context (dbg : bool).

Lemma reach_step t (R : reachable dbg t) m (H : holds mem t m) f (q : prog -> prog) M :
  (forall p, allowed p -> same (meaning p) m -> allowed (q p)) ->
  (forall p, run dbg (q p) = fun n => x <- run dbg p n ;; f x n) ->
  (forall p, same (meaning p) m -> same (meaning (q p)) M) ->
  exists t', f t ⇓ Ok t' /\ reachable dbg t' /\ holds mem t' M.
Proof.
  intros Ha Hr Hm. destruct R as (p & A & C).
  destruct (yields_holds _ _ _ _ (run_ok dbg p A)) as (t1 & C1 & H1).
  pose proof (conv_unique _ _ _ C C1) as E. injection E as <-.
  assert (same (meaning p) m) as Es by (eapply holds_same; eauto).
  specialize (Ha p A Es). destruct (yields_holds _ _ _ _ (run_ok dbg (q p) Ha)) as (t2 & C2 & H2).
  assert (f t ⇓ Ok t2) as Cf.
  { destruct C as (_ & n & En), C2 as (N & n2 & En2). split; [exact N|]. exists (max n n2). intros k Hk.
    rewrite <- (En2 k) by lia. rewrite Hr, En by lia. reflexivity. }
  exists t2. split; [exact Cf|]. split; [exists (q p); auto|]. eapply holds_ext; [|exact H2]. now apply Hm.
Qed.

Lemma reach_step2 t u (R : reachable dbg t) (R' : reachable dbg u) m mu
    (H : holds mem t m) (H' : holds mem u mu) f (q : prog -> prog -> prog) M :
  (forall p p', allowed p -> allowed p' -> same (meaning p') mu -> allowed (q p p')) ->
  (forall p p', run dbg (q p p') = fun n => x <- run dbg p n ;; y <- run dbg p' n ;; f x y n) ->
  (forall p p', same (meaning p) m -> same (meaning p') mu -> same (meaning (q p p')) M) ->
  exists t', f t u ⇓ Ok t' /\ reachable dbg t' /\ holds mem t' M.
Proof.
  intros Ha Hr Hm. destruct R as (p & A & C), R' as (p' & A' & C').
  destruct (yields_holds _ _ _ _ (run_ok dbg p A)) as (t1 & C1 & H1).
  pose proof (conv_unique _ _ _ C C1) as E. injection E as <-.
  destruct (yields_holds _ _ _ _ (run_ok dbg p' A')) as (u1 & C1' & H1').
  pose proof (conv_unique _ _ _ C' C1') as E. injection E as <-.
  assert (same (meaning p) m) as Es by (eapply holds_same; eauto).
  assert (same (meaning p') mu) as Es' by (eapply holds_same; eauto).
  specialize (Ha p p' A A' Es'). destruct (yields_holds _ _ _ _ (run_ok dbg (q p p') Ha)) as (t2 & C2 & H2).
  assert (f t u ⇓ Ok t2) as Cf.
  { destruct C as (_ & n & En), C' as (_ & n' & En'), C2 as (N & n2 & En2). split; [exact N|].
    exists (max (max n n') n2). intros k Hk.
    rewrite <- (En2 k) by lia. rewrite Hr, En, En' by lia. reflexivity. }
  exists t2. split; [exact Cf|]. split; [exists (q p p'); auto|]. eapply holds_ext; [|exact H2]. now apply Hm.
Qed.

Context (t : node) (m : kmap) (R : reachable dbg t) (H : holds mem t m).

Lemma mem_insert k v : exists t', t_insert dbg mem t k v ⇓ Ok t' /\ reachable dbg t' /\ holds mem t' (m_insert m k v).
Proof.
  eapply reach_step with (q := fun p => PInsert p k v) (f := fun x => t_insert dbg mem x k v); eauto.
  intros p E x. cbn. unfold m_insert. now rewrite E.
Qed.
Lemma mem_remove k : exists t', t_remove dbg mem t k ⇓ Ok t' /\ reachable dbg t' /\ holds mem t' (m_remove m k).
Proof.
  eapply reach_step with (q := fun p => PRemove p k) (f := fun x => t_remove dbg mem x k); eauto.
  intros p E x. cbn. unfold m_remove. now rewrite E.
Qed.
Lemma mem_remove_prefix k :
  exists t', t_remove_prefix dbg mem t k ⇓ Ok t' /\ reachable dbg t' /\ holds mem t' (m_remove_prefix m k).
Proof.
  eapply reach_step with (q := fun p => PRemovePrefix p k) (f := fun x => t_remove_prefix dbg mem x k); eauto.
  intros p E x. cbn. unfold m_remove_prefix. now rewrite E.
Qed.
Lemma mem_filter_prefix k s : (k <> [] \/ s = [] \/ exists x, m x <> None) ->
  exists t', t_filter_prefix mem t k s ⇓ Ok t' /\ reachable dbg t' /\ holds mem t' (m_filter_prefix m k s).
Proof.
  intros Hk. eapply reach_step with (q := fun p => PFilterPrefix p k s) (f := fun x => t_filter_prefix mem x k s); eauto.
  - intros p A E. cbn. split; [exact A|]. destruct Hk as [|[|[x Hx]]]; auto. right; right. exists x. now rewrite E.
  - intros p E x. cbn. unfold m_filter_prefix. destruct (strip_prefix s x); auto.
Qed.

Lemma mem_contains k b : t_contains_key mem t k ⇓ Ok b <-> (b = true <-> m k <> None) .
Proof.
  destruct (reachable_good dbg t R) as (g & Rg & C & _).
  pose proof (g_contains false mem t g m Rg C H k) as E. split.
  - intros E'. pose proof (conv_unique _ _ _ E E') as E2. injection E2 as <-.
    destruct (m k); split; congruence.
  - intros Hb. assert ((match m k with Some _ => true | None => false end) = b) as <-; [|exact E].
    destruct (m k), b; auto; [symmetry; apply Hb; discriminate|]. destruct (proj1 Hb); auto.
Qed.

Lemma mem_contains_key k : exists b, t_contains_key mem t k ⇓ Ok b /\ (b = true <-> m k <> None).
Proof.
  exists (match m k with Some _ => true | None => false end). split.
  - apply mem_contains. destruct (m k); split; congruence.
  - destruct (m k); split; congruence.
Qed.

Lemma mem_has_prefix p : (p <> [] \/ exists x, m x <> None) ->
  exists b, t_has_prefix mem t p ⇓ Ok b /\ (b = true <-> exists k, m k <> None /\ starts_with p k = true).
Proof.
  destruct (reachable_good dbg t R) as (g & Rg & C & _). intros Hp.
  exact (g_has_prefix false mem t g m Rg C H p Hp).
Qed.
Lemma mem_iter : exists l, iter_bytes mem t ⇓ Ok l /\ lists l m.
Proof. destruct (reachable_good dbg t R) as (g & Rg & C & _). exact (g_iter false mem t g m Rg C H). Qed.
Lemma mem_values : exists l, iter_bytes mem t ⇓ Ok l /\ values_bytes mem t ⇓ Ok (map snd l).
Proof.
  destruct (reachable_good dbg t R) as (g & Rg & C & _).
  destruct (g_values false mem t g m Rg C H) as (l & L & V).
  destruct (g_iter false mem t g m Rg C H) as (l' & I & L').
  rewrite (lists_where_unique _ _ _ _ L L') in V. eauto.
Qed.
Lemma mem_scan p : (p = [] \/ (m p = None /\ forall c1 c2 z1 z2, m (p ++ c1 :: z1) <> None ->
    m (p ++ c2 :: z2) <> None -> c1 = c2)) ->
  exists l, scan_bytes mem t p ⇓ Ok l /\ lists_where (fun k => starts_with p k = true) l m.
Proof. destruct (reachable_good dbg t R) as (g & Rg & C & _). exact (g_scan false mem t g m Rg C H p). Qed.
Lemma mem_scan_values p : exists l l' e, scan_bytes mem t p ⇓ Ok l' /\
  lists_where (fun k => starts_with p k = true) l m /\
  Forall2 (fun a b => snd a = snd b /\ exists z, fst a = p ++ z /\ fst b = p ++ e ++ z) l l'.
Proof. destruct (reachable_good dbg t R) as (g & Rg & C & _). exact (g_scan_values false mem t g m Rg C H p). Qed.
Lemma mem_first_last p : exists l, lists l m /\
  first_entry_bytes mem t p ⇓ Ok (option_map (push p) (first_of l)) /\
  last_entry_bytes mem t p ⇓ Ok (option_map (push p) (last_of l)) /\
  first_value_bytes mem t ⇓ Ok (option_map snd (first_of l)) /\
  last_value_bytes mem t ⇓ Ok (option_map snd (last_of l)).
Proof. destruct (reachable_good dbg t R) as (g & Rg & C & _). exact (g_first_last false mem t g m Rg C H p). Qed.
Lemma mem_group_by d : (forall path r, exists b, d path r = Ok b) ->
  exists ts ls, t_group_by mem t d ⇓ Ok ts /\
    Forall2 (fun u l => exists mu, holds mem u mu /\ lists l mu) ts ls /\ lists (concat ls) m.
Proof. destruct (reachable_good dbg t R) as (g & Rg & C & _). exact (g_group_by false mem t g m Rg C H d). Qed.

Lemma mem_is_empty : is_empty t = true <-> forall k, m k = None.
Proof.
  destruct (reachable_good dbg t R) as (g & Rg & C & ->).
  pose proof (holds_lookup false mem t g m Rg C H) as Em.
  destruct (croot_cases g C) as [->|[k Hk]].
  - split; [|reflexivity]. intros _ k. now rewrite Em, tempty_lookup.
  - split.
    + destruct C as [->|(L & _)]; [now rewrite tempty_lookup in Hk|]. unfold tnil.
      destruct (tv g); [discriminate|]. destruct L as [L|L]; [congruence|].
      destruct (tc g); [cbn in L; lia|discriminate].
    + intros A. now rewrite <- Em, A in Hk.
Qed.

Lemma mem_is_leaf : is_leaf t = true -> forall k k', m k <> None -> m k' <> None -> k = k'.
Proof.
  destruct (reachable_good dbg t R) as ([p v cs] & Rg & C & _).
  pose proof (holds_lookup false mem t _ m Rg C H) as Em. clear R H.
  apply Rep_inv in Rg as (_ & _ & ns & K & F).
  assert (is_leaf t = true -> cs = []) as Hc.
  { unfold is_leaf. destruct K as [K|[[K ->]|(r & id & data & K & E & _)]]; rewrite K; try discriminate.
    intros _. now inversion F. }
  intros L k k'. rewrite !Em, !lookup_raw, (Hc L). unfold rawlook.
  destruct (strip p k) as [[|]|] eqn:E; cbn [lkids]; try congruence.
  destruct (strip p k') as [[|]|] eqn:E'; cbn [lkids]; try congruence.
  apply strip_spec in E, E'. congruence.
Qed.

Lemma mem_prefix : (exists x, m x <> None) -> exists q, t_prefix t = Data q /\
  common_prefix_of m q /\ (forall q', common_prefix_of m q' -> starts_with q' q = true) /\
  load_opt mem (t_value t) = Ok (m q).
Proof.
  intros [x Hx].
  destruct (reachable_good dbg t R) as (g & Rg & C & _).
  pose proof (holds_lookup false mem t _ m Rg C H) as Em.
  assert (g <> tempty) as Ng by (intros ->; now rewrite Em, tempty_lookup in Hx).
  exists (tp g). destruct g as [p v cs]. pose proof (Rep_inv _ _ _ _ _ _ Rg) as (RP & RV & _).
  destruct RP as [RP|[? _]]; [|discriminate]. split; [exact RP|].
  pose proof (fun q => croot_lcp _ q C Ng) as L. split; [|split].
  - intros k Hk. apply starts_with_spec. refine (proj2 (L p) _ k _).
    + exists []. cbn. now rewrite app_nil_r.
    + now rewrite <- Em.
  - intros q Hq. apply starts_with_spec. refine (proj1 (L q) _). intros k Hk. apply starts_with_spec, Hq. now rewrite Em.
  - rewrite Em. cbn [tp]. rewrite lookup_here. unfold t_value.
    pose proof (RepV_opt _ _ _ RV) as O. destruct v; rewrite O; [|reflexivity].
    cbn. now rewrite (RepV_value_load _ _ _ RV).
Qed.

(** Two trees. *)
Context (u : node) (mu : kmap) (R' : reachable dbg u) (H' : holds mem u mu).

Lemma mem_outer h : exists t', t_outer_combine dbg mem mem t u (combiner mem mem h) ⇓ Ok t' /\
  reachable dbg t' /\ holds mem t' (m_outer h m mu).
Proof.
  eapply (reach_step2 t u R R' m mu H H') with (q := POuter h) (f := fun x y => t_outer_combine dbg mem mem x y (combiner mem mem h)).
  - cbn; auto.
  - reflexivity.
  - intros p p' E E' x. cbn. unfold m_outer. now rewrite E, E'.
Qed.
Lemma mem_inner h : exists t', t_inner_combine dbg mem mem t u (combiner mem mem h) ⇓ Ok t' /\
  reachable dbg t' /\ holds mem t' (m_inner h m mu).
Proof.
  eapply (reach_step2 t u R R' m mu H H') with (q := PInner h) (f := fun x y => t_inner_combine dbg mem mem x y (combiner mem mem h)).
  - cbn; auto.
  - reflexivity.
  - intros p p' E E' x. cbn. unfold m_inner. now rewrite E, E'.
Qed.
Lemma mem_left h : exists t', t_left_combine dbg mem mem t u (combiner mem mem h) ⇓ Ok t' /\
  reachable dbg t' /\ holds mem t' (m_left h m mu).
Proof.
  eapply (reach_step2 t u R R' m mu H H') with (q := PLeft h) (f := fun x y => t_left_combine dbg mem mem x y (combiner mem mem h)).
  - cbn; auto.
  - reflexivity.
  - intros p p' E E' x. cbn. unfold m_left. now rewrite E, E'.
Qed.
Lemma mem_outer_with h : exists t',
  t_outer_combine_with dbg mem mem (detach_converter mem) t u (combiner_with mem mem h) ⇓ Ok t' /\
  reachable dbg t' /\ holds mem t' (m_outer h m mu).
Proof.
  eapply (reach_step2 t u R R' m mu H H') with (q := POuterWith h)
    (f := fun x y => t_outer_combine_with dbg mem mem (detach_converter mem) x y (combiner_with mem mem h)).
  - cbn; auto.
  - reflexivity.
  - intros p p' E E' x. cbn. unfold m_outer. now rewrite E, E'.
Qed.
Lemma mem_inner_with h : exists t', t_inner_combine_with dbg mem mem t u (combiner_with mem mem h) ⇓ Ok t' /\
  reachable dbg t' /\ holds mem t' (m_inner h m mu).
Proof.
  eapply (reach_step2 t u R R' m mu H H') with (q := PInnerWith h)
    (f := fun x y => t_inner_combine_with dbg mem mem x y (combiner_with mem mem h)).
  - cbn; auto.
  - reflexivity.
  - intros p p' E E' x. cbn. unfold m_inner. now rewrite E, E'.
Qed.
Lemma mem_left_with h : exists t', t_left_combine_with dbg mem mem t u (combiner_with mem mem h) ⇓ Ok t' /\
  reachable dbg t' /\ holds mem t' (m_left h m mu).
Proof.
  eapply (reach_step2 t u R R' m mu H H') with (q := PLeftWith h)
    (f := fun x y => t_left_combine_with dbg mem mem x y (combiner_with mem mem h)).
  - cbn; auto.
  - reflexivity.
  - intros p p' E E' x. cbn. unfold m_left. now rewrite E, E'.
Qed.
Lemma mem_remove_prefix_with s : exists t', t_remove_prefix_with dbg mem mem t u (selector mem s) ⇓ Ok t' /\
  reachable dbg t' /\ holds mem t' (m_remove_prefix_with s m mu).
Proof.
  eapply (reach_step2 t u R R' m mu H H') with (q := PRemovePrefixWith s)
    (f := fun x y => t_remove_prefix_with dbg mem mem x y (selector mem s)).
  - cbn; auto.
  - reflexivity.
  - intros p p' E E' x. cbn. unfold m_remove_prefix_with. now rewrite E, (below_selected_ext s _ _ x E').
Qed.
Lemma mem_retain_prefix_with s : downward_rejected s mu ->
  exists t', t_retain_prefix_with dbg mem mem t u (selector mem s) ⇓ Ok t' /\
  reachable dbg t' /\ holds mem t' (m_retain_prefix_with s m mu).
Proof.
  intros Hs.
  eapply (reach_step2 t u R R' m mu H H') with (q := PRetainPrefixWith s)
    (f := fun x y => t_retain_prefix_with dbg mem mem x y (selector mem s)).
  - intros p p' A A' E. cbn. split; [|split]; auto. intros q r x y. rewrite !E. apply Hs.
  - reflexivity.
  - intros p p' E E' x. cbn. unfold m_retain_prefix_with. now rewrite E, (below_selected_ext s _ _ x E').
Qed.

Lemma mem_inner_pred p : exists b, t_inner_combine_pred mem mem t u (predicate mem mem p) ⇓ Ok b /\
  (b = true <-> exists k x y, m k = Some x /\ mu k = Some y /\ p x y = true).
Proof.
  destruct (reachable_good dbg t R) as (g & G). destruct (reachable_good dbg u R') as (gu & GU).
  destruct (g_inner_pred false mem t g G det_detached false mem det_detached u gu GU p) as (b & E & Hb).
  exists b. split; [exact E|]. rewrite Hb. destruct G as (Rg & C & _), GU as (Ru & Cu & _).
  pose proof (holds_lookup _ _ _ _ _ Rg C H) as Em. pose proof (holds_lookup _ _ _ _ _ Ru Cu H') as Eu.
  split; intros (k & x & y & E1 & E2 & Hp); exists k, x, y; [rewrite Em, Eu|rewrite Em in E1; rewrite Eu in E2]; auto.
Qed.
Lemma mem_left_pred p : exists b, t_left_combine_pred mem mem t u (predicate mem mem p) ⇓ Ok b /\
  (b = true <-> exists k x, m k = Some x /\ match mu k with Some y => p x y = true | None => True end).
Proof.
  destruct (reachable_good dbg t R) as (g & G). destruct (reachable_good dbg u R') as (gu & GU).
  destruct (g_left_pred false mem t g G det_detached false mem det_detached u gu GU p) as (b & E & Hb).
  exists b. split; [exact E|]. rewrite Hb. destruct G as (Rg & C & _), GU as (Ru & Cu & _).
  pose proof (holds_lookup _ _ _ _ _ Rg C H) as Em. pose proof (holds_lookup _ _ _ _ _ Ru Cu H') as Eu.
  split; intros (k & x & E1 & Hp); exists k, x; [rewrite Em, Eu|rewrite Em in E1; rewrite Eu in Hp]; auto.
Qed.
End Mem.

(** Shape. *)
Fixpoint tshape (g : tree) : shape :=
  match g with T p v cs => Shape p v (List.map tshape cs) end.

Lemma DRep_shape g : forall t, DRep t g -> shape_of t = tshape g.
Proof.
  induction g as [p v cs IH] using tree_ind'. intros t Rt. apply Rep_inv in Rt as (RP & RV & ns & K & F).
  destruct t as [pb vb kb]. cbn in RP, RV, K. cbn [shape_of tshape].
  destruct RP as [->|[? _]]; [|discriminate]. cbn [blob_slice].
  f_equal.
  - pose proof (RepV_opt _ _ _ RV) as O. destruct v; rewrite O; [|reflexivity]. cbn.
    destruct RV as [->|(c & id & -> & E)]; [reflexivity|discriminate].
  - assert (List.map shape_of ns = List.map tshape cs) as E.
    { clear K. induction F as [|n c ns cs Hn F IHF]; [reflexivity|]. inversion IH; subst. cbn. f_equal; auto. }
    destruct K as [->|[[-> ->]|(r & id & data & -> & Er & _)]]; auto. discriminate.
Qed.

Lemma mem_shape dbg dbg' t u m : reachable dbg t -> reachable dbg' u -> holds mem t m -> holds mem u m ->
  shape_of t = shape_of u /\ is_empty t = is_empty u.
Proof.
  intros R R' H H'. destruct (reachable_good dbg t R) as (g & Rg & C & E).
  destruct (reachable_good dbg' u R') as (gu & Ru & Cu & Eu).
  pose proof (holds_lookup _ _ _ _ _ Rg C H) as Em. pose proof (holds_lookup _ _ _ _ _ Ru Cu H') as Em'.
  assert (g = gu) as ->. { apply canon_unique; auto. intros k. now rewrite <- Em, <- Em'. }
  split; [|congruence]. now rewrite (DRep_shape _ _ Rg), (DRep_shape _ _ Ru).
Qed.

(** Equality. *)
Section NodeInd.
Context (P : node -> Prop).
Context (HA : forall p v l, Forall P l -> P (Node p v (KArc l))) (HI : forall p v i, P (Node p v (KId i))).
Fixpoint node_ind' (n : node) : P n :=
  match n with
  | Node p v (KId i) => HI p v i
  | Node p v (KArc l) => HA p v l ((fix go (l : list node) : Forall P l :=
      match l with [] => Forall_nil P | x :: l' => Forall_cons x (node_ind' x) (go l') end) l)
  end.
End NodeInd.

Fixpoint n_eqs (xs ys : list node) : bool :=
  match xs, ys with
  | [], [] => true
  | x :: xs', y :: ys' => n_eq x y && n_eqs xs' ys'
  | _, _ => false
  end.

Lemma n_eq_eqs pa va xs pb vb ys : n_eq (Node pa va (KArc xs)) (Node pb vb (KArc ys)) =
  (if list_eq_dec byte_eq_dec (blob_slice pa) (blob_slice pb) then true else false)
  && (if list_eq_dec byte_eq_dec (blob_slice va) (blob_slice vb) then true else false) && n_eqs xs ys.
Proof.
  reflexivity.
Qed.

Inductive full : tree -> Prop :=
| full_intro p v cs : v <> Some [] -> Forall full cs -> full (T p v cs).

Lemma full_of g : ksorted (tc g) -> Forall cc (tc g) -> (forall k, lookup g k <> Some []) -> full g.
Proof.
  induction g as [p v cs IH] using tree_ind'. cbn [tc]. intros So F L. constructor.
  - specialize (L p). now rewrite lookup_here in L.
  - rewrite Forall_forall in *. intros c Hc. apply IH; auto.
    + specialize (F c Hc). now apply croot_kids, cc_croot.
    + specialize (F c Hc). now apply croot_kids, cc_croot.
    + intros k E. apply (L (p ++ k)). rewrite <- Forall_forall in F.
      now rewrite (lookup_child p v cs c k [] So F Hc E).
Qed.

Lemma value_slice_eq va vb v w : RepV mem va v -> RepV mem vb w -> v <> Some [] -> w <> Some [] ->
  blob_slice va = blob_slice vb -> v = w.
Proof.
  intros Rv Rw Nv Nw E.
  assert (forall b o, RepV mem b o -> blob_slice b = match o with Some x => x | None => [] end) as A.
  { intros b [x|]; cbn; [intros [->|(c & id & -> & X)]; [reflexivity|discriminate]|now intros ->]. }
  rewrite (A _ _ Rv), (A _ _ Rw) in E. unfold bytes in *; destruct v as [[|]|], w as [[|]|]; congruence.
Qed.

Lemma n_eq_sound t : forall u g gu, n_eq t u = true -> DRep t g -> DRep u gu -> full g -> full gu -> g = gu.
Proof.
  induction t as [p v l IH|p v i] using node_ind'; intros [p' v' [l'|i']] [q w cs] [q' w' cs'] E Rt Ru Fg Fu;
    try (cbn in E; now rewrite andb_false_r in E).
  - rewrite n_eq_eqs in E. apply andb_true_iff in E as [E E3]. apply andb_true_iff in E as [E1 E2].
    destruct list_eq_dec as [Ep|]; [clear E1|discriminate].
    destruct list_eq_dec as [Ev|]; [clear E2|discriminate].
    apply Rep_inv in Rt as (RP & RV & ns & K & F). apply Rep_inv in Ru as (RP' & RV' & ns' & K' & F').
    cbn in RP, RV, K, RP', RV', K'. inversion Fg; subst. inversion Fu; subst.
    destruct RP as [->|[? _]]; [|discriminate]. destruct RP' as [->|[? _]]; [|discriminate].
    cbn in Ep. subst q'. f_equal; [eapply value_slice_eq; eauto|].
    destruct K as [[= <-]|[[? _]|(? & ? & ? & ? & _)]]; try discriminate.
    destruct K' as [[= <-]|[[? _]|(? & ? & ? & ? & _)]]; try discriminate.
    clear - IH E3 F F' H3 H5. revert l' cs' E3 F' H5.
    induction F as [|n c l cs Hn F IHF]; intros [|n' l'] cs' E3 F' Fu; try discriminate; inversion F'; subst; auto.
    cbn in E3. apply andb_true_iff in E3 as [E3 E4]. inversion IH; subst. inversion H3; subst. inversion Fu; subst.
    f_equal; eauto.
  - cbn in E. apply andb_true_iff in E as [E E3]. apply andb_true_iff in E as [E1 E2].
    destruct list_eq_dec as [Ep|]; [clear E1|discriminate].
    destruct list_eq_dec as [Ev|]; [clear E2|discriminate].
    apply Rep_inv in Rt as (RP & RV & ns & K & F). apply Rep_inv in Ru as (RP' & RV' & ns' & K' & F').
    cbn in RP, RV, K, RP', RV', K'. inversion Fg; subst. inversion Fu; subst.
    destruct RP as [->|[? _]]; [|discriminate]. destruct RP' as [->|[? _]]; [|discriminate].
    cbn in Ep. subst q'. f_equal; [eapply value_slice_eq; eauto|].
    destruct K as [?|[[_ ->]|(? & ? & ? & _ & ? & _)]]; try discriminate.
    destruct K' as [?|[[_ ->]|(? & ? & ? & _ & ? & _)]]; try discriminate.
    inversion F; inversion F'; subst. reflexivity.
Qed.

Lemma mem_eq dbg t u m mu : reachable dbg t -> reachable dbg u -> holds mem t m -> holds mem u mu ->
  (forall k, m k <> Some [] /\ mu k <> Some []) -> n_eq t u = true -> same m mu.
Proof.
  intros R R' H H' Hne E. destruct (reachable_good dbg t R) as (g & Rg & C & _).
  destruct (reachable_good dbg u R') as (gu & Ru & Cu & _).
  pose proof (holds_lookup _ _ _ _ _ Rg C H) as Em. pose proof (holds_lookup _ _ _ _ _ Ru Cu H') as Em'.
  assert (g = gu) as ->.
  { destruct (croot_kids _ C), (croot_kids _ Cu).
    eapply n_eq_sound; eauto; apply full_of; auto; intros k; [rewrite <- Em|rewrite <- Em']; apply Hne. }
  intros k. now rewrite Em, Em'.
Qed.

(** Collecting pairs. *)
Lemma m_of_list_last l k : m_of_list l k = option_map snd (last_of (filter (fun e => beq (fst e) k) l)).
Proof.
  unfold m_of_list. rewrite <- fold_left_rev_right. unfold last_of.
  assert (filter (fun e : bytes * bytes => beq (fst e) k) l =
          rev (filter (fun e => beq (fst e) k) (rev l))) as E.
  { clear. induction l as [|e l IH]; [reflexivity|]. cbn. rewrite filter_app, rev_app_distr, <- IH. cbn.
    destruct (beq (fst e) k); reflexivity. }
  rewrite E, rev_involutive. clear E. induction (rev l) as [|e l' IH]; [reflexivity|]. cbn. unfold m_insert at 1.
  destruct (beq_spec k (fst e)) as [->|N].
  - now rewrite beq_refl.
  - rewrite (beq_neq (fst e) k) by congruence. exact IH.
Qed.

Lemma mem_collect dbg l : exists t, t_from_pairs dbg mem n_empty l ⇓ Ok t /\ reachable dbg t /\
  holds mem t (fun k => option_map snd (last_of (filter (fun e => beq (fst e) k) l))).
Proof.
  destruct (yields_holds _ _ _ _ (run_ok dbg (PCollect l) I)) as (t & C & H).
  exists t. split; [exact C|]. split; [exists (PCollect l); split; [exact I|exact C]|].
  eapply holds_ext; [|exact H]. intros k. apply m_of_list_last.
Qed.

Lemma mem_history dbg p : allowed p -> exists t, run dbg p ⇓ Ok t /\ holds mem t (meaning p).
Proof. intros A. exact (yields_holds _ _ _ _ (run_ok dbg p A)). Qed.

(** [filter_prefix] has the right contents also in the case that [allowed] excludes. *)
Lemma mem_filter_prefix_any dbg t m k s : reachable dbg t -> holds mem t m ->
  exists t', t_filter_prefix mem t k s ⇓ Ok t' /\ holds mem t' (m_filter_prefix m k s).
Proof.
  intros R H. destruct (reachable_good dbg t R) as (g & Rg & C & E).
  pose proof (holds_lookup _ _ _ _ _ Rg C H) as Em.
  assert ((k <> [] \/ s = [] \/ exists x, m x <> None) \/ (k = [] /\ g = tempty)) as [Hk|[-> ->]].
  { destruct k; [|left; left; discriminate]. destruct (croot_cases g C) as [->|[x Hx]]; [auto|].
    left; right; right. exists x. now rewrite Em. }
  - destruct (mem_filter_prefix dbg t m R H k s Hk) as (t' & Ct & _ & H'). eauto.
  - pose proof (Rep_inv _ _ _ _ _ _ Rg) as (RP & RV & ns & K & F). inversion F; subst.
    exists (set_prefix_slice t s). split.
    + apply conv_from with (n := 1). intros n Hn. destruct n as [|n]; [lia|].
      unfold t_filter_prefix, filter_prefix. cbn [find]. change (r_prefix (ROwned t)) with (n_prefix t).
      rewrite (RepP_load _ _ _ _ RP). cbn. reflexivity.
    + intros x. assert (m_filter_prefix m [] s x = None) as ->.
      { unfold m_filter_prefix. destruct (strip_prefix s x); [|reflexivity]. now rewrite Em, tempty_lookup. }
      apply conv_from with (n := 1). intros n Hn. destruct n as [|n]; [lia|].
      unfold get_bytes, t_get, get. cbn [find].
      assert (load_children mem t = Ok None) as Lc.
      { unfold load_children. destruct K as [->|[[-> _]|(r & id & d & _ & X & _)]]; [reflexivity|reflexivity|discriminate]. }
      change (r_prefix (ROwned (set_prefix_slice t s))) with (Data s). cbn [load_prefix bind].
      destruct ((length x - common_prefix s x =? 0) && (length s - common_prefix s x =? 0)) eqn:E1.
      { cbn. change (r_value_opt (ROwned (set_prefix_slice t s))) with (blob_opt (n_value t)).
        cbn in RV. rewrite RV. reflexivity. }
      destruct (length x - common_prefix s x =? 0) eqn:E2; [reflexivity|].
      destruct (length s - common_prefix s x =? 0) eqn:E3; [|reflexivity].
      destruct (nth_error x (common_prefix s x)) eqn:E4.
      { change (r_load_children mem (ROwned (set_prefix_slice t s))) with (load_children mem t).
        rewrite Lc. reflexivity. }
      apply nth_error_None in E4. apply Nat.eqb_neq in E2. lia.
Qed.
