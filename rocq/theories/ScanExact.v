(** The keys that [scan_prefix] yields, exactly. *)
From Verif Require Import Base BaseLemmas Header Node Iter Api Tree Rep JoinBase PrefixProofs FindProofs Entries IterProofs Canon ScanProofs
  Sim Spec Client Top TopOps MemLemmas Store StoreSpec World InPlaceSpec InPlaceTop RetainSpec PrefixExact RetainTop ScanSpec.

Section Find.
Context (ids : bool) (rd : reader).
Notation NR := (NRep ids rd True).
Notation RR := (Rep ids rd).

Lemma no_fork_inside p v cs q z : p = q ++ z -> z <> [] -> ~ fork (lookup (T p v cs)) q.
Proof.
  intros -> Hz [H|(x & y & k & l & N & H1 & H2)].
  - destruct (lookup (T (q ++ z) v cs) q) as [w|] eqn:E; [|congruence]. apply lookup_below in E as [w' E].
    rewrite <- app_assoc in E. rewrite <- (app_nil_r q) in E at 1. apply app_inv_head in E. destruct z; [congruence|discriminate].
  - destruct (lookup (T (q ++ z) v cs) (q ++ x :: k)) as [w1|] eqn:E1; [|congruence]. apply lookup_below in E1 as [w1' E1].
    destruct (lookup (T (q ++ z) v cs) (q ++ y :: l)) as [w2|] eqn:E2; [|congruence]. apply lookup_below in E2 as [w2' E2].
    rewrite <- app_assoc in E1, E2. apply app_inv_head in E1. apply app_inv_head in E2. destruct z; [congruence|].
    cbn in *. congruence.
Qed.

Theorem find_edge : forall fuel r t k r', NR r t -> croot t -> t <> tempty -> size t < fuel -> find rd fuel r k = Ok (Found r') ->
  exists t' p, NR r' t' /\ k = p ++ tp t' /\ fork (lookup t) k /\ (p = [] \/ fork (lookup t) p) /\ (k <> [] -> tp t' <> []) /\
    forall q z, tp t' = q ++ z -> q <> [] -> z <> [] -> ~ fork (lookup t) (p ++ q).
Proof.
  induction fuel as [|fuel IH]; intros r [p v cs] k r' H Hc Hne Hf E; [lia|]. cbn [find] in E.
  rewrite (NRep_prefix _ _ _ _ _ _ _ H) in E. cbn [bind] in E. rewrite size_T in Hf.
  destruct (croot_kids _ Hc) as [So C]. cbn [tc] in *.
  destruct (croot_has_key _ Hc Hne) as (k0 & Hk0). pose proof (croot_fork _ _ _ _ Hc Hk0) as Fp.
  revert E. destruct (edges_cases p k) as [E1 E2 E3|E1 E2 E3|E1 E2 E3|x y E1 E2 E3 Ex Ey Nxy];
    set (n := common_prefix p k) in *; edge_tests; try discriminate; intros E.
  - injection E as <-. subst k. exists (T p v cs), []. split; [exact H|]. split; [reflexivity|]. split; [exact Fp|]. split; [now left|].
    split; [auto|]. cbn [tp app]. intros q z Eq _ Hz. now apply no_fork_inside with z.
  - destruct (skipn_cons_nth n k E2) as (c & Ec & Es). rewrite Ec in E.
    destruct (NRep_children_T _ _ _ _ _ _ H) as (o & Eo & Ho). rewrite Eo in E. cbn [bind] in E.
    destruct o as [it|]; [|discriminate]. cbn in Ho. destruct Ho as [_ Hi]. pose proof (it_find_ok _ _ _ _ c Hi So C) as Hh.
    destruct (it_find it c) as [r1|]; [|discriminate]. cbn in Hh. destruct Hh as (a & q & Hin & Et & Hr).
    pose proof (proj1 (Forall_forall _ _) C a Hin) as Ca. pose proof (size_in _ _ Hin) as Sz.
    assert (a <> tempty) as Na by (intros ->; discriminate).
    destruct (IH r1 a (skipn n k) r' Hr (cc_croot _ Ca) Na ltac:(lia) E) as (t' & p' & N' & Ep & Fk & Fp' & Hn & Hq).
    assert (forall z, lookup (T p v cs) (p ++ c :: z) = lookup a (c :: z)) as HL.
    { intros z. rewrite lookup_under by discriminate. apply lkids_in; auto. eapply starts_self; eauto. }
    assert (forall w z, skipn n k = w ++ z -> w <> [] -> fork (lookup a) w <-> fork (lookup (T p v cs)) (p ++ w)) as HF.
    { intros w z Ew Hw. rewrite Es in Ew. destruct w as [|c' w]; [congruence|]. cbn in Ew. injection Ew as <- Ew.
      clear - HL. unfold fork. rewrite HL. split; (intros [F|(x & y & u & l & N & F1 & F2)]; [now left|right]); exists x, y, u, l;
        rewrite <- ?app_assoc in *; cbn [app] in *; rewrite ?HL in *; auto. }
    assert (k = p ++ skipn n k) as Ek by (rewrite <- E3 at 1; symmetry; apply firstn_skipn).
    exists t', (p ++ p'). split; [exact N'|]. split; [rewrite <- app_assoc, <- Ep; exact Ek|].
    split; [rewrite Ek; apply (HF (skipn n k) []); [now rewrite app_nil_r|rewrite Es; discriminate|exact Fk]|].
    split.
    { right. destruct p' as [|d p']; [now rewrite app_nil_r|]. apply (HF (d :: p') (tp t')); [exact Ep|discriminate|].
      destruct Fp' as [F|F]; [discriminate|exact F]. }
    split; [intros _; apply Hn; rewrite Es; discriminate|].
    intros q' z Eq Nq Nz F. rewrite <- app_assoc in F.
    apply (HF (p' ++ q') z) in F; [|now rewrite <- app_assoc, <- Eq|destruct p'; [exact Nq|discriminate]].
    exact (Hq q' z Eq Nq Nz F).
Qed.

Lemma fork_or (m : bytes -> option bytes) k : ~ fork m k ->
  m k = None /\ (forall c1 c2 z1 z2, m (k ++ c1 :: z1) <> None -> m (k ++ c2 :: z2) <> None -> c1 = c2).
Proof.
  intros H. split.
  - destruct (m k) eqn:E; [|reflexivity]. destruct H. left. congruence.
  - intros c1 c2 z1 z2 H1 H2. destruct (byte_eqb_spec c1 c2) as [->|N]; [reflexivity|]. destruct H. right. exists c1, c2, z1, z2. auto.
Qed.

Theorem scan_exact fuel n t k : RR n t -> croot t -> t <> tempty -> 4 * size t + 6 < fuel ->
  exists l e, t_scan_prefix rd n k fuel = Ok l /\
    Forall2 (fun a b => (exists z, fst b = k ++ z /\ fst a = k ++ e ++ z) /\ vrel rd (snd a) (snd b)) l (under k t) /\
    (fork (lookup t) k /\ last_edge (lookup t) k e \/ ~ fork (lookup t) k /\ e = []).
Proof.
  intros H Hc Hne Hf.
  destruct (find_ok ids rd fuel (ROwned n) t k (Rep_NRep _ _ _ _ _ H) Hc ltac:(lia)) as (x & Ex & Hp).
  destruct x as [r|r m|].
  - destruct (find_edge fuel _ t k r (Rep_NRep _ _ _ _ _ H) Hc Hne ltac:(lia) Ex) as (t2 & p2 & N2 & Ep2 & Fk & Fp & Hn & Hq).
    destruct Hp as (t' & N' & C' & (p & Ep) & Sz & Hcc & Hz).
    assert (tp t2 = tp t') as Et.
    { destruct t2 as [a2 v2 c2], t' as [a1 v1 c1]. pose proof (NRep_prefix _ _ _ _ _ _ _ N2). pose proof (NRep_prefix _ _ _ _ _ _ _ N').
      cbn. congruence. }
    unfold t_scan_prefix, scan_prefix. rewrite Ex. cbn [bind].
    destruct N' as [_ (n' & E' & R')]. rewrite E'. cbn [bind].
    rewrite (under_sub t t' k p (tp t') Hc C' Ep); [| |exact Hz].
    2:{ exists []. now rewrite app_nil_r. }
    pose proof (entries_size k t').
    destruct (kv_collect_ok ids rd fuel k n' t' R' C') as (l & -> & F); [lia|].
    exists l, (tp t'). split; [reflexivity|]. split.
    + rewrite (entries_path k) in F. rewrite (entries_path p).
      assert (forall e, In e (entries [] t') -> exists z, fst e = tp t' ++ z) as Hu.
      { intros [z x] Hi. apply entries_in in Hi as (w & -> & Hl); [|now apply croot_kids].
        now apply lookup_some_prefix in Hl. }
      clear -F Ep Hu. revert l F. induction (entries [] t') as [|e es IH]; intros l F; cbn [map] in *; inversion F as [|a0 b0 l0 l1 Hh Ht]; subst; constructor.
      * destruct Hh as [E V]. destruct (Hu e (or_introl eq_refl)) as [z Ez]. cbn [fst snd] in *. split; [|exact V].
        exists z. unfold bytes in *. rewrite Ez in *. rewrite E, !app_assoc. auto.
      * apply IH; [|assumption]. intros e' He'. apply Hu. now right.
    + left. split; [exact Fk|]. exists p2. rewrite <- Et. auto.
  - assert (~ fork (lookup t) k) as NF.
    { destruct Hp as (t' & N' & C' & Ln & (p & Ep) & Lk & Sz & Hz).
      destruct (skipn_cons_nth m (tp t') Ln) as (c & _ & Es).
      intros F. assert (fork (lookup t') (firstn m (tp t'))) as F'.
      { destruct F as [F|(x1 & y1 & k1 & l1 & N1 & F1 & F2)].
        - left. specialize (Hz []). rewrite !app_nil_r in Hz. congruence.
        - right. exists x1, y1, k1, l1. rewrite <- !Hz. auto. }
      revert F'. destruct t' as [a v cs]. apply no_fork_inside with (skipn m a); [symmetry; apply firstn_skipn|].
      cbn [tp] in Es. rewrite Es. discriminate. }
    destruct (scan_ok ids rd fuel n t k H Hc Hf (or_intror (fork_or _ _ NF))) as (l & El & F).
    exists l, []. split; [exact El|]. split; [|right; auto].
    assert (forall e, In e (under k t) -> exists z, fst e = k ++ z) as Hu.
    { intros [z x'] Hi. apply under_in in Hi as (w & E & _); [|exact Hc]. eauto. }
    clear - F Hu. induction F as [|a b la lb [E V] F IH]; constructor.
    + split; [|exact V]. destruct (Hu b (or_introl eq_refl)) as [z Ez]. exists z. split; [exact Ez|]. cbn [app]. rewrite <- Ez. exact E.
    + apply IH. intros e He. apply Hu. now right.
  - assert (~ fork (lookup t) k) as NF.
    { destruct Hp as [_ Hp]. intros [F|(x1 & y1 & k1 & l1 & N1 & F1 & F2)]; [|now rewrite Hp in F1].
      specialize (Hp []). rewrite app_nil_r in Hp. congruence. }
    assert (under k t = []) as E0.
    { destruct (under k t) as [|[z x'] l] eqn:E; [reflexivity|]. exfalso.
      assert (In (z, x') (under k t)) as Hi by (rewrite E; now left).
      apply under_in in Hi as (w & -> & Hl); [|exact Hc]. destruct Hp as [_ Hp]. now rewrite Hp in Hl. }
    unfold t_scan_prefix, scan_prefix. rewrite Ex. cbn [bind]. exists [], []. rewrite kv_collect_nil by lia. split; [reflexivity|].
    rewrite E0. split; [constructor|]. right. auto.
Qed.
End Find.

Lemma last_edge_same m m' k e : same m m' -> last_edge m k e -> last_edge m' k e.
Proof.
  intros E (p & H1 & H2 & H3 & H4). exists p. split; [exact H1|]. split; [|split; [exact H3|]].
  - destruct H2 as [H2|H2]; [now left|right]. eapply fork_same; eauto.
  - intros q z A B C D. apply (H4 q z A B C). eapply fork_same; [|exact D]. intros x. symmetry. apply E.
Qed.

Lemma any_scan_exact dbg rd t m p : tree_of dbg rd t m ->
  exists l l' e, scan_bytes rd t p ⇓ Ok l' /\
    lists_where (fun k => starts_with p k = true) l m /\
    Forall2 (fun a b => snd a = snd b /\ exists z, fst a = p ++ z /\ fst b = p ++ e ++ z) l l' /\
    (fork m p /\ last_edge m p e \/ ~ fork m p /\ e = []).
Proof.
  intros Ht. destruct (tree_of_good _ _ _ _ Ht) as (g & (R & C & Em0) & Em'). assert (same m (lookup g)) as Em by (intros k; symmetry; apply Em').
  assert (holds rd t m) as H by (eapply holds_ext; [exact Em'|]; eapply good_holds; eauto).
  destruct (tnil g) eqn:Eg.
  - apply (croot_tnil g C) in Eg. subst g.
    assert (forall k, m k = None) as N by (intros k; rewrite Em; apply tempty_lookup).
    assert (~ fork m p) as NF by (intros [F|(x & y & k & l & _ & F & _)]; rewrite N in F; congruence).
    destruct (g_scan false rd t tempty m R C H p (or_intror (fork_or _ _ NF))) as (l & El & Hl).
    exists l, l, []. split; [exact El|]. split; [exact Hl|]. split; [|right; auto].
    assert (forall a, In a l -> exists z, fst a = p ++ z) as Hu.
    { intros [k v] Ha. destruct Hl as [_ Hl]. apply Hl in Ha as [Ha _]. rewrite N in Ha. discriminate. }
    clear - Hu. induction l as [|a l IH]; constructor.
    + split; [reflexivity|]. destruct (Hu a (or_introl eq_refl)) as [z Ez]. eauto.
    + apply IH. intros; apply Hu; now right.
  - assert (g <> tempty) as Ne by (intros ->; discriminate).
    destruct (scan_exact false rd (4 * size g + 10) t g p R C Ne ltac:(lia)) as (l & e & E & F & He).
    exists (under p g), (map (fun a => (p ++ e ++ skipn (length p) (fst a), snd a)) (under p g)), e.
    split; [|split; [|split]].
    + eapply conv_bind; [eapply conv_mono; [apply mono_scan|exact E]|]. cbv beta.
      rewrite (load_entries_ok rd l (map (fun a => (p ++ e ++ skipn (length p) (fst a), snd a)) (under p g))).
      * apply conv_const. discriminate.
      * clear E. induction F as [|a b l l' [(z & Hz & Ha) Hv] _ IH]; cbn; constructor; auto.
        split; cbn [fst snd]; [|exact Hv]. unfold bytes in *. rewrite Ha, Hz, skipn_app, skipn_all, Nat.sub_diag. reflexivity.
    + apply lists_under; auto.
    + assert (Forall (fun a => exists z, fst a = p ++ z) (under p g)) as A.
      { apply Forall_forall. intros [z x] Hin. apply (under_in p g z x C) in Hin as (w & -> & _). cbn; eauto. }
      clear F E. induction A as [|a l' (z & Hz) _ IH]; cbn; constructor; auto. split; auto. exists z. split; auto.
      unfold bytes in *. rewrite Hz, skipn_app, skipn_all, Nat.sub_diag. reflexivity.
    + destruct He as [[F1 F2]|[F1 F2]]; [left|right].
      * split; [eapply fork_same|eapply last_edge_same]; eauto; intros k; symmetry; apply Em.
      * split; [|exact F2]. intros F'. apply F1. eapply fork_same; eauto.
Qed.
