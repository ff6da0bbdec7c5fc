(** A canonical tree is determined by its contents. *)
From Verif Require Import Base BaseLemmas Tree PrefixProofs FindProofs Entries.
From Coq Require Import Sorting.Sorted.

Lemma lookup_kid p v cs z : z <> [] -> lookup (T p v cs) (p ++ z) = lkids cs z.
Proof. intros H. rewrite lookup_raw. unfold rawlook. rewrite strip_app. destruct z; [congruence|reflexivity]. Qed.

Lemma ksorted_inv a l : ksorted (a :: l) -> cc a -> exists x q, tp a = x :: q /\ above x l /\ ksorted l.
Proof.
  intros H C. destruct (cc_nonempty_prefix _ C) as (x & q & E). exists x, q. split; [exact E|].
  now apply (ksorted_cons a l x q E).
Qed.

(** Every key of a child starts with the child's first byte. *)
Lemma cc_key_first a x q : cc a -> tp a = x :: q -> exists r, lookup a (x :: r) <> None.
Proof.
  intros C E. destruct (cc_has_key _ C) as [k Hk]. destruct (lookup a k) as [w|] eqn:El; [|congruence].
  destruct (lookup_some_prefix _ _ _ El) as [r ->]. rewrite E in El. cbn in El. exists (q ++ r).
  rewrite El. discriminate.
Qed.

(** A canonical non-empty tree: its edge is a key or two keys part right after it. *)
Lemma croot_edge t : croot t -> t <> tempty ->
  lookup t (tp t) <> None \/
  exists x y r s, x <> y /\ lookup t (tp t ++ x :: r) <> None /\ lookup t (tp t ++ y :: s) <> None.
Proof.
  intros [->|(L & So & C)] N; [congruence|]. destruct t as [p v cs]. cbn [tp tv tc] in *.
  destruct L as [L|L].
  - left. now rewrite lookup_here.
  - right. destruct cs as [|a [|b cs]]; cbn in L; try lia.
    inversion C as [|? ? Ca C']; subst. inversion C' as [|? ? Cb _]; subst.
    destruct (ksorted_inv _ _ So Ca) as (x & q & Ex & Ab & So').
    destruct (ksorted_inv _ _ So' Cb) as (y & q' & Ey & _ & _).
    inversion Ab as [|? ? Hxy _]; subst. rewrite Ey in Hxy.
    destruct (cc_key_first _ _ _ Ca Ex) as [r Hr]. destruct (cc_key_first _ _ _ Cb Ey) as [s Hs].
    exists x, y, r, s. split; [intros ->; lia|].
    split; (rewrite lookup_kid by discriminate); cbn [lkids].
    + erewrite starts_self by eauto. exact Hr.
    + rewrite (starts_other a x q y s Ex) by (intros ->; lia). erewrite starts_self by eauto. exact Hs.
Qed.

Lemma prefix_of_common (p q : bytes) x y r s u w :
  x <> y -> p ++ x :: r = q ++ u -> p ++ y :: s = q ++ w -> exists z, p = q ++ z.
Proof.
  revert p. induction q as [|c q IH]; intros p N E1 E2; [exists p; reflexivity|].
  destruct p as [|d p]; cbn in *; [congruence|]. injection E1 as -> E1. injection E2 as E2.
  destruct (IH p N E1 E2) as [z ->]. eauto.
Qed.

(** The edge of the root is the longest common prefix of the keys. *)
Lemma croot_lcp t q : croot t -> t <> tempty ->
  ((forall k, lookup t k <> None -> exists z, k = q ++ z) <-> exists z, tp t = q ++ z).
Proof.
  intros Hc N. split.
  - intros H. destruct (croot_edge t Hc N) as [E|(x & y & r & s & Nxy & E1 & E2)]; [now apply H|].
    apply H in E1 as [u E1]. apply H in E2 as [w E2]. eapply prefix_of_common; eauto.
  - intros [z E] k Hk. destruct (lookup t k) as [w|] eqn:El; [|congruence].
    destruct (lookup_some_prefix _ _ _ El) as [r ->]. rewrite E, <- app_assoc. eauto.
Qed.

Lemma app_antisym (p q z w : bytes) : p = q ++ z -> q = p ++ w -> p = q.
Proof.
  intros -> E. rewrite <- app_assoc in E. rewrite <- (app_nil_r q) in E at 1.
  apply app_inv_head in E. symmetry in E. apply app_eq_nil in E as [-> _]. apply app_nil_r.
Qed.

Lemma kids_unique cs1 : Forall (fun a => forall b, cc a -> cc b -> (forall k, lookup a k = lookup b k) -> a = b) cs1 ->
  forall cs2, ksorted cs1 -> Forall cc cs1 -> ksorted cs2 -> Forall cc cs2 ->
  (forall k, lkids cs1 k = lkids cs2 k) -> cs1 = cs2.
Proof.
  assert (forall a l, ksorted (a :: l) -> Forall cc (a :: l) -> (forall k, lkids (a :: l) k = lkids [] k) -> False) as NE.
  { intros a l So C H. inversion C; subst. destruct (ksorted_inv _ _ So) as (x & q & Ex & _); auto.
    destruct (cc_key_first a x q) as [r Hr]; auto. specialize (H (x :: r)). cbn in H.
    erewrite starts_self in H by eauto. congruence. }
  induction 1 as [|a l1 Ha _ IH]; intros cs2 S1 C1 S2 C2 H.
  - destruct cs2 as [|b l2]; [reflexivity|]. exfalso. apply (NE b l2 S2 C2). intros k. now rewrite <- H.
  - destruct cs2 as [|b l2]; [exfalso; exact (NE a l1 S1 C1 H)|].
    inversion C1 as [|? ? Ca C1']; subst. inversion C2 as [|? ? Cb C2']; subst.
    destruct (ksorted_inv _ _ S1 Ca) as (x & q & Ex & Ax & S1').
    destruct (ksorted_inv _ _ S2 Cb) as (y & q' & Ey & Ay & S2').
    destruct (cc_key_first _ _ _ Ca Ex) as [r Hr]. destruct (cc_key_first _ _ _ Cb Ey) as [s Hs].
    assert (x = y) as <-.
    { apply bnum_inj. destruct (N.lt_trichotomy (bnum x) (bnum y)) as [L|[L|L]]; [|exact L|]; exfalso.
      - specialize (H (x :: r)). cbn in H. erewrite starts_self in H by eauto.
        rewrite (starts_other b y q' x r Ey) in H by (intros ->; lia).
        rewrite lkids_above in H; [congruence|]. eapply above_weaken; [|exact Ay]. lia.
      - specialize (H (y :: s)). cbn in H. rewrite (starts_self b y q' s Ey) in H.
        rewrite (starts_other a x q y s Ex) in H by (intros ->; lia).
        rewrite lkids_above in H; [congruence|]. eapply above_weaken; [|exact Ax]. lia. }
    assert (forall k, starts a k = starts b k) as St by (intros k; unfold starts; now rewrite Ex, Ey).
    assert (a = b) as <-.
    { apply Ha; auto. intros k. specialize (H k). cbn in H. rewrite <- St in H.
      destruct (starts a k) eqn:E; [exact H|].
      rewrite (lookup_not_starts a x q k Ex E). symmetry. apply (lookup_not_starts b x q' k Ey). now rewrite <- St. }
    f_equal. apply IH; auto. intros k. specialize (H k). cbn in H. destruct (starts a k) eqn:E; [|exact H].
    unfold starts in E. rewrite Ex in E. destruct k as [|c k]; [discriminate|].
    destruct (byte_eqb_spec x c); [subst c|discriminate]. now rewrite !lkids_above.
Qed.

Theorem canon_unique t1 : forall t2, croot t1 -> croot t2 -> (forall k, lookup t1 k = lookup t2 k) -> t1 = t2.
Proof.
  induction t1 as [p v cs IH] using tree_ind'. intros t2 H1 H2 H.
  destruct t2 as [p2 v2 cs2].
  assert (forall t, croot t -> (forall k, lookup t k = None) -> t = tempty) as Em.
  { intros t Ht He. destruct t as [p0 [x|] cs0].
    - specialize (He p0). rewrite lookup_here in He. discriminate.
    - destruct cs0 as [|a l].
      + destruct Ht as [->|([L|L] & _)]; [reflexivity|cbn in L; congruence|cbn in L; lia].
      + exfalso. destruct (croot_has_key _ Ht) as [k Hk]; [discriminate|]. now rewrite He in Hk. }
  assert (T p v cs = tempty \/ T p v cs <> tempty) as [E1|N1].
  { destruct p, v, cs; (now left) || (right; discriminate). }
  { rewrite E1. symmetry. apply Em; [exact H2|]. intros k. rewrite <- H, E1. apply tempty_lookup. }
  assert (T p2 v2 cs2 = tempty \/ T p2 v2 cs2 <> tempty) as [E2|N2].
  { destruct p2, v2, cs2; (now left) || (right; discriminate). }
  { rewrite E2. apply Em; [exact H1|]. intros k. rewrite H, E2. apply tempty_lookup. }
  assert (p = p2) as <-.
  { destruct (proj1 (croot_lcp _ p2 H1 N1)) as [z Ez].
    { intros k Hk. rewrite H in Hk. apply (proj2 (croot_lcp _ p2 H2 N2)); [|exact Hk]. exists []. cbn. now rewrite app_nil_r. }
    destruct (proj1 (croot_lcp _ p H2 N2)) as [w Ew].
    { intros k Hk. rewrite <- H in Hk. apply (proj2 (croot_lcp _ p H1 N1)); [|exact Hk]. exists []. cbn. now rewrite app_nil_r. }
    cbn in *. eapply app_antisym; eauto. }
  assert (v = v2) as <- by (specialize (H p); now rewrite !lookup_here in H).
  f_equal. destruct (croot_kids _ H1), (croot_kids _ H2). cbn [tc] in *.
  apply kids_unique; auto.
  - eapply Forall_impl; [|exact IH]. intros a Ha b Ca Cb. apply Ha; now apply cc_croot.
  - intros [|c k]; [now rewrite !lkids_nil_key|]. specialize (H (p ++ c :: k)).
    now rewrite !lookup_kid in H by discriminate.
Qed.
