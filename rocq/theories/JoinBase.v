(** Shared parts of the proofs about the combine operations. *)
From Verif Require Import Base BaseLemmas Header Node Combine Tree Rep.

(** Pointwise results of the joins on maps; [h] combines two present values. *)
Definition gO (h : bytes -> bytes -> option bytes) (x y : option bytes) : option bytes :=
  match x, y with
  | Some a, Some b => h a b
  | Some a, None => Some a
  | None, y => y
  end.
Definition gI (h : bytes -> bytes -> option bytes) (x y : option bytes) : option bytes :=
  match x, y with
  | Some a, Some b => h a b
  | _, _ => None
  end.
Definition gL (h : bytes -> bytes -> option bytes) (x y : option bytes) : option bytes :=
  match x, y with
  | Some a, Some b => h a b
  | Some a, None => Some a
  | None, _ => None
  end.

Notation KJL g := (KJ None lookup g).

(** [t] is the canonical pointwise combination of [ta] and [tb]. *)
Definition NJ (g : option bytes -> option bytes -> option bytes) (ta tb t : tree) : Prop :=
  croot t /\ forall k, lookup t k = g (lookup ta k) (lookup tb k).

Lemma NJ_mk (g : option bytes -> option bytes -> option bytes) ta tb p va vb xs ys rs :
  KJL g xs ys rs -> g None None = None ->
  (forall k, lookup ta k = rawlook p va xs k) ->
  (forall k, lookup tb k = rawlook p vb ys k) ->
  NJ g ta tb (mk p (g va vb) rs).
Proof.
  intros [K1 K2 _ K4 _] G Ha Hb. destruct (mk_spec p (g va vb) rs K1 K2) as [M1 M2].
  split; [exact M1|]. intros k. rewrite M2, Ha, Hb. apply raw_pointwise; auto.
Qed.

(** The four ways two edges can relate. *)
Inductive edges (ap bp : bytes) (n : nat) : Prop :=
| edge_eq : ap = bp -> n = length ap -> n = length bp -> edges ap bp n
| edge_a : n = length ap -> n < length bp -> firstn n bp = ap -> edges ap bp n
| edge_b : n = length bp -> n < length ap -> firstn n ap = bp -> edges ap bp n
| edge_diff x y : n < length ap -> n < length bp -> firstn n ap = firstn n bp ->
    nth_error ap n = Some x -> nth_error bp n = Some y -> x <> y -> edges ap bp n.

Lemma edges_cases ap bp : edges ap bp (common_prefix ap bp).
Proof.
  pose proof (common_prefix_le_l ap bp) as L1. pose proof (common_prefix_le_r ap bp) as L2.
  pose proof (common_prefix_firstn ap bp) as F. pose proof (common_prefix_diff ap bp) as D.
  set (n := common_prefix ap bp) in *.
  destruct (Nat.eq_dec n (length ap)) as [E1|N1], (Nat.eq_dec n (length bp)) as [E2|N2].
  - apply edge_eq; auto. rewrite E1 in F at 1. rewrite E2 in F. now rewrite !firstn_all in F.
  - apply edge_a; [auto|lia|]. rewrite <- F, E1. apply firstn_all.
  - apply edge_b; [auto|lia|]. rewrite F, E2. apply firstn_all.
  - destruct (skipn_cons_nth n ap) as (x & Hx & _); [lia|].
    destruct (skipn_cons_nth n bp) as (y & Hy & _); [lia|].
    apply edge_diff with x y; auto; try lia.
Qed.

Ltac edge_tests :=
  repeat match goal with
  | |- context [?a =? ?b] =>
      first [ replace (a =? b) with true by (symmetry; apply Nat.eqb_eq; lia)
            | replace (a =? b) with false by (symmetry; apply Nat.eqb_neq; lia) ]
  end; cbn [andb negb].

Lemma tp_shorten_nth t n x : nth_error (tp t) n = Some x ->
  exists q, tp (shorten n t) = x :: q.
Proof. intros H. unfold shorten. cbn. rewrite (skipn_nth_error _ _ _ H). eauto. Qed.

Lemma cc_single_sorted t : ksorted [t].
Proof. repeat constructor. Qed.

Lemma sizes_single t : sizes [t] = size t.
Proof. unfold sizes. cbn. lia. Qed.

(* ------------------------------------------------------------------ *)
(** The outer join of two child iterators. *)
Section OuterJoin.
Context (idsA idsB : bool) (rdA rdB : reader) (al : Prop).

Inductive ojcase (ita itb : iter) (xs ys : list tree) : Prop :=
| oj_done : xs = [] -> ys = [] -> oj_next ita itb = Ok None -> ojcase ita itb xs ys
| oj_a a xs' x q ra ita' :
    xs = a :: xs' -> tp a = x :: q -> above x xs' -> above x ys ->
    NRep idsA rdA al ra a -> IRepT idsA rdA al ita' xs' ->
    oj_next ita itb = Ok (Some (Some ra, None, ita', itb)) -> ojcase ita itb xs ys
| oj_b b ys' y q rb itb' :
    ys = b :: ys' -> tp b = y :: q -> above y xs -> above y ys' ->
    NRep idsB rdB al rb b -> IRepT idsB rdB al itb' ys' ->
    oj_next ita itb = Ok (Some (None, Some rb, ita, itb')) -> ojcase ita itb xs ys
| oj_ab a b xs' ys' x q q' ra rb ita' itb' :
    xs = a :: xs' -> ys = b :: ys' -> tp a = x :: q -> tp b = x :: q' ->
    above x xs' -> above x ys' ->
    NRep idsA rdA al ra a -> IRepT idsA rdA al ita' xs' ->
    NRep idsB rdB al rb b -> IRepT idsB rdB al itb' ys' ->
    oj_next ita itb = Ok (Some (Some ra, Some rb, ita', itb')) -> ojcase ita itb xs ys.

Lemma oj_next_cases ita itb xs ys :
  IRepT idsA rdA al ita xs -> IRepT idsB rdB al itb ys ->
  ksorted xs -> ksorted ys -> Forall cc xs -> Forall cc ys ->
  ojcase ita itb xs ys.
Proof.
  intros Ha Hb Sa Sb Ca Cb. destruct xs as [|a xs], ys as [|b ys].
  - apply oj_done; auto. unfold oj_next.
    apply IRepT_nil in Ha as (E1 & E2). apply IRepT_nil in Hb as (E3 & E4).
    now rewrite E2, E1, E3.
  - inversion Cb as [|? ? Cb1 Cb2]; subst. destruct (cc_nonempty_prefix _ Cb1) as (y & q & E).
    apply (ksorted_cons _ _ _ _ E) in Sb as [Ab Sb].
    apply IRepT_cons in Hb as (rb & itb' & N & R & I & Fi).
    eapply oj_b; eauto; [constructor|]. unfold oj_next.
    apply IRepT_nil in Ha as (E1 & E2). now rewrite E2, E1, N.
  - inversion Ca as [|? ? Ca1 Ca2]; subst. destruct (cc_nonempty_prefix _ Ca1) as (x & q & E).
    apply (ksorted_cons _ _ _ _ E) in Sa as [Aa Sa].
    apply IRepT_cons in Ha as (ra & ita' & N & R & I & Fi).
    eapply oj_a; eauto; [constructor|]. unfold oj_next.
    apply IRepT_nil in Hb as (E1 & E2). now rewrite Fi, E2, N.
  - inversion Ca as [|? ? Ca1 Ca2]; subst. destruct (cc_nonempty_prefix _ Ca1) as (x & q & Ea).
    inversion Cb as [|? ? Cb1 Cb2]; subst. destruct (cc_nonempty_prefix _ Cb1) as (y & q' & Eb).
    apply (ksorted_cons _ _ _ _ Ea) in Sa as [Aa Sa].
    apply (ksorted_cons _ _ _ _ Eb) in Sb as [Ab Sb].
    pose proof (IRepT_cons _ _ _ _ _ _ Ha) as (ra & ita' & Na & Ra & Ia & Fa).
    pose proof (IRepT_cons _ _ _ _ _ _ Hb) as (rb & itb' & Nb & Rb & Ib & Fb).
    assert (oj_next ita itb =
      match N.compare (bnum x) (bnum y) with
      | Lt => Ok (Some (Some ra, None, ita', itb))
      | Gt => Ok (Some (None, Some rb, ita, itb'))
      | Eq => Ok (Some (Some ra, Some rb, ita', itb'))
      end) as O.
    { unfold oj_next. rewrite Fa, Fb, Na, Nb, Ea, Eb. cbn. now destruct (bnum x ?= bnum y)%N. }
    destruct (N.compare_spec (bnum x) (bnum y)) as [C|C|C].
    + apply bnum_inj in C. subst y. eapply oj_ab; eauto.
    + eapply oj_a; eauto. apply above_cons. rewrite Eb. split; [exact C|].
      eapply above_weaken; [|exact Ab]. lia.
    + eapply oj_b; eauto. apply above_cons. rewrite Ea. split; [exact C|].
      eapply above_weaken; [|exact Aa]. lia.
Qed.

(** The same for the in-place builder. *)
Inductive cwcase (na : list node) (itb : iter) (xs ys : list tree) : Prop :=
| cw_done : xs = [] -> ys = [] -> na = [] -> cmp_with na itb = None -> cwcase na itb xs ys
| cw_a a xs' x q m na' :
    xs = a :: xs' -> na = m :: na' -> tp a = x :: q -> above x xs' -> above x ys ->
    Rep idsA rdA m a -> Forall2 (Rep idsA rdA) na' xs' ->
    cmp_with na itb = Some Lt -> cwcase na itb xs ys
| cw_b b ys' y q rb itb' :
    ys = b :: ys' -> tp b = y :: q -> above y xs -> above y ys' ->
    NRep idsB rdB al rb b -> IRepT idsB rdB al itb' ys' ->
    it_next itb = Some (rb, itb') ->
    cmp_with na itb = Some Gt -> cwcase na itb xs ys
| cw_ab a b xs' ys' x q q' m na' rb itb' :
    xs = a :: xs' -> ys = b :: ys' -> na = m :: na' -> tp a = x :: q -> tp b = x :: q' ->
    above x xs' -> above x ys' ->
    Rep idsA rdA m a -> Forall2 (Rep idsA rdA) na' xs' ->
    NRep idsB rdB al rb b -> IRepT idsB rdB al itb' ys' ->
    it_next itb = Some (rb, itb') ->
    cmp_with na itb = Some Eq -> cwcase na itb xs ys.

Lemma cmp_with_cases na itb xs ys :
  Forall2 (Rep idsA rdA) na xs -> IRepT idsB rdB al itb ys ->
  ksorted xs -> ksorted ys -> Forall cc xs -> Forall cc ys ->
  cwcase na itb xs ys.
Proof.
  intros Ha Hb Sa Sb Ca Cb. destruct xs as [|a xs], ys as [|b ys].
  - inversion Ha; subst. apply cw_done; auto. unfold cmp_with.
    apply IRepT_nil in Hb as (_ & ->). reflexivity.
  - inversion Ha; subst.
    inversion Cb as [|? ? Cb1 Cb2]; subst. destruct (cc_nonempty_prefix _ Cb1) as (y & q & E).
    apply (ksorted_cons _ _ _ _ E) in Sb as [Ab Sb].
    apply IRepT_cons in Hb as (rb & itb' & N & R & I & Fi).
    eapply cw_b; eauto; [constructor|]. unfold cmp_with. now rewrite Fi.
  - inversion Ha as [|m ? na' ? Rm Fm]; subst.
    inversion Ca as [|? ? Ca1 Ca2]; subst. destruct (cc_nonempty_prefix _ Ca1) as (x & q & E).
    apply (ksorted_cons _ _ _ _ E) in Sa as [Aa Sa].
    eapply cw_a; eauto; [constructor|]. unfold cmp_with.
    apply IRepT_nil in Hb as (_ & ->). reflexivity.
  - inversion Ha as [|m ? na' ? Rm Fm]; subst.
    inversion Ca as [|? ? Ca1 Ca2]; subst. destruct (cc_nonempty_prefix _ Ca1) as (x & q & Ea).
    inversion Cb as [|? ? Cb1 Cb2]; subst. destruct (cc_nonempty_prefix _ Cb1) as (y & q' & Eb).
    apply (ksorted_cons _ _ _ _ Ea) in Sa as [Aa Sa].
    apply (ksorted_cons _ _ _ _ Eb) in Sb as [Ab Sb].
    pose proof (IRepT_cons _ _ _ _ _ _ Hb) as (rb & itb' & Nb & Rb & Ib & Fb).
    assert (cmp_with (m :: na') itb = Some (N.compare (bnum x) (bnum y))) as O.
    { unfold cmp_with. rewrite Fb, (Rep_first _ _ _ _ Rm), Ea, Eb. reflexivity. }
    destruct (N.compare_spec (bnum x) (bnum y)) as [C|C|C].
    + apply bnum_inj in C. subst y. eapply cw_ab; eauto.
    + eapply cw_a; eauto. apply above_cons. rewrite Eb. split; [exact C|].
      eapply above_weaken; [|exact Ab]. lia.
    + eapply cw_b; eauto. apply above_cons. rewrite Ea. split; [exact C|].
      eapply above_weaken; [|exact Aa]. lia.
Qed.
End OuterJoin.

Lemma ksorted_tail a l : ksorted (a :: l) -> ksorted l.
Proof. intros H. now apply Sorted.StronglySorted_inv in H as [H _]. Qed.

(** Value part of a finished node. *)
Lemma finish_ok dbg p value v o rs :
  RepV detached_read (opt_value value) v ->
  Forall2 DRep (match o with Some l => l | None => [] end) rs -> Forall cc rs ->
  exists n, finish dbg p value o = Ok n /\ DRep n (mk p v rs) /\ is_empty n = tnil (mk p v rs).
Proof.
  intros HV HF HC. unfold finish.
  assert (Rep false detached_read (Node (Data p) (opt_value value) (kids_opt o)) (T p v rs)) as R.
  { eapply Rep_mk; cbn; eauto; [now left|]. destruct o; [now left|]. right; left. auto. }
  destruct (canonicalize_ok false detached_read dbg _ _ _ _ R HC) as (n & E & R' & Em).
  - cbn. destruct o; cbn; eauto.
  - intros _. eapply Rep_noids_merge; eauto.
  - eauto.
Qed.
