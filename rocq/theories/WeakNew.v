(** The combines that build a new tree, on trees that need not be canonical (see WeakFind.v):
    the counterparts of JoinProofs.v.  The closure need only answer for pairs of values that
    some key has in the two trees. *)
From Verif Require Import Base BaseLemmas Header Node Combine Tree Rep JoinBase JoinProofs WithProofs PrefixProofs
  WeakFind WeakJoin WeakWith.

Section OuterJoin.
Context (idsA idsB : bool) (rdA rdB : reader) (al : Prop).

Lemma w_oj_cases ita itb xs ys :
  IRepT idsA rdA al ita xs -> IRepT idsB rdB al itb ys ->
  ksorted xs -> ksorted ys -> Forall wcc xs -> Forall wcc ys ->
  ojcase idsA idsB rdA rdB al ita itb xs ys.
Proof.
  intros Ha Hb Sa Sb Ca Cb. destruct xs as [|a xs], ys as [|b ys].
  - apply oj_done; auto. unfold oj_next.
    apply IRepT_nil in Ha as (E1 & E2). apply IRepT_nil in Hb as (E3 & E4).
    now rewrite E2, E1, E3.
  - inversion Cb as [|? ? Cb1 Cb2]; subst. destruct (wcc_prefix _ Cb1) as (y & q & E).
    apply (ksorted_cons _ _ _ _ E) in Sb as [Ab Sb].
    apply IRepT_cons in Hb as (rb & itb' & N & R & I & Fi).
    eapply oj_b; eauto; [constructor|]. unfold oj_next.
    apply IRepT_nil in Ha as (E1 & E2). now rewrite E2, E1, N.
  - inversion Ca as [|? ? Ca1 Ca2]; subst. destruct (wcc_prefix _ Ca1) as (x & q & E).
    apply (ksorted_cons _ _ _ _ E) in Sa as [Aa Sa].
    apply IRepT_cons in Ha as (ra & ita' & N & R & I & Fi).
    eapply oj_a; eauto; [constructor|]. unfold oj_next.
    apply IRepT_nil in Hb as (E1 & E2). now rewrite Fi, E2, N.
  - inversion Ca as [|? ? Ca1 Ca2]; subst. destruct (wcc_prefix _ Ca1) as (x & q & Ea).
    inversion Cb as [|? ? Cb1 Cb2]; subst. destruct (wcc_prefix _ Cb1) as (y & q' & Eb).
    apply (ksorted_cons _ _ _ _ Ea) in Sa as [Aa Sa].
    apply (ksorted_cons _ _ _ _ Eb) in Sb as [Ab Sb].
    pose proof (IRepT_cons _ _ _ _ _ _ Ha) as (ra & ita' & Na & Ra & Ia & Fa).
    pose proof (IRepT_cons _ _ _ _ _ _ Hb) as (rb & itb' & Nb & Rb & Ib & Fb).
    assert (oj_next ita itb =
      match N.compare (bnum x) (bnum y) with
      | Lt => Ok (Some (Some ra, None, ita', itb))
      | Gt => Ok (Some (None, Some rb, ita, itb'))
      | Eq => Ok (Some (Some ra, Some rb, ita', itb'))
      end) as O.
    { unfold oj_next. rewrite Fa, Fb, Na, Nb, Ea, Eb. cbn. now destruct (bnum x ?= bnum y)%N. }
    destruct (N.compare_spec (bnum x) (bnum y)) as [C|C|C].
    + apply bnum_inj in C. subst y. eapply oj_ab; eauto.
    + eapply oj_a; eauto. apply above_cons. rewrite Eb. split; [exact C|].
      eapply above_weaken; [|exact Ab]. lia.
    + eapply oj_b; eauto. apply above_cons. rewrite Ea. split; [exact C|].
      eapply above_weaken; [|exact Aa]. lia.
Qed.
End OuterJoin.

Lemma rep_empty ids rd n t : Rep ids rd n t -> is_empty n = true -> tnil t = true.
Proof.
  destruct t as [p v cs]. intros H E. apply Rep_inv in H as (_ & RV & ns & RK & F).
  pose proof (RepV_opt _ _ _ RV) as O. unfold is_empty, has_value, is_leaf in E. unfold tnil. cbn.
  apply andb_true_iff in E as [E1 E2]. destruct v as [x|]; [rewrite O in E1; discriminate|].
  destruct (n_kids n) as [l|[|z id]]; try discriminate.
  destruct RK as [K|[[_ ->]|(r & id & data & K & _)]]; try discriminate. now inversion F.
Qed.

(** Dropping a child without entries, and keeping a joined child. *)
Section More.
Context (g : option bytes -> option bytes -> option bytes).
Lemma WK_a_nil a x q xs ys rs : (forall o, g o None = o) -> tnil a = true ->
  tp a = x :: q -> above x xs -> above x ys -> WKL g xs ys rs -> WKL g (a :: xs) ys rs.
Proof.
  intros Hg Nt E Hx Hy [K1 K2 K3 K4]. split; auto.
  - intros c Hc Hc'. apply above_cons in Hc as [Hc1 Hc]. auto.
  - intros [|y k] Hk; [congruence|]. cbn [lkids].
    destruct (starts a (y :: k)) eqn:S; [|apply K4; congruence].
    unfold starts in S. rewrite E in S. destruct (byte_eqb_spec x y); [subst|congruence].
    rewrite (okids_above None lookup y ys k Hy), Hg, (tnil_lookup a) by exact Nt.
    apply lkids_above. auto.
Qed.
Lemma WK_b_nil b x q xs ys rs : (forall o, g None o = o) -> tnil b = true ->
  tp b = x :: q -> above x xs -> above x ys -> WKL g xs ys rs -> WKL g xs (b :: ys) rs.
Proof.
  intros Hg Nt E Hx Hy [K1 K2 K3 K4]. split; auto.
  - intros c Hc Hc'. apply above_cons in Hc' as [Hc1 Hc']. auto.
  - intros [|y k] Hk; [congruence|]. cbn [okids].
    destruct (starts b (y :: k)) eqn:S; [|apply K4; congruence].
    unfold starts in S. rewrite E in S. destruct (byte_eqb_spec x y); [subst|congruence].
    rewrite (lkids_above y xs k Hx), Hg, (tnil_lookup b) by exact Nt.
    apply lkids_above. auto.
Qed.
Lemma WK_both_keep a b r x q q' q2 xs ys rs :
  wroot r -> (forall k, lookup r k = g (lookup a k) (lookup b k)) -> tp r = x :: q2 ->
  tp a = x :: q -> tp b = x :: q' -> above x xs -> above x ys ->
  WKL g xs ys rs -> WKL g (a :: xs) (b :: ys) (r :: rs).
Proof.
  intros Hr Hl Er Ea Eb Hx Hy [K1 K2 K3 K4]. split.
  - apply (ksorted_cons _ _ _ _ Er). auto.
  - constructor; auto. apply wroot_wcc; [exact Hr|]. rewrite Er. discriminate.
  - intros c Hc Hc'. apply above_cons in Hc as [Hc1 Hc], Hc' as [_ Hc']. apply above_cons.
    split; [|auto]. rewrite Er. now rewrite Ea in Hc1.
  - intros [|y k] Hky; [congruence|]. cbn [lkids okids].
    unfold starts. rewrite Er, Ea, Eb. destruct (byte_eqb_spec x y) as [->|Ny].
    + apply Hl.
    + apply K4. congruence.
Qed.
End More.

(** Pairs of values that some key has in two trees. *)
Section Common.
Context (P : bytes -> bytes -> Prop).
Definition common (ta tb : tree) : Prop :=
  forall k x y, lookup ta k = Some x -> lookup tb k = Some y -> P x y.
Definition ckids (xs ys : list tree) : Prop :=
  forall k x y, k <> [] -> lkids xs k = Some x -> lkids ys k = Some y -> P x y.

Lemma common_raw ta tb p va vb xs ys :
  (forall k, lookup ta k = rawlook p va xs k) -> (forall k, lookup tb k = rawlook p vb ys k) ->
  common ta tb -> (forall x y, va = Some x -> vb = Some y -> P x y) /\ ckids xs ys.
Proof.
  intros Ha Hb H. split.
  - intros x y -> ->. apply (H p); [rewrite Ha|rewrite Hb]; unfold rawlook;
      rewrite <- (app_nil_r p) at 2; now rewrite strip_app.
  - intros k x y Hk Hx Hy. apply (H (p ++ k)); [rewrite Ha|rewrite Hb]; unfold rawlook;
      rewrite strip_app; destruct k; congruence || assumption.
Qed.
Lemma ckids_a a x q xs ys : tp a = x :: q -> above x xs -> ckids (a :: xs) ys -> ckids xs ys.
Proof.
  intros E A H [|c k] v w Hk Hx Hy; [congruence|]. apply (H (c :: k) v w); auto. cbn [lkids].
  unfold starts. rewrite E. destruct (byte_eqb_spec x c); [subst|exact Hx].
  rewrite (lkids_above _ _ _ A) in Hx. discriminate.
Qed.
Lemma ckids_b b y q xs ys : tp b = y :: q -> above y ys -> ckids xs (b :: ys) -> ckids xs ys.
Proof.
  intros E A H [|c k] v w Hk Hx Hy; [congruence|]. apply (H (c :: k) v w); auto. cbn [lkids].
  unfold starts. rewrite E. destruct (byte_eqb_spec y c); [subst|exact Hy].
  rewrite (lkids_above _ _ _ A) in Hy. discriminate.
Qed.
Lemma ckids_both a b x q q' xs ys : tp a = x :: q -> tp b = x :: q' -> ckids (a :: xs) (b :: ys) -> common a b.
Proof.
  intros Ea Eb H k v w Hv Hw. destruct (starts a k) eqn:S; [|now rewrite (lookup_not_starts _ _ _ _ Ea S) in Hv].
  destruct k as [|c k]; [now rewrite starts_nil in S|]. apply (H (c :: k) v w); [discriminate|cbn [lkids]; now rewrite S|].
  cbn [lkids]. replace (starts b (c :: k)) with true; [exact Hw|]. rewrite <- S. unfold starts. now rewrite Ea, Eb.
Qed.
End Common.

Section NonInPlace.
Context (dbg : bool) (idsA idsB : bool) (rdA rdB : reader) (al : Prop).
Context (HdA : det rdA \/ al) (HdB : det rdB \/ al).
Context (f : blob -> blob -> res (option blob)) (h : bytes -> bytes -> option bytes) (P : bytes -> bytes -> Prop).
Context (Hf : forall av bv x y, P x y -> RepV rdA av (Some x) -> RepV rdB bv (Some y) ->
  okp al (f av bv) (fun r => option_map blob_slice r = h x y)).

Notation NA := (NRep idsA rdA al).
Notation NB := (NRep idsB rdB al).
Notation IA := (IRepT idsA rdA al).
Notation IB := (IRepT idsB rdB al).
Notation OA := (ORep idsA rdA al).
Notation OB := (ORep idsB rdB al).

Definition npost (g : option bytes -> option bytes -> option bytes) (ta tb : tree) (n : node) : Prop :=
  exists t, DRep n t /\ wroot t /\ (forall k, lookup t k = g (lookup ta k) (lookup tb k)) /\
    (forall x q q', tp ta = x :: q -> tp tb = x :: q' -> is_empty n = true \/ exists r, tp t = x :: r).

Definition nrec (g : option bytes -> option bytes -> option bytes)
    (rec : noderef -> noderef -> res node) (M : nat) : Prop :=
  forall ra rb ta tb, NA ra ta -> NB rb tb -> wroot ta -> wroot tb -> common P ta tb ->
    size ta + size tb <= M -> okp al (rec ra rb) (npost g ta tb).

Definition nkpost (g : option bytes -> option bytes -> option bytes) (xs ys : list tree)
    (l : list node) : Prop :=
  exists rs, Forall2 DRep l rs /\ WKL g xs ys rs.

Lemma nkpost_nonempty g xs ys l : nkpost g xs ys l -> nkpost g xs ys (kl (nonempty_vec l)).
Proof. destruct l; auto. Qed.

(* ------------------------------------------------------------------ *)
(** Children loops. *)
Section Loops.
Context (g : option bytes -> option bytes -> option bytes) (g0 : g None None = None).
Context (rec : noderef -> noderef -> res node) (M : nat) (Hrec : nrec g rec M).

Lemma nboth_ok r n ta tb xs ys rs ns x q q' :
  npost g ta tb n -> Forall2 DRep ns rs -> WKL g xs ys rs ->
  tp ta = x :: q -> tp tb = x :: q' -> above x xs -> above x ys ->
  r = (if is_empty n then ns else n :: ns) ->
  nkpost g (ta :: xs) (tb :: ys) r.
Proof.
  intros (t & R & Hr & Hl & Hp) F K Ea Eb Aa Ab ->. destruct (is_empty n) eqn:Em.
  - exists rs. split; [exact F|]. pose proof (rep_empty _ _ _ _ R Em) as Nt.
    replace rs with (if tnil t then rs else t :: rs) by now rewrite Nt.
    eapply WK_both with (a := ta) (b := tb) (r := t); eauto.
  - destruct (Hp _ _ _ Ea Eb) as [|[q2 E2]]; [congruence|]. exists (t :: rs). split; [constructor; auto|].
    eapply WK_both_keep; eauto.
Qed.

Lemma outer_loop_ok (gR : forall o, g o None = o) (gL' : forall o, g None o = o) :
  forall fuel ita itb xs ys,
  IA ita xs -> IB itb ys -> ksorted xs -> ksorted ys -> Forall wcc xs -> Forall wcc ys -> ckids P xs ys ->
  sizes xs + sizes ys <= M -> sizes xs + sizes ys + 1 < fuel ->
  okp al (outer_loop rdA rdB rec fuel ita itb) (nkpost g xs ys).
Proof.
  induction fuel as [|fuel IH]; intros ita itb xs ys Ia Ib Sa Sb Ca Cb Hc HM Hfu; [lia|].
  cbn [outer_loop].
  destruct (w_oj_cases idsA idsB rdA rdB al _ _ _ _ Ia Ib Sa Sb Ca Cb)
    as [-> -> -> | a xs' x q ra ita' -> E Aa Ab R I' -> | b ys' y q rb itb' -> E Aa Ab R I' ->
       | a b xs' ys' x q q' ra rb ita' itb' -> -> Ea Eb Aa Ab Ra Ia' Rb Ib' ->]; cbn [bind].
  - apply okp_ok. exists []. split; [constructor|]. now apply WK_nil.
  - rewrite sizes_cons in *. inversion Ca; subst. pose proof (size_pos a).
    destruct (r_detached_ok idsA rdA al fuel ra a R) as (m & -> & Rm & _); [lia|]. cbn [bind].
    eapply okp_bind; [apply (IH ita' itb xs' ys); eauto using ksorted_tail, ckids_a, ckids_b; lia|].
    intros ns (rs & Fn & K). apply okp_ok. destruct (is_empty m) eqn:Em.
    + exists rs. split; [auto|]. eapply WK_a_nil; eauto using rep_empty.
    + exists (a :: rs). split; [constructor; auto|]. eapply WK_a; eauto.
  - rewrite sizes_cons in *. inversion Cb; subst. pose proof (size_pos b).
    destruct (r_detached_ok idsB rdB al fuel rb b R) as (m & -> & Rm & _); [lia|]. cbn [bind].
    eapply okp_bind; [apply (IH ita itb' xs ys'); eauto using ksorted_tail, ckids_a, ckids_b; lia|].
    intros ns (rs & Fn & K). apply okp_ok. destruct (is_empty m) eqn:Em.
    + exists rs. split; [auto|]. eapply WK_b_nil; eauto using rep_empty.
    + exists (b :: rs). split; [constructor; auto|]. eapply WK_b; eauto.
  - rewrite !sizes_cons in *. inversion Ca; inversion Cb; subst.
    pose proof (size_pos a). pose proof (size_pos b).
    eapply okp_bind; [apply (Hrec ra rb a b); eauto using wcc_wroot, ckids_both; lia|].
    intros n Hn. eapply okp_bind; [apply (IH ita' itb' xs' ys'); eauto using ksorted_tail, ckids_a, ckids_b; lia|].
    intros ns (rs & Fn & K). apply okp_ok. eapply nboth_ok; eauto.
Qed.

Lemma outer_children_ok (gR : forall o, g o None = o) (gL' : forall o, g None o = o) fuel oa ob xs ys :
  OA oa xs -> OB ob ys -> ksorted xs -> ksorted ys -> Forall wcc xs -> Forall wcc ys -> ckids P xs ys ->
  sizes xs + sizes ys <= M -> sizes xs + sizes ys + 1 < fuel ->
  okp al (outer_children rdA rdB rec fuel oa ob) (fun o => nkpost g xs ys (kl o)).
Proof.
  intros Oa Ob Sa Sb Ca Cb Hc HM Hfu. unfold outer_children. destruct oa as [ita|], ob as [itb|]; cbn in Oa, Ob.
  - destruct Oa as [_ Oa], Ob as [_ Ob]. eapply okp_bind; [eapply outer_loop_ok; eauto|]. intros l Hl. apply okp_ok.
    now apply nkpost_nonempty.
  - subst ys. destruct Oa as [N Ia].
    eapply okp_weaken; [eapply it_detached_ok; eauto; lia|auto|].
    intros o (ns & -> & F). exists xs. split; [exact F|]. now apply WK_nil_r_keep.
  - subst xs. destruct Ob as [N Ib]. cbn in *.
    eapply okp_weaken; [eapply it_detached_ok; eauto; lia|auto|].
    intros o (ns & -> & F). exists ys. split; [exact F|].
    split; auto; cbn; lia.
  - subst. apply okp_ok. exists []. split; [constructor|]. now apply WK_nil.
Qed.

Lemma inner_loop_ok (gR : forall o, g o None = None) (gL' : forall o, g None o = None) :
  forall fuel ita itb xs ys,
  IA ita xs -> IB itb ys -> ksorted xs -> ksorted ys -> Forall wcc xs -> Forall wcc ys -> ckids P xs ys ->
  sizes xs + sizes ys <= M -> sizes xs + sizes ys + 1 < fuel ->
  okp al (inner_loop rec fuel ita itb) (nkpost g xs ys).
Proof.
  induction fuel as [|fuel IH]; intros ita itb xs ys Ia Ib Sa Sb Ca Cb Hc HM Hfu; [lia|].
  cbn [inner_loop].
  destruct (w_oj_cases idsA idsB rdA rdB al _ _ _ _ Ia Ib Sa Sb Ca Cb)
    as [-> -> -> | a xs' x q ra ita' -> E Aa Ab R I' -> | b ys' y q rb itb' -> E Aa Ab R I' ->
       | a b xs' ys' x q q' ra rb ita' itb' -> -> Ea Eb Aa Ab Ra Ia' Rb Ib' ->]; cbn [bind].
  - apply okp_ok. exists []. split; [constructor|]. now apply WK_nil.
  - rewrite sizes_cons in *. inversion Ca; subst. pose proof (size_pos a).
    eapply okp_weaken; [apply (IH ita' itb xs' ys); eauto using ksorted_tail, ckids_a, ckids_b; lia|auto|].
    intros ns (rs & Fn & K). exists rs. split; [auto|]. eapply WK_a_drop; eauto.
  - rewrite sizes_cons in *. inversion Cb; subst. pose proof (size_pos b).
    eapply okp_weaken; [apply (IH ita itb' xs ys'); eauto using ksorted_tail, ckids_a, ckids_b; lia|auto|].
    intros ns (rs & Fn & K). exists rs. split; [auto|]. eapply WK_b_drop; eauto.
  - rewrite !sizes_cons in *. inversion Ca; inversion Cb; subst.
    pose proof (size_pos a). pose proof (size_pos b).
    eapply okp_bind; [apply (Hrec ra rb a b); eauto using wcc_wroot, ckids_both; lia|].
    intros n Hn. eapply okp_bind; [apply (IH ita' itb' xs' ys'); eauto using ksorted_tail, ckids_a, ckids_b; lia|].
    intros ns (rs & Fn & K). apply okp_ok. eapply nboth_ok; eauto.
Qed.

Lemma inner_children_ok (gR : forall o, g o None = None) (gL' : forall o, g None o = None) fuel oa ob xs ys :
  OA oa xs -> OB ob ys -> ksorted xs -> ksorted ys -> Forall wcc xs -> Forall wcc ys -> ckids P xs ys ->
  sizes xs + sizes ys <= M -> sizes xs + sizes ys + 1 < fuel ->
  okp al (inner_children rec fuel oa ob) (fun o => nkpost g xs ys (kl o)).
Proof.
  intros Oa Ob Sa Sb Ca Cb Hc HM Hfu. unfold inner_children. destruct oa as [ita|], ob as [itb|]; cbn in Oa, Ob.
  - destruct Oa as [_ Oa], Ob as [_ Ob]. eapply okp_bind; [eapply inner_loop_ok; eauto|]. intros l Hl. apply okp_ok.
    now apply nkpost_nonempty.
  - subst ys. apply okp_ok. exists []. split; [constructor|]. now apply WK_nil_r_drop.
  - subst xs. apply okp_ok. exists []. split; [constructor|]. now apply WK_nil_l.
  - subst. apply okp_ok. exists []. split; [constructor|]. now apply WK_nil.
Qed.

Lemma left_loop_ok (gR : forall o, g o None = o) (gL' : forall o, g None o = None) :
  forall fuel ita itb xs ys,
  IA ita xs -> IB itb ys -> ksorted xs -> ksorted ys -> Forall wcc xs -> Forall wcc ys -> ckids P xs ys ->
  sizes xs + sizes ys <= M -> sizes xs + sizes ys + 1 < fuel ->
  okp al (left_loop rdA rec fuel ita itb) (nkpost g xs ys).
Proof.
  induction fuel as [|fuel IH]; intros ita itb xs ys Ia Ib Sa Sb Ca Cb Hc HM Hfu; [lia|].
  cbn [left_loop].
  destruct (w_oj_cases idsA idsB rdA rdB al _ _ _ _ Ia Ib Sa Sb Ca Cb)
    as [-> -> -> | a xs' x q ra ita' -> E Aa Ab R I' -> | b ys' y q rb itb' -> E Aa Ab R I' ->
       | a b xs' ys' x q q' ra rb ita' itb' -> -> Ea Eb Aa Ab Ra Ia' Rb Ib' ->]; cbn [bind].
  - apply okp_ok. exists []. split; [constructor|]. now apply WK_nil.
  - rewrite sizes_cons in *. inversion Ca; subst. pose proof (size_pos a).
    destruct (r_detached_ok idsA rdA al fuel ra a R) as (m & -> & Rm & _); [lia|]. cbn [bind].
    eapply okp_bind; [apply (IH ita' itb xs' ys); eauto using ksorted_tail, ckids_a, ckids_b; lia|].
    intros ns (rs & Fn & K). apply okp_ok.
    exists (a :: rs). split; [constructor; auto|]. eapply WK_a; eauto.
  - rewrite sizes_cons in *. inversion Cb; subst. pose proof (size_pos b).
    eapply okp_weaken; [apply (IH ita itb' xs ys'); eauto using ksorted_tail, ckids_a, ckids_b; lia|auto|].
    intros ns (rs & Fn & K). exists rs. split; [auto|]. eapply WK_b_drop; eauto.
  - rewrite !sizes_cons in *. inversion Ca; inversion Cb; subst.
    pose proof (size_pos a). pose proof (size_pos b).
    eapply okp_bind; [apply (Hrec ra rb a b); eauto using wcc_wroot, ckids_both; lia|].
    intros n Hn. eapply okp_bind; [apply (IH ita' itb' xs' ys'); eauto using ksorted_tail, ckids_a, ckids_b; lia|].
    intros ns (rs & Fn & K). apply okp_ok. eapply nboth_ok; eauto.
Qed.

Lemma left_children_ok (gR : forall o, g o None = o) (gL' : forall o, g None o = None) fuel oa ob xs ys :
  OA oa xs -> OB ob ys -> ksorted xs -> ksorted ys -> Forall wcc xs -> Forall wcc ys -> ckids P xs ys ->
  sizes xs + sizes ys <= M -> sizes xs + sizes ys + 1 < fuel ->
  okp al (left_children rdA rec fuel oa ob) (fun o => nkpost g xs ys (kl o)).
Proof.
  intros Oa Ob Sa Sb Ca Cb Hc HM Hfu. unfold left_children. destruct oa as [ita|], ob as [itb|]; cbn in Oa, Ob.
  - destruct Oa as [_ Oa], Ob as [_ Ob]. eapply okp_bind; [eapply left_loop_ok; eauto|]. intros l Hl. apply okp_ok.
    now apply nkpost_nonempty.
  - subst ys. destruct Oa as [N Ia].
    eapply okp_weaken; [eapply it_detached_ok; eauto; lia|auto|].
    intros o (ns & -> & F). exists xs. split; [exact F|]. now apply WK_nil_r_keep.
  - subst xs. apply okp_ok. exists []. split; [constructor|]. now apply WK_nil_l.
  - subst. apply okp_ok. exists []. split; [constructor|]. now apply WK_nil.
Qed.
End Loops.

(** Finishing a node. *)
Lemma nfinish g ta tb p va vb xs ys value v o :
  g None None = None ->
  option_map blob_slice value = v -> v = g va vb ->
  nkpost g xs ys (kl o) ->
  (forall k, lookup ta k = rawlook p va xs k) ->
  (forall k, lookup tb k = rawlook p vb ys k) ->
  (forall x q q', tp ta = x :: q -> tp tb = x :: q' -> exists r, p = x :: r) ->
  okp al (finish dbg p value o) (npost g ta tb).
Proof.
  intros g0 HV Hv (rs & F & K) Ha Hb Hp. unfold finish.
  assert (Rep false detached_read (Node (Data p) (opt_value value) (kids_opt o)) (T p v rs)) as R.
  { eapply Rep_mk; cbn; eauto; [now left|now apply opt_value_RepV|]. destruct o; [now left|]. right; left. auto. }
  pose proof (WK_sorted _ _ _ _ _ _ K) as K1. pose proof (WK_wcc _ _ _ _ _ _ K) as K2.
  eapply okp_weaken; [eapply (canon_weak detached_read al dbg _ _ _ _ R K1 K2)|auto|].
  - intros _. left. destruct o; cbn; eauto.
  - intros n (t & R' & Em & W & L & Q). exists t. split; [exact R'|]. split; [exact W|]. split.
    + intros k. rewrite L, Hv. eapply raw_g; eauto.
    + intros x q q' Ea Eb. destruct Q as [Q|[r Q]]; [left; congruence|right].
      destruct (Hp _ _ _ Ea Eb) as [r' ->]. rewrite Q. cbn. eauto.
Qed.

Theorem w_outer_ok : forall fuel, nrec (gO h) (outer_combine dbg rdA rdB f fuel) (fuel - 2).
Proof.
  set (g := gO h).
  assert (gR : forall o, g o None = o) by (intros [|]; reflexivity).
  assert (gl : forall o, g None o = o) by reflexivity.
  assert (g0 : g None None = None) by reflexivity.
  induction fuel as [|fuel IH]; intros ra rb ta tb Ra Rb Ca Cb Hc Hs;
    [pose proof (size_pos ta); cbn in Hs; lia|].
  destruct ta as [ap va xs], tb as [bp vb ys]. cbn [outer_combine].
  rewrite (NRep_prefix _ _ _ _ _ _ _ Ra), (NRep_prefix _ _ _ _ _ _ _ Rb). cbn [bind].
  destruct (wroot_kids _ Ca) as [Sa Ka]. destruct (wroot_kids _ Cb) as [Sb Kb]. cbn [tc] in *.
  rewrite !size_T in Hs.
  destruct (NRep_children _ _ _ HdA _ _ _ _ Ra) as (oa & Ea & Oa).
  destruct (NRep_children _ _ _ HdB _ _ _ _ Rb) as (ob & Eb & Ob).
  assert (okp al (opt_detached (r_value_opt ra)) (fun r => option_map blob_slice r = va)) as DA by (eapply (opt_detached_A idsA rdA al HdA); exact Ra). assert (okp al (opt_detached (r_value_opt rb)) (fun r => option_map blob_slice r = vb)) as DB by (eapply (opt_detached_B idsB rdB al HdB); exact Rb).
  pose proof (NRep_value _ _ _ _ _ _ _ Ra) as VA. pose proof (NRep_value _ _ _ _ _ _ _ Rb) as VB.
  destruct (edges_cases ap bp) as [E1 E2 E3|E1 E2 E3|E1 E2 E3|x y E1 E2 E3 Ex Ey Nxy];
    set (n := common_prefix ap bp) in *; edge_tests.
  - (* equal edges *)
    subst bp. destruct (common_raw P _ _ ap va vb xs ys (lookup_raw ap va xs) (lookup_raw ap vb ys) Hc) as [Hv Hk].
    eapply okp_bind with (P := fun value => option_map blob_slice value = g va vb).
    { destruct vb as [y|].
      - destruct VB as (bv & -> & RVb). destruct va as [x|].
        + destruct VA as (av & -> & RVa). apply Hf; auto.
        + rewrite VA. eapply okp_bind; [eapply (v_detached_ok rdB al); eauto|]. intros ? ->. now apply okp_ok.
      - rewrite VB. rewrite gR. exact DA. }
    intros value HV. cbv beta in HV. rewrite Ea. cbn [bind]. rewrite Eb. cbn [bind].
    eapply okp_bind; [eapply outer_children_ok with (M := fuel - 2) (xs := xs) (ys := ys); eauto; lia|].
    intros o Ho. cbv beta in Ho. rewrite E2, firstn_all.
    eapply nfinish with (va := va) (vb := vb); eauto; try (intros; apply lookup_raw); cbn; intros; subst; eauto.
  - (* the left edge is shorter *)
    assert (firstn n ap = firstn n bp) as Ep by (rewrite E3, E1; apply firstn_all).
    assert (forall k, lookup (T ap va xs) k = rawlook (firstn n ap) va xs k) as La by (intros k; now apply rawlook_full).
    assert (forall k, lookup (T bp vb ys) k = rawlook (firstn n ap) None [shorten n (T bp vb ys)] k) as Lb
      by (intros k; rewrite Ep; now apply (rawlook_shorten (T bp vb ys))).
    destruct (common_raw P _ _ _ _ _ _ _ La Lb Hc) as [_ Hk].
    eapply okp_bind; [exact DA|]. intros value HV. cbv beta in HV. rewrite Ea. cbn [bind].
    eapply okp_bind; [eapply r_clone_shortened_ok with (t := T bp vb ys); cbn; eauto; lia|].
    intros b' [Rb' _].
    eapply okp_bind; [eapply outer_children_ok with (M := fuel - 2) (xs := xs) (ys := [shorten n (T bp vb ys)]);
      eauto using OB_single, cc_single_sorted; rewrite ?sizes_single, ?size_shorten, ?size_T; try lia|].
    { constructor; [now apply shorten_wcc|constructor]. }
    intros o Ho. cbv beta in Ho.
    eapply nfinish with (va := va) (vb := None); eauto.
    cbn. intros. eapply firstn_common; eauto.
  - (* the right edge is shorter *)
    assert (firstn n ap = firstn n bp) as Ep by (rewrite E3, E1; symmetry; apply firstn_all).
    assert (forall k, lookup (T ap va xs) k = rawlook (firstn n ap) None [shorten n (T ap va xs)] k) as La
      by (intros k; now apply (rawlook_shorten (T ap va xs))).
    assert (forall k, lookup (T bp vb ys) k = rawlook (firstn n ap) vb ys k) as Lb
      by (intros k; rewrite Ep; now apply rawlook_full).
    destruct (common_raw P _ _ _ _ _ _ _ La Lb Hc) as [_ Hk].
    eapply okp_bind; [exact DB|]. intros value HV. cbv beta in HV.
    eapply okp_bind; [eapply r_clone_shortened_ok with (t := T ap va xs); cbn; eauto; lia|].
    intros a' [Ra' _]. rewrite Eb. cbn [bind].
    eapply okp_bind; [eapply outer_children_ok with (M := fuel - 2) (xs := [shorten n (T ap va xs)]) (ys := ys);
      eauto using OA_single, cc_single_sorted; rewrite ?sizes_single, ?size_shorten, ?size_T; try lia|].
    { constructor; [now apply shorten_wcc|constructor]. }
    intros o Ho. cbv beta in Ho.
    eapply nfinish with (va := None) (vb := vb); eauto.
    cbn. intros. eapply firstn_common; eauto.
  - (* disjoint *)
    cbn [conv_node_shortened detach_converter].
    eapply okp_bind with (P := fun n' => DRep n' (shorten n (T ap va xs))).
    { eapply okp_bind; [eapply r_clone_shortened_ok with (t := T ap va xs); cbn; eauto; lia|].
      intros a' [Ra' _].
      destruct (r_detached_ok idsA rdA al fuel (ROwned a') (shorten n (T ap va xs))) as (m & -> & Rm & _).
      - now apply Rep_NRep.
      - rewrite size_shorten, size_T. lia.
      - now apply okp_ok. }
    intros a' Ra'.
    eapply okp_bind with (P := fun n' => DRep n' (shorten n (T bp vb ys))).
    { eapply okp_bind; [eapply r_clone_shortened_ok with (t := T bp vb ys); cbn; eauto; lia|].
      intros b' [Rb' _].
      destruct (r_detached_ok idsB rdB al fuel (ROwned b') (shorten n (T bp vb ys))) as (m & -> & Rm & _).
      - now apply Rep_NRep.
      - rewrite size_shorten, size_T. lia.
      - now apply okp_ok. }
    intros b' Rb'.
    destruct (tp_shorten_nth (T ap va xs) n x Ex) as [qa Eqa].
    destruct (tp_shorten_nth (T bp vb ys) n y Ey) as [qb Eqb].
    pose proof (shorten_wcc n _ Ca E1) as Ca'. pose proof (shorten_wcc n _ Cb E2) as Cb'.
    rewrite Ex, Ey. cbn [cmp_ob].
    eapply nfinish with (g := g) (va := None) (vb := None) (v := None)
      (xs := [shorten n (T ap va xs)]) (ys := [shorten n (T bp vb ys)]); auto.
    + destruct (N.compare_spec (bnum x) (bnum y)) as [C|C|C].
      * now apply bnum_inj in C.
      * exists [shorten n (T ap va xs); shorten n (T bp vb ys)]. split; [repeat constructor; auto|].
        eapply WK_a; eauto; [constructor| |].
        -- apply above_cons. rewrite Eqb. split; [exact C|constructor].
        -- eapply WK_b; eauto; [constructor|constructor|now apply WK_nil].
      * exists [shorten n (T bp vb ys); shorten n (T ap va xs)]. split; [repeat constructor; auto|].
        eapply WK_b; eauto; [|constructor|].
        -- apply above_cons. rewrite Eqa. split; [exact C|constructor].
        -- eapply WK_a; eauto; [constructor|constructor|now apply WK_nil].
    + intros k. now apply (rawlook_shorten (T ap va xs)).
    + intros k. rewrite E3. now apply (rawlook_shorten (T bp vb ys)).
    + cbn. intros. eapply firstn_common; eauto.
Qed.

Theorem w_inner_ok : forall fuel, nrec (gI h) (inner_combine dbg rdA rdB f fuel) (fuel - 2).
Proof.
  set (g := gI h).
  assert (gR : forall o, g o None = None) by (intros [|]; reflexivity).
  assert (gl : forall o, g None o = None) by reflexivity.
  assert (g0 : g None None = None) by reflexivity.
  induction fuel as [|fuel IH]; intros ra rb ta tb Ra Rb Ca Cb Hc Hs;
    [pose proof (size_pos ta); cbn in Hs; lia|].
  destruct ta as [ap va xs], tb as [bp vb ys]. cbn [inner_combine].
  rewrite (NRep_prefix _ _ _ _ _ _ _ Ra), (NRep_prefix _ _ _ _ _ _ _ Rb). cbn [bind].
  destruct (wroot_kids _ Ca) as [Sa Ka]. destruct (wroot_kids _ Cb) as [Sb Kb]. cbn [tc] in *.
  rewrite !size_T in Hs.
  destruct (NRep_children _ _ _ HdA _ _ _ _ Ra) as (oa & Ea & Oa).
  destruct (NRep_children _ _ _ HdB _ _ _ _ Rb) as (ob & Eb & Ob).
  pose proof (NRep_value _ _ _ _ _ _ _ Ra) as VA. pose proof (NRep_value _ _ _ _ _ _ _ Rb) as VB.
  destruct (edges_cases ap bp) as [E1 E2 E3|E1 E2 E3|E1 E2 E3|x y E1 E2 E3 Ex Ey Nxy];
    set (n := common_prefix ap bp) in *; edge_tests.
  - (* equal edges *)
    subst bp. destruct (common_raw P _ _ ap va vb xs ys (lookup_raw ap va xs) (lookup_raw ap vb ys) Hc) as [Hv Hk].
    eapply okp_bind with (P := fun value => option_map blob_slice value = g va vb).
    { destruct vb as [y|].
      - destruct VB as (bv & -> & RVb). destruct va as [x|].
        + destruct VA as (av & -> & RVa). apply Hf; auto.
        + rewrite VA. now apply okp_ok.
      - rewrite VB. rewrite gR. now apply okp_ok. }
    intros value HV. cbv beta in HV. rewrite Ea. cbn [bind]. rewrite Eb. cbn [bind].
    eapply okp_bind; [eapply inner_children_ok with (M := fuel - 2) (xs := xs) (ys := ys); eauto; lia|].
    intros o Ho. cbv beta in Ho. rewrite E2, firstn_all.
    eapply nfinish with (va := va) (vb := vb); eauto; try (intros; apply lookup_raw); cbn; intros; subst; eauto.
  - (* the left edge is shorter *)
    assert (firstn n ap = firstn n bp) as Ep by (rewrite E3, E1; apply firstn_all).
    assert (forall k, lookup (T ap va xs) k = rawlook (firstn n ap) va xs k) as La by (intros k; now apply rawlook_full).
    assert (forall k, lookup (T bp vb ys) k = rawlook (firstn n ap) None [shorten n (T bp vb ys)] k) as Lb
      by (intros k; rewrite Ep; now apply (rawlook_shorten (T bp vb ys))).
    destruct (common_raw P _ _ _ _ _ _ _ La Lb Hc) as [_ Hk].
    rewrite Ea. cbn [bind].
    eapply okp_bind; [eapply r_clone_shortened_ok with (t := T bp vb ys); cbn; eauto; lia|].
    intros b' [Rb' _].
    eapply okp_bind; [eapply inner_children_ok with (M := fuel - 2) (xs := xs) (ys := [shorten n (T bp vb ys)]);
      eauto using OB_single, cc_single_sorted; rewrite ?sizes_single, ?size_shorten, ?size_T; try lia|].
    { constructor; [now apply shorten_wcc|constructor]. }
    intros o Ho. cbv beta in Ho.
    eapply nfinish with (g := g) (va := va) (vb := None) (v := None); eauto.
    cbn. intros. eapply firstn_common; eauto.
  - (* the right edge is shorter *)
    assert (firstn n ap = firstn n bp) as Ep by (rewrite E3, E1; symmetry; apply firstn_all).
    assert (forall k, lookup (T ap va xs) k = rawlook (firstn n ap) None [shorten n (T ap va xs)] k) as La
      by (intros k; now apply (rawlook_shorten (T ap va xs))).
    assert (forall k, lookup (T bp vb ys) k = rawlook (firstn n ap) vb ys k) as Lb
      by (intros k; rewrite Ep; now apply rawlook_full).
    destruct (common_raw P _ _ _ _ _ _ _ La Lb Hc) as [_ Hk].
    eapply okp_bind; [eapply r_clone_shortened_ok with (t := T ap va xs); cbn; eauto; lia|].
    intros a' [Ra' _]. rewrite Eb. cbn [bind].
    eapply okp_bind; [eapply inner_children_ok with (M := fuel - 2) (xs := [shorten n (T ap va xs)]) (ys := ys);
      eauto using OA_single, cc_single_sorted; rewrite ?sizes_single, ?size_shorten, ?size_T; try lia|].
    { constructor; [now apply shorten_wcc|constructor]. }
    intros o Ho. cbv beta in Ho.
    eapply nfinish with (g := g) (va := None) (vb := vb) (v := None); eauto.
    cbn. intros. eapply firstn_common; eauto.
  - (* disjoint *)
    destruct (finish_ok dbg (firstn n ap) None None None []) as (m & -> & R & Em); [reflexivity|constructor..|].
    apply okp_ok. exists tempty. split; [exact R|]. split; [exact wroot_tempty|]. split; [|left; now rewrite Em].
    intros k. rewrite tempty_lookup.
    destruct (lookup (T ap va xs) k) eqn:El; [|reflexivity].
    rewrite (disjoint_keys ap bp va vb xs ys n x y k); auto; congruence.
Qed.

Theorem w_left_ok : forall fuel, nrec (gL h) (left_combine dbg rdA rdB f fuel) (fuel - 2).
Proof.
  set (g := gL h).
  assert (gR : forall o, g o None = o) by (intros [|]; reflexivity).
  assert (gl : forall o, g None o = None) by reflexivity.
  assert (g0 : g None None = None) by reflexivity.
  induction fuel as [|fuel IH]; intros ra rb ta tb Ra Rb Ca Cb Hc Hs;
    [pose proof (size_pos ta); cbn in Hs; lia|].
  destruct ta as [ap va xs], tb as [bp vb ys]. cbn [left_combine].
  rewrite (NRep_prefix _ _ _ _ _ _ _ Ra), (NRep_prefix _ _ _ _ _ _ _ Rb). cbn [bind].
  destruct (wroot_kids _ Ca) as [Sa Ka]. destruct (wroot_kids _ Cb) as [Sb Kb]. cbn [tc] in *.
  rewrite !size_T in Hs.
  destruct (NRep_children _ _ _ HdA _ _ _ _ Ra) as (oa & Ea & Oa).
  destruct (NRep_children _ _ _ HdB _ _ _ _ Rb) as (ob & Eb & Ob).
  assert (okp al (opt_detached (r_value_opt ra)) (fun r => option_map blob_slice r = va)) as DA by (eapply (opt_detached_A idsA rdA al HdA); exact Ra).
  pose proof (NRep_value _ _ _ _ _ _ _ Ra) as VA. pose proof (NRep_value _ _ _ _ _ _ _ Rb) as VB.
  destruct (edges_cases ap bp) as [E1 E2 E3|E1 E2 E3|E1 E2 E3|x y E1 E2 E3 Ex Ey Nxy];
    set (n := common_prefix ap bp) in *; edge_tests.
  - (* equal edges *)
    subst bp. destruct (common_raw P _ _ ap va vb xs ys (lookup_raw ap va xs) (lookup_raw ap vb ys) Hc) as [Hv Hk].
    eapply okp_bind with (P := fun value => option_map blob_slice value = g va vb).
    { destruct va as [x|].
      - destruct VA as (av & -> & RVa). destruct vb as [y|].
        + destruct VB as (bv & -> & RVb). apply Hf; auto.
        + rewrite VB. eapply okp_bind; [eapply (v_detached_ok rdA al); eauto|]. intros ? ->. now apply okp_ok.
      - rewrite VA. now apply okp_ok. }
    intros value HV. cbv beta in HV. rewrite Ea. cbn [bind]. rewrite Eb. cbn [bind].
    eapply okp_bind; [eapply left_children_ok with (M := fuel - 2) (xs := xs) (ys := ys); eauto; lia|].
    intros o Ho. cbv beta in Ho. rewrite E2, firstn_all.
    eapply nfinish with (va := va) (vb := vb); eauto; try (intros; apply lookup_raw); cbn; intros; subst; eauto.
  - (* the left edge is shorter *)
    assert (firstn n ap = firstn n bp) as Ep by (rewrite E3, E1; apply firstn_all).
    assert (forall k, lookup (T ap va xs) k = rawlook (firstn n ap) va xs k) as La by (intros k; now apply rawlook_full).
    assert (forall k, lookup (T bp vb ys) k = rawlook (firstn n ap) None [shorten n (T bp vb ys)] k) as Lb
      by (intros k; rewrite Ep; now apply (rawlook_shorten (T bp vb ys))).
    destruct (common_raw P _ _ _ _ _ _ _ La Lb Hc) as [_ Hk].
    eapply okp_bind; [exact DA|]. intros value HV. cbv beta in HV. rewrite Ea. cbn [bind].
    eapply okp_bind; [eapply r_clone_shortened_ok with (t := T bp vb ys); cbn; eauto; lia|].
    intros b' [Rb' _].
    eapply okp_bind; [eapply left_children_ok with (M := fuel - 2) (xs := xs) (ys := [shorten n (T bp vb ys)]);
      eauto using OB_single, cc_single_sorted; rewrite ?sizes_single, ?size_shorten, ?size_T; try lia|].
    { constructor; [now apply shorten_wcc|constructor]. }
    intros o Ho. cbv beta in Ho.
    eapply nfinish with (va := va) (vb := None); eauto.
    cbn. intros. eapply firstn_common; eauto.
  - (* the right edge is shorter *)
    assert (firstn n ap = firstn n bp) as Ep by (rewrite E3, E1; symmetry; apply firstn_all).
    assert (forall k, lookup (T ap va xs) k = rawlook (firstn n ap) None [shorten n (T ap va xs)] k) as La
      by (intros k; now apply (rawlook_shorten (T ap va xs))).
    assert (forall k, lookup (T bp vb ys) k = rawlook (firstn n ap) vb ys k) as Lb
      by (intros k; rewrite Ep; now apply rawlook_full).
    destruct (common_raw P _ _ _ _ _ _ _ La Lb Hc) as [_ Hk].
    eapply okp_bind; [eapply r_clone_shortened_ok with (t := T ap va xs); cbn; eauto; lia|].
    intros a' [Ra' _]. rewrite Eb. cbn [bind].
    eapply okp_bind; [eapply left_children_ok with (M := fuel - 2) (xs := [shorten n (T ap va xs)]) (ys := ys);
      eauto using OA_single, cc_single_sorted; rewrite ?sizes_single, ?size_shorten, ?size_T; try lia|].
    { constructor; [now apply shorten_wcc|constructor]. }
    intros o Ho. cbv beta in Ho.
    eapply nfinish with (g := g) (va := None) (vb := vb) (v := None); eauto.
    cbn. intros. eapply firstn_common; eauto.
  - (* disjoint *)
    destruct (r_detached_ok idsA rdA al fuel ra (T ap va xs) Ra) as (m & -> & Rm & _);
      [rewrite size_T; lia|].
    apply okp_ok. exists (T ap va xs). split; [exact Rm|]. split; [exact Ca|]. split.
    + intros k. destruct (lookup (T ap va xs) k) eqn:El; [|reflexivity].
      rewrite (disjoint_keys ap bp va vb xs ys n x y k); auto; congruence.
    + right. eauto.
Qed.
End NonInPlace.
