(** The predicates [inner_combine_pred] and [left_combine_pred] on trees that need not be canonical
    (see WeakFind.v): the counterparts of PredProofs.v. *)
From Verif Require Import Base BaseLemmas Header Node Combine Tree Rep JoinBase JoinProofs PrefixProofs PredProofs
  WeakFind WeakJoin WeakWith WeakNew.

(** The predicate of the left join: it finds what there is to find, but may also answer yes for a
    branch that holds no entries. *)
Section LPw.
Context (pw : option bytes -> option bytes -> bool) (pl : forall y, pw None y = false).
Definition LJ (ta tb : tree) (r : bool) : Prop :=
  (exists k, pw (lookup ta k) (lookup tb k) = true) -> r = true.
Definition LK (xs ys : list tree) (r : bool) : Prop :=
  (exists k, k <> [] /\ pw (lkids xs k) (lkids ys k) = true) -> r = true.
Lemma LK_nil_l ys : LK [] ys false.
Proof. intros (k & _ & H). cbn in H. now rewrite pl in H. Qed.
Lemma LK_b_skip b x q xs ys r :
  tp b = x :: q -> above x xs -> above x ys -> LK xs ys r -> LK xs (b :: ys) r.
Proof.
  intros E A1 A2 H ([|y k] & Hk & Hp); [congruence|]. apply H. exists (y :: k). split; [discriminate|].
  cbn [lkids] in *. destruct (starts b (y :: k)) eqn:S; auto.
  unfold starts in S. rewrite E in S. destruct (byte_eqb_spec x y); [subst|discriminate].
  rewrite (lkids_above _ _ _ A1), pl in Hp. discriminate.
Qed.
Lemma LK_both a b x q q' xs ys r2 : tp a = x :: q -> tp b = x :: q' ->
  LJ a b false -> LK xs ys r2 -> LK (a :: xs) (b :: ys) r2.
Proof.
  intros Ea Eb H1 H2 (k & Hk & Hp). cbn [lkids] in Hp. destruct (starts a k) eqn:S.
  - replace (starts b k) with true in Hp by (rewrite <- S; unfold starts; now rewrite Ea, Eb).
    assert (false = true) by (apply H1; eauto). discriminate.
  - replace (starts b k) with false in Hp by (rewrite <- S; unfold starts; now rewrite Ea, Eb).
    apply H2. eauto.
Qed.
Lemma LJ_raw ta tb p va vb xs ys r :
  (forall k, lookup ta k = rawlook p va xs k) -> (forall k, lookup tb k = rawlook p vb ys k) ->
  pw va vb = false -> LK xs ys r -> LJ ta tb r.
Proof.
  intros Ha Hb Hv H (k & Hp). rewrite Ha, Hb in Hp. unfold rawlook in Hp.
  destruct (strip p k) as [[|y r']|]; [congruence| |now rewrite pl in Hp].
  apply H. exists (y :: r'). split; [discriminate|exact Hp].
Qed.
End LPw.

Section Preds.
Context (idsA idsB : bool) (rdA rdB : reader) (al : Prop).
Context (HdA : det rdA \/ al) (HdB : det rdB \/ al).
Context (f : blob -> blob -> res bool) (p : bytes -> bytes -> bool).
Context (Hf : forall av bv x y, RepV rdA av (Some x) -> RepV rdB bv (Some y) ->
  okp al (f av bv) (fun r => r = p x y)).

Notation NA := (NRep idsA rdA al).
Notation NB := (NRep idsB rdB al).
Notation IA := (IRepT idsA rdA al).
Notation IB := (IRepT idsB rdB al).
Notation OA := (ORep idsA rdA al).
Notation OB := (ORep idsB rdB al).

Definition recp pw (rec : noderef -> noderef -> res bool) (M : nat) : Prop :=
  forall ra rb ta tb, NA ra ta -> NB rb tb -> wroot ta -> wroot tb ->
    size ta + size tb <= M -> okp al (rec ra rb) (PJ pw ta tb).

Section Loops.
Context (rec : noderef -> noderef -> res bool) (M : nat).

Lemma inner_pred_loop_ok (Hrec : recp (pwI p) rec M) : forall fuel ita itb xs ys,
  IA ita xs -> IB itb ys -> ksorted xs -> ksorted ys -> Forall wcc xs -> Forall wcc ys ->
  sizes xs + sizes ys <= M -> sizes xs + sizes ys < fuel ->
  okp al (inner_pred_loop rec fuel ita itb) (PK (pwI p) xs ys).
Proof.
  assert (pl : forall y, pwI p None y = false) by reflexivity.
  assert (pr : forall y, pwI p y None = false) by now intros [|].
  induction fuel as [|fuel IH]; intros ita itb xs ys Ia Ib Sa Sb Ca Cb HM Hfu; [lia|].
  cbn [inner_pred_loop].
  destruct (w_oj_cases idsA idsB rdA rdB al _ _ _ _ Ia Ib Sa Sb Ca Cb)
    as [-> -> -> | a xs' x q ra ita' -> E Aa Ab R I' -> | b ys' y q rb itb' -> E Aa Ab R I' ->
       | a b xs' ys' x q q' ra rb ita' itb' -> -> Ea Eb Aa Ab Ra Ia' Rb Ib' ->]; cbn [bind].
  - apply okp_ok. now apply PK_nil_l.
  - rewrite sizes_cons in *. inversion Ca; subst. pose proof (size_pos a).
    eapply okp_weaken; [apply (IH ita' itb xs' ys); eauto using ksorted_tail; lia|auto|].
    intros r Hr. eapply PK_a_skip; eauto.
  - rewrite sizes_cons in *. inversion Cb; subst. pose proof (size_pos b).
    eapply okp_weaken; [apply (IH ita itb' xs ys'); eauto using ksorted_tail; lia|auto|].
    intros r Hr. eapply PK_b_skip; eauto.
  - rewrite !sizes_cons in *. inversion Ca; inversion Cb; subst. pose proof (size_pos a).
    eapply okp_bind; [apply (Hrec ra rb a b); auto using wcc_wroot; lia|].
    intros r Hr. destruct r.
    + apply okp_ok. eapply PK_both_hit; eauto.
    + eapply okp_weaken; [apply (IH ita' itb' xs' ys'); eauto using ksorted_tail; lia|auto|].
      intros r2 Hr2. exact (PK_both _ pl a b x q q' xs' ys' false r2 Ea Eb Aa Ab Hr Hr2).
Qed.

Lemma inner_pred_children_ok (Hrec : recp (pwI p) rec M) fuel oa ob xs ys :
  OA oa xs -> OB ob ys -> ksorted xs -> ksorted ys -> Forall wcc xs -> Forall wcc ys ->
  sizes xs + sizes ys <= M -> sizes xs + sizes ys < fuel ->
  okp al (inner_pred_children rec fuel oa ob) (PK (pwI p) xs ys).
Proof.
  intros Oa Ob Sa Sb Ca Cb HM Hfu. unfold inner_pred_children.
  destruct oa as [ita|]; cbn in Oa.
  - destruct ob as [itb|]; cbn in Ob.
    + destruct Oa as [_ Oa], Ob as [_ Ob]. now apply inner_pred_loop_ok.
    + subst. apply okp_ok. apply PK_nil_r. now intros [|].
  - subst. destruct ob; apply okp_ok; now apply PK_nil_l.
Qed.

End Loops.

(** The loop over one side. *)
Lemma any_loop_ok ids rd (rec : noderef -> res bool) (P : tree -> bool -> Prop) (Ex : tree -> Prop) M :
  (forall t r, P t r -> (r = true <-> Ex t)) ->
  (forall r t, NRep ids rd al r t -> wcc t -> size t <= M -> okp al (rec r) (P t)) ->
  forall fuel it xs, IRepT ids rd al it xs -> Forall wcc xs -> sizes xs <= M -> sizes xs < fuel ->
  okp al (any_loop rec fuel it) (fun r => r = true <-> Exists Ex xs).
Proof.
  intros HP Hrec. induction fuel as [|fuel IH]; intros it xs I C HM Hfu; [lia|]. cbn [any_loop].
  destruct xs as [|a xs].
  - apply IRepT_nil in I as [-> _]. apply okp_ok. split; [discriminate|]. intros H; inversion H.
  - apply IRepT_cons in I as (r & it' & -> & R & I & _). rewrite sizes_cons in *.
    inversion C; subst. pose proof (size_pos a).
    eapply okp_bind; [apply (Hrec r a); auto; lia|]. intros b Hb. apply HP in Hb. destruct b.
    + apply okp_ok. split; [|reflexivity]. intros _. apply Exists_cons_hd. now apply Hb.
    + eapply okp_weaken; [apply (IH it' xs); auto; lia|auto|]. intros b' ->.
      rewrite Exists_cons. split; [tauto|]. intros [H'|H']; [apply Hb in H'; discriminate|exact H'].
Qed.

Lemma PK_single_r b xs : ksorted xs -> Forall wcc xs -> tp b <> [] ->
  PK (pwI p) xs [b] true <-> Exists (fun a => exists k, pwI p (lookup a k) (lookup b k) = true) xs.
Proof.
  intros S C Nb. unfold PK. split.
  - intros [H _]. destruct (H eq_refl) as (k & Hk & Hp). rewrite lkids_singleton in Hp by assumption.
    clear H S C. induction xs as [|a xs IH]; [discriminate Hp|]. cbn in Hp.
    destruct (starts a k); [apply Exists_cons_hd; eauto|]. apply Exists_cons_tl. auto.
  - intros H. split; [intros _|reflexivity]. apply Exists_exists in H as (a & Hin & k & Hp).
    pose proof (proj1 (Forall_forall _ _) C a Hin) as Ca. destruct (wcc_prefix _ Ca) as (x & q & E).
    destruct (starts a k) eqn:St; [|now rewrite (lookup_not_starts _ _ _ _ E St) in Hp].
    exists k. split; [intros ->; now rewrite starts_nil in St|].
    rewrite lkids_singleton by assumption. now rewrite (wlkids_in xs a).
Qed.

Lemma PK_single_l a ys : ksorted ys -> Forall wcc ys -> tp a <> [] ->
  PK (pwI p) [a] ys true <-> Exists (fun b => exists k, pwI p (lookup a k) (lookup b k) = true) ys.
Proof.
  intros S C Nb. unfold PK.
  assert (pr : forall y, pwI p y None = false) by now intros [|]. split.
  - intros [H _]. destruct (H eq_refl) as (k & Hk & Hp). rewrite lkids_singleton in Hp by assumption.
    clear H S C. induction ys as [|b ys IH]; [now rewrite pr in Hp|]. cbn in Hp.
    destruct (starts b k); [apply Exists_cons_hd; eauto|]. apply Exists_cons_tl. auto.
  - intros H. split; [intros _|reflexivity]. apply Exists_exists in H as (b & Hin & k & Hp).
    pose proof (proj1 (Forall_forall _ _) C b Hin) as Ca. destruct (wcc_prefix _ Ca) as (x & q & E).
    destruct (starts b k) eqn:St; [|now rewrite (lookup_not_starts _ _ _ _ E St), pr in Hp].
    exists k. split; [intros ->; now rewrite starts_nil in St|].
    rewrite lkids_singleton by assumption. now rewrite (wlkids_in ys b).
Qed.

Lemma PK_bool xs ys (r : bool) (E : Prop) pw : (r = true <-> E) -> (PK pw xs ys true <-> E) -> PK pw xs ys r.
Proof.
  intros H1 H2. unfold PK in *. rewrite H1, <- H2. split.
  - intros [H _]. now apply H.
  - intros H. split; auto.
Qed.

Lemma tp_shorten_ne n t : n < length (tp t) -> tp (shorten n t) <> [].
Proof. intros H. unfold shorten. cbn. destruct (skipn_cons_nth n (tp t) H) as (x & _ & ->). discriminate. Qed.

Theorem w_inner_pred_ok : forall fuel,
  recp (pwI p) (inner_combine_pred rdA rdB f fuel) (fuel - 2).
Proof.
  set (g := pwI p).
  assert (pl : forall y, g None y = false) by reflexivity.
  assert (pr : forall y, g y None = false) by now intros [|].
  induction fuel as [|fuel IH]; intros ra rb ta tb Ra Rb Ca Cb Hs;
    [pose proof (size_pos ta); cbn in Hs; lia|].
  destruct ta as [ap va xs], tb as [bp vb ys]. cbn [inner_combine_pred].
  rewrite (NRep_prefix _ _ _ _ _ _ _ Ra), (NRep_prefix _ _ _ _ _ _ _ Rb). cbn [bind].
  destruct (wroot_kids _ Ca) as [Sa Ka]. destruct (wroot_kids _ Cb) as [Sb Kb]. cbn [tc] in *.
  rewrite !size_T in Hs.
  destruct (NRep_children _ _ _ HdA _ _ _ _ Ra) as (oa & Ea & Oa).
  destruct (NRep_children _ _ _ HdB _ _ _ _ Rb) as (ob & Eb & Ob).
  pose proof (NRep_value _ _ _ _ _ _ _ Ra) as VA. pose proof (NRep_value _ _ _ _ _ _ _ Rb) as VB.
  destruct (edges_cases ap bp) as [E1 E2 E3|E1 E2 E3|E1 E2 E3|x y E1 E2 E3 Ex Ey Nxy];
    set (n := common_prefix ap bp) in *; edge_tests.
  - subst bp. eapply okp_bind with (P := fun r => r = g va vb).
    { destruct va as [x|]; [destruct VA as (av & -> & RVa)|rewrite VA; now apply okp_ok].
      destruct vb as [y|]; [destruct VB as (bv & -> & RVb)|rewrite VB; now apply okp_ok].
      cbn. now apply Hf. }
    intros hit ->. assert (forall r, PK g xs ys r -> PJ g (T ap va xs) (T ap vb ys) (g va vb || r)) as HJ.
    { intros r Hr. eapply PJ_raw; eauto; intros; apply lookup_raw. }
    destruct (g va vb) eqn:Eg.
    + apply okp_ok. specialize (HJ). cbn in HJ.
      split; [intros _|reflexivity]. exists ap. rewrite !lookup_raw. unfold rawlook.
      rewrite <- (app_nil_r ap) at 2 4. rewrite strip_app. exact Eg.
    + rewrite Ea. cbn [bind]. rewrite Eb. cbn [bind].
      eapply okp_weaken; [eapply inner_pred_children_ok with (M := fuel - 2); eauto; lia|auto|]. exact HJ.
  - eapply okp_bind; [eapply r_clone_shortened_ok with (t := T bp vb ys); cbn; eauto; lia|].
    intros b' [Rb' _]. rewrite Ea. cbn [bind].
    assert (PK g xs [shorten n (T bp vb ys)] true <-> Exists (fun a => exists k, g (lookup a k) (lookup (shorten n (T bp vb ys)) k) = true) xs) as HE.
    { apply PK_single_r; auto. now apply tp_shorten_ne. }
    eapply okp_weaken with (allow := al) (P := PK g xs [shorten n (T bp vb ys)]); [|auto|].
    2:{ intros r Hr. replace r with (g va None || r) by now rewrite pr.
        eapply PJ_raw with (p := ap); eauto.
        - intros; apply lookup_raw.
        - intros k. rewrite (rawlook_shorten (T bp vb ys) k n E2). cbn [tp]. now rewrite E3. }
    destruct oa as [it|]; cbn in Oa.
    + destruct Oa as [_ Oa]. eapply okp_weaken;
        [eapply any_loop_ok with (M := sizes xs) (P := fun a r => PJ g a (shorten n (T bp vb ys)) r)
          (Ex := fun a => exists k, g (lookup a k) (lookup (shorten n (T bp vb ys)) k) = true); eauto; try lia| auto|].
      * intros r t Hr Ct Hst. apply IH; auto using wcc_wroot.
        -- now apply Rep_NRep.
        -- rewrite size_shorten, size_T. lia.
      * intros r Hr. exact (PK_bool _ _ _ _ _ Hr HE).
    + subst xs. apply okp_ok. now apply PK_nil_l.
  - eapply okp_bind; [eapply r_clone_shortened_ok with (t := T ap va xs); cbn; eauto; lia|].
    intros a' [Ra' _]. rewrite Eb. cbn [bind].
    assert (PK g [shorten n (T ap va xs)] ys true <-> Exists (fun b => exists k, g (lookup (shorten n (T ap va xs)) k) (lookup b k) = true) ys) as HE.
    { apply PK_single_l; auto. now apply tp_shorten_ne. }
    eapply okp_weaken with (allow := al) (P := PK g [shorten n (T ap va xs)] ys); [|auto|].
    2:{ intros r Hr. replace r with (g None vb || r) by now rewrite pl.
        eapply PJ_raw with (p := bp); eauto.
        - intros k. rewrite (rawlook_shorten (T ap va xs) k n E2). cbn [tp]. now rewrite E3.
        - intros; apply lookup_raw. }
    destruct ob as [it|]; cbn in Ob.
    + destruct Ob as [_ Ob]. eapply okp_weaken;
        [eapply any_loop_ok with (M := sizes ys) (P := fun b r => PJ g (shorten n (T ap va xs)) b r)
          (Ex := fun b => exists k, g (lookup (shorten n (T ap va xs)) k) (lookup b k) = true); eauto; try lia| auto|].
      * intros r t Hr Ct Hst. apply IH; auto using wcc_wroot.
        -- now apply Rep_NRep.
        -- rewrite size_shorten, size_T. lia.
      * intros r Hr. exact (PK_bool _ _ _ _ _ Hr HE).
    + subst ys. apply okp_ok. now apply PK_nil_r.
  - apply okp_ok. split; [discriminate|]. intros (k & Hp). exfalso.
    destruct (lookup (T ap va xs) k) eqn:El; [|now rewrite pl in Hp].
    rewrite (disjoint_keys ap bp va vb xs ys n x y k) in Hp; auto; try congruence.
Qed.

Definition recl pw (rec : noderef -> noderef -> res bool) (M : nat) : Prop :=
  forall ra rb ta tb, NA ra ta -> NB rb tb -> wroot ta -> wroot tb ->
    size ta + size tb <= M -> okp al (rec ra rb) (LJ pw ta tb).

Section LLoops.
Context (rec : noderef -> noderef -> res bool) (M : nat).
Lemma left_pred_loop_ok (Hrec : recl (pwL p) rec M) : forall fuel ita itb xs ys,
  IA ita xs -> IB itb ys -> ksorted xs -> ksorted ys -> Forall wcc xs -> Forall wcc ys ->
  sizes xs + sizes ys <= M -> sizes xs + sizes ys < fuel ->
  okp al (left_pred_loop rec fuel ita itb) (LK (pwL p) xs ys).
Proof.
  assert (pl : forall y, pwL p None y = false) by reflexivity.
  induction fuel as [|fuel IH]; intros ita itb xs ys Ia Ib Sa Sb Ca Cb HM Hfu; [lia|].
  cbn [left_pred_loop].
  destruct (w_oj_cases idsA idsB rdA rdB al _ _ _ _ Ia Ib Sa Sb Ca Cb)
    as [-> -> -> | a xs' x q ra ita' -> E Aa Ab R I' -> | b ys' y q rb itb' -> E Aa Ab R I' ->
       | a b xs' ys' x q q' ra rb ita' itb' -> -> Ea Eb Aa Ab Ra Ia' Rb Ib' ->]; cbn [bind].
  - apply okp_ok. now apply LK_nil_l.
  - apply okp_ok. intros _. reflexivity.
  - rewrite sizes_cons in *. inversion Cb; subst. pose proof (size_pos b).
    eapply okp_weaken; [apply (IH ita itb' xs ys'); eauto using ksorted_tail; lia|auto|].
    intros r Hr. eapply LK_b_skip; eauto.
  - rewrite !sizes_cons in *. inversion Ca; inversion Cb; subst. pose proof (size_pos a).
    eapply okp_bind; [apply (Hrec ra rb a b); auto using wcc_wroot; lia|].
    intros r Hr. destruct r.
    + apply okp_ok. intros _. reflexivity.
    + eapply okp_weaken; [apply (IH ita' itb' xs' ys'); eauto using ksorted_tail; lia|auto|].
      intros r2 Hr2. exact (LK_both _ a b x q q' xs' ys' r2 Ea Eb Hr Hr2).
Qed.

Lemma left_pred_children_ok (Hrec : recl (pwL p) rec M) fuel oa ob xs ys :
  OA oa xs -> OB ob ys -> ksorted xs -> ksorted ys -> Forall wcc xs -> Forall wcc ys ->
  sizes xs + sizes ys <= M -> sizes xs + sizes ys < fuel ->
  okp al (left_pred_children rec fuel oa ob) (LK (pwL p) xs ys).
Proof.
  intros Oa Ob Sa Sb Ca Cb HM Hfu. unfold left_pred_children.
  destruct oa as [ita|]; cbn in Oa.
  - destruct Oa as [N Oa]. destruct ob as [itb|]; cbn in Ob.
    + destruct Ob as [_ Ob]. now apply left_pred_loop_ok.
    + subst. apply okp_ok. intros _. reflexivity.
  - subst. destruct ob; apply okp_ok; now apply LK_nil_l.
Qed.
End LLoops.

Theorem w_left_pred_ok : forall fuel,
  recl (pwL p) (left_combine_pred rdA rdB f fuel) (fuel - 2).
Proof.
  set (g := pwL p).
  assert (pl : forall y, g None y = false) by reflexivity.
  assert (ph : forall v, g (Some v) None = true) by reflexivity.
  induction fuel as [|fuel IH]; intros ra rb ta tb Ra Rb Ca Cb Hs;
    [pose proof (size_pos ta); cbn in Hs; lia|].
  destruct ta as [ap va xs], tb as [bp vb ys]. cbn [left_combine_pred].
  rewrite (NRep_prefix _ _ _ _ _ _ _ Ra), (NRep_prefix _ _ _ _ _ _ _ Rb). cbn [bind].
  destruct (wroot_kids _ Ca) as [Sa Ka]. destruct (wroot_kids _ Cb) as [Sb Kb]. cbn [tc] in *.
  rewrite !size_T in Hs.
  destruct (NRep_children _ _ _ HdA _ _ _ _ Ra) as (oa & Ea & Oa).
  destruct (NRep_children _ _ _ HdB _ _ _ _ Rb) as (ob & Eb & Ob).
  pose proof (NRep_value _ _ _ _ _ _ _ Ra) as VA. pose proof (NRep_value _ _ _ _ _ _ _ Rb) as VB.
  destruct (edges_cases ap bp) as [E1 E2 E3|E1 E2 E3|E1 E2 E3|x y E1 E2 E3 Ex Ey Nxy];
    set (n := common_prefix ap bp) in *; edge_tests.
  - subst bp. eapply okp_bind with (P := fun r => r = g va vb).
    { destruct va as [x|]; [destruct VA as (av & -> & RVa)|rewrite VA; now apply okp_ok].
      destruct vb as [y|]; [destruct VB as (bv & -> & RVb)|rewrite VB; now apply okp_ok].
      cbn. now apply Hf. }
    intros hit ->. destruct (g va vb) eqn:Eg; [apply okp_ok; intros _; reflexivity|].
    rewrite Ea. cbn [bind]. rewrite Eb. cbn [bind].
    eapply okp_weaken; [eapply left_pred_children_ok with (M := fuel - 2); eauto; lia|auto|].
    intros r Hr. eapply LJ_raw with (va := va) (vb := vb); eauto; intros; apply lookup_raw.
  - destruct va as [x|].
    + destruct VA as (av & -> & RVa). apply okp_ok. intros _. reflexivity.
    + rewrite VA, Ea. cbn [bind].
      eapply okp_bind; [eapply r_clone_shortened_ok with (t := T bp vb ys); cbn; eauto; lia|].
      intros b' [Rb' _].
      eapply okp_weaken; [eapply left_pred_children_ok with (M := fuel - 2) (ys := [shorten n (T bp vb ys)]);
        eauto using OB_single, cc_single_sorted;
        rewrite ?sizes_single, ?size_shorten, ?size_T; try lia|auto|].
      { constructor; [now apply shorten_wcc|constructor]. }
      intros r Hr. eapply LJ_raw with (p := ap) (va := None) (vb := None); eauto.
      * intros; apply lookup_raw.
      * intros k. rewrite (rawlook_shorten (T bp vb ys) k n E2). cbn [tp]. now rewrite E3.
  - eapply okp_bind; [eapply r_clone_shortened_ok with (t := T ap va xs); cbn; eauto; lia|].
    intros a' [Ra' _]. rewrite Eb. cbn [bind].
    eapply okp_weaken; [eapply left_pred_children_ok with (M := fuel - 2) (xs := [shorten n (T ap va xs)]);
      eauto using OA_single, cc_single_sorted;
      rewrite ?sizes_single, ?size_shorten, ?size_T; try lia|auto|].
    { constructor; [now apply shorten_wcc|constructor]. }
    intros r Hr. eapply LJ_raw with (p := bp) (va := None) (vb := vb); eauto.
    + intros k. rewrite (rawlook_shorten (T ap va xs) k n E2). cbn [tp]. now rewrite E3.
    + intros; apply lookup_raw.
  - apply okp_ok. intros _. reflexivity.
Qed.
End Preds.
