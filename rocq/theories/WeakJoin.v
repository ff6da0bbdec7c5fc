(** Joins of trees that need not be canonical (see WeakFind.v): the counterparts of
    Tree.v, Rep.v and JoinBase.v. *)
From Verif Require Import Base BaseLemmas Header Node Combine Tree Rep JoinBase PrefixProofs WeakFind.

Lemma tnil_lookup t k : tnil t = true -> lookup t k = None.
Proof.
  destruct t as [p [v|] [|c cs]]; cbn; try discriminate. intros _. rewrite lookup_raw. unfold rawlook.
  destruct (strip p k) as [[|]|]; reflexivity.
Qed.
Lemma wroot_tempty : wroot tempty.
Proof. split; constructor. Qed.
Lemma shorten_wcc n t : wroot t -> n < length (tp t) -> wcc (shorten n t).
Proof.
  intros [S C] Hn. constructor; auto. destruct (skipn_cons_nth n (tp t) Hn) as (x & _ & ->). discriminate.
Qed.

(** Children lists. *)
Section Join.
Context {B : Type} (d : B) (ob : tree -> bytes -> B) (g : option bytes -> B -> option bytes).

Record WK (xs ys rs : list tree) : Prop := {
  WK_sorted : ksorted rs;
  WK_wcc : Forall wcc rs;
  WK_above : forall c, above c xs -> above c ys -> above c rs;
  WK_look : forall k, k <> [] -> lkids rs k = g (lkids xs k) (okids d ob ys k) }.

Context (Hg0 : g None d = None).

Lemma WK_nil : WK [] [] [].
Proof. split; try constructor; cbn; auto. Qed.
Lemma WK_nil_l ys : (forall y, g None y = None) -> WK [] ys [].
Proof. intros H. split; try constructor; cbn; auto. Qed.
Lemma WK_nil_r_keep xs : (forall x, g x d = x) -> ksorted xs -> Forall wcc xs -> WK xs [] xs.
Proof. intros H Hs Hc. split; auto. Qed.
Lemma WK_nil_r_drop xs : (forall x, g x d = None) -> WK xs [] [].
Proof. intros H. split; try constructor; cbn; auto. Qed.

Lemma WK_a a x q xs ys rs : (forall o, g o d = o) ->
  wcc a -> tp a = x :: q -> above x xs -> above x ys ->
  WK xs ys rs -> WK (a :: xs) ys (a :: rs).
Proof.
  intros Hg Ha E Hx Hy [K1 K2 K3 K4]. split.
  - apply (ksorted_cons _ _ _ _ E). auto.
  - constructor; auto.
  - intros c Hc Hc'. apply above_cons in Hc as [Hc1 Hc]. apply above_cons. auto.
  - intros [|y k] Hk; [congruence|]. cbn [lkids].
    destruct (starts a (y :: k)) eqn:S; [|apply K4; congruence].
    unfold starts in S. rewrite E in S. destruct (byte_eqb_spec x y); [subst|congruence].
    rewrite (okids_above d ob) by assumption. now rewrite Hg.
Qed.
Lemma WK_a_drop a x q xs ys rs : (forall o, g o d = None) ->
  tp a = x :: q -> above x xs -> above x ys ->
  WK xs ys rs -> WK (a :: xs) ys rs.
Proof.
  intros Hg E Hx Hy [K1 K2 K3 K4]. split; auto.
  - intros c Hc Hc'. apply above_cons in Hc as [Hc1 Hc]. auto.
  - intros [|y k] Hk; [congruence|]. cbn [lkids].
    destruct (starts a (y :: k)) eqn:S; [|apply K4; congruence].
    unfold starts in S. rewrite E in S. destruct (byte_eqb_spec x y); [subst|congruence].
    rewrite (okids_above d ob) by assumption. rewrite Hg.
    assert (above y rs) as Hr by auto. now rewrite (lkids_above _ _ _ Hr).
Qed.
Lemma WK_b b x q xs ys rs : (forall k, lookup b k = g None (ob b k)) ->
  wcc b -> tp b = x :: q -> above x xs -> above x ys ->
  WK xs ys rs -> WK xs (b :: ys) (b :: rs).
Proof.
  intros Hg Hb E Hx Hy [K1 K2 K3 K4]. split.
  - apply (ksorted_cons _ _ _ _ E). auto.
  - constructor; auto.
  - intros c Hc Hc'. apply above_cons in Hc' as [Hc1 Hc']. apply above_cons. auto.
  - intros [|y k] Hk; [congruence|]. cbn [lkids okids].
    destruct (starts b (y :: k)) eqn:S; [|apply K4; congruence].
    unfold starts in S. rewrite E in S. destruct (byte_eqb_spec x y); [subst|congruence].
    rewrite (lkids_above _ xs) by assumption. apply Hg.
Qed.
Lemma WK_b_drop b x q xs ys rs : (forall y, g None y = None) ->
  tp b = x :: q -> above x xs -> above x ys ->
  WK xs ys rs -> WK xs (b :: ys) rs.
Proof.
  intros Hg E Hx Hy [K1 K2 K3 K4]. split; auto.
  - intros c Hc Hc'. apply above_cons in Hc' as [Hc1 Hc']. auto.
  - intros [|y k] Hk; [congruence|]. cbn [okids].
    destruct (starts b (y :: k)) eqn:S; [|apply K4; congruence].
    unfold starts in S. rewrite E in S. destruct (byte_eqb_spec x y); [subst|congruence].
    rewrite (lkids_above _ xs) by assumption. rewrite Hg.
    assert (above y rs) as Hr by auto. now rewrite (lkids_above _ _ _ Hr).
Qed.
Lemma WK_both a b r x q q' xs ys rs :
  wroot r -> (forall k, lookup r k = g (lookup a k) (ob b k)) ->
  (tnil r = true \/ exists q2, tp r = x :: q2) ->
  tp a = x :: q -> tp b = x :: q' -> above x xs -> above x ys ->
  WK xs ys rs -> WK (a :: xs) (b :: ys) (if tnil r then rs else r :: rs).
Proof.
  intros Hr Hl Hp Ea Eb Hx Hy [K1 K2 K3 K4].
  destruct (tnil r) eqn:En.
  - split; auto.
    + intros c Hc Hc'. apply above_cons in Hc as [_ Hc], Hc' as [_ Hc']. auto.
    + intros [|y k] Hky; [congruence|]. cbn [lkids okids].
      unfold starts. rewrite Ea, Eb. destruct (byte_eqb_spec x y) as [->|Ny].
      * rewrite <- Hl, tnil_lookup by exact En. apply lkids_above. auto.
      * apply K4. congruence.
  - destruct Hp as [Hp|[qr Er]]; [congruence|]. split.
    + apply (ksorted_cons _ _ _ _ Er). auto.
    + constructor; auto. apply wroot_wcc; [exact Hr|]. rewrite Er. discriminate.
    + intros c Hc Hc'. apply above_cons in Hc as [Hc1 Hc], Hc' as [_ Hc']. apply above_cons.
      split; [|auto]. rewrite Er. now rewrite Ea in Hc1.
    + intros [|y k] Hky; [congruence|]. cbn [lkids okids].
      unfold starts. rewrite Er, Ea, Eb. destruct (byte_eqb_spec x y) as [->|Ny].
      * apply Hl.
      * apply K4. congruence.
Qed.
End Join.

Notation WKL g := (WK None lookup g).

(** Canonicalizing changes the shape, not the contents. *)
Lemma canon_weak rd (al : Prop) dbg n p v cs :
  Rep false rd n (T p v cs) -> ksorted cs -> Forall wcc cs ->
  (dbg = true -> (n_kids n = KId [] \/ exists ns, n_kids n = KArc ns) \/ det rd \/ al) ->
  okp al (canonicalize dbg n) (fun n' => exists t, Rep false rd n' t /\ is_empty n' = tnil t /\ wroot t /\
    (forall k, lookup t k = rawlook p v cs k) /\ (tnil t = true \/ exists r, tp t = p ++ r)).
Proof.
  intros H So Cc Hal. pose proof (Rep_noids_merge _ _ _ H) as HM.
  pose proof (Rep_inv _ _ _ _ _ _ H) as (RP & RV & ns & RK & F).
  pose proof (RepV_opt _ _ _ RV) as O.
  assert (tnil (T p v cs) = false -> okp al (Ok n) (fun n' => exists t, Rep false rd n' t /\ is_empty n' = tnil t /\ wroot t /\
    (forall k, lookup t k = rawlook p v cs k) /\ (tnil t = true \/ exists r, tp t = p ++ r))) as Same.
  { intros Nt. apply okp_ok. exists (T p v cs). split; [exact H|].
    split; [rewrite Nt; eapply Rep_tnil; eauto|]. split; [now split|]. split; [intros k; apply lookup_raw|].
    right. exists []. cbn. now rewrite app_nil_r. }
  destruct n as [pb vb kb]. cbn [n_prefix n_value n_kids] in *.
  assert ((kb = KArc ns \/ (kb = KId [] /\ ns = [])) \/
          exists r id data, kb = KId (r :: id) /\ rd id = Ok data /\ ns <> []) as [RK'|(r & id & data & -> & D & Nn)].
  { destruct RK as [->|[[-> ->]|(r & id & data & -> & D & _ & N)]]; auto. right. eauto 8. }
  - unfold canonicalize. cbn [n_kids n_value n_prefix].
    assert (dbg && negb (match kb with KArc _ => true | KId [] => true | KId _ => false end) = false) as ->.
    { destruct RK' as [->|[-> _]]; cbn; now rewrite andb_false_r. }
    destruct v as [x|].
    + rewrite O. cbn [bind]. unfold has_value at 1. cbn [n_value]. rewrite O. cbn [negb andb]. now apply Same.
    + rewrite O. cbn in RV. subst vb.
      destruct RK' as [->|[-> ->]].
      * destruct ns as [|c [|c2 ns]]; inversion F as [|? t ? cs' R F']; subst.
        -- cbn. apply okp_ok. exists tempty. split.
           { eapply Rep_mk with (ns := []); cbn; eauto; [now left|]. right; left; auto. }
           split; [reflexivity|]. split; [exact wroot_tempty|]. split; [|now left].
           intros k. rewrite tempty_lookup. unfold rawlook. destruct (strip p k) as [[|]|]; reflexivity.
        -- inversion F'; subst. cbn in HM. destruct HM as [M1 M2].
           rewrite M1, M2. cbn [orb]. rewrite andb_false_r. cbn [bind].
           destruct t as [q w ds]. pose proof (Rep_inv _ _ _ _ _ _ R) as (RP2 & RV2 & ns2 & RK2 & F2).
           rewrite (RepP_data _ _ _ _ RP M1), (RepP_data _ _ _ _ RP2 M2). cbn [blob_slice].
           pose proof (RepV_opt _ _ _ RV2) as O2.
           inversion Cc as [|? ? Hc _]; subst. inversion Hc as [q0 w0 ds0 Nq S2 C2]; subst.
           assert (Rep false rd (Node (Data (p ++ q)) (n_value c) (n_kids c)) (T (p ++ q) w ds)) as HR.
           { eapply Rep_mk; cbn; eauto. now left. }
           assert (forall k, lookup (T (p ++ q) w ds) k = rawlook p None [T q w ds] k) as Hl.
           { intros k. rewrite lookup_raw. unfold rawlook. rewrite strip_app_l.
             destruct (strip p k) as [r|]; [|reflexivity]. destruct r as [|y r].
             - destruct q; [congruence|reflexivity].
             - rewrite lkids_singleton by (cbn; exact Nq). symmetry. apply lookup_raw. }
           destruct (tnil (T (p ++ q) w ds)) eqn:Nt.
           ++ destruct w; [discriminate|]. destruct ds; [|discriminate].
              assert (negb (has_value (Node (Data (p ++ q)) (n_value c) (n_kids c))) &&
                (child_count (Node (Data (p ++ q)) (n_value c) (n_kids c)) =? 0) = true) as ->.
              { unfold has_value. cbn. rewrite O2. cbn. inversion F2; subst. unfold child_count. cbn.
                destruct RK2 as [->|[[-> ?]|(r & id & data & -> & _ & _ & N2)]]; cbn; auto; congruence. }
              apply okp_ok. exists tempty. split.
              { cbn in RV2. rewrite RV2. eapply Rep_mk with (ns := []); cbn; eauto; [now left|]. right; left; auto. }
              split; [unfold is_empty, has_value; cbn; now rewrite O2|]. split; [exact wroot_tempty|]. split; [|now left].
              intros k. rewrite tempty_lookup, <- Hl. symmetry. now apply tnil_lookup.
           ++ assert (negb (has_value (Node (Data (p ++ q)) (n_value c) (n_kids c))) &&
                (child_count (Node (Data (p ++ q)) (n_value c) (n_kids c)) =? 0) = false) as ->.
              { unfold has_value. cbn. destruct w; [rewrite O2; reflexivity|]. rewrite O2. cbn.
                destruct ds; [discriminate|]. inversion F2; subst. unfold child_count. cbn.
                destruct RK2 as [->|[[-> ?]|(r & id & data & -> & _)]]; cbn; auto. discriminate. }
              apply okp_ok. exists (T (p ++ q) w ds). split; [exact HR|].
              split; [rewrite Nt; eapply Rep_tnil; eauto|]. split; [now split|]. split; [exact Hl|]. right. cbn. eauto.
        -- inversion F'; subst. cbn. apply Same. reflexivity.
      * inversion F; subst. cbn. apply okp_ok. exists tempty. split.
        { eapply Rep_mk with (ns := []); cbn; eauto; now left. }
        split; [reflexivity|]. split; [exact wroot_tempty|]. split; [|now left].
        intros k. rewrite tempty_lookup. unfold rawlook. destruct (strip p k) as [[|]|]; reflexivity.
  - unfold canonicalize. cbn [n_kids negb]. rewrite andb_true_r.
    destruct dbg.
    + right. split; [reflexivity|]. destruct (Hal eq_refl) as [[L|[? L]]|[Dt|]]; try discriminate; [now destruct (Dt id data)|assumption].
    + assert (canonicalize false (Node pb vb (KId (r :: id))) = Ok (Node pb vb (KId (r :: id)))) as En.
      { unfold canonicalize. cbn [n_kids n_value]. cbn. destruct (blob_opt vb); cbn; unfold child_count; 
        cbn; rewrite andb_false_r; reflexivity. }
      unfold canonicalize in En. cbn [n_kids negb andb] in En. rewrite En. apply Same.
      unfold tnil. cbn. destruct v; [reflexivity|]. destruct cs; [|reflexivity].
      inversion F; subst. congruence.
Qed.

Section CmpWith.
Context (idsA idsB : bool) (rdA rdB : reader) (al : Prop).

Lemma w_cmp_cases na itb xs ys :
  Forall2 (Rep idsA rdA) na xs -> IRepT idsB rdB al itb ys ->
  ksorted xs -> ksorted ys -> Forall wcc xs -> Forall wcc ys ->
  cwcase idsA idsB rdA rdB al na itb xs ys.
Proof.
  intros Ha Hb Sa Sb Ca Cb. destruct xs as [|a xs], ys as [|b ys].
  - inversion Ha; subst. apply cw_done; auto. unfold cmp_with.
    apply IRepT_nil in Hb as (_ & ->). reflexivity.
  - inversion Ha; subst.
    inversion Cb as [|? ? Cb1 Cb2]; subst. destruct (wcc_prefix _ Cb1) as (y & q & E).
    apply (ksorted_cons _ _ _ _ E) in Sb as [Ab Sb].
    apply IRepT_cons in Hb as (rb & itb' & N & R & I & Fi).
    eapply cw_b; eauto; [constructor|]. unfold cmp_with. now rewrite Fi.
  - inversion Ha as [|m ? na' ? Rm Fm]; subst.
    inversion Ca as [|? ? Ca1 Ca2]; subst. destruct (wcc_prefix _ Ca1) as (x & q & E).
    apply (ksorted_cons _ _ _ _ E) in Sa as [Aa Sa].
    eapply cw_a; eauto; [constructor|]. unfold cmp_with.
    apply IRepT_nil in Hb as (_ & ->). reflexivity.
  - inversion Ha as [|m ? na' ? Rm Fm]; subst.
    inversion Ca as [|? ? Ca1 Ca2]; subst. destruct (wcc_prefix _ Ca1) as (x & q & Ea).
    inversion Cb as [|? ? Cb1 Cb2]; subst. destruct (wcc_prefix _ Cb1) as (y & q' & Eb).
    apply (ksorted_cons _ _ _ _ Ea) in Sa as [Aa Sa].
    apply (ksorted_cons _ _ _ _ Eb) in Sb as [Ab Sb].
    pose proof (IRepT_cons _ _ _ _ _ _ Hb) as (rb & itb' & Nb & Rb & Ib & Fb).
    assert (cmp_with (m :: na') itb = Some (N.compare (bnum x) (bnum y))) as O.
    { unfold cmp_with. rewrite Fb, (Rep_first _ _ _ _ Rm), Ea, Eb. reflexivity. }
    destruct (N.compare_spec (bnum x) (bnum y)) as [C|C|C].
    + apply bnum_inj in C. subst y. eapply cw_ab; eauto.
    + eapply cw_a; eauto. apply above_cons. rewrite Eb. split; [exact C|].
      eapply above_weaken; [|exact Ab]. lia.
    + eapply cw_b; eauto. apply above_cons. rewrite Ea. split; [exact C|].
      eapply above_weaken; [|exact Aa]. lia.
Qed.
End CmpWith.

Lemma w_lookup_child p v cs c k x : ksorted cs -> Forall wcc cs -> In c cs -> lookup c k = Some x ->
  lookup (T p v cs) (p ++ k) = Some x.
Proof.
  intros S C Hin H. pose proof (proj1 (Forall_forall _ _) C c Hin) as Hc.
  destruct (wcc_prefix _ Hc) as (y & q & E).
  pose proof (lookup_some_starts _ _ _ _ _ E H) as St.
  rewrite lookup_raw. unfold rawlook. rewrite strip_app.
  destruct k as [|z k]; [now rewrite starts_nil in St|]. now rewrite (wlkids_in cs c).
Qed.
Lemma w_hered_kids s p v cs : ksorted cs -> Forall wcc cs -> hered s (T p v cs) -> Forall (hered s) cs.
Proof.
  intros S C H. apply Forall_forall. intros c Hin q r x y Hq Hr Hs.
  eapply (H (p ++ q) r x y); auto.
  - eapply w_lookup_child; eauto.
  - rewrite <- app_assoc. eapply w_lookup_child; eauto.
Qed.
