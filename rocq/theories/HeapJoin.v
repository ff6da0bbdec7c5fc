(** The combines that make a new tree do on the heap what they do on nodes as values. *)
From Verif Require Import Base BaseLemmas Header Node Combine Store Heap HeapSpec HeapProofs HeapOps HeapIter HeapTree HeapBorrow HeapMerge HeapClean HeapTreeOps HeapTreeRec HeapTreeOuter HeapJoinPure Client.

(** ** What parts give *)
Definition ovitems (o : option (byte * word)) : list item := match o with Some v => vitems v | None => [] end.
Definition ovrep (G : ghost) (o : option (byte * word)) (z : option blob) : Prop :=
  match o, z with
  | Some v, Some (Data d) => vrep G v (Data d)
  | None, None => True
  | _, _ => False
  end.
Definition vpost (R B : list item) (z : option blob) (o : option (byte * word)) (h : heap) (G : ghost) : Prop :=
  inv h G (ovitems o ++ R ++ B) /\ ovrep G o z.
Definition kitems (o : option addr) : list item := match o with Some a => [(NodesK, Ptr a)] | None => [] end.
Definition kidsrep (G : ghost) (o : option addr) (po : option (list node)) : Prop :=
  match o, po with Some a, Some ns => G a = GN ns | None, None => True | _, _ => False end.
Definition cpost (R B : list item) (po : option (list node)) (o : option addr) (h : heap) (G : ghost) : Prop :=
  inv h G (kitems o ++ R ++ B) /\ kidsrep G o po.

Definition join_ok (hrec : cnode -> cnode -> M cnode) (prec : noderef -> noderef -> res node) : Prop :=
  forall n m r, prec (ROwned n) (ROwned m) = Ok r -> forall R B h G a b, inv h G (R ++ B) -> bor h G B a n -> bor h G B b m ->
    wpk (hrec a b) R B (owned R B r) h G.
Definition jkids_ok (hk : option biter -> option biter -> M (option addr)) (pk : option iter -> option iter -> res (option (list node))) : Prop :=
  forall ac bc po, pk ac bc = Ok po -> forall R B h G o o', inv h G (R ++ B) -> orep h G B o ac -> orep h G B o' bc ->
    wpk (hk o o') R B (cpost R B po) h G.

(** ** Loops *)
Lemma oj_ok h G Z B a b ns ms : inv h G Z -> (forall x, occ x B <= occ x Z) -> irep h G B a ns -> irep h G B b ms ->
  match ns, ms with
  | [], [] => h_oj_next a b h = Done (None, h)
  | n :: ns', [] => exists x a', h_oj_next a b h = Done (Some (Some x, None, a', b), h) /\ bor h G B x n /\ irep h G B a' ns'
  | [], m :: ms' => exists y b', h_oj_next a b h = Done (Some (None, Some y, a, b'), h) /\ bor h G B y m /\ irep h G B b' ms'
  | n :: ns', m :: ms' =>
      exists x a' y b', bor h G B x n /\ irep h G B a' ns' /\ bor h G B y m /\ irep h G B b' ms' /\
        h_oj_next a b h = Done (match cmp_ob (n_first n) (n_first m) with
                                | Lt => Some (Some x, None, a', b)
                                | Gt => Some (None, Some y, a, b')
                                | Eq => Some (Some x, Some y, a', b')
                                end, h)
  end.
Proof.
  intros I L Ha Hb. pose proof (bi_first_ok _ _ _ _ _ _ I L Ha) as Fa. pose proof (bi_first_ok _ _ _ _ _ _ I L Hb) as Fb.
  pose proof (bi_next_ok _ _ _ _ _ Ha) as Na. pose proof (bi_next_ok _ _ _ _ _ Hb) as Nb.
  unfold h_oj_next, mbind. rewrite Fa, Fb. destruct ns as [|n ns], ms as [|m ms]; cbn [it_first].
  - now rewrite Na, Nb.
  - destruct Nb as (y & b' & Nb & By & Ib). exists y, b'. rewrite Na, Nb. auto.
  - destruct Na as (x & a' & Na & Bx & Ia). exists x, a'. rewrite Na. auto.
  - destruct Na as (x & a' & Na & Bx & Ia). destruct Nb as (y & b' & Nb & By & Ib). exists x, a', y, b'.
    split; [exact Bx|]. split; [exact Ia|]. split; [exact By|]. split; [exact Ib|].
    destruct (cmp_ob (n_first n) (n_first m)); rewrite ?Na, ?Nb; reflexivity.
Qed.
(** One round: the node made is kept or dropped, then the rest. *)
Lemma keep_ok chk r rs R B h G (m : M cnode) (rest : M (list cnode)) :
  wpk m R B (owned R B r) h G ->
  (forall R' h' G', inv h' G' (R' ++ B) -> keeps B h G h' G' -> wpk rest R' B (lpost R' B rs True) h' G') ->
  wpk (x <! m ;; h_keep chk x rest) R B (lpost R B (if chk && is_empty r then rs else r :: rs) True) h G.
Proof.
  intros Hm Hr. eapply wpk_bind; [exact Hm|]. intros c h1 G1 [I1 C1] K1. unfold h_keep. rewrite (is_empty_ok _ _ _ C1).
  destruct (chk && is_empty r).
  - eapply wpk_bind; [apply (wpk_drop (node_items c) [] R B h1 G1 I1)|]. cbn beta. intros _ h2 G2 (-> & I2) K2.
    apply (Hr R h2 G1 I2 (keeps_trans _ _ _ _ _ _ _ K1 K2)).
  - assert (inv h1 G1 ((node_items c ++ R) ++ B)) as J1 by rearr I1.
    eapply wpk_bind.
    { eapply (wpk_frame _ _ (node_items c ++ R) R B B _ h1 G1 J1); [occ_solve|occ_solve|occ_solve|]. apply (Hr _ h1 G1 J1 K1). }
    cbn beta. intros cs h2 G2 ((lk & I2 & C2 & L2 & Z2) & S2) K2. rewrite (Z2 Logic.I) in *.
    pose proof (crep_keep _ _ _ _ _ _ _ S2 C1) as C1'. apply wpk_ret. exists []. cbn [flat_map].
    split; [rearr I2|]. split; [constructor; assumption|]. split; [constructor|auto].
Qed.
Lemma join_loop hrec prec ka kb : join_ok hrec prec -> forall fuel ns ms rs, pjoin ka kb prec fuel ns ms = Ok rs ->
  forall R B h G a b, inv h G (R ++ B) -> irep h G B a ns -> irep h G B b ms ->
  wpk (h_join ka kb hrec fuel a b) R B (lpost R B rs True) h G.
Proof.
  intros Hrec. induction fuel as [|fuel IH]; intros ns ms rs E R B h G a b I Ha Hb; [discriminate E|].
  cbn [pjoin] in E. cbv zeta in E. cbn [h_join].
  assert (forall x, occ x B <= occ x (R ++ B)) as L by occ_solve.
  pose proof (oj_ok _ _ _ _ _ _ _ _ I L Ha Hb) as O.
  assert (forall n ns' x a', ns = n :: ns' -> bor h G B x n -> irep h G B a' ns' ->
    match ka with
    | Some chk => r <- r_detached mem fuel (ROwned n) ;; rs <- pjoin ka kb prec fuel ns' ms ;; Ok (if chk && is_empty r then rs else r :: rs)
    | None => pjoin ka kb prec fuel ns' ms
    end = Ok rs ->
    wpk (match ka with
         | Some chk => r <! h_detached fuel x ;; h_keep chk r (h_join ka kb hrec fuel a' b)
         | None => h_join ka kb hrec fuel a' b
         end) R B (lpost R B rs True) h G) as A.
  { intros n ns' x a' _ Bx Ia F. destruct ka as [chk|].
    - stepE F r Er. stepE F rs' Ers. assert (rs = if chk && is_empty r then rs' else r :: rs') as -> by congruence.
      apply keep_ok; [apply (wpk_detached fuel n r Er R B h G x I Bx)|]. intros R' h' G' I' K.
      apply (IH ns' ms rs' Ers R' B h' G' a' b I'); eapply irep_keeps; eassumption.
    - apply (IH ns' ms rs F R B h G a' b I Ia Hb). }
  assert (forall m ms' y b', ms = m :: ms' -> bor h G B y m -> irep h G B b' ms' ->
    match kb with
    | Some chk => r <- r_detached mem fuel (ROwned m) ;; rs <- pjoin ka kb prec fuel ns ms' ;; Ok (if chk && is_empty r then rs else r :: rs)
    | None => pjoin ka kb prec fuel ns ms'
    end = Ok rs ->
    wpk (match kb with
         | Some chk => r <! h_detached fuel y ;; h_keep chk r (h_join ka kb hrec fuel a b')
         | None => h_join ka kb hrec fuel a b'
         end) R B (lpost R B rs True) h G) as A'.
  { intros m ms' y b' _ By Ib F. destruct kb as [chk|].
    - stepE F r Er. stepE F rs' Ers. assert (rs = if chk && is_empty r then rs' else r :: rs') as -> by congruence.
      apply keep_ok; [apply (wpk_detached fuel m r Er R B h G y I By)|]. intros R' h' G' I' K.
      apply (IH ns ms' rs' Ers R' B h' G' a b' I'); eapply irep_keeps; eassumption.
    - apply (IH ns ms' rs F R B h G a b' I Ha Ib). }
  destruct ns as [|n ns], ms as [|m ms].
  - assert (rs = []) as -> by congruence. apply (wpk_read _ _ _ _ _ _ _ _ O). apply wpk_ret. exists [].
    split; [exact I|]. split; [constructor|]. split; [constructor|auto].
  - destruct O as (y & b' & O & By & Ib). apply (wpk_read _ _ _ _ _ _ _ _ O). apply (A' m ms y b' eq_refl By Ib E).
  - destruct O as (x & a' & O & Bx & Ia). apply (wpk_read _ _ _ _ _ _ _ _ O). apply (A n ns x a' eq_refl Bx Ia E).
  - destruct O as (x & a' & y & b' & Bx & Ia & By & Ib & O). apply (wpk_read _ _ _ _ _ _ _ _ O).
    destruct (cmp_ob (n_first n) (n_first m)); [|apply (A n ns x a' eq_refl Bx Ia E)|apply (A' m ms y b' eq_refl By Ib E)].
    stepE E r Er. stepE E rs' Ers. assert (rs = if true && is_empty r then rs' else r :: rs') as -> by (cbv beta in E; congruence).
    apply keep_ok; [apply (Hrec n m r Er R B h G x y I Bx By)|]. intros R' h' G' I' K.
    apply (IH ns ms rs' Ers R' B h' G' a' b' I'); eapply irep_keeps; eassumption.
Qed.
Lemma new_vec cs ns R B h G : inv h G (flat_map node_items cs ++ R ++ B) -> Forall2 (crep G) cs ns ->
  wpk (a <! arc_new (CNodes cs) ;; ret (Some a)) R B (cpost R B (Some ns)) h G.
Proof.
  intros I C. eapply wpk_bind.
  { eapply (wpk_of _ _ (R ++ B) R B _ h G I); [occ_solve|occ_solve|occ_solve|]. apply (wp_new (CNodes cs) (GN ns)); [exact I|exact C]. }
  cbn beta. intros a h1 G1 ((-> & I1 & _) & _) _. apply wpk_ret. split; [exact I1|]. apply gset_eq.
Qed.
Lemma vec_ok cs ns R B h G : inv h G (flat_map node_items cs ++ R ++ B) -> Forall2 (crep G) cs ns ->
  wpk (h_vec cs) R B (cpost R B (nonempty_vec ns)) h G.
Proof.
  intros I C. unfold h_vec. inversion C as [|c n cs' ns' C1 C2]; subst.
  - apply wpk_ret. split; [exact I|exact Logic.I].
  - apply (new_vec (c :: cs') (n :: ns') R B h G I C).
Qed.
Lemma it_detached_ok fuel ms po R B h G it : it_detached mem fuel (IOwned ms) = Ok po -> inv h G (R ++ B) -> irep h G B it ms ->
  wpk (h_it_detached fuel it) R B (cpost R B po) h G.
Proof.
  intros E I H. unfold it_detached in E. unfold h_it_detached. pose proof (proj1 H) as F. destruct ms as [|m ms].
  - inversion F. assert (po = None) as -> by congruence. apply wpk_ret. split; [exact I|exact Logic.I].
  - stepE E xs Ex. assert (po = Some xs) as -> by congruence. inversion F as [|b ? l ? F1 F2 E1]; subst.
    eapply wpk_bind; [apply (wpk_detach_loop _ _ (wpk_detached fuel) fuel _ _ Ex R B h G it I H)|].
    intros cs h1 G1 (lk & I1 & C1 & L1 & Z1) K1. rewrite (Z1 Logic.I) in *. apply (new_vec cs xs R B h1 G1 I1 C1).
Qed.
Lemma loop_vec hrec prec ka kb fuel ns ms rs R B h G a b : join_ok hrec prec -> pjoin ka kb prec fuel ns ms = Ok rs ->
  inv h G (R ++ B) -> irep h G B a ns -> irep h G B b ms ->
  wpk (cs <! h_join ka kb hrec fuel a b ;; h_vec cs) R B (cpost R B (nonempty_vec rs)) h G.
Proof.
  intros Hr E I Ha Hb. eapply wpk_bind; [apply (join_loop hrec prec ka kb Hr fuel ns ms rs E R B h G a b I Ha Hb)|].
  intros cs h1 G1 (lk & I1 & C1 & L1 & Z1) K1. rewrite (Z1 Logic.I) in *. apply (vec_ok cs rs R B h1 G1 I1 C1).
Qed.
Lemma none_ok R B h G : inv h G (R ++ B) -> wpk (ret (@None addr)) R B (cpost R B None) h G.
Proof. intros I. apply wpk_ret. split; [exact I|exact Logic.I]. Qed.
Lemma outer_jkids hrec prec fuel : join_ok hrec prec -> jkids_ok (h_outer_join hrec fuel) (outer_children mem mem prec fuel).
Proof.
  intros Hr ac bc po E R B h G o o' I Ha Hb. unfold outer_children in E. unfold h_outer_join.
  destruct ac as [[ns|]|], o as [a|]; try contradiction Ha; destruct bc as [[ms|]|], o' as [b|]; try contradiction Hb.
  - stepE E rs Ers. assert (po = nonempty_vec rs) as -> by congruence. rewrite outer_pjoin in Ers.
    apply (loop_vec hrec prec _ _ fuel ns ms rs R B h G a b Hr Ers I Ha Hb).
  - apply (it_detached_ok fuel ns po R B h G a E I Ha).
  - apply (it_detached_ok fuel ms po R B h G b E I Hb).
  - assert (po = None) as -> by congruence. apply (none_ok R B h G I).
Qed.
Lemma inner_jkids hrec prec fuel : join_ok hrec prec -> jkids_ok (h_inner_join hrec fuel) (inner_children prec fuel).
Proof.
  intros Hr ac bc po E R B h G o o' I Ha Hb. unfold inner_children in E. unfold h_inner_join.
  destruct ac as [[ns|]|], o as [a|]; try contradiction Ha; destruct bc as [[ms|]|], o' as [b|]; try contradiction Hb;
    try (assert (po = None) as -> by congruence; apply (none_ok R B h G I)).
  stepE E rs Ers. assert (po = nonempty_vec rs) as -> by congruence. rewrite inner_pjoin in Ers.
  apply (loop_vec hrec prec _ _ fuel ns ms rs R B h G a b Hr Ers I Ha Hb).
Qed.
Lemma left_jkids hrec prec fuel : join_ok hrec prec -> jkids_ok (h_left_join hrec fuel) (left_children mem prec fuel).
Proof.
  intros Hr ac bc po E R B h G o o' I Ha Hb. unfold left_children in E. unfold h_left_join.
  destruct ac as [[ns|]|], o as [a|]; try contradiction Ha; destruct bc as [[ms|]|], o' as [b|]; try contradiction Hb;
    try (assert (po = None) as -> by congruence; apply (none_ok R B h G I)).
  - stepE E rs Ers. assert (po = nonempty_vec rs) as -> by congruence. rewrite left_pjoin in Ers.
    apply (loop_vec hrec prec _ _ fuel ns ms rs R B h G a b Hr Ers I Ha Hb).
  - apply (it_detached_ok fuel ns po R B h G a E I Ha).
Qed.

(** ** Children of the two nodes *)
Section Kids.
Context (hk : option biter -> option biter -> M (option addr)) (pk : option iter -> option iter -> res (option (list node))).
Context (Hk : jkids_ok hk pk).
Lemma both_ok a n b m ac bc po R B h G : inv h G (R ++ B) -> bor h G B a n -> bor h G B b m ->
  load_children mem n = Ok ac -> load_children mem m = Ok bc -> pk ac bc = Ok po -> wpk (h_both hk a b) R B (cpost R B po) h G.
Proof.
  intros I Ha Hb Ea Eb E. unfold h_both.
  destruct (slice_ok h G _ B a n ac I ltac:(occ_solve) Ha Ea) as (o & Es & Ho). apply (wpk_read _ _ _ _ _ _ _ _ Es).
  destruct (slice_ok h G _ B b m bc I ltac:(occ_solve) Hb Eb) as (o' & Es' & Ho'). apply (wpk_read _ _ _ _ _ _ _ _ Es').
  apply (Hk ac bc po E R B h G o o' I Ho Ho').
Qed.
Lemma orep_keeps h G B h' G' o po : keeps B h G h' G' -> orep h G B o po -> orep h' G' B o po.
Proof. intros K. destruct o as [it|], po as [[ms|]|]; cbn; auto. apply (irep_keeps _ _ _ _ _ _ _ K). Qed.
Lemma irep_sub h G B B' it ms : (forall a, occ a B <= occ a B') -> irep h G B it ms -> irep h G B' it ms.
Proof.
  intros L [F V]. split.
  - clear V. induction F; constructor; eauto using bor_sub.
  - destruct (bi_vec it) as [[a cs]|]; [|exact V]. destruct V as (D & V). split; [apply (deep_sub _ _ _ _ L D)|exact V].
Qed.
Lemma orep_sub h G B B' o po : (forall a, occ a B <= occ a B') -> orep h G B o po -> orep h G B' o po.
Proof. intros L. destruct o as [it|], po as [[ms|]|]; cbn; auto. apply (irep_sub _ _ _ _ _ _ L). Qed.
Lemma single_orep h G B b m : crep G b m -> orep h G (node_items b ++ B) (Some (BIter None [b])) (it_single m).
Proof. intros C. split; [|exact Logic.I]. constructor; [|constructor]. apply (bor_own _ _ _ _ _ C). Qed.
(** The copy is dropped at the end. *)
Lemma after_short b' m' m (R B : list item) po h G : inv h G (node_items b' ++ R ++ B) -> crep G b' m' ->
  (forall B', (forall a, occ a B <= occ a B') -> B' = node_items b' ++ B -> inv h G (R ++ B') -> wpk m R B' (cpost R B' po) h G) ->
  wpk (r <! m ;; _ <! drop (node_items b') ;; ret r) R B (cpost R B po) h G.
Proof.
  intros I C Hm. set (B' := node_items b' ++ B).
  assert (inv h G (R ++ B')) as J. { unfold B'. rearr I. }
  assert (forall a, occ a B <= occ a B') as LB by (unfold B'; occ_solve).
  eapply wpk_bind.
  { eapply (wpk_frame _ _ R R B' B _ h G J); [occ_solve|occ_solve|exact LB|]. apply (Hm B' LB eq_refl J). }
  cbn beta. intros o h2 G2 ([I2 C2] & _) K2. unfold B' in I2.
  eapply wpk_bind; [apply (wpk_drop (node_items b') (kitems o)); rearr I2|].
  cbn beta. intros _ h3 G3 (-> & I3) _. apply wpk_ret. split; [exact I3|exact C2].
Qed.
Lemma second_short_ok k a n b m m' ac po R B h G : inv h G (R ++ B) -> bor h G B a n -> bor h G B b m ->
  load_children mem n = Ok ac -> clone_shortened mem m k = Ok m' -> pk ac (it_single m') = Ok po ->
  wpk (h_second_short hk a b k) R B (cpost R B po) h G.
Proof.
  intros I Ha Hb Ea Em E. unfold h_second_short.
  destruct (slice_ok h G _ B a n ac I ltac:(occ_solve) Ha Ea) as (o & Es & Ho). apply (wpk_read _ _ _ _ _ _ _ _ Es).
  eapply wpk_bind; [apply (wpk_clone_shortened k b m m' R B h G Em I Hb)|]. intros b' h1 G1 [I1 C1] K1.
  apply (after_short b' m' _ R B po h1 G1 I1 C1). intros B' LB -> J.
  apply (Hk ac (it_single m') po E R _ h1 G1); [exact J| |apply (single_orep _ _ _ _ _ C1)].
  apply (orep_sub _ _ B); [exact LB|]. apply (orep_keeps _ _ _ _ _ _ _ K1 Ho).
Qed.
Lemma first_short_ok k a n b m n' bc po R B h G : inv h G (R ++ B) -> bor h G B a n -> bor h G B b m ->
  clone_shortened mem n k = Ok n' -> load_children mem m = Ok bc -> pk (it_single n') bc = Ok po ->
  wpk (h_first_short hk a b k) R B (cpost R B po) h G.
Proof.
  intros I Ha Hb En Eb E. unfold h_first_short.
  eapply wpk_bind; [apply (wpk_clone_shortened k a n n' R B h G En I Ha)|]. intros a' h1 G1 [I1 C1] K1.
  destruct (slice_ok h1 G1 _ B b m bc I1 ltac:(occ_solve) (bor_keeps _ _ _ _ _ _ _ K1 Hb) Eb) as (o & Es & Ho). apply (wpk_read _ _ _ _ _ _ _ _ Es).
  apply (after_short a' n' _ R B po h1 G1 I1 C1). intros B' LB -> J.
  apply (Hk (it_single n') bc po E R _ h1 G1); [exact J|apply (single_orep _ _ _ _ _ C1)|].
  apply (orep_sub _ _ B); [exact LB|exact Ho].
Qed.
End Kids.

(** ** Values *)
Lemma opt_value_ok a n z R B h G : inv h G (R ++ B) -> bor h G B a n -> opt_detached (blob_opt (n_value n)) = Ok z ->
  wpk (h_opt_detached (h_value_opt a)) R B (vpost R B z) h G.
Proof.
  intros I Ha E. pose proof (value_opt_ok _ _ _ (proj1 Ha)) as Ho. destruct (bor_value _ _ _ _ _ Ha) as [V D].
  destruct (blob_opt (n_value n)) as [v|] eqn:Ev; cbn [opt_detached] in E.
  - destruct Ho as [-> ->]. stepE E y Ey. assert (z = Some y) as -> by congruence. unfold h_opt_detached.
    destruct (n_value n) as [d|id] eqn:En; [|discriminate Ey]. cbn in Ey. assert (y = Data d) as -> by congruence.
    unfold vrep in V. cbn [fst snd] in V. cbn [fst]. rewrite (brep_is_id _ _ _ _ V). cbn [blob_is_id]. unfold h_convert_value. cbn [fst snd].
    eapply wpk_bind.
    { eapply wpk_bind; [apply (wpk_clone_value _ _ (Data d) [] R B h G I V D)|]. cbn beta. intros w h1 G1 (-> & -> & I1) K1.
      apply (wpk_ret (c_vh a, c_v a) R B (fun av h1 G1 => av = (c_vh a, c_v a) /\ G1 = G /\ inv h1 G (vitems av ++ R ++ B))). auto. }
    intros av h1 G1 (-> & -> & I1) _. apply wpk_ret. split; [exact I1|exact V].
  - destruct Ho as [-> _]. assert (z = None) as -> by congruence. apply wpk_ret. split; [exact I|exact Logic.I].
Qed.
Definition fnew_ok (hf : byte * word -> byte * word -> M (option (byte * word))) (pf : blob -> blob -> res (option blob)) : Prop :=
  forall x y z, pf x y = Ok z -> forall R B h G av bv, inv h G (R ++ B) -> vrep G av x -> vrep G bv y ->
    (forall a, 0 < occ a (vitems av) -> deep h B a) -> (forall a, 0 < occ a (vitems bv) -> deep h B a) ->
    wpk (hf av bv) R B (vpost R B z) h G.
Lemma user_new_ok g : fnew_ok (h_user_new g) (combiner mem mem g).
Proof.
  intros x y z E R B h G av bv I Va Vb Da Db. unfold combiner in E.
  destruct x as [x|id]; [|discriminate E]. cbn [value_load bind] in E. destruct y as [y|id]; [|discriminate E]. cbn [value_load bind] in E.
  assert (z = option_map Data (g x y)) as -> by congruence. unfold h_user_new.
  assert (live h (vitems av)) as La. { refine (deep_live _ _ _ _ _ I _ Da). occ_solve. }
  assert (live h (vitems bv)) as Lb. { refine (deep_live _ _ _ _ _ I _ Db). occ_solve. }
  apply (wpk_read _ _ _ _ _ _ _ _ (vread_ok _ _ _ _ _ I Va La)).
  apply (wpk_read _ _ _ _ _ _ _ _ (vread_ok _ _ _ _ _ I Vb Lb)). cbn [blob_slice].
  destruct (g x y) as [d|]; cbn [option_map].
  - eapply wpk_bind.
    { eapply (wpk_of _ _ (R ++ B) R B _ h G I); [occ_solve|occ_solve|occ_solve|]. apply (wp_blob_word d _ h G I). }
    cbn beta. intros w h1 G1 ((W1 & I1) & _) K1.
    assert (vitems (hdr_data (length d), w) = word_items d w) as Ew. { apply (brep_word_items G1 _ _ (Data d)). split; [reflexivity|exact W1]. }
    apply wpk_ret. split; [cbn [ovitems]; rewrite Ew; exact I1|]. split; [reflexivity|exact W1].
  - apply wpk_ret. split; [exact I|exact Logic.I].
Qed.

(** ** The new node *)
Section Ops.
Context (dbg : bool).
Lemma finish_ok p z v po o r R B h G : inv h G (ovitems v ++ kitems o ++ R ++ B) -> ovrep G v z -> kidsrep G o po ->
  solid False po -> finish dbg p z po = Ok r -> wpk (h_finish dbg p v o) R B (owned R B r) h G.
Proof.
  intros I V K S E. unfold h_finish.
  set (R1 := ovitems v ++ kitems o ++ R).
  assert (inv h G (node_items c_empty ++ R1 ++ B)) as I0. { unfold R1. rewrite empty_items. rearr I. }
  assert (forall a, occ a R <= occ a R1) as LR by (unfold R1; occ_solve).
  eapply wpk_bind.
  { eapply (wpk_frame _ _ R1 R B B _ h G I0); [occ_solve|exact LR|occ_solve|]. eapply (wpk_owned _ (node_items c_empty) R1 B _ h G I0).
    apply (wp_set_p (Data p) (hdr_data (length p)) c_empty n_empty _ h G eq_refl I0 (empty_crep G)). }
  cbn beta. intros c1 h1 G1 ([I1 C1] & X1 & _) K1. unfold R1 in X1. rewrite !ext_app in X1. destruct X1 as (Xv & Xk & _).
  assert (ovrep G1 v z) as V1. { destruct v as [v|], z as [[d|]|]; try contradiction V; [|exact Logic.I]. apply (brep_ext G G1 (fst v) (snd v) (Data d) V Xv). }
  assert (kidsrep G1 o po) as Kd1.
  { destruct o as [a|], po as [ns|]; try contradiction K; [|exact Logic.I]. cbn in *. rewrite Xk; [exact K|]. cbn. rewrite Nat.eqb_refl. lia. }
  clear V K Xv Xk. unfold R1 in I1.
  set (R2 := kitems o ++ R). assert (forall a, occ a R <= occ a R2) as LR2 by (unfold R2; occ_solve).
  eapply (wpk_bind _ _ R B (fun c h' G' => inv h' G' (node_items c ++ R2 ++ B) /\ crep G' c (Node (Data p) (opt_value z) (KId [])) /\ kidsrep G' o po)).
  { destruct v as [v|], z as [[d|]|]; try contradiction V1; cbn [ovitems] in *.
    - assert (live h1 (vitems v)) as Lv. { apply (inv_live_roots _ _ _ _ I1). occ_solve. }
      apply (wpk_read _ _ _ _ _ _ _ _ (vread_ok h1 G1 _ v (Data d) I1 V1 Lv)). cbn [blob_slice].
      set (R3 := vitems v ++ R2). assert (forall a, occ a R <= occ a R3) as LR3 by (unfold R3, R2; occ_solve).
      assert (inv h1 G1 (node_items c1 ++ R3 ++ B)) as J1. { unfold R3, R2. rearr I1. }
      eapply wpk_bind.
      { eapply (wpk_frame _ _ R3 R B B _ h1 G1 J1); [occ_solve|exact LR3|occ_solve|]. eapply (wpk_owned _ (node_items c1) R3 B _ h1 G1 J1).
        apply (wp_set_value (Some d) c1 _ _ h1 G1 J1 C1). }
      cbn beta. intros c2 h2 G2 ([I2 C2] & X2 & _) K2. unfold R3, R2 in X2. rewrite !ext_app in X2. destruct X2 as (_ & Xk & _).
      assert (kidsrep G2 o po) as Kd2.
      { destruct o as [a|], po as [ns|]; try contradiction Kd1; [|exact Logic.I]. cbn in *. rewrite Xk; [exact Kd1|]. cbn. rewrite Nat.eqb_refl. lia. }
      unfold R3 in I2. unfold drop_value.
      eapply wpk_bind; [eapply (wpk_drop (vitems v) (node_items c2 ++ kitems o) R B h2 G2); unfold R2 in I2; rearr I2|].
      cbn beta. intros _ h3 G3 (-> & I3) _. apply wpk_ret. split; [unfold R2; rearr I3|]. split; [exact C2|exact Kd2].
    - assert (inv h1 G1 (node_items c1 ++ R2 ++ B)) as J1. { unfold R2. rearr I1. }
      eapply wpk_weaken.
      { eapply (wpk_frame _ _ R2 R B B _ h1 G1 J1); [occ_solve|exact LR2|occ_solve|]. eapply (wpk_owned _ (node_items c1) R2 B _ h1 G1 J1).
        apply (wp_set_value None c1 _ _ h1 G1 J1 C1). }
      cbn beta. intros c2 h2 G2 ([I2 C2] & X2 & _) K2. unfold R2 in X2. rewrite !ext_app in X2. destruct X2 as (Xk & _).
      split; [exact I2|]. split; [exact C2|].
      destruct o as [a|], po as [ns|]; try contradiction Kd1; [|exact Logic.I]. cbn in *. rewrite Xk; [exact Kd1|]. cbn. rewrite Nat.eqb_refl. lia. }
  intros c2 h2 G2 (I2 & C2 & Kd2) K2.
  eapply (wpk_then _ _ (Node (Data p) (opt_value z) (kids_opt po))).
  - destruct o as [a|], po as [ns|]; try contradiction Kd2; cbn [kitems kidsrep kids_opt] in *.
    + apply (wpk_owned _ (node_items c2 ++ [(NodesK, Ptr a)])); [unfold R2 in I2; rearr I2|].
      eapply wp_weaken; [eapply (wp_set_arc a ns c2); [unfold R2 in I2; exact I2|exact Kd2|exact C2]|].
      cbn beta. intros c' h' G' H. exact H.
    + apply (wpk_owned _ (node_items c2)); [exact I2|].
      apply (wp_set_c [] hdr_none c2 _ _ h2 G2 eq_refl I2 C2).
  - intros c3 h3 G3 K3 I3 C3. unfold finish in E.
    eapply wpk_weaken; [apply (wpk_canon dbg c3 _ r R B h3 G3 I3 C3 E)|].
    intros c4 h4 G4 (lk & I4 & C4 & L4 & Z4) _. rewrite Z4 in I4; [split; assumption|].
    apply (finish_sound False dbg p z po r); [destruct v as [v|], z as [[d|]|]; try contradiction V1; exact Logic.I|exact S|exact E].
Qed.
Lemma branch_ok p mv mk z po r R B h G : wpk mv R B (vpost R B z) h G ->
  (forall R' h' G', keeps B h G h' G' -> inv h' G' (R' ++ B) -> wpk mk R' B (cpost R' B po) h' G') ->
  solid False po -> finish dbg p z po = Ok r ->
  wpk (v <! mv ;; k <! mk ;; h_finish dbg p v k) R B (owned R B r) h G.
Proof.
  intros Hv Hk S E. eapply wpk_bind; [exact Hv|]. intros v h1 G1 [I1 V1] K1.
  assert (inv h1 G1 ((ovitems v ++ R) ++ B)) as J1 by rearr I1.
  eapply wpk_bind.
  { eapply (wpk_frame _ _ (ovitems v ++ R) R B B _ h1 G1 J1); [occ_solve|occ_solve|occ_solve|]. apply (Hk _ h1 G1 K1 J1). }
  cbn beta. intros o h2 G2 ([I2 C2] & X2 & _) K2. rewrite ext_app in X2. destruct X2 as [X2 _].
  apply (finish_ok p z v po o r R B h2 G2); [rearr I2| |exact C2|exact S|exact E].
  destruct v as [v|], z as [[d|]|]; try contradiction V1; [|exact Logic.I]. apply (brep_ext G1 G2 (fst v) (snd v) (Data d) V1 X2).
Qed.
Lemma branch_none p mk po r R B h G : inv h G (R ++ B) ->
  (forall R' h' G', keeps B h G h' G' -> inv h' G' (R' ++ B) -> wpk mk R' B (cpost R' B po) h' G') ->
  solid False po -> finish dbg p None po = Ok r ->
  wpk (k <! mk ;; h_finish dbg p None k) R B (owned R B r) h G.
Proof.
  intros I Hk S E.
  pose proof (branch_ok p (ret None) mk None po r R B h G) as W. apply W; auto.
  apply wpk_ret. split; [exact I|exact Logic.I].
Qed.
Lemma both_prefixes h G a n b m ap bp R B : inv h G (R ++ B) -> bor h G B a n -> bor h G B b m ->
  load_prefix mem (n_prefix n) = Ok ap -> load_prefix mem (n_prefix m) = Ok bp ->
  h_load_prefix a h = Done (ap, h) /\ h_load_prefix b h = Done (bp, h).
Proof.
  intros I Ha Hb Ea Eb.
  assert (live h (node_items a)) as La by (refine (bor_live _ _ _ _ _ _ I _ Ha); occ_solve).
  assert (live h (node_items b)) as Lb by (refine (bor_live _ _ _ _ _ _ I _ Hb); occ_solve).
  destruct (load_prefix_ok _ _ _ _ _ _ I (proj1 Ha) La Ea) as [_ A2]. destruct (load_prefix_ok _ _ _ _ _ _ I (proj1 Hb) Lb Eb) as [_ B2]. auto.
Qed.

Context (hf : byte * word -> byte * word -> M (option (byte * word))) (pf : blob -> blob -> res (option blob)).
Context (Hf : fnew_ok hf pf) (Hz : forall x y z, pf x y = Ok z -> zdata z).
Definition noT (n : node) : False -> clean0 n := fun f => match f with end.

Lemma f_vals a n b m av bv z R B h G : inv h G (R ++ B) -> bor h G B a n -> bor h G B b m ->
  blob_opt (n_value n) = Some av -> blob_opt (n_value m) = Some bv -> pf av bv = Ok z ->
  wpk (hf (c_vh a, c_v a) (c_vh b, c_v b)) R B (vpost R B z) h G.
Proof.
  intros I Ha Hb Ea Eb E. destruct (bor_value _ _ _ _ _ Ha) as [Va Da]. destruct (bor_value _ _ _ _ _ Hb) as [Vb Db].
  pose proof (value_opt_ok _ _ _ (proj1 Ha)) as Oa. rewrite Ea in Oa. destruct Oa as [_ ->].
  pose proof (value_opt_ok _ _ _ (proj1 Hb)) as Ob. rewrite Eb in Ob. destruct Ob as [_ ->].
  apply (Hf _ _ z E R B h G _ _ I Va Vb Da Db).
Qed.

Lemma outer_ok : forall fuel, join_ok (h_outer dbg hf fuel) (outer_combine dbg mem mem pf fuel).
Proof.
  induction fuel as [|fuel IH]; intros n m r E R B h G a b I Ha Hb; [discriminate E|].
  pose proof (outer_jkids _ _ fuel IH) as Hk. pose proof (outer_kids2 False _ fuel (outer_sound False dbg pf Hz fuel)) as Hs.
  cbn [outer_combine r_prefix] in E. stepE E ap Ea. stepE E bp Eb. cbn [h_outer].
  destruct (both_prefixes _ _ _ _ _ _ _ _ _ _ I Ha Hb Ea Eb) as [La Lb].
  apply (wpk_read _ _ _ _ _ _ _ _ La). apply (wpk_read _ _ _ _ _ _ _ _ Lb). cbv zeta in *.
  destruct (Nat.eqb_spec (common_prefix ap bp) (length ap)) as [Ta|Ta], (Nat.eqb_spec (common_prefix ap bp) (length bp)) as [Tb|Tb];
    cbn [andb r_value_opt r_load_children r_clone_shortened] in *.
  - stepE E z Ez. stepE E ac Eac. stepE E bc Ebc. stepE E po Epo.
    apply (branch_ok _ _ _ z po); [| | |exact E].
    + pose proof (value_opt_ok _ _ _ (proj1 Ha)) as Oa. pose proof (value_opt_ok _ _ _ (proj1 Hb)) as Ob.
      destruct (blob_opt (n_value m)) as [bv|] eqn:Em.
      * destruct Ob as [Ob1 Ob2]. rewrite Ob1. destruct (blob_opt (n_value n)) as [av|] eqn:En.
        -- destruct Oa as [-> _]. apply (f_vals a n b m av bv z R B h G I Ha Hb En Em Ez).
        -- destruct Oa as [-> _]. rewrite <- Ob1. apply (opt_value_ok b m z R B h G I Hb). rewrite Em. exact Ez.
      * destruct Ob as [-> _]. apply (opt_value_ok a n z R B h G I Ha Ez).
    + intros R' h' G' K I'. apply (both_ok _ _ Hk a n b m ac bc po R' B h' G' I'); eauto using bor_keeps.
    + apply (Hs ac bc po); [apply (load_ocl2 False n _ (noT n) Eac)|apply (load_ocl2 False m _ (noT m) Ebc)|exact Epo].
  - stepE E z Ez. stepE E ac Eac. stepE E m' Em. stepE E po Epo.
    apply (branch_ok _ _ _ z po); [apply (opt_value_ok a n z R B h G I Ha Ez)| | |exact E].
    + intros R' h' G' K I'. apply (second_short_ok _ _ Hk _ a n b m m' ac po R' B h' G' I'); eauto using bor_keeps.
    + apply (Hs _ _ po) in Epo; [exact Epo|apply (load_ocl2 False n _ (noT n) Eac)|]. intros [].
  - stepE E z Ez. stepE E n' Em. stepE E bc Ebc. stepE E po Epo.
    apply (branch_ok _ _ _ z po); [apply (opt_value_ok b m z R B h G I Hb Ez)| | |exact E].
    + intros R' h' G' K I'. apply (first_short_ok _ _ Hk _ a n b m n' bc po R' B h' G' I'); eauto using bor_keeps.
    + apply (Hs _ _ po) in Epo; [exact Epo| |apply (load_ocl2 False m _ (noT m) Ebc)]. intros [].
  - stepE E a' E1. stepE E b' E2.
    eapply wpk_bind; [apply (proj1 (proj2 detach_ok) fuel (common_prefix ap bp) n a' E1 R B h G a I Ha)|].
    intros ca h1 G1 [I1 C1] K1.
    assert (inv h1 G1 ((node_items ca ++ R) ++ B)) as J1 by rearr I1.
    eapply wpk_bind.
    { eapply (wpk_frame _ _ (node_items ca ++ R) R B B _ h1 G1 J1); [occ_solve|occ_solve|occ_solve|].
      apply (proj1 (proj2 detach_ok) fuel (common_prefix ap bp) m b' E2 _ B h1 G1 b J1 (bor_keeps _ _ _ _ _ _ _ K1 Hb)). }
    cbn beta. intros cb h2 G2 ([I2 C2] & S2) K2. pose proof (crep_keep _ _ _ _ _ _ _ S2 C1) as C1'.
    eapply wpk_bind.
    { apply (vec_ok _ (match cmp_ob (nth_error ap (common_prefix ap bp)) (nth_error bp (common_prefix ap bp)) with Gt => [b'; a'] | _ => [a'; b'] end) R B h2 G2).
      - destruct (cmp_ob _ _); cbn [flat_map]; rewrite app_nil_r; rearr I2.
      - destruct (cmp_ob _ _); repeat (constructor; try assumption). }
    intros o h3 G3 [I3 C3] K3.
    apply (finish_ok _ None None _ o r R B h3 G3 I3 Logic.I C3); [|].
    + apply nonempty_solid. apply (disjoint_sound False fuel n m ap bp _ a' b' (noT n) (noT m) Ea Eb eq_refl Ta Tb E1 E2).
    + destruct (cmp_ob _ _); exact E.
Qed.
Lemma inner_ok : forall fuel, join_ok (h_inner dbg hf fuel) (inner_combine dbg mem mem pf fuel).
Proof.
  induction fuel as [|fuel IH]; intros n m r E R B h G a b I Ha Hb; [discriminate E|].
  pose proof (inner_jkids _ _ fuel IH) as Hk. pose proof (inner_kids2 False _ fuel (inner_sound False dbg pf Hz fuel)) as Hs.
  cbn [inner_combine r_prefix] in E. stepE E ap Ea. stepE E bp Eb. cbn [h_inner].
  destruct (both_prefixes _ _ _ _ _ _ _ _ _ _ I Ha Hb Ea Eb) as [La Lb].
  apply (wpk_read _ _ _ _ _ _ _ _ La). apply (wpk_read _ _ _ _ _ _ _ _ Lb). cbv zeta in *.
  destruct (Nat.eqb_spec (common_prefix ap bp) (length ap)) as [Ta|Ta], (Nat.eqb_spec (common_prefix ap bp) (length bp)) as [Tb|Tb];
    cbn [andb r_value_opt r_load_children r_clone_shortened] in *.
  - stepE E z Ez. stepE E ac Eac. stepE E bc Ebc. stepE E po Epo.
    assert (forall w, wpk (ret (@None (byte * word))) R B (vpost R B w) h G \/ w <> None) as W0.
    { intros [w|]; [right; discriminate|left]. apply wpk_ret. split; [exact I|exact Logic.I]. }
    apply (branch_ok _ _ _ z po); [| | |exact E].
    + pose proof (value_opt_ok _ _ _ (proj1 Ha)) as Oa. pose proof (value_opt_ok _ _ _ (proj1 Hb)) as Ob.
      destruct (blob_opt (n_value m)) as [bv|] eqn:Em.
      * destruct Ob as [-> _]. destruct (blob_opt (n_value n)) as [av|] eqn:En.
        -- destruct Oa as [-> _]. apply (f_vals a n b m av bv z R B h G I Ha Hb En Em Ez).
        -- destruct Oa as [-> _]. destruct (W0 z); [assumption|congruence].
      * destruct Ob as [-> _]. destruct (W0 z); [assumption|congruence].
    + intros R' h' G' K I'. apply (both_ok _ _ Hk a n b m ac bc po R' B h' G' I'); eauto using bor_keeps.
    + apply (Hs ac bc po); [apply (load_ocl2 False n _ (noT n) Eac)|apply (load_ocl2 False m _ (noT m) Ebc)|exact Epo].
  - stepE E ac Eac. stepE E m' Em. stepE E po Epo.
    apply (branch_none _ _ po); [exact I| | |exact E].
    + intros R' h' G' K I'. apply (second_short_ok _ _ Hk _ a n b m m' ac po R' B h' G' I'); eauto using bor_keeps.
    + apply (Hs _ _ po) in Epo; [exact Epo|apply (load_ocl2 False n _ (noT n) Eac)|]. intros [].
  - stepE E n' Em. stepE E bc Ebc. stepE E po Epo.
    apply (branch_none _ _ po); [exact I| | |exact E].
    + intros R' h' G' K I'. apply (first_short_ok _ _ Hk _ a n b m n' bc po R' B h' G' I'); eauto using bor_keeps.
    + apply (Hs _ _ po) in Epo; [exact Epo| |apply (load_ocl2 False m _ (noT m) Ebc)]. intros [].
  - apply (finish_ok _ None None None None r R B h G I Logic.I Logic.I Logic.I E).
Qed.
Lemma left_ok : forall fuel, join_ok (h_left dbg hf fuel) (left_combine dbg mem mem pf fuel).
Proof.
  induction fuel as [|fuel IH]; intros n m r E R B h G a b I Ha Hb; [discriminate E|].
  pose proof (left_jkids _ _ fuel IH) as Hk. pose proof (left_kids2 False _ fuel (left_sound False dbg pf Hz fuel)) as Hs.
  cbn [left_combine r_prefix] in E. stepE E ap Ea. stepE E bp Eb. cbn [h_left].
  destruct (both_prefixes _ _ _ _ _ _ _ _ _ _ I Ha Hb Ea Eb) as [La Lb].
  apply (wpk_read _ _ _ _ _ _ _ _ La). apply (wpk_read _ _ _ _ _ _ _ _ Lb). cbv zeta in *.
  destruct (Nat.eqb_spec (common_prefix ap bp) (length ap)) as [Ta|Ta], (Nat.eqb_spec (common_prefix ap bp) (length bp)) as [Tb|Tb];
    cbn [andb r_value_opt r_load_children r_clone_shortened] in *.
  - stepE E z Ez. stepE E ac Eac. stepE E bc Ebc. stepE E po Epo.
    apply (branch_ok _ _ _ z po); [| | |exact E].
    + pose proof (value_opt_ok _ _ _ (proj1 Ha)) as Oa. pose proof (value_opt_ok _ _ _ (proj1 Hb)) as Ob.
      destruct (blob_opt (n_value n)) as [av|] eqn:En.
      * destruct Oa as [Oa1 Oa2]. rewrite Oa1. destruct (blob_opt (n_value m)) as [bv|] eqn:Em.
        -- destruct Ob as [-> _]. apply (f_vals a n b m av bv z R B h G I Ha Hb En Em Ez).
        -- destruct Ob as [-> _]. rewrite <- Oa1. apply (opt_value_ok a n z R B h G I Ha). rewrite En. exact Ez.
      * destruct Oa as [-> _]. assert (z = None) as -> by congruence. apply wpk_ret. split; [exact I|exact Logic.I].
    + intros R' h' G' K I'. apply (both_ok _ _ Hk a n b m ac bc po R' B h' G' I'); eauto using bor_keeps.
    + apply (Hs ac bc po); [apply (load_ocl2 False n _ (noT n) Eac)|apply (load_ocl2 False m _ (noT m) Ebc)|exact Epo].
  - stepE E z Ez. stepE E ac Eac. stepE E m' Em. stepE E po Epo.
    apply (branch_ok _ _ _ z po); [apply (opt_value_ok a n z R B h G I Ha Ez)| | |exact E].
    + intros R' h' G' K I'. apply (second_short_ok _ _ Hk _ a n b m m' ac po R' B h' G' I'); eauto using bor_keeps.
    + apply (Hs _ _ po) in Epo; [exact Epo|apply (load_ocl2 False n _ (noT n) Eac)|]. intros [].
  - stepE E n' Em. stepE E bc Ebc. stepE E po Epo.
    apply (branch_none _ _ po); [exact I| | |exact E].
    + intros R' h' G' K I'. apply (first_short_ok _ _ Hk _ a n b m n' bc po R' B h' G' I'); eauto using bor_keeps.
    + apply (Hs _ _ po) in Epo; [exact Epo| |apply (load_ocl2 False m _ (noT m) Ebc)]. intros [].
  - apply (wpk_detached fuel n r E R B h G a I Ha).
Qed.
End Ops.
