(** The in-place operations on the heap do what they do on nodes as values. *)
From Verif Require Import Base BaseLemmas Header Node Combine Store Heap HeapSpec HeapProofs HeapOps HeapIter HeapTree HeapBorrow HeapMerge HeapClean.

(** ** Children *)
Lemma wpk_convert_loop hc c : conv_ok hc c -> forall fuel ms rs, convert_loop c fuel (IOwned ms) = Ok rs ->
  forall R B h G it, inv h G (R ++ B) -> irep h G B it ms ->
  wpk (h_convert_loop hc fuel it) R B (lpost R B rs True) h G.
Proof.
  intros Hc. induction fuel as [|fuel IH]; intros ms rs E R B h G it I H; [discriminate E|]. cbn [convert_loop] in E.
  pose proof (bi_next_ok _ _ _ _ _ H) as Hn. cbn [h_convert_loop]. destruct ms as [|m ms]; cbn [it_next] in E.
  - assert (rs = []) as -> by congruence. apply (wpk_read _ _ _ _ _ _ _ _ Hn). apply wpk_ret. exists [].
    split; [exact I|]. split; [constructor|]. split; [constructor|auto].
  - destruct Hn as (b & it' & En & Hb & Hit). apply (wpk_read _ _ _ _ _ _ _ _ En).
    destruct (conv_node c fuel (ROwned m)) as [x| | |] eqn:Ex; try discriminate E. cbn [bind] in E.
    destruct (convert_loop c fuel (IOwned ms)) as [xs| | |] eqn:Exs; try discriminate E. cbn [bind] in E.
    assert (rs = x :: xs) as -> by congruence.
    eapply wpk_bind; [apply (proj1 Hc fuel m x Ex R B h G b I Hb)|]. cbn beta. intros d h1 G1 [I1 C1] K1.
    assert (inv h1 G1 ((node_items d ++ R) ++ B)) as J1 by rearr I1.
    eapply wpk_bind.
    { eapply (wpk_frame _ _ (node_items d ++ R) R B B _ h1 G1 J1); [occ_solve|occ_solve|occ_solve|].
      apply (IH ms xs Exs (node_items d ++ R) B h1 G1 it' J1 (irep_keeps _ _ _ _ _ _ _ K1 Hit)). }
    cbn beta. intros cs h2 G2 ((lk & I2 & C2 & L2 & Z2) & S2) K2. rewrite (Z2 Logic.I) in *.
    pose proof (crep_keep _ _ _ _ _ _ _ S2 C1) as C1'.
    apply wpk_ret. exists []. split; [|split; [|split; [constructor|auto]]].
    + cbn [flat_map]. rearr I2.
    + constructor; assumption.
Qed.

Definition kids_ok (cl : node -> Prop) (hk : list cnode -> option biter -> M (list cnode))
    (pk : list node -> option iter -> res (list node)) : Prop :=
  forall ns po rs, pk ns po = Ok rs -> forall R B h G cs o, inv h G (flat_map node_items cs ++ R ++ B) ->
    Forall2 (crep G) cs ns -> orep h G B o po ->
    wpk (hk cs o) R B (lpost R B rs (Forall cl ns /\ ocl cl po)) h G.

Lemma lpost_id R B cs ns C h G : inv h G (flat_map node_items cs ++ R ++ B) -> Forall2 (crep G) cs ns -> lpost R B ns C cs h G.
Proof. intros I F. exists []. split; [exact I|]. split; [exact F|]. split; [constructor|auto]. Qed.

Section Kids.
Context (P : node -> node -> Prop) (cl : node -> Prop) (Hcl : forall x y, cl x -> cl y -> P x y).
Context (hrec : cnode -> cnode -> M cnode) (prec : node -> noderef -> res node) (Hrec : rec_ok P hrec prec).

Lemma outer_kids hc c fuel : conv_ok hc c -> kids_ok cl (h_outer_children hc hrec fuel) (outer_children_with c prec fuel).
Proof.
  intros Hc ns po rs E R B h G cs o I C H. unfold outer_children_with in E. unfold h_outer_children.
  destruct po as [[ms|]|], o as [it|]; try contradiction H.
  - destruct ns as [|n ns].
    + inversion C; subst. eapply wpk_weaken; [apply (wpk_convert_loop hc c Hc fuel ms rs E R B h G it I H)|].
      intros cs h' G' (lk & I' & C' & L' & Z') _. exists lk. auto.
    + inversion C as [|c0 ? cs0 ? ? ?]; subst. rewrite outer_merge in E.
      apply (merge_ok P cl Hcl true (Some hc) (Some c) (proj1 Hc) hrec prec Hrec fuel _ ms rs E R B h G _ it I C H).
  - assert (rs = ns) as -> by congruence. apply wpk_ret. apply lpost_id; assumption.
Qed.
Lemma inner_kids fuel : kids_ok cl (h_inner_children hrec fuel) (inner_children_with prec fuel).
Proof.
  intros ns po rs E R B h G cs o I C H. unfold inner_children_with in E. unfold h_inner_children.
  destruct po as [[ms|]|], o as [it|]; try contradiction H.
  - destruct ns as [|n ns].
    + inversion C; subst. assert (rs = []) as -> by congruence. apply wpk_ret. apply lpost_id; assumption.
    + inversion C as [|c0 ? cs0 ? ? ?]; subst. rewrite inner_merge in E.
      apply (merge_ok P cl Hcl false None None Logic.I hrec prec Hrec fuel _ ms rs E R B h G _ it I C H).
  - assert (rs = []) as -> by congruence. eapply wpk_bind.
    { eapply (wpk_drop (flat_map node_items cs) [] R B h G). exact I. }
    cbn beta. intros _ h1 G1 (-> & I1) _. apply wpk_ret. apply lpost_id; [exact I1|constructor].
Qed.
Lemma left_kids fuel : kids_ok cl (h_left_children hrec fuel) (left_children_with prec fuel).
Proof.
  intros ns po rs E R B h G cs o I C H. unfold left_children_with in E. unfold h_left_children.
  destruct po as [[ms|]|], o as [it|]; try contradiction H.
  - destruct ns as [|n ns].
    + inversion C; subst. assert (rs = []) as -> by congruence. apply wpk_ret. apply lpost_id; assumption.
    + inversion C as [|c0 ? cs0 ? ? ?]; subst. rewrite left_merge in E.
      apply (merge_ok P cl Hcl true None None Logic.I hrec prec Hrec fuel _ ms rs E R B h G _ it I C H).
  - assert (rs = ns) as -> by congruence. apply wpk_ret. apply lpost_id; assumption.
Qed.
End Kids.

(** A function on the children of a node and what it gives. *)
Definition kpost (k : list cnode -> M (list cnode)) (ns rs : list node) (C : Prop) R B h G : Prop :=
  forall cs, inv h G (flat_map node_items cs ++ R ++ B) -> Forall2 (crep G) cs ns ->
    wpk (k cs) R B (lpost R B rs C) h G.
Lemma kids_of cl hk pk : kids_ok cl hk pk -> forall b m po ns rs R B h G, bor h G B b m -> load_children mem m = Ok po ->
  pk ns po = Ok rs -> kpost (h_kids hk b) ns rs (Forall cl ns /\ ocl cl po) R B h G.
Proof.
  intros Hk b m po ns rs R B h G Hb Eo E cs I C. unfold h_kids.
  destruct (slice_ok h G _ B b m po I ltac:(occ_solve) Hb Eo) as (o & Es & Ho).
  apply (wpk_read _ _ _ _ _ _ _ _ Es). apply (Hk ns po rs E R B h G cs o I C Ho).
Qed.
Lemma kids_short_of cl hk pk : kids_ok cl hk pk -> forall b m m' k ns rs R B h G, bor h G B b m -> clone_shortened mem m k = Ok m' ->
  pk ns (it_single m') = Ok rs -> kpost (h_kids_short hk b k) ns rs (Forall cl ns /\ cl m') R B h G.
Proof.
  intros Hk b m m' k ns rs R B h G Hb Em E cs I C. unfold h_kids_short.
  assert (inv h G ((flat_map node_items cs ++ R) ++ B)) as I0 by rearr I.
  eapply wpk_bind.
  { eapply (wpk_frame _ _ (flat_map node_items cs ++ R) R B B _ h G I0); [occ_solve|occ_solve|occ_solve|].
    apply (wpk_clone_shortened k b m m' _ B h G Em I0 Hb). }
  cbn beta. intros b' h1 G1 ([I1 C1] & S1) K1. pose proof (creps_keep _ _ _ _ _ _ _ S1 C) as Cs1.
  set (B' := node_items b' ++ B).
  assert (inv h1 G1 (flat_map node_items cs ++ R ++ B')) as J1. { unfold B'. rearr I1. }
  assert (forall a, occ a B <= occ a B') as LB by (unfold B'; occ_solve).
  eapply wpk_bind.
  { eapply (wpk_frame _ _ R R B' B _ h1 G1 J1); [occ_solve|occ_solve|exact LB|].
    apply (Hk ns (it_single m') rs E R B' h1 G1 cs (Some (BIter None [b'])) J1 Cs1).
    split; [|exact Logic.I]. constructor; [|constructor]. apply (bor_own _ _ _ _ _ C1). }
  cbn beta. intros cs2 h2 G2 ((lk & I2 & C2 & L2 & Z2) & _) K2. unfold B' in I2.
  eapply wpk_bind; [apply (wpk_drop (node_items b') (flat_map node_items cs2 ++ lk)); rearr I2|].
  cbn beta. intros _ h3 G3 (-> & I3) _. apply wpk_ret. exists lk. split; [rearr I3|]. split; [exact C2|]. split; [exact L2|].
  intros [D1 D2]. apply Z2. split; [exact D1|]. constructor; [exact D2|constructor].
Qed.

(** ** Changing the children of a node *)
Lemma wpk_load_kids c n ns R B h G : inv h G (node_items c ++ R ++ B) -> crep G c n -> load_children_mut mem n = Ok ns ->
  wpk (m <! h_load_children_mut c ;; cs <! vec_take (snd m) ;; ret (fst m, snd m, cs)) R B
    (fun r h' G' => let c' := fst (fst r) in let a := snd (fst r) in let cs := snd r in
      inv h' G' ((NodesK, Ptr a) :: p_items c' ++ v_items c' ++ flat_map node_items cs ++ R ++ B) /\
      brep G' (c_ph c') (c_p c') (n_prefix n) /\ brep G' (c_vh c') (c_v c') (n_value n) /\
      uniq h' c' a /\ G' a = GN [] /\ Forall2 (crep G') cs ns) h G.
Proof.
  intros I C E.
  assert (live h (node_items c)) as L. { apply (inv_live_roots _ _ _ _ I). occ_solve. }
  pose proof (h_children_ok _ _ _ _ _ I C L) as K.
  unfold load_children_mut in E. destruct (n_kids n) as [l|id] eqn:En.
  - assert (ns = l) as -> by congruence. destruct K as (a & Ec & Ga & K).
    destruct (wp_borrow c n l (R ++ B) h G I C En) as (x & h' & G' & D & S1 & Q).
    destruct (wpk_of (fun _ => Done (x, h')) _ (R ++ B) R B
      (fun y h1 G1 => y = x /\ h1 = h' /\ G1 = G') h G I) as (y & h1 & G1 & D1 & S2 & K2 & (-> & -> & ->) & _).
    { occ_solve. } { occ_solve. } { occ_solve. }
    { exists x, h', G'. auto. }
    exists x, h', G'. split; [|auto]. rewrite <- D. unfold h_load_children_mut, mbind. rewrite K. reflexivity.
  - destruct id as [|x0 id]; [|destruct (detached_read (x0 :: id)); discriminate E].
    assert (ns = []) as -> by (cbn in E; congruence).
    assert (wp (m <! (a <! arc_new (CNodes []) ;; h_set_children_arc a c) ;;
      (m <! h_make_mut m ;; cs <! vec_take (snd m) ;; ret (fst m, snd m, cs))) (R ++ B)
     (fun r h' G' => let c' := fst (fst r) in let a := snd (fst r) in let cs := snd r in
      inv h' G' ((NodesK, Ptr a) :: p_items c' ++ v_items c' ++ flat_map node_items cs ++ R ++ B) /\
      brep G' (c_ph c') (c_p c') (n_prefix n) /\ brep G' (c_vh c') (c_v c') (n_value n) /\
      uniq h' c' a /\ G' a = GN [] /\ Forall2 (crep G') cs []) h G) as W.
    { eapply wp_bind.
      { eapply wp_bind.
        { eapply (wp_frame _ _ (node_items c ++ R ++ B) (R ++ B) _ h G I); [occ_solve|occ_solve|].
          apply (wp_new (CNodes []) (GN [])); [exact I|constructor]. }
        cbn beta. intros a h4 G4 ((-> & I4 & _) & X4 & _). cbn [gkind] in I4. rewrite ext_app in X4. destruct X4 as [X4 _].
        eapply (wp_set_arc a [] c); [rearr I4|apply gset_eq|]. apply (crep_ext _ _ _ _ C X4). }
      cbn beta. intros c1 h1 G1 [I1 C1]. apply (wp_borrow c1 (set_kids n (KArc [])) [] (R ++ B) h1 G1 I1 C1 eq_refl). }
    destruct W as (x & h' & G' & D & S1 & Q).
    destruct (wpk_of (fun _ => Done (x, h')) _ (R ++ B) R B
      (fun y h1 G1 => y = x /\ h1 = h' /\ G1 = G') h G I) as (y & h1 & G1 & D1 & S2 & K2 & (-> & -> & ->) & _).
    { occ_solve. } { occ_solve. } { occ_solve. }
    { exists x, h', G'. auto. }
    exists x, h', G'. split; [|auto]. rewrite <- D. unfold h_load_children_mut, mbind. rewrite K.
    destruct (arc_new (CNodes []) h) as [[? ?]| | |]; [|reflexivity..].
    destruct (h_set_children_arc a c h0) as [[? ?]| | |]; reflexivity.
Qed.
Lemma wpk_with_children c n ns rs C k R B h G : inv h G (node_items c ++ R ++ B) -> crep G c n -> load_children_mut mem n = Ok ns ->
  (forall R' h' G', keeps B h G h' G' -> kpost k ns rs C R' B h' G') ->
  wpk (h_with_children c k) R B (npost R B (set_kids n (KArc rs)) C) h G.
Proof.
  intros I Cr E Hk.
  assert (wpk (r <! (m <! h_load_children_mut c ;; cs <! vec_take (snd m) ;; ret (fst m, snd m, cs)) ;;
     cs' <! k (snd r) ;; _ <! vec_put (snd (fst r)) cs' ;; ret (fst (fst r))) R B (npost R B (set_kids n (KArc rs)) C) h G) as W.
  { eapply wpk_bind; [apply (wpk_load_kids c n ns R B h G I Cr E)|]. intros [[c1 a] cs] h1 G1. cbn [fst snd].
    intros (I1 & P1 & V1 & U1 & Ga & F1) K1.
    set (R' := (NodesK, Ptr a) :: p_items c1 ++ v_items c1 ++ R).
    assert (inv h1 G1 (flat_map node_items cs ++ R' ++ B)) as J1. { unfold R'. rearr I1. }
    assert (forall x, occ x R <= occ x R') as LR by (unfold R'; occ_solve).
    eapply wpk_bind.
    { eapply (wpk_frame _ _ R' R B B _ h1 G1 J1); [occ_solve|exact LR|occ_solve|]. apply (Hk R' h1 G1 K1 cs J1 F1). }
    cbn beta. intros cs2 h2 G2 ((lk & I2 & C2 & L2 & Z2) & S2) K2.
    destruct S2 as (X2 & U2 & _).
    assert (ext G1 G2 (p_items c1) /\ ext G1 G2 (v_items c1) /\ G2 a = G1 a) as (Xp & Xv & Xa).
    { unfold R' in X2. split; [|split].
      - intros x Hx. apply X2. cbn. rewrite !occ_app. lia.
      - intros x Hx. apply X2. cbn. rewrite !occ_app. lia.
      - apply X2. cbn. rewrite Nat.eqb_refl. lia. }
    assert (uniq h2 c1 a) as U2'.
    { destruct U1 as (A1 & A2 & A3). split; [exact A1|]. split; [exact A2|].
      pose proof (i_cnt _ _ _ J1 a) as Ct. rewrite !occ_app in Ct. unfold R' in Ct. cbn in Ct. rewrite Nat.eqb_refl in Ct.
      rewrite !occ_app in Ct. assert (occ a R' = 1) as Eo. { unfold R'. cbn. rewrite Nat.eqb_refl, !occ_app. lia. }
      rewrite (U2 a); [lia|lia|now rewrite Ga|lia]. }
    eapply wpk_bind.
    { eapply (wpk_of _ _ (lk ++ R ++ B) R B _ h2 G2 I2); [unfold R'; occ_solve|occ_solve|occ_solve|].
      eapply (wp_return c1 (n_prefix n) (n_value n) a cs2 rs).
      - unfold R' in I2. rearr I2.
      - apply (brep_ext _ _ _ _ _ P1 Xp).
      - apply (brep_ext _ _ _ _ _ V1 Xv).
      - exact U2'.
      - now rewrite Xa.
      - exact C2. }
    cbn beta. intros _ h3 G3 ((I3 & C3 & _) & X3 & _) K3. rewrite ext_app in X3. apply wpk_ret. exists lk. split; [exact I3|].
    split; [exact C3|]. split; [apply (leaks_ext _ _ _ L2 (proj1 X3))|exact Z2]. }
  destruct W as (x & h' & G' & D & W). exists x, h', G'. split; [|exact W]. rewrite <- D. unfold h_with_children, mbind.
  destruct (h_load_children_mut c h) as [[? ?]| | |]; [|reflexivity..].
  destruct (vec_take (snd p) h0) as [[? ?]| | |]; reflexivity.
Qed.
Lemma wpk_canon dbg c n r R B h G : inv h G (node_items c ++ R ++ B) -> crep G c n -> canonicalize dbg n = Ok r ->
  wpk (h_canonicalize dbg c) R B (npost R B r (forgets n = 0)) h G.
Proof.
  intros I C E.
  destruct (wpk_of _ _ (R ++ B) R B _ h G I ltac:(occ_solve) ltac:(occ_solve) ltac:(occ_solve) (wp_canonicalize dbg c n r (R ++ B) h G I C E))
    as (x & h' & G' & D & S1 & K1 & (lk & I1 & C1 & F1 & L1 & L2) & _).
  unfold mbind in D. destruct (h_canonicalize dbg c h) as [[c1 h1]| | |] eqn:Ec; try discriminate D. unfold ret in D.
  assert (x = (c1, [])) as -> by congruence. assert (h1 = h') as -> by congruence. cbn [fst snd] in *.
  exists c1, h', G'. split; [exact Ec|]. split; [exact S1|]. split; [exact K1|]. exists lk. split; [exact I1|]. split; [exact C1|].
  split; [exact L2|]. intros Z. rewrite Z in L1. now destruct lk.
Qed.
(** The end of every operation. *)
Lemma wpk_finish dbg c n ns rs r C k R B h G : inv h G (node_items c ++ R ++ B) -> crep G c n -> load_children_mut mem n = Ok ns ->
  (forall R' h' G', keeps B h G h' G' -> kpost k ns rs C R' B h' G') -> canonicalize dbg (set_kids n (KArc rs)) = Ok r ->
  wpk (a3 <! h_with_children c k ;; h_canonicalize dbg a3) R B (npost R B r (C /\ forgets (set_kids n (KArc rs)) = 0)) h G.
Proof.
  intros I Cr E Hk Ec. eapply wpk_bind; [apply (wpk_with_children c n ns rs C k R B h G I Cr E Hk)|].
  intros c1 h1 G1 (lk & I1 & C1 & L1 & Z1) K1.
  assert (inv h1 G1 (node_items c1 ++ (lk ++ R) ++ B)) as J1 by rearr I1.
  eapply wpk_weaken.
  { eapply (wpk_frame _ _ (lk ++ R) R B B _ h1 G1 J1); [occ_solve|occ_solve|occ_solve|].
    apply (wpk_canon dbg c1 _ r (lk ++ R) B h1 G1 J1 C1 Ec). }
  cbn beta. intros c2 h2 G2 ((lk2 & I2 & C2 & L2 & Z2) & X2 & _) _. rewrite ext_app in X2.
  exists (lk2 ++ lk). split; [rearr I2|]. split; [exact C2|].
  split; [apply leaks_app; [exact L2|apply (leaks_ext _ _ _ L1 (proj1 X2))]|].
  intros [A1 A2]. rewrite (Z1 A1), (Z2 A2). reflexivity.
Qed.

(** ** Values *)
Definition f_ok (hf : byte * word -> byte * word -> M (byte * word)) (pf : blob -> blob -> res blob) : Prop :=
  forall x y z, pf x y = Ok z -> forall R B h G av bv, inv h G (vitems av ++ R ++ B) -> vrep G av x -> vrep G bv y ->
    (forall a, 0 < occ a (vitems bv) -> deep h B a) ->
    wpk (hf av bv) R B (fun av' h' G' => inv h' G' (vitems av' ++ R ++ B) /\ vrep G' av' z) h G.
Definition s_ok (hs : byte * word -> M bool) (ps : blob -> res bool) : Prop :=
  forall y s, ps y = Ok s -> forall Z B h G bv, inv h G Z -> (forall a, occ a B <= occ a Z) -> vrep G bv y ->
    (forall a, 0 < occ a (vitems bv) -> deep h B a) -> hs bv h = Done (s, h).

Lemma deep_live h G Z B l : inv h G Z -> (forall a, occ a B <= occ a Z) -> (forall a, 0 < occ a l -> deep h B a) -> live h l.
Proof. intros I L D a Ha. apply D in Ha. apply deep_occ in Ha. pose proof (i_cnt _ _ _ I a). specialize (L a). lia. Qed.
Lemma vread_ok h G Z v b : inv h G Z -> vrep G v b -> live h (vitems v) -> blob_read (fst v) (snd v) h = Done (blob_slice b, h).
Proof. intros I V L. apply (blob_read_ok G Z h (fst v) (snd v) b I V L). Qed.
Lemma none_vrep G : vrep G (hdr_none, w_empty) bnone.
Proof. exact (proj1 (proj2 (empty_crep G))). Qed.

Lemma erase_ok : f_ok h_erase (fun _ _ => Ok bnone).
Proof.
  intros x y z E R B h G av bv I Va Vb D. assert (z = bnone) as -> by congruence. unfold h_erase, h_value_set.
  eapply wpk_bind; [apply (wpk_drop (vitems av) [] R B h G I)|]. cbn beta. intros _ h1 G1 (-> & I1) _. apply wpk_ret.
  split; [exact I1|apply none_vrep].
Qed.
Lemma replace_ok : f_ok h_replace (fun _ y => Ok y).
Proof.
  intros x y z E R B h G av [hb wb] I Va Vb D. assert (z = y) as -> by congruence. unfold h_replace, h_value_set.
  eapply wpk_bind; [apply (wpk_drop (vitems av) [] R B h G I)|]. cbn beta. intros _ h1 G1 (-> & I1) K1.
  eapply wpk_bind.
  { apply (wpk_clone_value hb wb y [] R B h1 G I1 Vb). intros a Ha. apply (deep_keeps _ _ _ _ _ _ K1), D, Ha. }
  cbn beta. intros w h2 G2 (-> & -> & I2) _. apply wpk_ret. split; [exact I2|exact Vb].
Qed.
Lemma user_ok g : f_ok (h_user g) (fun a b => x <- value_load mem a ;; y <- value_load mem b ;;
  Ok (match g x y with Some v => Data v | None => bnone end)).
Proof.
  intros x y z E R B h G av bv I Va Vb D.
  destruct x as [x|id]; [|discriminate E]. cbn [value_load bind] in E. destruct y as [y|id]; [|discriminate E]. cbn [value_load bind] in E.
  assert (z = match g x y with Some v => Data v | None => bnone end) as -> by congruence. unfold h_user.
  assert (live h (vitems av)) as La. { apply (inv_live_roots _ _ _ _ I). occ_solve. }
  assert (live h (vitems bv)) as Lb. { refine (deep_live _ _ _ _ _ I _ D). occ_solve. }
  apply (wpk_read _ _ _ _ _ _ _ _ (vread_ok _ _ _ _ _ I Va La)).
  apply (wpk_read _ _ _ _ _ _ _ _ (vread_ok _ _ _ _ _ I Vb Lb)). cbn [blob_slice].
  destruct (g x y) as [d|].
  - eapply wpk_bind.
    { eapply (wpk_of _ _ (vitems av ++ R ++ B) R B _ h G I); [occ_solve|occ_solve|occ_solve|]. apply (wp_blob_word d _ h G I). }
    cbn beta. intros w h1 G1 ((W1 & I1) & _) K1.
    assert (vitems (hdr_data (length d), w) = word_items d w) as Ew. { apply (brep_word_items G1 _ _ (Data d)). split; [reflexivity|exact W1]. }
    eapply wpk_bind; [apply (wpk_drop (vitems av) (word_items d w) R B h1 G1); rearr I1|].
    cbn beta. intros _ h2 G2 (-> & I2) _. apply wpk_ret. rewrite Ew. split; [exact I2|]. split; [reflexivity|exact W1].
  - apply (erase_ok (Data x) (Data y) bnone eq_refl R B h G av bv I Va Vb D).
Qed.
Lemma pred_ok g : s_ok (h_pred g) (fun b => y <- value_load mem b ;; Ok (g y)).
Proof.
  intros y s E Z B h G bv I L Vb D. destruct y as [y|id]; [|discriminate E]. cbn [value_load bind] in E.
  unfold h_pred, mbind. rewrite (vread_ok _ _ _ _ _ I Vb (deep_live _ _ _ _ _ I L D)). unfold ret. cbn [blob_slice]. congruence.
Qed.
Lemma always_ok : s_ok (fun _ => ret true) (fun _ => Ok true).
Proof. intros y s E Z B h G bv I L Vb D. unfold ret. congruence. Qed.

Lemma wpk_store c n v b R B h G : inv h G (node_items c ++ vitems v ++ R ++ B) -> crep G c n -> vrep G v b ->
  wpk (c' <! h_set_value_owned (fst v) (snd v) c ;; _ <! drop_value v ;; ret c') R B (owned R B (set_value n b)) h G.
Proof.
  intros I C V. eapply (wpk_owned _ (node_items c ++ vitems v)); [rearr I|]. apply (wp_store_value c n v b (R ++ B) h G I C V).
Qed.
Lemma wpk_combine_value hf pf : f_ok hf pf -> forall c n y z bv R B h G, inv h G (node_items c ++ R ++ B) -> crep G c n ->
  vrep G bv y -> (forall a, 0 < occ a (vitems bv) -> deep h B a) -> pf (n_value n) y = Ok z ->
  wpk (h_combine_value hf c bv) R B (owned R B (set_value n z)) h G.
Proof.
  intros Hf c n y z bv R B h G I C Vb D E. unfold h_combine_value, h_take_value.
  set (c1 := with_v c hdr_none w_empty). set (av := (c_vh c, c_v c)).
  destruct C as (P & V & K).
  assert (crep G c1 (set_value n bnone)) as C1. { split; [exact P|]. split; [apply none_vrep|exact K]. }
  assert (node_items c1 = p_items c ++ c_items c) as E1. { reflexivity. }
  assert (inv h G (vitems av ++ (node_items c1 ++ R) ++ B)) as J.
  { rewrite E1. rewrite node_items_split in I. change (v_items c) with (vitems av) in I. rearr I. }
  eapply wpk_bind.
  { eapply (wpk_frame _ _ (node_items c1 ++ R) R B B _ h G J); [occ_solve|occ_solve|occ_solve|].
    apply (Hf _ y z E (node_items c1 ++ R) B h G av bv J V Vb D). }
  cbn beta. intros av' h1 G1 ((I1 & V1) & S1) K1. pose proof (crep_keep _ _ _ _ _ _ _ S1 C1) as C1'.
  eapply wpk_weaken.
  { apply (wpk_store c1 (set_value n bnone) av' z R B h1 G1); [rearr I1|exact C1'|exact V1]. }
  intros c' h' G' H _. destruct n; exact H.
Qed.
Lemma wpk_convert_store c n y bv R B h G : inv h G (node_items c ++ R ++ B) -> crep G c n ->
  vrep G bv y -> (forall a, 0 < occ a (vitems bv) -> deep h B a) ->
  wpk (av <! h_convert_value bv ;; a2 <! h_set_value_owned (fst av) (snd av) c ;; _ <! drop_value av ;; ret a2) R B
    (owned R B (set_value n y)) h G.
Proof.
  intros I C V D. destruct bv as [hb wb]. unfold h_convert_value. cbn [fst snd] in *.
  assert (inv h G ([] ++ (node_items c ++ R) ++ B)) as J by rearr I.
  eapply wpk_bind.
  { eapply wpk_bind.
    { eapply (wpk_frame _ _ (node_items c ++ R) R B B _ h G J); [occ_solve|occ_solve|occ_solve|].
      apply (wpk_clone_value hb wb y [] (node_items c ++ R) B h G J V D). }
    cbn beta. intros w h1 G1 ((-> & -> & I1) & S1) K1.
    apply (wpk_ret (hb, wb) R B (fun av h1 G1 => av = (hb, wb) /\ G1 = G /\ inv h1 G (node_items c ++ vitems av ++ R ++ B))).
    split; [reflexivity|]. split; [reflexivity|]. unfold vitems. cbn [fst snd]. rearr I1. }
  intros av h1 G1 (-> & -> & I1) K1. apply (wpk_store c n (hb, wb) y R B h1 G I1 C V).
Qed.
