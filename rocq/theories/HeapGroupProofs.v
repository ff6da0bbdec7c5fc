(** Proofs about grouping in memory. *)
From Verif Require Import Base BaseLemmas Header Node Store Heap HeapSpec HeapIter HeapIterSpec HeapGroup HeapGroupSpec
  HeapProofs HeapOps HeapRun HeapTop HeapIterProofs HeapIterRun.

(** ** The groups of a tree *)
Fixpoint groupings (d : bytes -> option bytes -> bool) (pre : bytes) (ns : list node) : option (list node) :=
  match ns with
  | [] => Some []
  | n :: ns => match grouping d pre n, groupings d pre ns with Some a, Some b => Some (a ++ b) | _, _ => None end
  end.
Definition gown (k : bytes) (n : node) (x : option bytes) : list node :=
  match x with Some _ => [set_kids (set_prefix_slice n k) (KId [])] | None => [] end.
Lemma grouping_some d pre n l : grouping d pre n = Some l -> exists p x, n_prefix n = Data p /\ shown (n_value n) = Some x /\
  if d (pre ++ p) x then exists o l', loaded (n_kids n) = Some o /\
    match o with Some ns => groupings d (pre ++ p) ns | None => Some [] end = Some l' /\ l = gown (pre ++ p) n x ++ l'
  else l = [set_prefix_slice n (pre ++ p)].
Proof.
  destruct n as [[p|p] v k]; cbn [grouping n_prefix n_kids n_value]; [|discriminate].
  destruct (shown v) as [x|] eqn:Ex; [|discriminate]. intros E. exists p, x. split; [reflexivity|]. split; [reflexivity|].
  destruct (d (pre ++ p) x).
  - destruct k as [ns|[|y id]]; [| |discriminate].
    + exists (Some ns).
      match type of E with match ?g ns with _ => _ end = _ =>
        assert (forall x, g x = groupings d (pre ++ p) x) as Hg by (induction x0 as [|y z IH]; [reflexivity|cbn [groupings]; now rewrite <- IH]) end.
      rewrite Hg in E. destruct (groupings d (pre ++ p) ns) as [l'|]; [|discriminate]. exists l'.
      split; [reflexivity|]. split; [reflexivity|]. symmetry. destruct x; exact (some_inj _ _ E).
    + exists None, []. split; [reflexivity|]. split; [reflexivity|]. rewrite app_nil_r. symmetry. destruct x; exact (some_inj _ _ E).
  - symmetry. exact (some_inj _ _ E).
Qed.
Fixpoint gremaining (d : bytes -> option bytes -> bool) (path : bytes) (fr : list (nat * option (list node))) : option (list node) :=
  match fr with
  | [] => Some []
  | (n, o) :: fr =>
      opt_app (match o with Some ns => groupings d path ns | None => Some [] end) (gremaining d (k_pop n path) fr)
  end.
Definition gb_rep (h : heap) (G : ghost) (y : hgb) (gs : list node) : Prop :=
  exists path fr, G (kv_path (snd y)) = GB path /\ Forall2 (frame_rep h G) (kv_stack (snd y)) fr /\ gremaining (fst y) path fr = Some gs.
Definition gb_items (y : hgb) : list item := kv_items (snd y).
Lemma gb_kept h G y gs h' G' : gb_rep h G y gs -> kept (gb_items y) h G h' G' -> gb_rep h' G' y gs.
Proof.
  intros (path & fr & Ga & Hf & Hr) K. exists path, fr. unfold gb_items, kv_items in K.
  change ((BytesK, Ptr (kv_path (snd y))) :: flat_map frame_items (kv_stack (snd y)))
    with ([(BytesK, Ptr (kv_path (snd y)))] ++ flat_map frame_items (kv_stack (snd y))) in K.
  apply kept_app in K. destruct K as [[K1 _] K2].
  split; [|split; [apply (frames_kept _ _ _ _ _ _ Hf K2)|exact Hr]].
  rewrite K1; [exact Ga|]. cbn. rewrite Nat.eqb_refl. lia.
Qed.

(** ** Parts of a step *)
Lemma key_read_ok h G Z a k : inv h G Z -> 0 < occ a Z -> G a = GB k -> h_key_read a h = Done (k, h).
Proof.
  intros I O E. pose proof (i_cnt _ _ _ I a) as C. unfold cnt in C.
  destruct (nth_error h a) as [[[n x]|]|] eqn:En; try lia.
  destruct (i_cell _ _ _ I _ _ _ En) as [_ Hg]. rewrite E in Hg. destruct x as [b|]; cbn in Hg; [|tauto]. subst b.
  unfold h_key_read, mbind, arc_get. now rewrite En.
Qed.
Lemma shown_value_ok c n Z h G x : inv h G Z -> crep G c n -> near [] h c -> shown (n_value n) = Some x ->
  h_shown_value c h = Done (x, h) /\ h_has_value c = match x with Some _ => true | None => false end.
Proof.
  intros I C N E. destruct (near_above _ _ _ _ I N) as [Lv _]. unfold h_shown_value. rewrite (has_value_ok _ _ _ C).
  unfold has_value. unfold shown in E. destruct C as (P & V & K). rewrite node_items_split, !live_app in Lv.
  destruct (blob_opt (n_value n)) as [[b|b]|] eqn:Eb; try discriminate; apply some_inj in E; subst x; (split; [|reflexivity]); [|reflexivity].
  assert (n_value n = Data b) as Ev. { unfold blob_opt in Eb. destruct (n_value n) as [|[|]]; congruence. }
  rewrite (brep_is_id _ _ _ _ V), Ev. cbn [blob_is_id]. unfold mbind.
  rewrite (blob_read_ok _ _ _ _ _ _ I V (proj1 (proj2 Lv))), Ev. reflexivity.
Qed.
Lemma wp_near_clone c n Z R h G : inv h G Z -> crep G c n -> near [] h c -> (forall a, occ a R <= occ a Z) ->
  wp (h_clone c) R (fun c' h' G' => c' = c /\ G' = G /\ inv h' G (node_items c ++ Z)) h G.
Proof.
  intros I C N L. destruct (near_above _ _ _ _ I N) as [Lv A].
  apply (wp_weaken _ _ _ _ _ _ (wp_clone c n Z R h G I C Lv (A R L))). tauto.
Qed.
Lemma wp_set_prefix d c n R h G : inv h G (node_items c ++ R) -> crep G c n ->
  wp (h_set_prefix d c) R (fun c' h' G' => inv h' G' (node_items c' ++ R) /\ crep G' c' (set_prefix_slice n d)) h G.
Proof. intros I C. apply (wp_set_p (Data d) (hdr_data (length d)) c n R h G eq_refl I C). Qed.
Lemma wp_no_children c n R h G : inv h G (node_items c ++ R) -> crep G c n ->
  wp (h_set_children_id [] c) R (fun c' h' G' => inv h' G' (node_items c' ++ R) /\ crep G' c' (set_kids n (KId []))) h G.
Proof.
  intros I C. unfold h_set_children_id. change (length (@nil byte)) with 0. destruct (hdr_id 0) as [hd| | |] eqn:E; try discriminate E.
  apply (wp_set_c [] hd c n R h G E I C).
Qed.

Definition node_out (y : option cnode) : list item := match y with Some c => node_items c | None => [] end.
Definition gb_post (R : list item) (d : bytes -> option bytes -> bool) (gs : list node) (y : hkv * option cnode) (h : heap) (G : ghost) : Prop :=
  inv h G (kv_items (fst y) ++ node_out (snd y) ++ R) /\ gb_rep h G (d, fst y) (tl gs) /\
  match gs, snd y with
  | [], None => True
  | n :: _, Some c => crep G c n
  | _, _ => False
  end.

Lemma gb_next_ok d : forall fuel k path fr gs R h G, inv h G (kv_items k ++ R) -> G (kv_path k) = GB path ->
  Forall2 (frame_rep h G) (kv_stack k) fr -> gremaining d path fr = Some gs -> fweight fr < fuel ->
  wp (h_gb_next d fuel k) R (gb_post R d gs) h G.
Proof.
  induction fuel as [|fuel IH]; intros k path fr gs R h G I Gp Hf Hr Hw; [lia|]. cbn [h_gb_next].
  destruct k as [pa st]. cbn [kv_stack kv_path] in *. destruct Hf as [|[n o] [n' o'] rest fr [Hn Ho] Hf].
  - cbn [gremaining] in Hr. apply some_inj in Hr. subst gs. apply wp_ret. split; [exact I|]. split; [|exact Logic.I].
    exists path, []. split; [exact Gp|]. split; [constructor|reflexivity].
  - cbn [fst snd] in Hn, Ho. subst n'. cbn [gremaining fweight] in Hr, Hw. unfold kv_items in I. cbn [kv_path kv_stack flat_map] in I.
    unfold frame_items at 1 in I. cbn [snd] in I.
    destruct o as [it|], o' as [ns|]; cbn [ch_rep] in Ho; try tauto.
    + pose proof (iter_next_ok _ _ _ _ _ I Ho) as Nx. destruct ns as [|nd ns].
      * eapply wp_bind.
        { apply (wp_pure _ (None, it) R (fun p h' G' => p = (None, it) /\ h' = h /\ G' = G) h G Nx). auto. }
        cbn beta. intros y h' G' (-> & -> & ->). cbn [fst snd].
        set (Z := (BytesK, Ptr pa) :: flat_map frame_items rest ++ R).
        eapply wp_bind.
        { eapply (wp_frame _ _ Z R _ h G I); [unfold Z; occ_solve|unfold Z; occ_solve|].
          apply wp_drop. unfold Z. rearr I. }
        cbn beta. intros _ h1 G1 ((-> & I1 & _) & S1). apply kept_stp in S1.
        apply (IH _ path ((n, None) :: fr)).
        -- unfold kv_items. cbn [kv_path kv_stack flat_map]. unfold frame_items at 1. cbn [snd app]. unfold Z in I1. rearr I1.
        -- exact Gp.
        -- constructor; [split; [reflexivity|exact Logic.I]|]. apply (frames_kept _ _ _ _ _ _ Hf).
           apply (kept_le _ _ _ _ _ _ S1). unfold Z. occ_solve.
        -- exact Hr.
        -- cbn [fweight oweight weights] in *. lia.
      * destruct Nx as (c & it' & Nx & C & Hin & Ho' & Ei).
        eapply wp_bind.
        { apply (wp_pure _ (Some c, it') R (fun p h' G' => p = (Some c, it') /\ h' = h /\ G' = G) h G Nx). auto. }
        cbn beta. intros y h' G' (-> & -> & ->). cbn [fst snd].
        cbn [groupings] in Hr. destruct (grouping d path nd) as [l1|] eqn:E1; [|discriminate Hr].
        destruct (groupings d path ns) as [l2|] eqn:E2; [|discriminate Hr]. cbn [opt_app] in Hr.
        destruct (gremaining d (k_pop n path) fr) as [l3|] eqn:E3; [|discriminate Hr]. apply some_inj in Hr.
        destruct (grouping_some _ _ _ _ E1) as (p & x & Ep & Ex & El1).
        (* the prefix and the path *)
        pose proof (load_prefix_ok c nd _ h G p I C (it_near _ _ _ _ _ Ho Hin) Ep) as Lp.
        eapply wp_bind.
        { apply (wp_pure _ p R (fun q h' G' => q = p /\ h' = h /\ G' = G) h G Lp). auto. }
        cbn beta. intros q h' G' (-> & -> & ->).
        set (Y := iter_items it ++ flat_map frame_items rest ++ R).
        assert (inv h G ((BytesK, Ptr pa) :: Y)) as J0 by (unfold Y; rearr I). clear I.
        assert (frame_rep h G (n, Some it) (n, Some (nd :: ns))) as Fo by (split; [reflexivity|exact Ho]).
        eapply wp_bind.
        { eapply (wp_frame _ _ Y R _ h G J0); [occ_solve|unfold Y; occ_solve|].
          apply (wp_key_mut (k_append p) pa path Y h G J0 Gp). }
        cbn beta. intros a h1 G1 ((I1 & Ga) & S1). apply kept_stp in S1.
        assert (it_rep h1 G1 it (nd :: ns)) as Ho1.
        { apply (it_kept _ _ _ _ _ _ Ho). apply (kept_le _ _ _ _ _ _ S1). unfold Y. occ_solve. }
        assert (it_rep h1 G1 it' ns) as Ho1'.
        { apply (it_kept _ _ _ _ _ _ Ho'). rewrite Ei. apply (kept_le _ _ _ _ _ _ S1). unfold Y. occ_solve. }
        assert (Forall2 (frame_rep h1 G1) rest fr) as Hf1.
        { apply (frames_kept _ _ _ _ _ _ Hf). apply (kept_le _ _ _ _ _ _ S1). unfold Y. occ_solve. }
        assert (crep G1 c nd) as C1.
        { destruct Ho1 as (all & m & Ga1 & En1 & Es). destruct (i_cell _ _ _ I1 _ _ _ En1) as [_ Hg]. rewrite Ga1 in Hg. cbn [grep] in Hg.
          pose proof (iter_next_ok h1 G1 _ it (nd :: ns) I1) as N1. cbn beta iota in N1. destruct N1 as (c1 & i1 & N1 & C1 & _).
          { exists all, m. auto. }
          assert (c1 = c) as ->; [|exact C1]. unfold h_iter_next in N1, Nx.
          destruct (nth_error (hi_cs it) (hi_pos it)) as [c0|]; [|discriminate N1].
          unfold mbind in N1, Nx. destruct (vec_get (hi_arc it) h1) as [[? ?]| | |]; try discriminate N1.
          destruct (vec_get (hi_arc it) h) as [[? ?]| | |]; try discriminate Nx.
          destruct (list_eq_dec _ _ _) in N1; [|discriminate N1]. destruct (list_eq_dec _ _ _) in Nx; [|discriminate Nx].
          unfold ret in *. congruence. }
        pose proof (it_near _ _ _ _ _ Ho1 Hin) as N1.
        assert (0 < occ a ((BytesK, Ptr a) :: Y)) as Oa. { cbn [occ]. rewrite Nat.eqb_refl. lia. }
        pose proof (key_read_ok _ _ _ _ _ I1 Oa Ga) as Kr.
        eapply wp_bind.
        { apply (wp_pure _ (k_append p path) R (fun q h' G' => q = k_append p path /\ h' = h1 /\ G' = G1) h1 G1 Kr). auto. }
        cbn beta. intros q h' G' (-> & -> & ->).
        destruct (shown_value_ok _ _ _ _ _ _ I1 C1 N1 Ex) as [Sv Hv].
        eapply wp_bind.
        { apply (wp_pure _ x R (fun q h' G' => q = x /\ h' = h1 /\ G' = G1) h1 G1 Sv). auto. }
        cbn beta. intros q h' G' (-> & -> & ->).
        change (k_append p path) with (path ++ p) in *. destruct (d (path ++ p) x).
        -- (* descend *)
           destruct El1 as (oc & l' & El & Ec & El1).
           eapply wp_bind.
           { eapply (wp_frame _ _ ((BytesK, Ptr a) :: Y) R _ h1 G1 I1); [auto|unfold Y; occ_solve|].
             apply (wp_load_children c nd oc _ ((BytesK, Ptr a) :: Y) h1 G1 I1 C1 N1); [auto|exact El]. }
           cbn beta. intros ch h2 G2 ((-> & I2 & Rc) & S2). apply kept_stp in S2. cbv zeta.
           set (k2 := HKv a ((length p, ch) :: (n, Some it') :: rest)).
           set (fr2 := (length p, oc) :: (n, Some ns) :: fr).
           assert (it_rep h2 G1 it (nd :: ns)) as Ho2.
           { apply (it_kept _ _ _ _ _ _ Ho1). apply (kept_le _ _ _ _ _ _ S2). unfold Y. occ_solve. }
           assert (Forall2 (frame_rep h2 G1) (kv_stack k2) fr2) as F2.
           { constructor; [split; [reflexivity|exact Rc]|constructor; [split; [reflexivity|]|]].
             - cbn [snd ch_rep]. apply (it_kept _ _ _ _ _ _ Ho1'). rewrite Ei. apply (kept_le _ _ _ _ _ _ S2). unfold Y. occ_solve.
             - apply (frames_kept _ _ _ _ _ _ Hf1). apply (kept_le _ _ _ _ _ _ S2). unfold Y. occ_solve. }
           assert (gremaining d (path ++ p) fr2 = Some (l' ++ l2 ++ l3)) as R2.
           { unfold fr2. cbn [gremaining]. rewrite Ec. change (path ++ p) with (k_append p path). rewrite pop_append, E2, E3. reflexivity. }
           assert (inv h2 G1 (kv_items k2 ++ R)) as J2.
           { unfold kv_items, k2. cbn [kv_path kv_stack flat_map]. unfold frame_items at 1 2. cbn [snd]. rewrite Ei. fold (ch_items ch).
             unfold Y in I2. rearr I2. }
           rewrite Hv. destruct x as [b|].
           ++ assert (gs = set_kids (set_prefix_slice nd (path ++ p)) (KId []) :: l' ++ l2 ++ l3) as ->.
              { rewrite <- Hr, El1. cbn [gown app]. now rewrite <- app_assoc. }
              eapply wp_bind.
              { eapply (wp_frame _ _ (kv_items k2 ++ R) R _ h2 G1 J2); [auto|occ_solve|].
                apply (wp_near_clone c nd _ (kv_items k2 ++ R) h2 G1 J2 C1 (it_near _ _ _ _ _ Ho2 Hin)). auto. }
              cbn beta. intros r h3 G3 ((-> & -> & I3) & S3). apply kept_stp in S3.
              eapply wp_bind.
              { eapply (wp_frame _ _ (kv_items k2 ++ R) R _ h3 G1 I3); [occ_solve|occ_solve|].
                apply (wp_set_prefix (path ++ p) c nd _ h3 G1 I3 C1). }
              cbn beta. intros r1 h4 G4 ((I4 & C4) & S4). apply kept_stp in S4.
              eapply wp_bind.
              { eapply (wp_frame _ _ (kv_items k2 ++ R) R _ h4 G4 I4); [occ_solve|occ_solve|].
                apply (wp_no_children r1 _ _ h4 G4 I4 C4). }
              cbn beta. intros r2 h5 G5 ((I5 & C5) & S5). apply kept_stp in S5. apply wp_ret.
              split; [cbn [fst snd node_out]; rearr I5|]. split; [|exact C5].
              cbn [fst tl]. apply (gb_kept h2 G1).
              ** exists (path ++ p), fr2. split; [exact Ga|]. split; [exact F2|exact R2].
              ** apply (kept_trans _ _ _ h3 G1); [apply (kept_le _ _ _ _ _ _ S3); unfold gb_items; cbn [snd]; occ_solve|].
                 apply (kept_trans _ _ _ h4 G4); [apply (kept_le _ _ _ _ _ _ S4); unfold gb_items; cbn [snd]; occ_solve|].
                 apply (kept_le _ _ _ _ _ _ S5). unfold gb_items. cbn [snd]. occ_solve.
           ++ assert (gs = l' ++ l2 ++ l3) as ->.
              { rewrite <- Hr, El1. cbn [gown app]. now rewrite <- app_assoc. }
              apply (IH k2 (path ++ p) fr2); auto.
              pose proof (weight_loaded _ _ El). unfold fr2. cbn [fweight oweight weights] in *. lia.
        -- (* stop *)
           subst l1. cbn [app] in Hr. subst gs.
           eapply wp_bind.
           { eapply (wp_frame _ _ ((BytesK, Ptr a) :: Y) R _ h1 G1 I1); [auto|unfold Y; occ_solve|].
             apply (wp_near_clone c nd _ ((BytesK, Ptr a) :: Y) h1 G1 I1 C1 N1). auto. }
           cbn beta. intros r h2 G2 ((-> & -> & I2) & S2). apply kept_stp in S2.
           eapply wp_bind.
           { eapply (wp_frame _ _ ((BytesK, Ptr a) :: Y) R _ h2 G1 I2); [occ_solve|unfold Y; occ_solve|].
             apply (wp_set_prefix (path ++ p) c nd _ h2 G1 I2 C1). }
           cbn beta. intros r1 h3 G3 ((I3 & C3) & S3). apply kept_stp in S3.
           assert (G3 a = GB (path ++ p)) as Ga3.
           { destruct S3 as [X _]. rewrite X; [exact Ga|exact Oa]. }
           assert (inv h3 G3 ((BytesK, Ptr a) :: node_items r1 ++ Y)) as J3 by rearr I3.
           eapply wp_bind.
           { eapply (wp_frame _ _ (node_items r1 ++ Y) R _ h3 G3 J3); [occ_solve|unfold Y; occ_solve|].
             apply (wp_key_mut (k_pop (length p)) a (path ++ p) _ h3 G3 J3 Ga3). }
           cbn beta. intros a' h4 G4 ((I4 & Ga4) & S4). apply kept_stp in S4. apply wp_ret.
           change (path ++ p) with (k_append p path) in Ga4. rewrite pop_append in Ga4.
           assert (kept Y h1 G1 h4 G4) as K4.
           { apply (kept_trans _ _ _ h2 G1); [apply (kept_le _ _ _ _ _ _ S2); occ_solve|].
             apply (kept_trans _ _ _ h3 G3); [apply (kept_le _ _ _ _ _ _ S3); occ_solve|].
             apply (kept_le _ _ _ _ _ _ S4). occ_solve. }
           split; [|split].
           ++ cbn [fst snd node_out]. unfold kv_items. cbn [kv_path kv_stack flat_map]. unfold frame_items at 1. cbn [snd]. rewrite Ei.
              unfold Y in I4. rearr I4.
           ++ cbn [fst tl]. exists path, ((n, Some ns) :: fr). cbn [snd fst kv_path kv_stack]. split; [exact Ga4|]. split.
              ** constructor; [split; [reflexivity|]|].
                 --- cbn [snd ch_rep]. apply (it_kept _ _ _ _ _ _ Ho1'). rewrite Ei. apply (kept_le _ _ _ _ _ _ K4). unfold Y. occ_solve.
                 --- apply (frames_kept _ _ _ _ _ _ Hf1). apply (kept_le _ _ _ _ _ _ K4). unfold Y. occ_solve.
              ** cbn [gremaining]. rewrite E2, E3. reflexivity.
           ++ cbn [snd]. apply (crep_ext _ _ _ _ C3). destruct S4 as [X4 _]. intros b Hb. apply X4. rewrite occ_app. lia.
    + set (Y := flat_map frame_items rest ++ R).
      assert (inv h G ((BytesK, Ptr pa) :: Y)) as J by (unfold Y; rearr I).
      eapply wp_bind.
      { eapply (wp_frame _ _ Y R _ h G J); [occ_solve|unfold Y; occ_solve|].
        apply (wp_key_mut (k_pop n) pa path Y h G J Gp). }
      cbn beta. intros a h1 G1 ((I1 & Ga) & S1). apply kept_stp in S1.
      apply (IH _ (k_pop n path) fr).
      * unfold kv_items. cbn [kv_path kv_stack]. unfold Y in I1. rearr I1.
      * exact Ga.
      * cbn [kv_stack]. apply (frames_kept _ _ _ _ _ _ Hf). apply (kept_le _ _ _ _ _ _ S1). unfold Y. occ_solve.
      * cbn [opt_app app] in Hr. destruct (gremaining d (k_pop n path) fr); exact Hr.
      * cbn [oweight] in Hw. lia.
Qed.
