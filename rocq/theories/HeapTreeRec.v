(** The five recursive operations on the heap. *)
From Verif Require Import Base BaseLemmas Header Node Combine Store Heap HeapSpec HeapProofs HeapOps HeapIter HeapTree HeapBorrow HeapMerge HeapClean HeapTreeOps.

Ltac stepE E x Ex := match type of E with bind ?m _ = Ok _ => destruct m as [x| | |] eqn:Ex; try discriminate E; cbn [bind] in E end.

Lemma npost_weaken R B r (C C' : Prop) c h G : (C' -> C) -> npost R B r C c h G -> npost R B r C' c h G.
Proof. intros H (lk & I & Cr & L & Z). exists lk. split; [exact I|]. split; [exact Cr|]. split; [exact L|]. intros D. apply Z, H, D. Qed.
Lemma wpk_npost m R B r (C C' : Prop) h G : (C' -> C) -> wpk m R B (npost R B r C) h G -> wpk m R B (npost R B r C') h G.
Proof. intros H W. eapply wpk_weaken; [exact W|]. intros c h' G' N _. apply (npost_weaken _ _ _ _ _ _ _ _ H N). Qed.

(** Steps without leaks in front of the rest. *)
Lemma wpk_then (m : M cnode) (k : cnode -> M cnode) n1 R B Q h G : wpk m R B (owned R B n1) h G ->
  (forall c h' G', keeps B h G h' G' -> inv h' G' (node_items c ++ R ++ B) -> crep G' c n1 -> wpk (k c) R B Q h' G') ->
  wpk (mbind m k) R B Q h G.
Proof. intros W K. eapply wpk_bind; [exact W|]. intros c h' G' [I C] Kp. apply (K c h' G' Kp I C). Qed.
Lemma wpk_owned_ret c n R B h G : inv h G (node_items c ++ R ++ B) -> crep G c n -> wpk (ret c) R B (owned R B n) h G.
Proof. intros I C. apply wpk_ret. split; assumption. Qed.
Lemma wpk_split c n ap k n1 R B h G : inv h G (node_items c ++ R ++ B) -> crep G c n -> load_prefix mem (n_prefix n) = Ok ap ->
  split mem n k = Ok n1 -> wpk (h_split ap k c) R B (owned R B n1) h G.
Proof.
  intros I C Ep E. unfold split in E. rewrite Ep in E. cbn [bind] in E. unfold slice_from, slice_to in E.
  destruct (k <=? length ap) eqn:Ek; [|discriminate E]. cbn [bind] in E.
  match type of E with Ok ?x = _ => assert (n1 = x) as -> by congruence end.
  apply (wpk_owned _ (node_items c)); [exact I|]. apply (wp_split ap k c n (R ++ B) h G (proj1 (Nat.leb_le _ _) Ek) I C).
Qed.
Lemma wpk_set_none c n R B h G : inv h G (node_items c ++ R ++ B) -> crep G c n ->
  wpk (h_set_value None c) R B (owned R B (set_value n bnone)) h G.
Proof. intros I C. apply (wpk_owned _ (node_items c)); [exact I|]. apply (wp_set_value None c n (R ++ B) h G I C). Qed.
Lemma wpk_clear c n R B h G : inv h G (node_items c ++ R ++ B) -> crep G c n ->
  wpk (h_clear c) R B (owned R B (set_kids (set_value n bnone) (KId []))) h G.
Proof. intros I C. apply (wpk_owned _ (node_items c)); [exact I|]. apply (wp_clear c n (R ++ B) h G I C). Qed.
Lemma wpk_clear_canon dbg c n r R B h G : inv h G (node_items c ++ R ++ B) -> crep G c n ->
  canonicalize dbg (set_kids (set_value n bnone) (KId [])) = Ok r ->
  wpk (a1 <! h_clear c ;; h_canonicalize dbg a1) R B (npost R B r False) h G.
Proof.
  intros I C E. eapply wpk_then; [apply (wpk_clear c n R B h G I C)|]. intros c1 h1 G1 _ I1 C1.
  eapply wpk_npost; [|apply (wpk_canon dbg c1 _ r R B h1 G1 I1 C1 E)]. contradiction.
Qed.

(** The value of the second node. *)
Lemma bor_value h G B b m : bor h G B b m -> vrep G (c_vh b, c_v b) (n_value m) /\
  forall a, 0 < occ a (vitems (c_vh b, c_v b)) -> deep h B a.
Proof.
  intros [(P & V & K) D]. split; [exact V|]. intros a Ha. apply D. unfold node_items. rewrite !occ_app. unfold vitems in Ha.
  cbn [fst snd] in Ha. lia.
Qed.
Lemma prefixes_ok h G c n b m ap bp R B : inv h G (node_items c ++ R ++ B) -> crep G c n -> bor h G B b m ->
  load_prefix mem (n_prefix n) = Ok ap -> load_prefix mem (n_prefix m) = Ok bp ->
  n_prefix n = Data ap /\ n_prefix m = Data bp /\ h_load_prefix c h = Done (ap, h) /\ h_load_prefix b h = Done (bp, h).
Proof.
  intros I C Hb Ea Eb.
  assert (live h (node_items c)) as Lc. { apply (inv_live_roots _ _ _ _ I). occ_solve. }
  assert (live h (node_items b)) as Lb by (refine (bor_live _ _ _ _ _ _ I _ Hb); occ_solve).
  destruct (load_prefix_ok _ _ _ _ _ _ I C Lc Ea) as [A1 A2]. destruct (load_prefix_ok _ _ _ _ _ _ I (proj1 Hb) Lb Eb) as [B1 B2]. auto.
Qed.

(** With all children functions. *)
Section Branches.
Context (dbg : bool) (cl : node -> Prop) (hk : list cnode -> option biter -> M (list cnode)) (pk : list node -> option iter -> res (list node)).
Context (Hk : kids_ok cl hk pk).
Lemma branch_kids c n b m ns po rs r R B h G : inv h G (node_items c ++ R ++ B) -> crep G c n -> bor h G B b m ->
  load_children_mut mem n = Ok ns -> load_children mem m = Ok po -> pk ns po = Ok rs ->
  canonicalize dbg (set_kids n (KArc rs)) = Ok r ->
  wpk (a3 <! h_with_children c (h_kids hk b) ;; h_canonicalize dbg a3) R B
    (npost R B r ((Forall cl ns /\ ocl cl po) /\ forgets (set_kids n (KArc rs)) = 0)) h G.
Proof.
  intros I C Hb En Eo Ek Ec. apply (wpk_finish dbg c n ns rs r _ _ R B h G I C En); [|exact Ec].
  intros R' h' G' K. apply (kids_of cl hk pk Hk b m po ns rs R' B h' G' (bor_keeps _ _ _ _ _ _ _ K Hb) Eo Ek).
Qed.
Lemma branch_short c n b m m' k ns rs r R B h G : inv h G (node_items c ++ R ++ B) -> crep G c n -> bor h G B b m ->
  load_children_mut mem n = Ok ns -> clone_shortened mem m k = Ok m' -> pk ns (it_single m') = Ok rs ->
  canonicalize dbg (set_kids n (KArc rs)) = Ok r ->
  wpk (a3 <! h_with_children c (h_kids_short hk b k) ;; h_canonicalize dbg a3) R B
    (npost R B r ((Forall cl ns /\ cl m') /\ forgets (set_kids n (KArc rs)) = 0)) h G.
Proof.
  intros I C Hb En Em Ek Ec. apply (wpk_finish dbg c n ns rs r _ _ R B h G I C En); [|exact Ec].
  intros R' h' G' K. apply (kids_short_of cl hk pk Hk b m m' k ns rs R' B h' G' (bor_keeps _ _ _ _ _ _ _ K Hb) Em Ek).
Qed.
End Branches.

Definition never (_ _ : node) : Prop := False.
Definition never1 (_ : node) : Prop := False.
Lemma never_cl : forall x y, never1 x -> never1 y -> never x y.
Proof. contradiction. Qed.

Section Simple.
Context (dbg : bool).

Lemma inner_with_ok hf pf : f_ok hf pf -> forall fuel, rec_ok never (h_inner_with dbg hf fuel) (inner_combine_with dbg mem mem pf fuel).
Proof.
  intros Hf. induction fuel as [|fuel IH]; intros n m r E R B h G c b I C Hb; [discriminate E|].
  cbn [inner_combine_with r_prefix] in E. stepE E ap Ea. stepE E bp Eb.
  destruct (prefixes_ok _ _ _ _ _ _ _ _ _ _ I C Hb Ea Eb) as (Pn & Pm & La & Lb).
  cbn [h_inner_with]. apply (wpk_read _ _ _ _ _ _ _ _ La). apply (wpk_read _ _ _ _ _ _ _ _ Lb). cbv zeta in *.
  pose proof (inner_kids never never1 never_cl _ _ IH fuel) as Hk.
  destruct ((common_prefix ap bp =? length ap) && (common_prefix ap bp =? length bp)).
  - stepE E a1 E1. stepE E ac Eac. stepE E bc Ebc. stepE E rs Ers. cbn [r_value_opt r_load_children] in *.
    eapply (wpk_then _ _ a1).
    + destruct (bor_value _ _ _ _ _ Hb) as [Vb Db].
      pose proof (value_opt_ok _ _ _ (proj1 Hb)) as Ho. rewrite (has_value_ok _ _ _ C). unfold has_value.
      destruct (blob_opt (n_value n)) as [av|] eqn:Ev.
      * assert (av = n_value n) as -> by (destruct (n_value n) as [|[|]]; cbn in Ev; congruence).
        destruct (blob_opt (n_value m)) as [bv|].
        -- destruct Ho as [-> ->]. stepE E1 z Ez. assert (a1 = set_value n z) as -> by congruence.
           apply (wpk_combine_value hf pf Hf c n (n_value m) z _ R B h G I C Vb Db Ez).
        -- destruct Ho as [-> _]. assert (a1 = set_value n bnone) as -> by congruence.
           apply (wpk_set_none c n R B h G I C).
      * assert (a1 = set_value n bnone) as -> by congruence. apply wpk_owned_ret; [exact I|].
        destruct n as [p v k]. cbn in Ev. destruct v as [|[|]]; try discriminate Ev. exact C.
    + intros c1 h1 G1 K1 I1 C1.
      eapply wpk_npost; [|apply (branch_kids dbg never1 _ _ Hk c1 a1 b m ac bc rs r R B h1 G1 I1 C1 (bor_keeps _ _ _ _ _ _ _ K1 Hb) Eac Ebc Ers E)].
      contradiction.
  - destruct (common_prefix ap bp =? length ap).
    + stepE E ac Eac. stepE E m' Em. stepE E rs Ers.
      eapply wpk_then; [apply (wpk_set_none c n R B h G I C)|]. intros c1 h1 G1 K1 I1 C1.
      eapply wpk_npost; [|apply (branch_short dbg never1 _ _ Hk c1 _ b m m' _ ac rs r R B h1 G1 I1 C1 (bor_keeps _ _ _ _ _ _ _ K1 Hb) Eac Em Ers E)].
      contradiction.
    + destruct (common_prefix ap bp =? length bp).
      * stepE E a1 E1. stepE E ac Eac. stepE E bc Ebc. stepE E rs Ers.
        eapply wpk_then; [apply (wpk_split c n ap _ a1 R B h G I C Ea E1)|]. intros c1 h1 G1 K1 I1 C1.
        eapply wpk_npost; [|apply (branch_kids dbg never1 _ _ Hk c1 a1 b m ac bc rs r R B h1 G1 I1 C1 (bor_keeps _ _ _ _ _ _ _ K1 Hb) Eac Ebc Ers E)].
        contradiction.
      * apply (wpk_clear_canon dbg c n r R B h G I C E).
Qed.

Lemma left_with_ok hf pf : f_ok hf pf -> forall fuel, rec_ok never (h_left_with dbg hf fuel) (left_combine_with dbg mem mem pf fuel).
Proof.
  intros Hf. induction fuel as [|fuel IH]; intros n m r E R B h G c b I C Hb; [discriminate E|].
  cbn [left_combine_with r_prefix] in E. stepE E ap Ea. stepE E bp Eb.
  destruct (prefixes_ok _ _ _ _ _ _ _ _ _ _ I C Hb Ea Eb) as (Pn & Pm & La & Lb).
  cbn [h_left_with]. apply (wpk_read _ _ _ _ _ _ _ _ La). apply (wpk_read _ _ _ _ _ _ _ _ Lb). cbv zeta in *.
  pose proof (left_kids never never1 never_cl _ _ IH fuel) as Hk.
  destruct ((common_prefix ap bp =? length ap) && (common_prefix ap bp =? length bp)).
  - stepE E a1 E1. stepE E ac Eac. stepE E bc Ebc. stepE E rs Ers. cbn [r_value_opt r_load_children] in *.
    eapply (wpk_then _ _ a1).
    + destruct (bor_value _ _ _ _ _ Hb) as [Vb Db].
      pose proof (value_opt_ok _ _ _ (proj1 Hb)) as Ho. rewrite (has_value_ok _ _ _ C). unfold has_value.
      destruct (blob_opt (n_value m)) as [bv|].
      * destruct Ho as [-> ->]. destruct (blob_opt (n_value n)) as [av|] eqn:Ev.
        -- assert (av = n_value n) as -> by (destruct (n_value n) as [|[|]]; cbn in Ev; congruence).
           stepE E1 z Ez. assert (a1 = set_value n z) as -> by congruence.
           apply (wpk_combine_value hf pf Hf c n (n_value m) z _ R B h G I C Vb Db Ez).
        -- assert (a1 = n) as -> by congruence. apply (wpk_owned_ret _ _ _ _ _ _ I C).
      * destruct Ho as [-> _]. assert (a1 = n) as -> by congruence. apply (wpk_owned_ret _ _ _ _ _ _ I C).
    + intros c1 h1 G1 K1 I1 C1.
      eapply wpk_npost; [|apply (branch_kids dbg never1 _ _ Hk c1 a1 b m ac bc rs r R B h1 G1 I1 C1 (bor_keeps _ _ _ _ _ _ _ K1 Hb) Eac Ebc Ers E)].
      contradiction.
  - destruct (common_prefix ap bp =? length ap).
    + stepE E ac Eac. stepE E m' Em. stepE E rs Ers.
      eapply wpk_npost; [|apply (branch_short dbg never1 _ _ Hk c n b m m' _ ac rs r R B h G I C Hb Eac Em Ers E)].
      contradiction.
    + destruct (common_prefix ap bp =? length bp).
      * stepE E a1 E1. stepE E ac Eac. stepE E bc Ebc. stepE E rs Ers.
        eapply wpk_then; [apply (wpk_split c n ap _ a1 R B h G I C Ea E1)|]. intros c1 h1 G1 K1 I1 C1.
        eapply wpk_npost; [|apply (branch_kids dbg never1 _ _ Hk c1 a1 b m ac bc rs r R B h1 G1 I1 C1 (bor_keeps _ _ _ _ _ _ _ K1 Hb) Eac Ebc Ers E)].
        contradiction.
      * eapply wpk_npost; [|apply (wpk_canon dbg c n r R B h G I C E)]. contradiction.
Qed.

Lemma selected_ok hs ps b m s R B c h G : s_ok hs ps -> inv h G (node_items c ++ R ++ B) -> bor h G B b m ->
  selected ps (blob_opt (n_value m)) = Ok s -> h_selected hs b h = Done (s, h).
Proof.
  intros Hs I Hb E. unfold h_selected. destruct (bor_value _ _ _ _ _ Hb) as [Vb Db].
  pose proof (value_opt_ok _ _ _ (proj1 Hb)) as Ho. destruct (blob_opt (n_value m)) as [bv|].
  - destruct Ho as [-> ->]. cbn [selected] in E. refine (Hs _ _ E _ B _ _ _ I _ Vb Db). occ_solve.
  - destruct Ho as [-> _]. cbn [selected] in E. unfold ret. congruence.
Qed.

Lemma retain_with_ok hs ps : s_ok hs ps -> forall fuel, rec_ok never (h_retain_prefix_with dbg hs fuel) (retain_prefix_with dbg mem mem ps fuel).
Proof.
  intros Hs. induction fuel as [|fuel IH]; intros n m r E R B h G c b I C Hb; [discriminate E|].
  cbn [retain_prefix_with r_prefix] in E. stepE E ap Ea. stepE E bp Eb.
  destruct (prefixes_ok _ _ _ _ _ _ _ _ _ _ I C Hb Ea Eb) as (Pn & Pm & La & Lb).
  cbn [h_retain_prefix_with]. apply (wpk_read _ _ _ _ _ _ _ _ La). apply (wpk_read _ _ _ _ _ _ _ _ Lb). cbv zeta in *.
  pose proof (inner_kids never never1 never_cl _ _ IH fuel) as Hk.
  destruct ((common_prefix ap bp =? length ap) && (common_prefix ap bp =? length bp)).
  - stepE E s Es. cbn [r_value_opt r_load_children] in *.
    apply (wpk_read _ _ _ _ _ _ _ _ (selected_ok _ _ _ _ _ _ _ _ _ _ Hs I Hb Es)). destruct s.
    + eapply wpk_npost; [|apply (wpk_canon dbg c n r R B h G I C E)]. contradiction.
    + stepE E ac Eac. stepE E bc Ebc. stepE E rs Ers.
      eapply wpk_then; [apply (wpk_set_none c n R B h G I C)|]. intros c1 h1 G1 K1 I1 C1.
      eapply wpk_npost; [|apply (branch_kids dbg never1 _ _ Hk c1 _ b m ac bc rs r R B h1 G1 I1 C1 (bor_keeps _ _ _ _ _ _ _ K1 Hb) Eac Ebc Ers E)].
      contradiction.
  - destruct (common_prefix ap bp =? length bp).
    + cbn [r_value_opt] in E. pose proof (value_opt_ok _ _ _ (proj1 Hb)) as Ho. destruct (bor_value _ _ _ _ _ Hb) as [Vb Db].
      destruct (blob_opt (n_value m)) as [bv|].
      * destruct Ho as [-> ->]. stepE E s Es.
        assert (hs (c_vh b, c_v b) h = Done (s, h)) as Eh by (refine (Hs _ _ Es _ B _ _ _ I _ Vb Db); occ_solve).
        apply (wpk_read _ _ _ _ _ _ _ _ Eh). destruct s.
        -- eapply wpk_npost; [|apply (wpk_canon dbg c n r R B h G I C E)]. contradiction.
        -- apply (wpk_clear_canon dbg c n r R B h G I C E).
      * destruct Ho as [-> _]. stepE E a1 E1. stepE E ac Eac. stepE E bc Ebc. stepE E rs Ers.
        eapply wpk_then; [apply (wpk_split c n ap _ a1 R B h G I C Ea E1)|]. intros c1 h1 G1 K1 I1 C1.
        eapply wpk_npost; [|apply (branch_kids dbg never1 _ _ Hk c1 a1 b m ac bc rs r R B h1 G1 I1 C1 (bor_keeps _ _ _ _ _ _ _ K1 Hb) Eac Ebc Ers E)].
        contradiction.
    + destruct (common_prefix ap bp =? length ap).
      * stepE E ac Eac. stepE E m' Em. stepE E rs Ers.
        eapply wpk_then; [apply (wpk_set_none c n R B h G I C)|]. intros c1 h1 G1 K1 I1 C1.
        eapply wpk_npost; [|apply (branch_short dbg never1 _ _ Hk c1 _ b m m' _ ac rs r R B h1 G1 I1 C1 (bor_keeps _ _ _ _ _ _ _ K1 Hb) Eac Em Ers E)].
        contradiction.
      * apply (wpk_clear_canon dbg c n r R B h G I C E).
Qed.

Lemma remove_with_ok hs ps : s_ok hs ps -> forall fuel, rec_ok never (h_remove_prefix_with dbg hs fuel) (remove_prefix_with dbg mem mem ps fuel).
Proof.
  intros Hs. induction fuel as [|fuel IH]; intros n m r E R B h G c b I C Hb; [discriminate E|].
  cbn [remove_prefix_with r_prefix] in E. stepE E ap Ea. stepE E bp Eb.
  destruct (prefixes_ok _ _ _ _ _ _ _ _ _ _ I C Hb Ea Eb) as (Pn & Pm & La & Lb).
  cbn [h_remove_prefix_with]. apply (wpk_read _ _ _ _ _ _ _ _ La). apply (wpk_read _ _ _ _ _ _ _ _ Lb). cbv zeta in *.
  pose proof (left_kids never never1 never_cl _ _ IH fuel) as Hk.
  destruct ((common_prefix ap bp =? length ap) && (common_prefix ap bp =? length bp)).
  - stepE E s Es. cbn [r_value_opt r_load_children] in *.
    apply (wpk_read _ _ _ _ _ _ _ _ (selected_ok _ _ _ _ _ _ _ _ _ _ Hs I Hb Es)). destruct s.
    + apply (wpk_clear_canon dbg c n r R B h G I C E).
    + stepE E ac Eac. stepE E bc Ebc. stepE E rs Ers.
      eapply wpk_npost; [|apply (branch_kids dbg never1 _ _ Hk c n b m ac bc rs r R B h G I C Hb Eac Ebc Ers E)].
      contradiction.
  - destruct (common_prefix ap bp =? length bp).
    + stepE E s Es. cbn [r_value_opt r_load_children] in *.
      apply (wpk_read _ _ _ _ _ _ _ _ (selected_ok _ _ _ _ _ _ _ _ _ _ Hs I Hb Es)). destruct s.
      * apply (wpk_clear_canon dbg c n r R B h G I C E).
      * stepE E a1 E1. stepE E ac Eac. stepE E bc Ebc. stepE E rs Ers.
        eapply wpk_then; [apply (wpk_split c n ap _ a1 R B h G I C Ea E1)|]. intros c1 h1 G1 K1 I1 C1.
        eapply wpk_npost; [|apply (branch_kids dbg never1 _ _ Hk c1 a1 b m ac bc rs r R B h1 G1 I1 C1 (bor_keeps _ _ _ _ _ _ _ K1 Hb) Eac Ebc Ers E)].
        contradiction.
    + destruct (common_prefix ap bp =? length ap).
      * stepE E ac Eac. stepE E m' Em. stepE E rs Ers.
        eapply wpk_npost; [|apply (branch_short dbg never1 _ _ Hk c n b m m' _ ac rs r R B h G I C Hb Eac Em Ers E)].
        contradiction.
      * eapply wpk_npost; [|apply (wpk_canon dbg c n r R B h G I C E)]. contradiction.
Qed.
End Simple.
