(** [outer_combine_with] on the heap; on clean trees nothing is forgotten. *)
From Verif Require Import Base BaseLemmas Header Node Combine Store Heap HeapSpec HeapProofs HeapOps HeapIter HeapTree HeapBorrow HeapMerge HeapClean HeapTreeOps HeapTreeRec.

(** The closure never removes a value. *)
Definition nodel (pf : blob -> blob -> res blob) : Prop :=
  forall x y z, blob_opt x <> None -> blob_opt y <> None -> pf x y = Ok z -> blob_opt z <> None.
Definition fine (nd : Prop) (n m : node) : Prop := nd /\ clean0 n /\ clean0 m /\ (clean n \/ clean m).
Definition fine1 (nd : Prop) (n : node) : Prop := nd /\ clean n.
Lemma fine_cl nd : forall x y, fine1 nd x -> fine1 nd y -> fine nd x y.
Proof. intros x y [H X] [_ Y]. split; [exact H|]. split; [now right|]. split; [now right|now left]. Qed.
Lemma fine_all (nd : Prop) l : nd -> Forall clean l -> Forall (fine1 nd) l.
Proof. intros H. apply Forall_impl. intros x Hx. now split. Qed.
Lemma fine_ocl (nd : Prop) po : nd -> ocl clean po -> ocl (fine1 nd) po.
Proof. intros H. destruct po as [[ms|]|]; cbn; auto. now apply fine_all. Qed.

Lemma clean0_prefix n ap : clean0 n -> n_prefix n = Data ap -> ap <> [] -> clean n.
Proof. intros [->|H] E Hn; [|exact H]. cbn in E. congruence. Qed.
Lemma load_some m po : load_children mem m = Ok po -> forall ms, po = Some ms -> exists l, ms = IOwned l /\ l <> [].
Proof.
  intros E ms ->. unfold load_children in E. destruct (n_kids m) as [[|x l]|[|? id]]; cbn in E; try discriminate E.
  injection E as <-. exists (x :: l). split; [reflexivity|discriminate].
Qed.
Lemma split_form n ap k n1 : n_prefix n = Data ap -> split mem n k = Ok n1 ->
  n1 = Node (Data (firstn k ap)) bnone (KArc [Node (Data (skipn k ap)) (n_value n) (n_kids n)]).
Proof.
  intros P E. unfold split in E. rewrite P in E. cbn [load_prefix bind] in E. unfold slice_from, slice_to in E.
  destruct (k <=? length ap); [|discriminate E]. cbn [bind] in E. congruence.
Qed.
Lemma short_ne k ap bp : k = common_prefix ap bp -> k <> length ap -> ap <> [].
Proof. intros -> H ->. now apply H. Qed.
Lemma short_ne_r k ap bp : k = common_prefix ap bp -> k <> length bp -> bp <> [].
Proof. intros -> H ->. apply H. pose proof (common_prefix_le_r ap []) as L. cbn in L. cbn. lia. Qed.

Section Outer.
Context (dbg : bool) (c : converter) (Hc : conv_clean c) (Hcv : forall v r, conv_value c v = Ok r -> r = v).
Context (pf : blob -> blob -> res blob).

(** What is needed in each branch. *)
Lemma facts_kids n m ap bp k a1 a2 ac bc : nodel pf -> clean0 n -> clean0 m -> clean n \/ clean m ->
  n_prefix n = Data ap -> k = common_prefix ap bp ->
  (if negb (k =? length ap) then split mem n k else Ok n) = Ok a1 ->
  match blob_opt (n_value m) with
  | Some bv => match blob_opt (n_value a1) with
               | Some av => v <- pf av bv ;; Ok (set_value a1 v)
               | None => v <- conv_value c bv ;; Ok (set_value a1 v)
               end
  | None => Ok a1
  end = Ok a2 ->
  load_children_mut mem a2 = Ok ac -> load_children mem m = Ok bc ->
  Forall clean ac /\ ocl clean bc /\ (blob_opt (n_value a2) <> None \/ ac <> [] \/ bc <> None).
Proof.
  intros Nd Cn Cm Or Pn Hk E1 E2 Eac Ebc.
  assert (Forall clean ac /\ (clean n -> blob_opt (n_value a1) <> None \/ ac <> [])) as [A1 A2].
  { assert (load_children_mut mem a1 = Ok ac) as Eac1.
    { destruct (blob_opt (n_value m)); [|congruence]. destruct (blob_opt (n_value a1)); stepE E2 v Ev;
      (assert (a2 = set_value a1 v) as -> by congruence; exact Eac). }
    destruct (Nat.eqb_spec k (length ap)) as [Ek|Ek]; cbn [negb] in E1.
    - assert (a1 = n) as -> by congruence. split; [apply (clean_kids _ _ Cn Eac1)|]. intros H.
      inversion H as [p v Hv|p v l Hv Hl]; subst; [now left|]. destruct Hv as [Hv|Hv]; [now left|right].
      cbn in Eac1. assert (ac = l) as -> by congruence. exact Hv.
    - pose proof (split_form _ _ _ _ Pn E1) as ->. cbn in Eac1.
      match type of Eac1 with Ok ?x = _ => assert (ac = x) as -> by congruence end. split; [|right; discriminate].
      constructor; [|constructor]. destruct n as [p v ks]. apply (clean_prefix p).
      apply (clean0_prefix _ _ Cn Pn (short_ne _ _ _ Hk Ek)). }
  split; [exact A1|]. split; [apply (clean_iter _ _ Cm Ebc)|].
  assert (forall b v, blob_opt b = Some v -> v = b) as Bo.
  { intros [d|[|]] v; cbn; congruence. }
  assert (blob_opt (n_value m) <> None \/ blob_opt (n_value a1) <> None -> blob_opt (n_value a2) <> None) as Hv.
  { destruct (blob_opt (n_value m)) as [bv|] eqn:Em.
    - intros _. destruct (blob_opt (n_value a1)) as [av|] eqn:Ea; stepE E2 v Ev; assert (a2 = set_value a1 v) as -> by congruence;
        cbn [set_value n_value].
      + apply (Nd av bv v); [|rewrite (Bo _ _ Em); congruence|exact Ev]. rewrite (Bo _ _ Ea). congruence.
      + rewrite (Hcv _ _ Ev), (Bo _ _ Em). congruence.
    - intros [H|H]; [congruence|]. assert (a2 = a1) as -> by congruence. exact H. }
  destruct Or as [H|H].
  - destruct (A2 H) as [H'|H']; auto.
  - inversion H as [p v Hv0|p v l Hv0 Hl]; subst; cbn [n_value] in Hv; [left; auto|].
    destruct Hv0 as [Hv0|Hv0]; [left; auto|right; right]. cbn in Ebc. destruct l; [congruence|]. congruence.
Qed.
Lemma facts_short n m bp ap k m' : clean0 m -> n_prefix m = Data bp -> k = common_prefix ap bp -> k <> length bp ->
  clone_shortened mem m k = Ok m' -> clean0 n -> clean m'.
Proof.
  intros Cm Pm Hk Ek E _. apply (shortened_clean m k m'); [|exact E]. apply (clean0_prefix _ _ Cm Pm (short_ne_r _ _ _ Hk Ek)).
Qed.
Lemma finish_clean rec fuel a2 ac bc rs r : (forall x y r, clean x -> clean y -> rec x (ROwned y) = Ok r -> clean r) ->
  Forall clean ac -> ocl clean bc -> (forall ms, bc = Some ms -> exists l, ms = IOwned l /\ l <> []) ->
  blob_opt (n_value a2) <> None \/ ac <> [] \/ bc <> None ->
  outer_children_with c rec fuel ac bc = Ok rs -> canonicalize dbg (set_kids a2 (KArc rs)) = Ok r ->
  forgets (set_kids a2 (KArc rs)) = 0 /\ clean r.
Proof.
  intros Hrec A O F Ne E Ec. destruct (kids_clean c Hc rec Hrec fuel ac bc rs A O F E) as [K1 K2].
  destruct a2 as [p v ks]. unfold set_kids in *. cbn [n_prefix n_value] in *. apply (canon_clean dbg p v rs r K1); [|exact Ec].
  destruct Ne as [H|H]; [now left|right; auto].
Qed.
Lemma sort2_clean x y : clean x -> clean y -> Forall clean (sort2 x y) /\ sort2 x y <> [].
Proof. intros X Y. unfold sort2. destruct (cmp_ob (n_first x) (n_first y)); split; try discriminate; auto. Qed.

Lemma disjoint_clean fuel n m ap bp k a1 ac b' r : clean0 n -> clean0 m -> n_prefix n = Data ap -> n_prefix m = Data bp ->
  k = common_prefix ap bp -> k <> length ap -> k <> length bp -> split mem n k = Ok a1 -> load_children_mut mem a1 = Ok ac ->
  conv_node_shortened c fuel (ROwned m) k = Ok b' ->
  canonicalize dbg (set_kids a1 (KArc (match ac with [x] => sort2 x b' | _ => ac ++ [b'] end))) = Ok r ->
  forgets (set_kids a1 (KArc (match ac with [x] => sort2 x b' | _ => ac ++ [b'] end))) = 0 /\ clean r.
Proof.
  intros Cn Cm Pn Pm Hk Ea Eb E1 Eac Em Ec. pose proof (split_form _ _ _ _ Pn E1) as ->. cbn in Eac.
  match type of Eac with Ok ?x = _ => assert (ac = x) as -> by congruence end.
  assert (clean b') as Cb. { apply (proj2 Hc fuel k m); [|exact Em]. apply (clean0_prefix _ _ Cm Pm (short_ne_r _ _ _ Hk Eb)). }
  assert (clean (Node (Data (skipn k ap)) (n_value n) (n_kids n))) as Cx.
  { destruct n as [p v ks]. apply (clean_prefix p). apply (clean0_prefix _ _ Cn Pn (short_ne _ _ _ Hk Ea)). }
  destruct (sort2_clean _ _ Cx Cb) as [S1 S2]. unfold set_kids in *. cbn [n_prefix n_value] in *.
  apply (canon_clean dbg _ _ _ r S1); [right; exact S2|exact Ec].
Qed.

Lemma outer_clean (Nd : nodel pf) : forall fuel n m r, clean0 n -> clean0 m -> clean n \/ clean m ->
  outer_combine_with dbg mem mem c pf fuel n (ROwned m) = Ok r -> clean r.
Proof.
  induction fuel as [|fuel IH]; intros n m r Cn Cm Or E; [discriminate E|].
  cbn [outer_combine_with r_prefix] in E. stepE E ap Ea. stepE E bp Eb. cbv zeta in E.
  assert (n_prefix n = Data ap) as Pn. { destruct (n_prefix n) as [d|[|]]; try discriminate Ea. cbn in Ea. congruence. }
  assert (n_prefix m = Data bp) as Pm. { destruct (n_prefix m) as [d|[|]]; try discriminate Eb. cbn in Eb. congruence. }
  assert (forall x y r, clean x -> clean y -> outer_combine_with dbg mem mem c pf fuel x (ROwned y) = Ok r -> clean r) as Hrec.
  { intros x y r0 X Y. apply IH; [now right|now right|now left]. }
  destruct (Nat.eqb_spec (common_prefix ap bp) (length bp)) as [Hb|Hb].
  - stepE E a1 E1. stepE E a2 E2. stepE E ac Eac. stepE E bc Ebc. stepE E rs Ers. cbn [r_value_opt r_load_children] in *.
    destruct (facts_kids n m ap bp _ a1 a2 ac bc Nd Cn Cm Or Pn eq_refl E1 E2 Eac Ebc) as (F1 & F2 & F3).
    apply (finish_clean _ _ _ _ _ _ _ Hrec F1 F2 (load_some _ _ Ebc) F3 Ers E).
  - destruct (Nat.eqb_spec (common_prefix ap bp) (length ap)) as [Ha|Ha].
    + stepE E ac Eac. stepE E m' Em. stepE E rs Ers. cbn [r_clone_shortened] in Em.
      pose proof (facts_short n m bp ap _ m' Cm Pm eq_refl Hb Em Cn) as Cm'.
      eapply (finish_clean _ fuel n ac (it_single m')); [exact Hrec|apply (clean_kids _ _ Cn Eac)| | |right; right; discriminate|exact Ers|exact E].
      * constructor; [exact Cm'|constructor].
      * intros ms H. injection H as <-. eexists. split; [reflexivity|discriminate].
    + stepE E a1 E1. stepE E ac Eac. stepE E b' Em.
      apply (disjoint_clean fuel n m ap bp _ a1 ac b' r Cn Cm Pn Pm eq_refl Ha Hb E1 Eac Em E).
Qed.

Lemma outer_with_ok hc hf : conv_ok hc c -> f_ok hf pf ->
  forall fuel, rec_ok (fine (nodel pf)) (h_outer_with dbg hc hf fuel) (outer_combine_with dbg mem mem c pf fuel).
Proof.
  intros Ho Hf. induction fuel as [|fuel IH]; intros n m r E R B h G cn b I C Hb; [discriminate E|].
  cbn [outer_combine_with r_prefix] in E. stepE E ap Ea. stepE E bp Eb.
  destruct (prefixes_ok _ _ _ _ _ _ _ _ _ _ I C Hb Ea Eb) as (Pn & Pm & La & Lb).
  cbn [h_outer_with]. apply (wpk_read _ _ _ _ _ _ _ _ La). apply (wpk_read _ _ _ _ _ _ _ _ Lb). cbv zeta in *.
  pose proof (outer_kids (fine (nodel pf)) (fine1 (nodel pf)) (fine_cl _) _ _ IH hc c fuel Ho) as Hk.
  assert (nodel pf -> forall x y r, clean x -> clean y -> outer_combine_with dbg mem mem c pf fuel x (ROwned y) = Ok r -> clean r) as Hrec.
  { intros Nd x y r0 X Y. apply (outer_clean Nd); [now right|now right|now left]. }
  destruct (Nat.eqb_spec (common_prefix ap bp) (length bp)) as [Hlb|Hlb].
  - stepE E a1 E1. stepE E a2 E2. stepE E ac Eac. stepE E bc Ebc. stepE E rs Ers. cbn [r_value_opt r_load_children] in *.
    eapply (wpk_then _ _ a1).
    { destruct (common_prefix ap bp =? length ap); cbn [negb] in *.
      - assert (a1 = n) as -> by congruence. apply (wpk_owned_ret _ _ _ _ _ _ I C).
      - apply (wpk_split cn n ap _ a1 R B h G I C Ea E1). }
    intros c1 h1 G1 K1 I1 C1. pose proof (bor_keeps _ _ _ _ _ _ _ K1 Hb) as Hb1.
    eapply (wpk_then _ _ a2).
    { destruct (bor_value _ _ _ _ _ Hb1) as [Vb Db].
      pose proof (value_opt_ok _ _ _ (proj1 Hb1)) as Hv. rewrite (has_value_ok _ _ _ C1). unfold has_value.
      destruct (blob_opt (n_value m)) as [bv|].
      - destruct Hv as [-> ->]. destruct (blob_opt (n_value a1)) as [av|] eqn:Ev.
        + assert (av = n_value a1) as -> by (destruct (n_value a1) as [|[|]]; cbn in Ev; congruence).
          stepE E2 z Ez. assert (a2 = set_value a1 z) as -> by congruence.
          apply (wpk_combine_value hf pf Hf c1 a1 (n_value m) z _ R B h1 G1 I1 C1 Vb Db Ez).
        + stepE E2 z Ez. assert (a2 = set_value a1 z) as -> by congruence. rewrite (Hcv _ _ Ez).
          apply (wpk_convert_store c1 a1 (n_value m) _ R B h1 G1 I1 C1 Vb Db).
      - destruct Hv as [-> _]. assert (a2 = a1) as -> by congruence. apply (wpk_owned_ret _ _ _ _ _ _ I1 C1). }
    intros c2 h2 G2 K2 I2 C2.
    eapply wpk_npost; [|apply (branch_kids dbg (fine1 (nodel pf)) _ _ Hk c2 a2 b m ac bc rs r R B h2 G2 I2 C2 (bor_keeps _ _ _ _ _ _ _ K2 Hb1) Eac Ebc Ers E)].
    intros (Nd & Cn & Cm & Or).
    destruct (facts_kids n m ap bp _ a1 a2 ac bc Nd Cn Cm Or Pn eq_refl E1 E2 Eac Ebc) as (F1 & F2 & F3).
    split; [split; [now apply fine_all|now apply fine_ocl]|].
    apply (finish_clean _ _ _ _ _ _ _ (Hrec Nd) F1 F2 (load_some _ _ Ebc) F3 Ers E).
  - destruct (Nat.eqb_spec (common_prefix ap bp) (length ap)) as [Hla|Hla].
    + stepE E ac Eac. stepE E m' Em. stepE E rs Ers. cbn [r_clone_shortened] in Em.
      eapply wpk_npost; [|apply (branch_short dbg (fine1 (nodel pf)) _ _ Hk cn n b m m' _ ac rs r R B h G I C Hb Eac Em Ers E)].
      intros (Nd & Cn & Cm & Or). pose proof (facts_short n m bp ap _ m' Cm Pm eq_refl Hlb Em Cn) as Cm'.
      split; [split; [apply fine_all; [exact Nd|apply (clean_kids _ _ Cn Eac)]|now split]|].
      eapply (finish_clean _ fuel n ac (it_single m')); [exact (Hrec Nd)|apply (clean_kids _ _ Cn Eac)| | |right; right; discriminate|exact Ers|exact E].
      * constructor; [exact Cm'|constructor].
      * intros ms H. injection H as <-. eexists. split; [reflexivity|discriminate].
    + stepE E a1 E1. stepE E ac Eac. stepE E b' Em.
      eapply wpk_then; [apply (wpk_split cn n ap _ a1 R B h G I C Ea E1)|]. intros c1 h1 G1 K1 I1 C1.
      pose proof (bor_keeps _ _ _ _ _ _ _ K1 Hb) as Hb1.
      eapply wpk_npost; [|apply (wpk_finish dbg c1 a1 ac (match ac with [x] => sort2 x b' | _ => ac ++ [b'] end) r True _ R B h1 G1 I1 C1 Eac); [|exact E]].
      { intros (Nd & Cn & Cm & Or). split; [exact Logic.I|].
        apply (disjoint_clean fuel n m ap bp _ a1 ac b' r Cn Cm Pn Pm eq_refl Hla Hlb E1 Eac Em E). }
      intros R' h2 G2 K2 cs I2 F2. pose proof (bor_keeps _ _ _ _ _ _ _ K2 Hb1) as Hb2.
      assert (inv h2 G2 ((flat_map node_items cs ++ R') ++ B)) as J2 by rearr I2.
      eapply wpk_bind.
      { eapply (wpk_frame _ _ (flat_map node_items cs ++ R') R' B B _ h2 G2 J2); [occ_solve|occ_solve|occ_solve|].
        apply (proj1 (proj2 Ho) fuel _ m b' Em _ B h2 G2 b J2 Hb2). }
      cbn beta. intros y h3 G3 ([I3 C3] & S3) K3. pose proof (creps_keep _ _ _ _ _ _ _ S3 F2) as F3.
      unfold h_push_sorted. destruct F3 as [|x nx cs' ns' Cx Fs].
      * apply wpk_ret. apply lpost_id; [cbn [flat_map app] in *; rearr I3|]. constructor; [exact C3|constructor].
      * destruct Fs as [|x2 nx2 cs2 ns2 Cx2 Fs2].
        -- cbn [flat_map] in I3.
           assert (live h3 (node_items x)) as Lx. { apply (inv_live_roots _ _ _ _ I3). occ_solve. }
           assert (live h3 (node_items y)) as Ly. { apply (inv_live_roots _ _ _ _ I3). occ_solve. }
           apply (wpk_read _ _ _ _ _ _ _ _ (first_ok _ _ _ _ _ I3 Cx Lx)).
           apply (wpk_read _ _ _ _ _ _ _ _ (first_ok _ _ _ _ _ I3 C3 Ly)). apply wpk_ret. unfold sort2.
           destruct (cmp_ob (n_first nx) (n_first b')); (apply lpost_id; [cbn [flat_map]; rearr I3|constructor; [assumption|constructor; [assumption|constructor]]]).
        -- apply wpk_ret. apply lpost_id; [rewrite flat_map_app; cbn [flat_map] in *; rearr I3|].
           change (Forall2 (crep G3) ((x :: x2 :: cs2) ++ [y]) ((nx :: nx2 :: ns2) ++ [b'])).
           apply Forall2_app; [constructor; [exact Cx|constructor; assumption]|constructor; [exact C3|constructor]].
Qed.
End Outer.
