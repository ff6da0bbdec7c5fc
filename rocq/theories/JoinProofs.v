(** Correctness of the combines that build a new tree. *)
From Verif Require Import Base BaseLemmas Header Node Combine Tree Rep JoinBase.

Section NonInPlace.
Context (dbg : bool) (idsA idsB : bool) (rdA rdB : reader) (al : Prop).
Context (HdA : det rdA \/ al) (HdB : det rdB \/ al).
Context (f : blob -> blob -> res (option blob)) (h : bytes -> bytes -> option bytes).
Context (Hf : forall av bv x y, RepV rdA av (Some x) -> RepV rdB bv (Some y) ->
  okp al (f av bv) (fun r => option_map blob_slice r = h x y)).

Notation NA := (NRep idsA rdA al).
Notation NB := (NRep idsB rdB al).
Notation IA := (IRepT idsA rdA al).
Notation IB := (IRepT idsB rdB al).
Notation OA := (ORep idsA rdA al).
Notation OB := (ORep idsB rdB al).

Definition post (g : option bytes -> option bytes -> option bytes) (ta tb : tree) (n : node) : Prop :=
  exists t, DRep n t /\ is_empty n = tnil t /\ NJ g ta tb t.

Definition recok (g : option bytes -> option bytes -> option bytes)
    (rec : noderef -> noderef -> res node) (M : nat) : Prop :=
  forall ra rb ta tb, NA ra ta -> NB rb tb -> croot ta -> croot tb ->
    size ta + size tb <= M -> okp al (rec ra rb) (post g ta tb).

Definition kl (o : option (list node)) : list node := match o with Some l => l | None => [] end.

Definition kpost (g : option bytes -> option bytes -> option bytes) (xs ys : list tree)
    (l : list node) : Prop :=
  exists rs, Forall2 DRep l rs /\ KJL g xs ys rs.

Lemma kpost_nonempty g xs ys l : kpost g xs ys l -> kpost g xs ys (kl (nonempty_vec l)).
Proof. destruct l; auto. Qed.

Lemma opt_value_RepV r v : option_map blob_slice r = v -> RepV detached_read (opt_value r) v.
Proof. intros <-. destruct r; cbn; auto. Qed.

Lemma opt_detached_A ra p v cs : NA ra (T p v cs) ->
  okp al (opt_detached (r_value_opt ra)) (fun r => option_map blob_slice r = v).
Proof.
  intros H. apply NRep_value in H. destruct v as [x|].
  - destruct H as (b & -> & RV). cbn [opt_detached]. eapply okp_bind; [eapply (v_detached_ok rdA al); eauto|].
    intros ? ->. now apply okp_ok.
  - rewrite H. now apply okp_ok.
Qed.

Lemma opt_detached_B rb p v cs : NB rb (T p v cs) ->
  okp al (opt_detached (r_value_opt rb)) (fun r => option_map blob_slice r = v).
Proof.
  intros H. apply NRep_value in H. destruct v as [x|].
  - destruct H as (b & -> & RV). cbn [opt_detached]. eapply okp_bind; [eapply (v_detached_ok rdB al); eauto|].
    intros ? ->. now apply okp_ok.
  - rewrite H. now apply okp_ok.
Qed.

(* ------------------------------------------------------------------ *)
(** Children loops. *)
Section Loops.
Context (g : option bytes -> option bytes -> option bytes) (g0 : g None None = None).
Context (rec : noderef -> noderef -> res node) (M : nat) (Hrec : recok g rec M).

Lemma both_ok r n ta tb xs ys rs ns x q q' :
  post g ta tb n -> Forall2 DRep ns rs -> KJL g xs ys rs ->
  cc ta -> tp ta = x :: q -> tp tb = x :: q' -> above x xs -> above x ys ->
  r = (if is_empty n then ns else n :: ns) ->
  kpost g (ta :: xs) (tb :: ys) r.
Proof.
  intros (t & R & Em & Hr & Hl) F K Ca Ea Eb Aa Ab ->.
  exists (if tnil t then rs else t :: rs). split.
  - rewrite Em. destruct (tnil t); auto.
  - eapply (KJ_both None lookup g g0) with (a := ta) (b := tb) (r := t); eauto.
    intros k. now apply lookup_not_starts with (x := x) (q := q').
Qed.

Lemma outer_loop_ok (gR : forall o, g o None = o) (gL' : forall o, g None o = o) :
  forall fuel ita itb xs ys,
  IA ita xs -> IB itb ys -> ksorted xs -> ksorted ys -> Forall cc xs -> Forall cc ys ->
  sizes xs + sizes ys <= M -> sizes xs + sizes ys + 1 < fuel ->
  okp al (outer_loop rdA rdB rec fuel ita itb) (kpost g xs ys).
Proof.
  induction fuel as [|fuel IH]; intros ita itb xs ys Ia Ib Sa Sb Ca Cb HM Hfu; [lia|].
  cbn [outer_loop].
  destruct (oj_next_cases idsA idsB rdA rdB al _ _ _ _ Ia Ib Sa Sb Ca Cb)
    as [-> -> -> | a xs' x q ra ita' -> E Aa Ab R I' -> | b ys' y q rb itb' -> E Aa Ab R I' ->
       | a b xs' ys' x q q' ra rb ita' itb' -> -> Ea Eb Aa Ab Ra Ia' Rb Ib' ->]; cbn [bind].
  - apply okp_ok. exists []. split; [constructor|]. now apply KJ_nil.
  - rewrite sizes_cons in *. inversion Ca; subst. pose proof (size_pos a).
    destruct (r_detached_ok idsA rdA al fuel ra a R) as (m & -> & Rm & _); [lia|]. cbn [bind].
    eapply okp_bind; [apply (IH ita' itb xs' ys); eauto using ksorted_tail; lia|].
    intros ns (rs & Fn & K). apply okp_ok. rewrite (DRep_tnil _ _ Rm (cc_tnil _ H1)).
    exists (a :: rs). split; [constructor; auto|]. eapply KJ_a; eauto.
  - rewrite sizes_cons in *. inversion Cb; subst. pose proof (size_pos b).
    destruct (r_detached_ok idsB rdB al fuel rb b R) as (m & -> & Rm & _); [lia|]. cbn [bind].
    eapply okp_bind; [apply (IH ita itb' xs ys'); eauto using ksorted_tail; lia|].
    intros ns (rs & Fn & K). apply okp_ok. rewrite (DRep_tnil _ _ Rm (cc_tnil _ H1)).
    exists (b :: rs). split; [constructor; auto|]. eapply KJ_b; eauto.
  - rewrite !sizes_cons in *. inversion Ca; inversion Cb; subst.
    pose proof (size_pos a). pose proof (size_pos b).
    eapply okp_bind; [apply (Hrec ra rb a b); auto using cc_croot; lia|].
    intros n Hn. eapply okp_bind; [apply (IH ita' itb' xs' ys'); eauto using ksorted_tail; lia|].
    intros ns (rs & Fn & K). apply okp_ok. eapply both_ok; eauto.
Qed.

Lemma outer_children_ok (gR : forall o, g o None = o) (gL' : forall o, g None o = o) fuel oa ob xs ys :
  OA oa xs -> OB ob ys -> ksorted xs -> ksorted ys -> Forall cc xs -> Forall cc ys ->
  sizes xs + sizes ys <= M -> sizes xs + sizes ys + 1 < fuel ->
  okp al (outer_children rdA rdB rec fuel oa ob) (fun o => kpost g xs ys (kl o)).
Proof.
  intros Oa Ob Sa Sb Ca Cb HM Hfu. unfold outer_children. destruct oa as [ita|], ob as [itb|]; cbn in Oa, Ob.
  - destruct Oa as [_ Oa], Ob as [_ Ob]. eapply okp_bind; [eapply outer_loop_ok; eauto|]. intros l Hl. apply okp_ok.
    now apply kpost_nonempty.
  - subst ys. destruct Oa as [N Ia].
    eapply okp_weaken; [eapply it_detached_ok; eauto; lia|auto|].
    intros o (ns & -> & F). exists xs. split; [exact F|]. now apply KJ_nil_r_keep.
  - subst xs. destruct Ob as [N Ib]. cbn in *.
    eapply okp_weaken; [eapply it_detached_ok; eauto; lia|auto|].
    intros o (ns & -> & F). exists ys. split; [exact F|].
    split; auto; cbn; lia.
  - subst. apply okp_ok. exists []. split; [constructor|]. now apply KJ_nil.
Qed.

Lemma inner_loop_ok (gR : forall o, g o None = None) (gL' : forall o, g None o = None) :
  forall fuel ita itb xs ys,
  IA ita xs -> IB itb ys -> ksorted xs -> ksorted ys -> Forall cc xs -> Forall cc ys ->
  sizes xs + sizes ys <= M -> sizes xs + sizes ys + 1 < fuel ->
  okp al (inner_loop rec fuel ita itb) (kpost g xs ys).
Proof.
  induction fuel as [|fuel IH]; intros ita itb xs ys Ia Ib Sa Sb Ca Cb HM Hfu; [lia|].
  cbn [inner_loop].
  destruct (oj_next_cases idsA idsB rdA rdB al _ _ _ _ Ia Ib Sa Sb Ca Cb)
    as [-> -> -> | a xs' x q ra ita' -> E Aa Ab R I' -> | b ys' y q rb itb' -> E Aa Ab R I' ->
       | a b xs' ys' x q q' ra rb ita' itb' -> -> Ea Eb Aa Ab Ra Ia' Rb Ib' ->]; cbn [bind].
  - apply okp_ok. exists []. split; [constructor|]. now apply KJ_nil.
  - rewrite sizes_cons in *. inversion Ca; subst. pose proof (size_pos a).
    eapply okp_weaken; [apply (IH ita' itb xs' ys); eauto using ksorted_tail; lia|auto|].
    intros ns (rs & Fn & K). exists rs. split; [auto|]. eapply KJ_a_drop; eauto.
  - rewrite sizes_cons in *. inversion Cb; subst. pose proof (size_pos b).
    eapply okp_weaken; [apply (IH ita itb' xs ys'); eauto using ksorted_tail; lia|auto|].
    intros ns (rs & Fn & K). exists rs. split; [auto|]. eapply KJ_b_drop; eauto.
  - rewrite !sizes_cons in *. inversion Ca; inversion Cb; subst.
    pose proof (size_pos a). pose proof (size_pos b).
    eapply okp_bind; [apply (Hrec ra rb a b); auto using cc_croot; lia|].
    intros n Hn. eapply okp_bind; [apply (IH ita' itb' xs' ys'); eauto using ksorted_tail; lia|].
    intros ns (rs & Fn & K). apply okp_ok. eapply both_ok; eauto.
Qed.

Lemma inner_children_ok (gR : forall o, g o None = None) (gL' : forall o, g None o = None) fuel oa ob xs ys :
  OA oa xs -> OB ob ys -> ksorted xs -> ksorted ys -> Forall cc xs -> Forall cc ys ->
  sizes xs + sizes ys <= M -> sizes xs + sizes ys + 1 < fuel ->
  okp al (inner_children rec fuel oa ob) (fun o => kpost g xs ys (kl o)).
Proof.
  intros Oa Ob Sa Sb Ca Cb HM Hfu. unfold inner_children. destruct oa as [ita|], ob as [itb|]; cbn in Oa, Ob.
  - destruct Oa as [_ Oa], Ob as [_ Ob]. eapply okp_bind; [eapply inner_loop_ok; eauto|]. intros l Hl. apply okp_ok.
    now apply kpost_nonempty.
  - subst ys. apply okp_ok. exists []. split; [constructor|]. now apply KJ_nil_r_drop.
  - subst xs. apply okp_ok. exists []. split; [constructor|]. now apply KJ_nil_l.
  - subst. apply okp_ok. exists []. split; [constructor|]. now apply KJ_nil.
Qed.

Lemma left_loop_ok (gR : forall o, g o None = o) (gL' : forall o, g None o = None) :
  forall fuel ita itb xs ys,
  IA ita xs -> IB itb ys -> ksorted xs -> ksorted ys -> Forall cc xs -> Forall cc ys ->
  sizes xs + sizes ys <= M -> sizes xs + sizes ys + 1 < fuel ->
  okp al (left_loop rdA rec fuel ita itb) (kpost g xs ys).
Proof.
  induction fuel as [|fuel IH]; intros ita itb xs ys Ia Ib Sa Sb Ca Cb HM Hfu; [lia|].
  cbn [left_loop].
  destruct (oj_next_cases idsA idsB rdA rdB al _ _ _ _ Ia Ib Sa Sb Ca Cb)
    as [-> -> -> | a xs' x q ra ita' -> E Aa Ab R I' -> | b ys' y q rb itb' -> E Aa Ab R I' ->
       | a b xs' ys' x q q' ra rb ita' itb' -> -> Ea Eb Aa Ab Ra Ia' Rb Ib' ->]; cbn [bind].
  - apply okp_ok. exists []. split; [constructor|]. now apply KJ_nil.
  - rewrite sizes_cons in *. inversion Ca; subst. pose proof (size_pos a).
    destruct (r_detached_ok idsA rdA al fuel ra a R) as (m & -> & Rm & _); [lia|]. cbn [bind].
    eapply okp_bind; [apply (IH ita' itb xs' ys); eauto using ksorted_tail; lia|].
    intros ns (rs & Fn & K). apply okp_ok.
    exists (a :: rs). split; [constructor; auto|]. eapply KJ_a; eauto.
  - rewrite sizes_cons in *. inversion Cb; subst. pose proof (size_pos b).
    eapply okp_weaken; [apply (IH ita itb' xs ys'); eauto using ksorted_tail; lia|auto|].
    intros ns (rs & Fn & K). exists rs. split; [auto|]. eapply KJ_b_drop; eauto.
  - rewrite !sizes_cons in *. inversion Ca; inversion Cb; subst.
    pose proof (size_pos a). pose proof (size_pos b).
    eapply okp_bind; [apply (Hrec ra rb a b); auto using cc_croot; lia|].
    intros n Hn. eapply okp_bind; [apply (IH ita' itb' xs' ys'); eauto using ksorted_tail; lia|].
    intros ns (rs & Fn & K). apply okp_ok. eapply both_ok; eauto.
Qed.

Lemma left_children_ok (gR : forall o, g o None = o) (gL' : forall o, g None o = None) fuel oa ob xs ys :
  OA oa xs -> OB ob ys -> ksorted xs -> ksorted ys -> Forall cc xs -> Forall cc ys ->
  sizes xs + sizes ys <= M -> sizes xs + sizes ys + 1 < fuel ->
  okp al (left_children rdA rec fuel oa ob) (fun o => kpost g xs ys (kl o)).
Proof.
  intros Oa Ob Sa Sb Ca Cb HM Hfu. unfold left_children. destruct oa as [ita|], ob as [itb|]; cbn in Oa, Ob.
  - destruct Oa as [_ Oa], Ob as [_ Ob]. eapply okp_bind; [eapply left_loop_ok; eauto|]. intros l Hl. apply okp_ok.
    now apply kpost_nonempty.
  - subst ys. destruct Oa as [N Ia].
    eapply okp_weaken; [eapply it_detached_ok; eauto; lia|auto|].
    intros o (ns & -> & F). exists xs. split; [exact F|]. now apply KJ_nil_r_keep.
  - subst xs. apply okp_ok. exists []. split; [constructor|]. now apply KJ_nil_l.
  - subst. apply okp_ok. exists []. split; [constructor|]. now apply KJ_nil.
Qed.
End Loops.

(** Finishing a node. *)
Lemma finish_post g ta tb p va vb xs ys value v o :
  g None None = None ->
  option_map blob_slice value = v -> v = g va vb ->
  kpost g xs ys (kl o) ->
  (forall k, lookup ta k = rawlook p va xs k) ->
  (forall k, lookup tb k = rawlook p vb ys k) ->
  okp al (finish dbg p value o) (post g ta tb).
Proof.
  intros g0 HV Hv (rs & F & K) Ha Hb.
  destruct (finish_ok dbg p value v o rs) as (n & -> & R & Em); auto.
  - now apply opt_value_RepV.
  - now apply (KJ_cc _ _ _ _ _ _ K).
  - apply okp_ok. exists (mk p v rs). split; [exact R|]. split; [exact Em|].
    rewrite Hv. eapply NJ_mk; eauto.
Qed.

Lemma raw_eq t : forall k, lookup t k = rawlook (tp t) (tv t) (tc t) k.
Proof. destruct t. intros. apply lookup_raw. Qed.

Lemma OA_single n t : Rep idsA rdA n t -> OA (it_single n) [t].
Proof. intros H. split; [discriminate|]. now apply IRepT_single. Qed.
Lemma OB_single n t : Rep idsB rdB n t -> OB (it_single n) [t].
Proof. intros H. split; [discriminate|]. now apply IRepT_single. Qed.

Theorem outer_combine_ok : forall fuel, recok (gO h) (outer_combine dbg rdA rdB f fuel) (fuel - 2).
Proof.
  set (g := gO h).
  assert (gR : forall o, g o None = o) by (intros [|]; reflexivity).
  assert (gl : forall o, g None o = o) by reflexivity.
  assert (g0 : g None None = None) by reflexivity.
  induction fuel as [|fuel IH]; intros ra rb ta tb Ra Rb Ca Cb Hs;
    [pose proof (size_pos ta); cbn in Hs; lia|].
  destruct ta as [ap va xs], tb as [bp vb ys]. cbn [outer_combine].
  rewrite (NRep_prefix _ _ _ _ _ _ _ Ra), (NRep_prefix _ _ _ _ _ _ _ Rb). cbn [bind].
  destruct (croot_kids _ Ca) as [Sa Ka]. destruct (croot_kids _ Cb) as [Sb Kb]. cbn [tc] in *.
  rewrite !size_T in Hs.
  destruct (NRep_children _ _ _ HdA _ _ _ _ Ra) as (oa & Ea & Oa).
  destruct (NRep_children _ _ _ HdB _ _ _ _ Rb) as (ob & Eb & Ob).
  pose proof (opt_detached_A _ _ _ _ Ra) as DA. pose proof (opt_detached_B _ _ _ _ Rb) as DB.
  pose proof (NRep_value _ _ _ _ _ _ _ Ra) as VA. pose proof (NRep_value _ _ _ _ _ _ _ Rb) as VB.
  destruct (edges_cases ap bp) as [E1 E2 E3|E1 E2 E3|E1 E2 E3|x y E1 E2 E3 Ex Ey Nxy];
    set (n := common_prefix ap bp) in *; edge_tests.
  - (* equal edges *)
    subst bp. eapply okp_bind with (P := fun value => option_map blob_slice value = g va vb).
    { destruct vb as [y|].
      - destruct VB as (bv & -> & RVb). destruct va as [x|].
        + destruct VA as (av & -> & RVa). now apply Hf.
        + rewrite VA. eapply okp_bind; [eapply (v_detached_ok rdB al); eauto|]. intros ? ->. now apply okp_ok.
      - rewrite VB. rewrite gR. exact DA. }
    intros value HV. cbv beta in HV. rewrite Ea. cbn [bind]. rewrite Eb. cbn [bind].
    eapply okp_bind; [eapply outer_children_ok with (M := fuel - 2) (xs := xs) (ys := ys); eauto; lia|].
    intros o Ho. cbv beta in Ho. rewrite E2, firstn_all.
    eapply finish_post with (va := va) (vb := vb); eauto; intros; apply lookup_raw.
  - (* the left edge is shorter *)
    eapply okp_bind; [exact DA|]. intros value HV. cbv beta in HV. rewrite Ea. cbn [bind].
    eapply okp_bind; [eapply r_clone_shortened_ok with (t := T bp vb ys); cbn; eauto; lia|].
    intros b' [Rb' _].
    eapply okp_bind; [eapply outer_children_ok with (M := fuel - 2) (xs := xs) (ys := [shorten n (T bp vb ys)]);
      eauto using OB_single, cc_single_sorted; rewrite ?sizes_single, ?size_shorten, ?size_T; try lia|].
    { constructor; [now apply shorten_cc|constructor]. }
    intros o Ho. cbv beta in Ho.
    assert (firstn n ap = firstn n bp) as Ep by (rewrite E3, E1; apply firstn_all).
    eapply finish_post with (va := va) (vb := None); eauto.
    + intros k. now apply rawlook_full.
    + intros k. rewrite Ep. now apply (rawlook_shorten (T bp vb ys)).
  - (* the right edge is shorter *)
    eapply okp_bind; [exact DB|]. intros value HV. cbv beta in HV.
    eapply okp_bind; [eapply r_clone_shortened_ok with (t := T ap va xs); cbn; eauto; lia|].
    intros a' [Ra' _]. rewrite Eb. cbn [bind].
    eapply okp_bind; [eapply outer_children_ok with (M := fuel - 2) (xs := [shorten n (T ap va xs)]) (ys := ys);
      eauto using OA_single, cc_single_sorted; rewrite ?sizes_single, ?size_shorten, ?size_T; try lia|].
    { constructor; [now apply shorten_cc|constructor]. }
    intros o Ho. cbv beta in Ho.
    assert (firstn n ap = firstn n bp) as Ep by (rewrite E3, E1; symmetry; apply firstn_all).
    eapply finish_post with (va := None) (vb := vb); eauto.
    + intros k. now apply (rawlook_shorten (T ap va xs)).
    + intros k. rewrite Ep. now apply rawlook_full.
  - (* disjoint *)
    cbn [conv_node_shortened detach_converter].
    eapply okp_bind with (P := fun n' => DRep n' (shorten n (T ap va xs))).
    { eapply okp_bind; [eapply r_clone_shortened_ok with (t := T ap va xs); cbn; eauto; lia|].
      intros a' [Ra' _].
      destruct (r_detached_ok idsA rdA al fuel (ROwned a') (shorten n (T ap va xs))) as (m & -> & Rm & _).
      - now apply Rep_NRep.
      - rewrite size_shorten, size_T. lia.
      - now apply okp_ok. }
    intros a' Ra'.
    eapply okp_bind with (P := fun n' => DRep n' (shorten n (T bp vb ys))).
    { eapply okp_bind; [eapply r_clone_shortened_ok with (t := T bp vb ys); cbn; eauto; lia|].
      intros b' [Rb' _].
      destruct (r_detached_ok idsB rdB al fuel (ROwned b') (shorten n (T bp vb ys))) as (m & -> & Rm & _).
      - now apply Rep_NRep.
      - rewrite size_shorten, size_T. lia.
      - now apply okp_ok. }
    intros b' Rb'.
    destruct (tp_shorten_nth (T ap va xs) n x Ex) as [qa Eqa].
    destruct (tp_shorten_nth (T bp vb ys) n y Ey) as [qb Eqb].
    pose proof (shorten_cc n _ Ca E1) as Ca'. pose proof (shorten_cc n _ Cb E2) as Cb'.
    rewrite Ex, Ey. cbn [cmp_ob].
    eapply finish_post with (g := g) (va := None) (vb := None) (v := None)
      (xs := [shorten n (T ap va xs)]) (ys := [shorten n (T bp vb ys)]); auto.
    + destruct (N.compare_spec (bnum x) (bnum y)) as [C|C|C].
      * now apply bnum_inj in C.
      * exists [shorten n (T ap va xs); shorten n (T bp vb ys)]. split; [repeat constructor; auto|].
        eapply KJ_a; eauto; [constructor| |].
        -- apply above_cons. rewrite Eqb. split; [exact C|constructor].
        -- eapply KJ_b; eauto; [constructor|constructor|now apply KJ_nil].
      * exists [shorten n (T bp vb ys); shorten n (T ap va xs)]. split; [repeat constructor; auto|].
        eapply KJ_b; eauto; [|constructor|].
        -- apply above_cons. rewrite Eqa. split; [exact C|constructor].
        -- eapply KJ_a; eauto; [constructor|constructor|now apply KJ_nil].
    + intros k. now apply (rawlook_shorten (T ap va xs)).
    + intros k. rewrite E3. now apply (rawlook_shorten (T bp vb ys)).
Qed.

(** No key below two different edges is in both trees. *)
Lemma disjoint_keys ap bp va vb xs ys n x y k :
  n < length ap -> n < length bp -> firstn n ap = firstn n bp ->
  nth_error ap n = Some x -> nth_error bp n = Some y -> x <> y ->
  lookup (T ap va xs) k <> None -> lookup (T bp vb ys) k = None.
Proof.
  intros E1 E2 E3 Ex Ey Nxy H.
  rewrite (rawlook_shorten (T ap va xs) k n E1) in H. cbn [tp] in H.
  rewrite (rawlook_shorten (T bp vb ys) k n E2). cbn [tp]. rewrite <- E3. unfold rawlook in *.
  destruct (strip (firstn n ap) k) as [[|c r]|]; auto.
  destruct (tp_shorten_nth (T ap va xs) n x Ex) as [qa Eqa].
  destruct (tp_shorten_nth (T bp vb ys) n y Ey) as [qb Eqb].
  cbn [lkids] in *. unfold starts in *. rewrite Eqa in H. rewrite Eqb.
  destruct (byte_eqb_spec x c); [subst|congruence].
  destruct (byte_eqb_spec y c); [congruence|reflexivity].
Qed.

Theorem inner_combine_ok : forall fuel, recok (gI h) (inner_combine dbg rdA rdB f fuel) (fuel - 2).
Proof.
  set (g := gI h).
  assert (gR : forall o, g o None = None) by (intros [|]; reflexivity).
  assert (gl : forall o, g None o = None) by reflexivity.
  assert (g0 : g None None = None) by reflexivity.
  induction fuel as [|fuel IH]; intros ra rb ta tb Ra Rb Ca Cb Hs;
    [pose proof (size_pos ta); cbn in Hs; lia|].
  destruct ta as [ap va xs], tb as [bp vb ys]. cbn [inner_combine].
  rewrite (NRep_prefix _ _ _ _ _ _ _ Ra), (NRep_prefix _ _ _ _ _ _ _ Rb). cbn [bind].
  destruct (croot_kids _ Ca) as [Sa Ka]. destruct (croot_kids _ Cb) as [Sb Kb]. cbn [tc] in *.
  rewrite !size_T in Hs.
  destruct (NRep_children _ _ _ HdA _ _ _ _ Ra) as (oa & Ea & Oa).
  destruct (NRep_children _ _ _ HdB _ _ _ _ Rb) as (ob & Eb & Ob).
  pose proof (NRep_value _ _ _ _ _ _ _ Ra) as VA. pose proof (NRep_value _ _ _ _ _ _ _ Rb) as VB.
  destruct (edges_cases ap bp) as [E1 E2 E3|E1 E2 E3|E1 E2 E3|x y E1 E2 E3 Ex Ey Nxy];
    set (n := common_prefix ap bp) in *; edge_tests.
  - (* equal edges *)
    subst bp. eapply okp_bind with (P := fun value => option_map blob_slice value = g va vb).
    { destruct vb as [y|].
      - destruct VB as (bv & -> & RVb). destruct va as [x|].
        + destruct VA as (av & -> & RVa). now apply Hf.
        + rewrite VA. now apply okp_ok.
      - rewrite VB. rewrite gR. now apply okp_ok. }
    intros value HV. cbv beta in HV. rewrite Ea. cbn [bind]. rewrite Eb. cbn [bind].
    eapply okp_bind; [eapply inner_children_ok with (M := fuel - 2) (xs := xs) (ys := ys); eauto; lia|].
    intros o Ho. cbv beta in Ho. rewrite E2, firstn_all.
    eapply finish_post with (va := va) (vb := vb); eauto; intros; apply lookup_raw.
  - (* the left edge is shorter *)
    rewrite Ea. cbn [bind].
    eapply okp_bind; [eapply r_clone_shortened_ok with (t := T bp vb ys); cbn; eauto; lia|].
    intros b' [Rb' _].
    eapply okp_bind; [eapply inner_children_ok with (M := fuel - 2) (xs := xs) (ys := [shorten n (T bp vb ys)]);
      eauto using OB_single, cc_single_sorted; rewrite ?sizes_single, ?size_shorten, ?size_T; try lia|].
    { constructor; [now apply shorten_cc|constructor]. }
    intros o Ho. cbv beta in Ho.
    assert (firstn n ap = firstn n bp) as Ep by (rewrite E3, E1; apply firstn_all).
    eapply finish_post with (g := g) (va := va) (vb := None) (v := None); eauto.
    + intros k. now apply rawlook_full.
    + intros k. rewrite Ep. now apply (rawlook_shorten (T bp vb ys)).
  - (* the right edge is shorter *)
    eapply okp_bind; [eapply r_clone_shortened_ok with (t := T ap va xs); cbn; eauto; lia|].
    intros a' [Ra' _]. rewrite Eb. cbn [bind].
    eapply okp_bind; [eapply inner_children_ok with (M := fuel - 2) (xs := [shorten n (T ap va xs)]) (ys := ys);
      eauto using OA_single, cc_single_sorted; rewrite ?sizes_single, ?size_shorten, ?size_T; try lia|].
    { constructor; [now apply shorten_cc|constructor]. }
    intros o Ho. cbv beta in Ho.
    assert (firstn n ap = firstn n bp) as Ep by (rewrite E3, E1; symmetry; apply firstn_all).
    eapply finish_post with (g := g) (va := None) (vb := vb) (v := None); eauto.
    + intros k. now apply (rawlook_shorten (T ap va xs)).
    + intros k. rewrite Ep. now apply rawlook_full.
  - (* disjoint *)
    destruct (finish_ok dbg (firstn n ap) None None None []) as (m & -> & R & Em); [reflexivity|constructor..|].
    apply okp_ok. exists tempty. split; [exact R|]. split; [exact Em|]. split; [now left|].
    intros k. rewrite tempty_lookup.
    destruct (lookup (T ap va xs) k) eqn:El; [|reflexivity].
    rewrite (disjoint_keys ap bp va vb xs ys n x y k); auto; congruence.
Qed.

Theorem left_combine_ok : forall fuel, recok (gL h) (left_combine dbg rdA rdB f fuel) (fuel - 2).
Proof.
  set (g := gL h).
  assert (gR : forall o, g o None = o) by (intros [|]; reflexivity).
  assert (gl : forall o, g None o = None) by reflexivity.
  assert (g0 : g None None = None) by reflexivity.
  induction fuel as [|fuel IH]; intros ra rb ta tb Ra Rb Ca Cb Hs;
    [pose proof (size_pos ta); cbn in Hs; lia|].
  destruct ta as [ap va xs], tb as [bp vb ys]. cbn [left_combine].
  rewrite (NRep_prefix _ _ _ _ _ _ _ Ra), (NRep_prefix _ _ _ _ _ _ _ Rb). cbn [bind].
  destruct (croot_kids _ Ca) as [Sa Ka]. destruct (croot_kids _ Cb) as [Sb Kb]. cbn [tc] in *.
  rewrite !size_T in Hs.
  destruct (NRep_children _ _ _ HdA _ _ _ _ Ra) as (oa & Ea & Oa).
  destruct (NRep_children _ _ _ HdB _ _ _ _ Rb) as (ob & Eb & Ob).
  pose proof (opt_detached_A _ _ _ _ Ra) as DA.
  pose proof (NRep_value _ _ _ _ _ _ _ Ra) as VA. pose proof (NRep_value _ _ _ _ _ _ _ Rb) as VB.
  destruct (edges_cases ap bp) as [E1 E2 E3|E1 E2 E3|E1 E2 E3|x y E1 E2 E3 Ex Ey Nxy];
    set (n := common_prefix ap bp) in *; edge_tests.
  - (* equal edges *)
    subst bp. eapply okp_bind with (P := fun value => option_map blob_slice value = g va vb).
    { destruct va as [x|].
      - destruct VA as (av & -> & RVa). destruct vb as [y|].
        + destruct VB as (bv & -> & RVb). now apply Hf.
        + rewrite VB. eapply okp_bind; [eapply (v_detached_ok rdA al); eauto|]. intros ? ->. now apply okp_ok.
      - rewrite VA. now apply okp_ok. }
    intros value HV. cbv beta in HV. rewrite Ea. cbn [bind]. rewrite Eb. cbn [bind].
    eapply okp_bind; [eapply left_children_ok with (M := fuel - 2) (xs := xs) (ys := ys); eauto; lia|].
    intros o Ho. cbv beta in Ho. rewrite E2, firstn_all.
    eapply finish_post with (va := va) (vb := vb); eauto; intros; apply lookup_raw.
  - (* the left edge is shorter *)
    eapply okp_bind; [exact DA|]. intros value HV. cbv beta in HV. rewrite Ea. cbn [bind].
    eapply okp_bind; [eapply r_clone_shortened_ok with (t := T bp vb ys); cbn; eauto; lia|].
    intros b' [Rb' _].
    eapply okp_bind; [eapply left_children_ok with (M := fuel - 2) (xs := xs) (ys := [shorten n (T bp vb ys)]);
      eauto using OB_single, cc_single_sorted; rewrite ?sizes_single, ?size_shorten, ?size_T; try lia|].
    { constructor; [now apply shorten_cc|constructor]. }
    intros o Ho. cbv beta in Ho.
    assert (firstn n ap = firstn n bp) as Ep by (rewrite E3, E1; apply firstn_all).
    eapply finish_post with (va := va) (vb := None); eauto.
    + intros k. now apply rawlook_full.
    + intros k. rewrite Ep. now apply (rawlook_shorten (T bp vb ys)).
  - (* the right edge is shorter *)
    eapply okp_bind; [eapply r_clone_shortened_ok with (t := T ap va xs); cbn; eauto; lia|].
    intros a' [Ra' _]. rewrite Eb. cbn [bind].
    eapply okp_bind; [eapply left_children_ok with (M := fuel - 2) (xs := [shorten n (T ap va xs)]) (ys := ys);
      eauto using OA_single, cc_single_sorted; rewrite ?sizes_single, ?size_shorten, ?size_T; try lia|].
    { constructor; [now apply shorten_cc|constructor]. }
    intros o Ho. cbv beta in Ho.
    assert (firstn n ap = firstn n bp) as Ep by (rewrite E3, E1; symmetry; apply firstn_all).
    eapply finish_post with (g := g) (va := None) (vb := vb) (v := None); eauto.
    + intros k. now apply (rawlook_shorten (T ap va xs)).
    + intros k. rewrite Ep. now apply rawlook_full.
  - (* disjoint *)
    destruct (r_detached_ok idsA rdA al fuel ra (T ap va xs) Ra) as (m & -> & Rm & _);
      [rewrite size_T; lia|].
    apply okp_ok. exists (T ap va xs). split; [exact Rm|]. split.
    + assert (tnil (T ap va xs) = false) as N.
      { destruct (tnil (T ap va xs)) eqn:N; [|reflexivity]. apply croot_tnil in N; [|exact Ca].
        unfold tempty in N. injection N as -> _ _. cbn in E1. lia. }
      rewrite N. now apply DRep_tnil with (T ap va xs).
    + split; [exact Ca|]. intros k. destruct (lookup (T ap va xs) k) eqn:El; [|reflexivity].
      rewrite (disjoint_keys ap bp va vb xs ys n x y k); auto; congruence.
Qed.
End NonInPlace.
