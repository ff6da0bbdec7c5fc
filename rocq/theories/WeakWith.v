(** The in-place combines on trees that need not be canonical (see WeakFind.v): the
    counterparts of WithProofs.v and PrefixProofs.v.  Edges are stored inline. *)
From Verif Require Import Base BaseLemmas Header Node Combine Tree Rep JoinBase JoinProofs WithProofs PrefixProofs
  WeakFind WeakJoin.

Section InPlace.
Context (dbg : bool) (idsB : bool) (rdA rdB : reader) (al : Prop).
Context (HdB : det rdB \/ al).

Notation NB := (NRep idsB rdB al).
Notation IB := (IRepT idsB rdB al).
Notation OB := (ORep idsB rdB al).
Notation RA := (Rep false rdA).

Section Generic.
Context {B : Type} (d : B) (ob : tree -> bytes -> B) (g : option bytes -> B -> option bytes).
Context (g0 : g None d = None).

Definition WWJ (ta tb t : tree) : Prop :=
  wroot t /\ (forall k, lookup t k = g (lookup ta k) (ob tb k)) /\
  (forall x q q', tp ta = x :: q -> tp tb = x :: q' -> tnil t = true \/ exists r, tp t = x :: r).

Definition wpost (ta tb : tree) (n : node) : Prop :=
  exists t, RA n t /\ is_empty n = tnil t /\ WWJ ta tb t.

Context (Q : tree -> Prop).

Definition wrec (rec : node -> noderef -> res node) (M : nat) : Prop :=
  forall na rb ta tb, RA na ta -> NB rb tb -> wroot ta -> wroot tb -> Q tb ->
    size ta + size tb <= M -> okp al (rec na rb) (wpost ta tb).

Definition wkpost (xs ys : list tree) (l : list node) : Prop :=
  exists rs, Forall2 RA l rs /\ WK d ob g xs ys rs.

Context (rec : node -> noderef -> res node) (M : nat) (Hrec : wrec rec M).

Lemma bothw_ok r n ta tb xs ys rs ns x q q' :
  wpost ta tb n -> Forall2 RA ns rs -> WK d ob g xs ys rs ->
  tp ta = x :: q -> tp tb = x :: q' -> above x xs -> above x ys ->
  r = (if is_empty n then ns else n :: ns) ->
  wkpost (ta :: xs) (tb :: ys) r.
Proof.
  intros (t & R & Em & Hr & Hl & Hp) F K Ea Eb Aa Ab ->.
  exists (if tnil t then rs else t :: rs). split.
  - rewrite Em. destruct (tnil t); auto.
  - eapply WK_both with (a := ta) (b := tb) (r := t); eauto.
Qed.
Lemma left_with_loop_ok (gR : forall o, g o d = o) (gl : forall o, g None o = None) :
  forall fuel na itb xs ys,
  Forall2 RA na xs -> IB itb ys -> ksorted xs -> ksorted ys -> Forall wcc xs -> Forall wcc ys ->
  Forall Q ys -> sizes xs + sizes ys <= M -> sizes xs + sizes ys + 1 < fuel ->
  okp al (left_with_loop rec fuel na itb) (wkpost xs ys).
Proof.
  induction fuel as [|fuel IH]; intros na itb xs ys Ia Ib Sa Sb Ca Cb HQ HM Hfu; [lia|].
  cbn [left_with_loop].
  destruct (w_cmp_cases false idsB rdA rdB al _ _ _ _ Ia Ib Sa Sb Ca Cb)
    as [-> -> -> -> | a xs' x q m na' -> -> E Aa Ab R I' -> | b ys' y q rb itb' -> E Aa Ab R I' N ->
       | a b xs' ys' x q q' m na' rb itb' -> -> -> Ea Eb Aa Ab Ra Ia' Rb Ib' N ->]; cbn [bind].
  - apply okp_ok. exists []. split; [constructor|]. now apply WK_nil.
  - rewrite sizes_cons in *. inversion Ca; subst. pose proof (size_pos a).
    eapply okp_bind; [apply (IH na' itb xs' ys); eauto using ksorted_tail; lia|].
    intros ns (rs & Fn & K). apply okp_ok.
    exists (a :: rs). split; [constructor; auto|]. eapply WK_a; eauto.
  - rewrite N. rewrite sizes_cons in *. inversion Cb; inversion HQ; subst. pose proof (size_pos b).
    eapply okp_weaken; [apply (IH na itb' xs ys'); eauto using ksorted_tail; lia|auto|].
    intros ns (rs & Fn & K). exists rs. split; [auto|]. eapply WK_b_drop; eauto.
  - rewrite N. rewrite !sizes_cons in *. inversion Ca; inversion Cb; inversion HQ; subst.
    pose proof (size_pos a). pose proof (size_pos b).
    eapply okp_bind; [apply (Hrec m rb a b); auto using wcc_wroot; lia|].
    intros n Hn. eapply okp_bind; [apply (IH na' itb' xs' ys'); eauto using ksorted_tail; lia|].
    intros ns (rs & Fn & K). apply okp_ok. eapply bothw_ok; eauto.
Qed.

Lemma left_children_with_ok (gR : forall o, g o d = o) (gl : forall o, g None o = None) fuel na o xs ys :
  Forall2 RA na xs -> OB o ys -> ksorted xs -> ksorted ys -> Forall wcc xs -> Forall wcc ys ->
  Forall Q ys -> sizes xs + sizes ys <= M -> sizes xs + sizes ys + 1 < fuel ->
  okp al (left_children_with rec fuel na o) (wkpost xs ys).
Proof.
  intros Ia Ob Sa Sb Ca Cb HQ HM Hfu. unfold left_children_with. destruct o as [itb|]; cbn in Ob.
  - destruct Ob as [_ Ib]. destruct na as [|m na].
    + inversion Ia; subst. apply okp_ok. exists []. split; [constructor|]. now apply WK_nil_l.
    + eapply left_with_loop_ok; eauto.
  - subst ys. apply okp_ok. exists xs. split; [exact Ia|]. now apply WK_nil_r_keep.
Qed.

Lemma inner_with_loop_ok (gR : forall o, g o d = None) (gl : forall o, g None o = None) :
  forall fuel na itb xs ys,
  Forall2 RA na xs -> IB itb ys -> ksorted xs -> ksorted ys -> Forall wcc xs -> Forall wcc ys ->
  Forall Q ys -> sizes xs + sizes ys <= M -> sizes xs + sizes ys + 1 < fuel ->
  okp al (inner_with_loop rec fuel na itb) (wkpost xs ys).
Proof.
  induction fuel as [|fuel IH]; intros na itb xs ys Ia Ib Sa Sb Ca Cb HQ HM Hfu; [lia|].
  cbn [inner_with_loop].
  destruct (w_cmp_cases false idsB rdA rdB al _ _ _ _ Ia Ib Sa Sb Ca Cb)
    as [-> -> -> -> | a xs' x q m na' -> -> E Aa Ab R I' -> | b ys' y q rb itb' -> E Aa Ab R I' N ->
       | a b xs' ys' x q q' m na' rb itb' -> -> -> Ea Eb Aa Ab Ra Ia' Rb Ib' N ->]; cbn [bind].
  - apply okp_ok. exists []. split; [constructor|]. now apply WK_nil.
  - rewrite sizes_cons in *. inversion Ca; subst. pose proof (size_pos a).
    eapply okp_weaken; [apply (IH na' itb xs' ys); eauto using ksorted_tail; lia|auto|].
    intros ns (rs & Fn & K). exists rs. split; [auto|]. eapply WK_a_drop; eauto.
  - rewrite N. rewrite sizes_cons in *. inversion Cb; inversion HQ; subst. pose proof (size_pos b).
    eapply okp_weaken; [apply (IH na itb' xs ys'); eauto using ksorted_tail; lia|auto|].
    intros ns (rs & Fn & K). exists rs. split; [auto|]. eapply WK_b_drop; eauto.
  - rewrite N. rewrite !sizes_cons in *. inversion Ca; inversion Cb; inversion HQ; subst.
    pose proof (size_pos a). pose proof (size_pos b).
    eapply okp_bind; [apply (Hrec m rb a b); auto using wcc_wroot; lia|].
    intros n Hn. eapply okp_bind; [apply (IH na' itb' xs' ys'); eauto using ksorted_tail; lia|].
    intros ns (rs & Fn & K). apply okp_ok. eapply bothw_ok; eauto.
Qed.

Lemma inner_children_with_ok (gR : forall o, g o d = None) (gl : forall o, g None o = None) fuel na o xs ys :
  Forall2 RA na xs -> OB o ys -> ksorted xs -> ksorted ys -> Forall wcc xs -> Forall wcc ys ->
  Forall Q ys -> sizes xs + sizes ys <= M -> sizes xs + sizes ys + 1 < fuel ->
  okp al (inner_children_with rec fuel na o) (wkpost xs ys).
Proof.
  intros Ia Ob Sa Sb Ca Cb HQ HM Hfu. unfold inner_children_with. destruct o as [itb|]; cbn in Ob.
  - destruct Ob as [_ Ib]. destruct na as [|m na].
    + inversion Ia; subst. apply okp_ok. exists []. split; [constructor|]. now apply WK_nil_l.
    + eapply inner_with_loop_ok; eauto.
  - subst ys. apply okp_ok. exists []. split; [constructor|]. now apply WK_nil_r_drop.
Qed.

(** Finishing: the node carries prefix, value and the new children. *)
Lemma finishw ta tb p v xs ys rs pb vb ns :
  RepP false rdA pb p -> RepV rdA vb v ->
  Forall2 RA ns rs -> WK d ob g xs ys rs ->
  (forall k, rawlook p v rs k = g (lookup ta k) (ob tb k)) ->
  (forall x q q', tp ta = x :: q -> tp tb = x :: q' -> exists r, p = x :: r) ->
  okp al (canonicalize dbg (Node pb vb (KArc ns))) (wpost ta tb).
Proof.
  intros RP RV F K HL Hp.
  assert (RA (Node pb vb (KArc ns)) (T p v rs)) as R.
  { eapply Rep_mk; cbn; eauto. now left. }
  eapply okp_weaken; [apply (canon_weak rdA al dbg _ _ _ _ R (WK_sorted _ _ _ _ _ _ K) (WK_wcc _ _ _ _ _ _ K));
    intros _; left; right; eexists; reflexivity|auto|].
  intros n (t & Rt & Em & Wt & Lt & Pt). exists t. split; [exact Rt|]. split; [exact Em|]. split; [exact Wt|].
  split; [intros k; now rewrite Lt|]. intros x q q' Ha Hb. destruct Pt as [Pt|[r Pt]]; [now left|]. right.
  destruct (Hp x q q' Ha Hb) as [z ->]. rewrite Pt. cbn. eauto.
Qed.

(** Leaving a node as it is. *)
Lemma samew ta tb n : RA n ta -> wroot ta -> (dbg = true -> det rdA \/ al) ->
  (forall k, lookup ta k = g (lookup ta k) (ob tb k)) ->
  okp al (canonicalize dbg n) (wpost ta tb).
Proof.
  intros R [S C] Hal HL. destruct ta as [p v cs]. cbn [tc] in *.
  eapply okp_weaken; [apply (canon_weak rdA al dbg _ _ _ _ R S C); auto|auto|].
  intros n' (t & Rt & Em & Wt & Lt & Pt). exists t. split; [exact Rt|]. split; [exact Em|]. split; [exact Wt|].
  split; [intros k; rewrite Lt, <- HL; symmetry; apply lookup_raw|].
  intros x q q' Ha Hb. destruct Pt as [Pt|[r Pt]]; [now left|]. right. rewrite Pt. cbn in Ha. rewrite Ha. cbn. eauto.
Qed.

(** Emptying a node. *)
Lemma emptyw ta tb pb :
  (forall k, g (lookup ta k) (ob tb k) = None) ->
  okp al (canonicalize dbg (Node pb bnone (KId []))) (wpost ta tb).
Proof.
  intros H. unfold canonicalize. cbn. rewrite andb_false_r. apply okp_ok.
  exists tempty. split.
  - eapply Rep_mk with (ns := []); cbn; auto; [now left|]. right; left; auto.
  - split; [reflexivity|]. split; [apply wroot_tempty|]. split; [intros k; now rewrite tempty_lookup, H|]. intros; now left.
Qed.
End Generic.

Lemma firstn_common ap bp x q q' : ap = x :: q -> bp = x :: q' -> exists r, firstn (common_prefix ap bp) ap = x :: r.
Proof.
  intros -> ->. cbn. destruct (byte_eqb_spec x x) as [_|N]; [|congruence]. cbn. eauto.
Qed.
Section Joins.
Context (c : converter) (f : blob -> blob -> res blob) (h : bytes -> bytes -> option bytes).
Context (Hf : forall av bv x y, RepV rdA av (Some x) -> RepV rdB bv (Some y) ->
  okp al (f av bv) (fun r => RepV rdA r (h x y))).


Lemma raw_g g p va vb v xs ys rs ta tb :
  g None None = None -> v = g va vb -> WKL g xs ys rs ->
  (forall k, lookup ta k = rawlook p va xs k) ->
  (forall k, lookup tb k = rawlook p vb ys k) ->
  forall k, rawlook p v rs k = g (lookup ta k) (lookup tb k).
Proof.
  intros G E K Ha Hb k. rewrite Ha, Hb. apply raw_pointwise; auto.
  intros r Hr. exact (WK_look _ _ _ _ _ _ K r Hr).
Qed.

Section Left.
Context (Hdbg : dbg = true -> det rdA \/ al).

Theorem left_combine_with_ok : forall fuel,
  wrec lookup (gL h) anyt (left_combine_with dbg rdA rdB f fuel) (fuel - 2).
Proof.
  set (g := gL h).
  assert (gR : forall o, g o None = o) by (intros [|]; reflexivity).
  assert (gl : forall o, g None o = None) by reflexivity.
  assert (g0 : g None None = None) by reflexivity.
  induction fuel as [|fuel IH]; intros na rb ta tb Ra Rb Ca Cb _ Hs;
    [pose proof (size_pos ta); cbn in Hs; lia|].
  destruct ta as [ap va xs], tb as [bp vb ys]. cbn [left_combine_with].
  pose proof (Rep_inv _ _ _ _ _ _ Ra) as (RP & RV & nx & RK & RF).
  rewrite (RepP_load _ _ _ _ RP), (NRep_prefix _ _ _ _ _ _ _ Rb). cbn [bind].
  destruct (wroot_kids _ Ca) as [Sa Ka]. destruct (wroot_kids _ Cb) as [Sb Kb]. cbn [tc] in *.
  rewrite !size_T in Hs.
  destruct (NRep_children _ _ _ HdB _ _ _ _ Rb) as (ob & Eb & Ob).
  pose proof (RepV_opt _ _ _ RV) as VA. pose proof (NRep_value _ _ _ _ _ _ _ Rb) as VB.
  destruct (edges_cases ap bp) as [E1 E2 E3|E1 E2 E3|E1 E2 E3|x y E1 E2 E3 Ex Ey Nxy];
    set (n := common_prefix ap bp) in *; edge_tests.
  - subst bp.
    eapply okp_bind with (P := fun a1 => exists vb', a1 = Node (n_prefix na) vb' (n_kids na) /\ RepV rdA vb' (g va vb)).
    { destruct vb as [y|].
      - destruct VB as (bv & -> & RVb). destruct va as [x|].
        + rewrite VA. eapply okp_bind; [eapply Hf; eauto|]. intros r Hr. apply okp_ok. exists r. auto.
        + rewrite VA. apply okp_ok. exists (n_value na). split; [now destruct na|exact RV].
      - rewrite VB. apply okp_ok. exists (n_value na). split; [now destruct na|]. now rewrite gR. }
    intros a1 (vb' & -> & RV').
    rewrite (load_children_mut_ok rdA (Node (n_prefix na) vb' (n_kids na)) nx RK). cbn [bind].
    rewrite Eb. cbn [bind].
    eapply okp_bind; [eapply left_children_with_ok with (M := fuel - 2) (xs := xs) (ys := ys) (Q := anyt);
      eauto using anyts, not_starts_lookup; lia|].
    intros ns (rs & Fn & K). rewrite set_kids_eta. cbn [n_prefix n_value].
    eapply finishw with (rs := rs); eauto.
    + eapply raw_g with (va := va) (vb := vb); eauto; intros; apply lookup_raw.
  - rewrite (load_children_mut_ok rdA na nx RK). cbn [bind].
    eapply okp_bind; [eapply r_clone_shortened_ok with (t := T bp vb ys); cbn; eauto; lia|].
    intros b' [Rb' _].
    eapply okp_bind; [eapply left_children_with_ok with (M := fuel - 2) (xs := xs) (Q := anyt)
      (ys := [shorten n (T bp vb ys)]);
      eauto using anyts, not_starts_lookup, OB_single, cc_single_sorted;
      rewrite ?sizes_single, ?size_shorten, ?size_T; try lia|].
    { constructor; [now apply shorten_wcc|constructor]. }
    intros ns (rs & Fn & K). rewrite set_kids_eta.
    eapply finishw with (rs := rs); eauto.
    + eapply raw_g with (va := va) (vb := None); eauto.
      * intros; apply lookup_raw.
      * intros k. rewrite (rawlook_shorten (T bp vb ys) k n E2). cbn [tp]. now rewrite E3.
  - destruct (split_ok false rdA na (T ap va xs) n Ra) as (n1 & m & -> & K1 & Rm & _ & P1 & V1); [cbn; lia|].
    cbn [bind]. rewrite (load_children_mut_ok rdA n1 [m]) by (left; exact K1). cbn [bind].
    rewrite Eb. cbn [bind].
    eapply okp_bind; [eapply left_children_with_ok with (M := fuel - 2) (Q := anyt)
      (xs := [shorten n (T ap va xs)]) (ys := ys);
      eauto using anyts, not_starts_lookup, OB_single, cc_single_sorted;
      rewrite ?sizes_single, ?size_shorten, ?size_T; try lia|].
    { constructor; [now apply shorten_wcc|constructor]. }
    intros ns (rs & Fn & K). rewrite set_kids_eta, P1, V1. cbn [tp].
    eapply finishw with (rs := rs) (p := bp) (v := None); eauto.
    + rewrite E3. now left.
    + reflexivity.
    + eapply raw_g with (va := None) (vb := vb); eauto.
      * intros k. rewrite (rawlook_shorten (T ap va xs) k n E2). cbn [tp]. now rewrite E3.
      * intros; apply lookup_raw.
  - eapply samew; eauto. intros k. symmetry. destruct (lookup (T ap va xs) k) eqn:El; [|reflexivity].
    rewrite (disjoint_keys ap bp va vb xs ys n x y k); auto; congruence.
Qed.

Theorem inner_combine_with_ok : forall fuel,
  wrec lookup (gI h) anyt (inner_combine_with dbg rdA rdB f fuel) (fuel - 2).
Proof.
  set (g := gI h).
  assert (gR : forall o, g o None = None) by (intros [|]; reflexivity).
  assert (gl : forall o, g None o = None) by reflexivity.
  assert (g0 : g None None = None) by reflexivity.
  induction fuel as [|fuel IH]; intros na rb ta tb Ra Rb Ca Cb _ Hs;
    [pose proof (size_pos ta); cbn in Hs; lia|].
  destruct ta as [ap va xs], tb as [bp vb ys]. cbn [inner_combine_with].
  pose proof (Rep_inv _ _ _ _ _ _ Ra) as (RP & RV & nx & RK & RF).
  rewrite (RepP_load _ _ _ _ RP), (NRep_prefix _ _ _ _ _ _ _ Rb). cbn [bind].
  destruct (wroot_kids _ Ca) as [Sa Ka]. destruct (wroot_kids _ Cb) as [Sb Kb]. cbn [tc] in *.
  rewrite !size_T in Hs.
  destruct (NRep_children _ _ _ HdB _ _ _ _ Rb) as (ob & Eb & Ob).
  pose proof (RepV_opt _ _ _ RV) as VA. pose proof (NRep_value _ _ _ _ _ _ _ Rb) as VB.
  destruct (edges_cases ap bp) as [E1 E2 E3|E1 E2 E3|E1 E2 E3|x y E1 E2 E3 Ex Ey Nxy];
    set (n := common_prefix ap bp) in *; edge_tests.
  - subst bp.
    eapply okp_bind with (P := fun a1 => exists vb', a1 = Node (n_prefix na) vb' (n_kids na) /\ RepV rdA vb' (g va vb)).
    { destruct va as [x|].
      - rewrite VA. destruct vb as [y|].
        + destruct VB as (bv & -> & RVb). eapply okp_bind; [eapply Hf; eauto|]. intros r Hr. apply okp_ok. exists r. auto.
        + rewrite VB. apply okp_ok. exists bnone. split; reflexivity.
      - rewrite VA. apply okp_ok. exists bnone. split; reflexivity. }
    intros a1 (vb' & -> & RV').
    rewrite (load_children_mut_ok rdA (Node (n_prefix na) vb' (n_kids na)) nx RK). cbn [bind].
    rewrite Eb. cbn [bind].
    eapply okp_bind; [eapply inner_children_with_ok with (M := fuel - 2) (xs := xs) (ys := ys) (Q := anyt);
      eauto using anyts, not_starts_lookup; lia|].
    intros ns (rs & Fn & K). rewrite set_kids_eta. cbn [n_prefix n_value].
    eapply finishw with (rs := rs); eauto.
    + eapply raw_g with (va := va) (vb := vb); eauto; intros; apply lookup_raw.
  - rewrite (load_children_mut_ok rdA (set_value na bnone) nx RK). cbn [bind].
    eapply okp_bind; [eapply r_clone_shortened_ok with (t := T bp vb ys); cbn; eauto; lia|].
    intros b' [Rb' _].
    eapply okp_bind; [eapply inner_children_with_ok with (M := fuel - 2) (xs := xs) (Q := anyt)
      (ys := [shorten n (T bp vb ys)]);
      eauto using anyts, not_starts_lookup, OB_single, cc_single_sorted;
      rewrite ?sizes_single, ?size_shorten, ?size_T; try lia|].
    { constructor; [now apply shorten_wcc|constructor]. }
    intros ns (rs & Fn & K). rewrite set_kids_eta. cbn [n_prefix n_value set_value].
    eapply finishw with (rs := rs) (v := None); eauto.
    + reflexivity.
    + eapply raw_g with (va := va) (vb := None); eauto.
      * intros; apply lookup_raw.
      * intros k. rewrite (rawlook_shorten (T bp vb ys) k n E2). cbn [tp]. now rewrite E3.
  - destruct (split_ok false rdA na (T ap va xs) n Ra) as (n1 & m & -> & K1 & Rm & _ & P1 & V1); [cbn; lia|].
    cbn [bind]. rewrite (load_children_mut_ok rdA n1 [m]) by (left; exact K1). cbn [bind].
    rewrite Eb. cbn [bind].
    eapply okp_bind; [eapply inner_children_with_ok with (M := fuel - 2) (Q := anyt)
      (xs := [shorten n (T ap va xs)]) (ys := ys);
      eauto using anyts, not_starts_lookup, OB_single, cc_single_sorted;
      rewrite ?sizes_single, ?size_shorten, ?size_T; try lia|].
    { constructor; [now apply shorten_wcc|constructor]. }
    intros ns (rs & Fn & K). rewrite set_kids_eta, P1, V1. cbn [tp].
    eapply finishw with (rs := rs) (p := bp) (v := None); eauto.
    + rewrite E3. now left.
    + reflexivity.
    + eapply raw_g with (va := None) (vb := vb); eauto.
      * intros k. rewrite (rawlook_shorten (T ap va xs) k n E2). cbn [tp]. now rewrite E3.
      * intros; apply lookup_raw.
  - eapply emptyw. intros k. destruct (lookup (T ap va xs) k) eqn:El; [|reflexivity].
    rewrite (disjoint_keys ap bp va vb xs ys n x y k); auto; congruence.
Qed.
End Left.
Section Outer.
Context (HcN : forall fuel r t, NB r t -> size t < fuel ->
  okp al (conv_node c fuel r)
    (fun n => RA n t /\ (blob_is_id (r_prefix r) = false -> blob_is_id (n_prefix n) = false))).
Context (HcS : forall fuel r t k, NB r t -> k <= length (tp t) -> size t < fuel ->
  okp al (conv_node_shortened c fuel r k) (fun n => RA n (shorten k t))).
Context (HcV : forall bv y, RepV rdB bv (Some y) -> okp al (conv_value c bv) (fun v => RepV rdA v (Some y))).

Lemma convert_loop_ok : forall fuel itb ys,
  IB itb ys -> sizes ys + 1 < fuel -> okp al (convert_loop c fuel itb) (fun l => Forall2 RA l ys).
Proof.
  induction fuel as [|fuel IH]; intros itb ys Ib Hfu; [lia|]. cbn [convert_loop].
  destruct ys as [|b ys].
  - apply IRepT_nil in Ib as (-> & _). apply okp_ok. constructor.
  - apply IRepT_cons in Ib as (rb & itb' & -> & R & I & _). rewrite sizes_cons in Hfu.
    pose proof (size_pos b).
    eapply okp_bind; [apply (HcN fuel rb b R); lia|]. intros m [Rm _].
    eapply okp_bind; [apply (IH itb' ys I); lia|]. intros l Hl. apply okp_ok. constructor; auto.
Qed.

Lemma outer_with_loop_ok g (g0 : g None None = None) rec M (Hrec : wrec lookup g anyt rec M)
  (gR : forall o, g o None = o) (gl : forall o, g None o = o) :
  forall fuel na itb xs ys,
  Forall2 RA na xs -> IB itb ys -> ksorted xs -> ksorted ys -> Forall wcc xs -> Forall wcc ys ->
  sizes xs + sizes ys <= M -> sizes xs + sizes ys + 1 < fuel ->
  okp al (outer_with_loop c rec fuel na itb) (wkpost None lookup g xs ys).
Proof.
  induction fuel as [|fuel IH]; intros na itb xs ys Ia Ib Sa Sb Ca Cb HM Hfu; [lia|].
  cbn [outer_with_loop].
  destruct (w_cmp_cases false idsB rdA rdB al _ _ _ _ Ia Ib Sa Sb Ca Cb)
    as [-> -> -> -> | a xs' x q m na' -> -> E Aa Ab R I' -> | b ys' y q rb itb' -> E Aa Ab R I' N ->
       | a b xs' ys' x q q' m na' rb itb' -> -> -> Ea Eb Aa Ab Ra Ia' Rb Ib' N ->]; cbn [bind].
  - apply okp_ok. exists []. split; [constructor|]. now apply WK_nil.
  - rewrite sizes_cons in *. inversion Ca; subst. pose proof (size_pos a).
    eapply okp_bind; [apply (IH na' itb xs' ys); eauto using ksorted_tail; lia|].
    intros ns (rs & Fn & K). apply okp_ok.
    exists (a :: rs). split; [constructor; auto|]. eapply WK_a; eauto.
  - rewrite N. rewrite sizes_cons in *. inversion Cb; subst. pose proof (size_pos b).
    eapply okp_bind; [apply (HcN fuel rb b R); lia|]. intros m [Rm _].
    eapply okp_bind; [apply (IH na itb' xs ys'); eauto using ksorted_tail; lia|].
    intros ns (rs & Fn & K). apply okp_ok. exists (b :: rs). split; [auto|]. eapply WK_b; eauto.
  - rewrite N. rewrite !sizes_cons in *. inversion Ca; inversion Cb; subst.
    pose proof (size_pos a). pose proof (size_pos b).
    eapply okp_bind; [apply (Hrec m rb a b); auto using wcc_wroot; try lia; exact I|].
    intros n Hn. eapply okp_bind; [apply (IH na' itb' xs' ys'); eauto using ksorted_tail; lia|].
    intros ns (rs & Fn & K). apply okp_ok. eapply bothw_ok; eauto using not_starts_lookup.
Qed.

Lemma outer_children_with_ok g (g0 : g None None = None) rec M (Hrec : wrec lookup g anyt rec M)
  (gR : forall o, g o None = o) (gl : forall o, g None o = o) fuel na o xs ys :
  Forall2 RA na xs -> OB o ys -> ksorted xs -> ksorted ys -> Forall wcc xs -> Forall wcc ys ->
  sizes xs + sizes ys <= M -> sizes xs + sizes ys + 1 < fuel ->
  okp al (outer_children_with c rec fuel na o) (wkpost None lookup g xs ys).
Proof.
  intros Ia Ob Sa Sb Ca Cb HM Hfu. unfold outer_children_with. destruct o as [itb|]; cbn in Ob.
  - destruct Ob as [Ny Ib]. destruct na as [|m na].
    + inversion Ia; subst. cbn in Hfu.
      eapply okp_weaken; [eapply convert_loop_ok; eauto|auto|]. cbv beta. intros l F.
      exists ys. split; [exact F|]. split; auto.
    + eapply outer_with_loop_ok; eauto.
  - subst ys. apply okp_ok. exists xs. split; [exact Ia|]. now apply WK_nil_r_keep.
Qed.

Theorem outer_combine_with_ok : forall fuel,
  wrec lookup (gO h) anyt (outer_combine_with dbg rdA rdB c f fuel) (fuel - 2).
Proof.
  set (g := gO h).
  assert (gR : forall o, g o None = o) by (intros [|]; reflexivity).
  assert (gl : forall o, g None o = o) by reflexivity.
  assert (g0 : g None None = None) by reflexivity.
  induction fuel as [|fuel IH]; intros na rb ta tb Ra Rb Ca Cb _ Hs;
    [pose proof (size_pos ta); cbn in Hs; lia|].
  destruct ta as [ap va xs], tb as [bp vb ys]. cbn [outer_combine_with].
  pose proof (Rep_inv _ _ _ _ _ _ Ra) as (RP & RV & nx & RK & RF).
  rewrite (RepP_load _ _ _ _ RP), (NRep_prefix _ _ _ _ _ _ _ Rb). cbn [bind].
  destruct (wroot_kids _ Ca) as [Sa Ka]. destruct (wroot_kids _ Cb) as [Sb Kb]. cbn [tc] in *.
  rewrite !size_T in Hs.
  destruct (NRep_children _ _ _ HdB _ _ _ _ Rb) as (ob & Eb & Ob).
  pose proof (RepV_opt _ _ _ RV) as VA. pose proof (NRep_value _ _ _ _ _ _ _ Rb) as VB.
  destruct (edges_cases ap bp) as [E1 E2 E3|E1 E2 E3|E1 E2 E3|x y E1 E2 E3 Ex Ey Nxy];
    set (n := common_prefix ap bp) in *; edge_tests.
  - (* equal *)
    subst bp. cbn [bind].
    eapply okp_bind with (P := fun a1 => exists vb', a1 = Node (n_prefix na) vb' (n_kids na) /\ RepV rdA vb' (g va vb)).
    { destruct vb as [y|].
      - destruct VB as (bv & -> & RVb). destruct va as [x|].
        + rewrite VA. eapply okp_bind; [eapply Hf; eauto|]. intros r Hr. apply okp_ok. exists r. auto.
        + rewrite VA. eapply okp_bind; [eapply HcV; eauto|]. intros r Hr. apply okp_ok. exists r. auto.
      - rewrite VB. apply okp_ok. exists (n_value na). split; [now destruct na|]. now rewrite gR. }
    intros a1 (vb' & -> & RV').
    rewrite (load_children_mut_ok rdA (Node (n_prefix na) vb' (n_kids na)) nx RK). cbn [bind].
    rewrite Eb. cbn [bind].
    eapply okp_bind; [eapply outer_children_with_ok with (M := fuel - 2) (xs := xs) (ys := ys); eauto; lia|].
    cbv beta. intros ns (rs & Fn & K). rewrite set_kids_eta. cbn [n_prefix n_value].
    eapply finishw with (rs := rs); eauto.
    + eapply raw_g with (va := va) (vb := vb); eauto; intros; apply lookup_raw.
  - (* the left edge is shorter *)
    rewrite (load_children_mut_ok rdA na nx RK). cbn [bind].
    eapply okp_bind; [eapply r_clone_shortened_ok with (t := T bp vb ys); cbn; eauto; lia|].
    intros b' [Rb' Db'].
    eapply okp_bind; [eapply outer_children_with_ok with (M := fuel - 2) (xs := xs)
      (ys := [shorten n (T bp vb ys)]);
      eauto using OB_single, cc_single_sorted;
      rewrite ?sizes_single, ?size_shorten, ?size_T; try lia|].
    { constructor; [now apply shorten_wcc|constructor]. }
    cbv beta. intros ns (rs & Fn & K). rewrite set_kids_eta.
    eapply finishw with (rs := rs); eauto.
    + eapply raw_g with (va := va) (vb := None); eauto.
      * intros; apply lookup_raw.
      * intros k. rewrite (rawlook_shorten (T bp vb ys) k n E2). cbn [tp]. now rewrite E3.
  - (* the right edge is shorter *)
    destruct (split_ok false rdA na (T ap va xs) n Ra) as (n1 & m & -> & K1 & Rm & Dm & P1 & V1); [cbn; lia|].
    cbn [bind].
    eapply okp_bind with (P := fun a1 => exists vb', a1 = Node (n_prefix n1) vb' (n_kids n1) /\ RepV rdA vb' vb).
    { destruct vb as [y|].
      - destruct VB as (bv & -> & RVb). rewrite V1. cbn [blob_opt bnone].
        eapply okp_bind; [eapply HcV; eauto|]. intros r Hr. apply okp_ok. exists r. auto.
      - rewrite VB. apply okp_ok. exists (n_value n1). split; [now destruct n1|]. rewrite V1. reflexivity. }
    intros a1 (vb' & -> & RV').
    rewrite (load_children_mut_ok rdA (Node (n_prefix n1) vb' (n_kids n1)) [m]) by (left; exact K1). cbn [bind].
    rewrite Eb. cbn [bind].
    eapply okp_bind; [eapply outer_children_with_ok with (M := fuel - 2)
      (xs := [shorten n (T ap va xs)]) (ys := ys);
      eauto using OB_single, cc_single_sorted;
      rewrite ?sizes_single, ?size_shorten, ?size_T; try lia|].
    { constructor; [now apply shorten_wcc|constructor]. }
    cbv beta. intros ns (rs & Fn & K). rewrite set_kids_eta. cbn [n_prefix n_value]. rewrite P1. cbn [tp].
    eapply finishw with (rs := rs) (p := bp) (v := vb); eauto.
    + rewrite E3. now left.
    + eapply raw_g with (va := None) (vb := vb); eauto.
      * intros k. rewrite (rawlook_shorten (T ap va xs) k n E2). cbn [tp]. now rewrite E3.
      * intros; apply lookup_raw.
  - (* disjoint *)
    destruct (split_ok false rdA na (T ap va xs) n Ra) as (n1 & m & -> & K1 & Rm & Dm & P1 & V1); [cbn; lia|].
    cbn [bind]. rewrite (load_children_mut_ok rdA n1 [m]) by (left; exact K1). cbn [bind].
    eapply okp_bind; [eapply HcS with (t := T bp vb ys); eauto; [cbn; lia|rewrite size_T; lia]|].
    intros b' Rb'. rewrite set_kids_eta, P1, V1. cbn [tp].
    destruct (tp_shorten_nth (T ap va xs) n x Ex) as [qa Eqa].
    destruct (tp_shorten_nth (T bp vb ys) n y Ey) as [qb Eqb].
    pose proof (shorten_wcc n _ Ca E1) as Ca'. pose proof (shorten_wcc n _ Cb E2) as Cb'.
    assert (exists rs, Forall2 RA (sort2 m b') rs /\
      WKL g [shorten n (T ap va xs)] [shorten n (T bp vb ys)] rs) as (rs & Fr & K).
    { unfold sort2. rewrite (Rep_first _ _ _ _ Rm), (Rep_first _ _ _ _ Rb'), Eqa, Eqb. cbn [hd_error cmp_ob].
      destruct (N.compare_spec (bnum x) (bnum y)) as [C|C|C].
      * now apply bnum_inj in C.
      * exists [shorten n (T ap va xs); shorten n (T bp vb ys)]. split; [repeat constructor; auto|].
        eapply WK_a; eauto; [constructor| |].
        -- apply above_cons. rewrite Eqb. split; [exact C|constructor].
        -- eapply WK_b; eauto; [constructor|constructor|now apply WK_nil].
      * exists [shorten n (T bp vb ys); shorten n (T ap va xs)]. split; [repeat constructor; auto|].
        eapply WK_b; eauto; [|constructor|].
        -- apply above_cons. rewrite Eqa. split; [exact C|constructor].
        -- eapply WK_a; eauto; [constructor|constructor|now apply WK_nil]. }
    eapply finishw with (rs := rs) (p := firstn n ap) (v := None); eauto.
    + now left.
    + reflexivity.
    + eapply raw_g with (va := None) (vb := None); eauto.
      * intros k. now apply (rawlook_shorten (T ap va xs)).
      * intros k. rewrite E3. now apply (rawlook_shorten (T bp vb ys)).
    + cbn [tp]. intros z q q' Hz Hz'. eapply firstn_common; eauto.
Qed.
End Outer.
End Joins.

Section Prefixes.
Context (Hdbg : dbg = true -> det rdA \/ al).
Context (f : blob -> res bool) (s : bytes -> bool).
Context (Hf : forall bv y, RepV rdB bv (Some y) -> okp al (f bv) (fun b => b = s y)).

Lemma raw_cov g p va vb v xs ys rs ta tb :
  g None false = None -> v = g va false -> selv s vb = false ->
  WK false (cov s) g xs ys rs ->
  (forall k, lookup ta k = rawlook p va xs k) ->
  (forall k, cov s tb k = rawcov s p vb ys k) ->
  forall k, rawlook p v rs k = g (lookup ta k) (cov s tb k).
Proof.
  intros G E Sv K Ha Hb k. rewrite Ha, Hb. unfold rawlook, rawcov.
  destruct (strip p k) as [r|]; [|auto]. rewrite Sv. cbn [orb]. destruct r as [|y r].
  - now rewrite ckids_nil_key.
  - rewrite (WK_look _ _ _ _ _ _ K) by discriminate. reflexivity.
Qed.

Theorem remove_prefix_with_ok : forall fuel,
  wrec (cov s) gRm anyt (remove_prefix_with dbg rdA rdB f fuel) (fuel - 2).
Proof.
  set (g := gRm).
  assert (gR : forall o, g o false = o) by reflexivity.
  assert (gl : forall o, g None o = None) by (intros [|]; reflexivity).
  assert (g0 : g None false = None) by reflexivity.
  induction fuel as [|fuel IH]; intros na rb ta tb Ra Rb Ca Cb _ Hs;
    [pose proof (size_pos ta); cbn in Hs; lia|].
  destruct ta as [ap va xs], tb as [bp vb ys]. cbn [remove_prefix_with].
  pose proof (Rep_inv _ _ _ _ _ _ Ra) as (RP & RV & nx & RK & RF).
  rewrite (RepP_load _ _ _ _ RP), (NRep_prefix _ _ _ _ _ _ _ Rb). cbn [bind].
  destruct (wroot_kids _ Ca) as [Sa Ka]. destruct (wroot_kids _ Cb) as [Sb Kb]. cbn [tc] in *.
  rewrite !size_T in Hs.
  destruct (NRep_children _ _ _ HdB _ _ _ _ Rb) as (ob & Eb & Ob).
  pose proof (selected_ok idsB rdB al f s Hf _ _ _ _ Rb) as SB.
  destruct (edges_cases ap bp) as [E1 E2 E3|E1 E2 E3|E1 E2 E3|x y E1 E2 E3 Ex Ey Nxy];
    set (n := common_prefix ap bp) in *; edge_tests.
  - subst bp. eapply okp_bind; [exact SB|]. cbv beta. intros b ->. destruct (selv s vb) eqn:Sv.
    + eapply emptyw with (ob := cov s). intros k. destruct (lookup (T ap va xs) k) eqn:El; [|apply gl].
      rewrite (under_cov s ap va xs vb ys k Sv); [reflexivity|congruence].
    + rewrite (load_children_mut_ok rdA na nx RK). cbn [bind]. rewrite Eb. cbn [bind].
      eapply okp_bind; [eapply left_children_with_ok with (ob := cov s) (M := fuel - 2) (xs := xs) (ys := ys) (Q := anyt);
        eauto using anyts, cov_not_starts; lia|].
      intros ns (rs & Fn & K). rewrite set_kids_eta.
      eapply finishw with (ob := cov s) (rs := rs); eauto.
      * eapply raw_cov with (va := va) (vb := vb); eauto; intros; [apply lookup_raw|apply cov_raw].
  - rewrite (load_children_mut_ok rdA na nx RK). cbn [bind].
    eapply okp_bind; [eapply r_clone_shortened_ok with (t := T bp vb ys); cbn; eauto; lia|].
    intros b' [Rb' _].
    eapply okp_bind; [eapply left_children_with_ok with (ob := cov s) (M := fuel - 2) (xs := xs) (Q := anyt)
      (ys := [shorten n (T bp vb ys)]);
      eauto using anyts, cov_not_starts, OB_single, cc_single_sorted;
      rewrite ?sizes_single, ?size_shorten, ?size_T; try lia|].
    { constructor; [now apply shorten_wcc|constructor]. }
    intros ns (rs & Fn & K). rewrite set_kids_eta.
    eapply finishw with (ob := cov s) (rs := rs); eauto.
    + eapply raw_cov with (va := va) (vb := None); eauto.
      * intros; apply lookup_raw.
      * intros k. rewrite (rawcov_shorten s (T bp vb ys) k n E2). cbn [tp]. now rewrite E3.
  - eapply okp_bind; [exact SB|]. cbv beta. intros b ->. destruct (selv s vb) eqn:Sv.
    + eapply emptyw with (ob := cov s). intros k. destruct (lookup (T ap va xs) k) eqn:El; [|apply gl].
      rewrite (under_cov' s ap va xs bp vb ys k n E1 E3 Sv); [reflexivity|congruence].
    + destruct (split_ok false rdA na (T ap va xs) n Ra) as (n1 & m & -> & K1 & Rm & _ & P1 & V1); [cbn; lia|].
      cbn [bind]. rewrite (load_children_mut_ok rdA n1 [m]) by (left; exact K1). cbn [bind].
      rewrite Eb. cbn [bind].
      eapply okp_bind; [eapply left_children_with_ok with (ob := cov s) (M := fuel - 2) (Q := anyt)
        (xs := [shorten n (T ap va xs)]) (ys := ys);
        eauto using anyts, cov_not_starts, OB_single, cc_single_sorted;
        rewrite ?sizes_single, ?size_shorten, ?size_T; try lia|].
      { constructor; [now apply shorten_wcc|constructor]. }
      intros ns (rs & Fn & K). rewrite set_kids_eta, P1, V1. cbn [tp].
      eapply finishw with (ob := cov s) (rs := rs) (p := bp) (v := None); eauto.
      * rewrite E3. now left.
      * reflexivity.
      * eapply raw_cov with (va := None) (vb := vb); eauto.
        -- intros k. rewrite (rawlook_shorten (T ap va xs) k n E2). cbn [tp]. now rewrite E3.
        -- intros; apply cov_raw.
  - eapply samew; eauto. intros k. symmetry. destruct (lookup (T ap va xs) k) eqn:El; [|now rewrite gl].
    rewrite (disjoint_cov s ap bp va vb xs ys n x y k); auto; congruence.
Qed.

Theorem retain_prefix_with_ok : forall fuel,
  wrec (cov s) gRt (hered s) (retain_prefix_with dbg rdA rdB f fuel) (fuel - 2).
Proof.
  set (g := gRt).
  assert (gR : forall o, g o false = None) by reflexivity.
  assert (gl : forall o, g None o = None) by (intros [|]; reflexivity).
  assert (g0 : g None false = None) by reflexivity.
  induction fuel as [|fuel IH]; intros na rb ta tb Ra Rb Ca Cb HQ Hs;
    [pose proof (size_pos ta); cbn in Hs; lia|].
  destruct ta as [ap va xs], tb as [bp vb ys]. cbn [retain_prefix_with].
  pose proof (Rep_inv _ _ _ _ _ _ Ra) as (RP & RV & nx & RK & RF).
  rewrite (RepP_load _ _ _ _ RP), (NRep_prefix _ _ _ _ _ _ _ Rb). cbn [bind].
  destruct (wroot_kids _ Ca) as [Sa Ka]. destruct (wroot_kids _ Cb) as [Sb Kb]. cbn [tc] in *.
  rewrite !size_T in Hs.
  destruct (NRep_children _ _ _ HdB _ _ _ _ Rb) as (ob & Eb & Ob).
  pose proof (selected_ok idsB rdB al f s Hf _ _ _ _ Rb) as SB. pose proof (NRep_value _ _ _ _ _ _ _ Rb) as VB.
  pose proof (w_hered_kids _ _ _ _ Sb Kb HQ) as HQk.
  destruct (edges_cases ap bp) as [E1 E2 E3|E1 E2 E3|E1 E2 E3|x y E1 E2 E3 Ex Ey Nxy];
    set (n := common_prefix ap bp) in *; edge_tests.
  - subst bp. eapply okp_bind; [exact SB|]. cbv beta. intros b ->. destruct (selv s vb) eqn:Sv.
    + eapply samew; eauto. intros k. symmetry. destruct (lookup (T ap va xs) k) eqn:El; [|now rewrite gl].
      rewrite (under_cov s ap va xs vb ys k Sv); [reflexivity|congruence].
    + rewrite (load_children_mut_ok rdA (set_value na bnone) nx RK). cbn [bind]. rewrite Eb. cbn [bind].
      eapply okp_bind; [eapply inner_children_with_ok with (ob := cov s) (M := fuel - 2) (xs := xs) (ys := ys) (Q := hered s);
        eauto using cov_not_starts; lia|].
      intros ns (rs & Fn & K). rewrite set_kids_eta. cbn [set_value n_prefix n_value].
      eapply finishw with (ob := cov s) (rs := rs) (v := None); eauto.
      * reflexivity.
      * eapply raw_cov with (va := va) (vb := vb); eauto; intros; [apply lookup_raw|apply cov_raw].
  - rewrite (load_children_mut_ok rdA (set_value na bnone) nx RK). cbn [bind].
    eapply okp_bind; [eapply r_clone_shortened_ok with (t := T bp vb ys); cbn; eauto; lia|].
    intros b' [Rb' _].
    eapply okp_bind; [eapply inner_children_with_ok with (ob := cov s) (M := fuel - 2) (xs := xs) (Q := hered s)
      (ys := [shorten n (T bp vb ys)]);
      eauto using cov_not_starts, OB_single, cc_single_sorted;
      rewrite ?sizes_single, ?size_shorten, ?size_T; try lia|].
    { constructor; [now apply shorten_wcc|constructor]. }
    { constructor; [apply hered_shorten; [cbn; lia|exact HQ]|constructor]. }
    intros ns (rs & Fn & K). rewrite set_kids_eta. cbn [set_value n_prefix n_value].
    eapply finishw with (ob := cov s) (rs := rs) (v := None); eauto.
    + reflexivity.
    + eapply raw_cov with (va := va) (vb := None); eauto.
      * intros; apply lookup_raw.
      * intros k. rewrite (rawcov_shorten s (T bp vb ys) k n E2). cbn [tp]. now rewrite E3.
  - destruct vb as [v|].
    + destruct VB as (bv & -> & RVb). eapply okp_bind; [eapply Hf; eauto|]. cbv beta. intros b ->.
      destruct (s v) eqn:Sv.
      * eapply samew; eauto. intros k. symmetry. destruct (lookup (T ap va xs) k) eqn:El; [|now rewrite gl].
        rewrite (under_cov' s ap va xs bp (Some v) ys k n E1 E3 Sv); [reflexivity|congruence].
      * eapply emptyw with (ob := cov s). intros k. rewrite (hered_cov s _ _ v _ _ eq_refl Sv HQ). apply gR.
    + rewrite VB.
      destruct (split_ok false rdA na (T ap va xs) n Ra) as (n1 & m & -> & K1 & Rm & _ & P1 & V1); [cbn; lia|].
      cbn [bind]. rewrite (load_children_mut_ok rdA n1 [m]) by (left; exact K1). cbn [bind].
      rewrite Eb. cbn [bind].
      eapply okp_bind; [eapply inner_children_with_ok with (ob := cov s) (M := fuel - 2) (Q := hered s)
        (xs := [shorten n (T ap va xs)]) (ys := ys);
        eauto using cov_not_starts, OB_single, cc_single_sorted;
        rewrite ?sizes_single, ?size_shorten, ?size_T; try lia|].
      { constructor; [now apply shorten_wcc|constructor]. }
      intros ns (rs & Fn & K). rewrite set_kids_eta, P1, V1. cbn [tp].
      eapply finishw with (ob := cov s) (rs := rs) (p := bp) (v := None); eauto.
      * rewrite E3. now left.
      * reflexivity.
      * eapply raw_cov with (va := None) (vb := None); eauto.
        -- intros k. rewrite (rawlook_shorten (T ap va xs) k n E2). cbn [tp]. now rewrite E3.
        -- intros; apply cov_raw.
  - eapply emptyw with (ob := cov s). intros k. destruct (lookup (T ap va xs) k) eqn:El; [|now rewrite gl].
    rewrite (disjoint_cov s ap bp va vb xs ys n x y k); auto; congruence.
Qed.

End Prefixes.
End InPlace.
