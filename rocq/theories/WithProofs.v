(** Correctness of the combines that modify a tree in place. *)
From Verif Require Import Base BaseLemmas Header Node Combine Tree Rep JoinBase JoinProofs.

(** First bytes of children. *)
Definition fbs (l : list tree) : list (option byte) := map (fun t => hd_error (tp t)) l.

Lemma above_fbs x l : above x l -> ~ In (Some x) (fbs l).
Proof.
  induction l as [|t l IH]; [intros _ []|]. intros H. apply above_cons in H as [H1 H2].
  intros [E|E]; [|now apply IH]. destruct (tp t) as [|z q]; [contradiction|].
  cbn in E. injection E as ->. lia.
Qed.

Lemma fbs_nodup l : ksorted l -> Forall cc l -> NoDup (fbs l).
Proof.
  induction l as [|t l IH]; [constructor|]. intros S C. inversion C; subst.
  destruct (cc_nonempty_prefix _ H1) as (x & q & E).
  apply (ksorted_cons _ _ _ _ E) in S as [A S]. cbn. rewrite E. constructor; auto.
  now apply above_fbs.
Qed.

Lemma lkids_some_fbs l x k : lkids l (x :: k) <> None -> In (Some x) (fbs l).
Proof.
  induction l as [|t l IH]; cbn; [congruence|]. intros H.
  destruct (starts t (x :: k)) eqn:S; [|auto]. left. unfold starts in S.
  destruct (tp t) as [|y q]; [discriminate|]. destruct (byte_eqb_spec y x); [now subst|discriminate].
Qed.

(** Children that keep all their keys keep their number. *)
Lemma fbs_length ys rs : ksorted ys -> Forall cc ys ->
  (forall k, k <> [] -> lkids ys k <> None -> lkids rs k <> None) ->
  length ys <= length rs.
Proof.
  intros S C H. rewrite <- (map_length (fun t => hd_error (tp t)) ys), <- (map_length (fun t => hd_error (tp t)) rs).
  apply NoDup_incl_length; [now apply fbs_nodup|].
  intros o Ho. apply in_map_iff in Ho as (t & <- & Ht).
  destruct (lkids_has_key ys t S C Ht) as (k & Hk & St).
  destruct k as [|x k]; [now rewrite starts_nil in St|].
  unfold starts in St. destruct (tp t) as [|y q]; [discriminate|].
  destruct (byte_eqb_spec y x); [subst|discriminate]. cbn.
  apply (lkids_some_fbs rs x k). apply H; [discriminate|exact Hk].
Qed.

Section InPlace.
Context (dbg : bool) (idsA idsB : bool) (rdA rdB : reader) (al : Prop).
Context (HdB : det rdB \/ al).

Notation NB := (NRep idsB rdB al).
Notation IB := (IRepT idsB rdB al).
Notation OB := (ORep idsB rdB al).
Notation RA := (Rep idsA rdA).

(** Generic in the observation of the right operand: [G ta tb t] says what the
    result is. *)
Section Generic.
Context {B : Type} (d : B) (ob : tree -> bytes -> B) (g : option bytes -> B -> option bytes).
Context (g0 : g None d = None).
Context (obs : forall b k x q, tp b = x :: q -> starts b k = false -> ob b k = d).

Definition WJ (ta tb t : tree) : Prop :=
  croot t /\ forall k, lookup t k = g (lookup ta k) (ob tb k).

Definition postw (ta tb : tree) (n : node) : Prop :=
  exists t, RA n t /\ is_empty n = tnil t /\ WJ ta tb t.

(** The right operand satisfies [Q]. *)
Context (Q : tree -> Prop).

Definition recw (rec : node -> noderef -> res node) (M : nat) : Prop :=
  forall na rb ta tb, RA na ta -> NB rb tb -> croot ta -> croot tb -> Q tb ->
    size ta + size tb <= M -> okp al (rec na rb) (postw ta tb).

Definition kpostw (xs ys : list tree) (l : list node) : Prop :=
  exists rs, Forall2 RA l rs /\ KJ d ob g xs ys rs.

Context (rec : node -> noderef -> res node) (M : nat) (Hrec : recw rec M).

Lemma bothw_ok r n ta tb xs ys rs ns x q q' :
  postw ta tb n -> Forall2 RA ns rs -> KJ d ob g xs ys rs ->
  cc ta -> tp ta = x :: q -> tp tb = x :: q' -> above x xs -> above x ys ->
  r = (if is_empty n then ns else n :: ns) ->
  kpostw (ta :: xs) (tb :: ys) r.
Proof.
  intros (t & R & Em & Hr & Hl) F K Ca Ea Eb Aa Ab ->.
  exists (if tnil t then rs else t :: rs). split.
  - rewrite Em. destruct (tnil t); auto.
  - eapply (KJ_both d ob g g0) with (a := ta) (b := tb) (r := t); eauto.
Qed.

Lemma left_with_loop_ok (gR : forall o, g o d = o) (gl : forall o, g None o = None) :
  forall fuel na itb xs ys,
  Forall2 RA na xs -> IB itb ys -> ksorted xs -> ksorted ys -> Forall cc xs -> Forall cc ys ->
  Forall Q ys -> sizes xs + sizes ys <= M -> sizes xs + sizes ys + 1 < fuel ->
  okp al (left_with_loop rec fuel na itb) (kpostw xs ys).
Proof.
  induction fuel as [|fuel IH]; intros na itb xs ys Ia Ib Sa Sb Ca Cb HQ HM Hfu; [lia|].
  cbn [left_with_loop].
  destruct (cmp_with_cases idsA idsB rdA rdB al _ _ _ _ Ia Ib Sa Sb Ca Cb)
    as [-> -> -> -> | a xs' x q m na' -> -> E Aa Ab R I' -> | b ys' y q rb itb' -> E Aa Ab R I' N ->
       | a b xs' ys' x q q' m na' rb itb' -> -> -> Ea Eb Aa Ab Ra Ia' Rb Ib' N ->]; cbn [bind].
  - apply okp_ok. exists []. split; [constructor|]. now apply KJ_nil.
  - rewrite sizes_cons in *. inversion Ca; subst. pose proof (size_pos a).
    eapply okp_bind; [apply (IH na' itb xs' ys); eauto using ksorted_tail; lia|].
    intros ns (rs & Fn & K). apply okp_ok.
    exists (a :: rs). split; [constructor; auto|]. eapply KJ_a; eauto.
  - rewrite N. rewrite sizes_cons in *. inversion Cb; inversion HQ; subst. pose proof (size_pos b).
    eapply okp_weaken; [apply (IH na itb' xs ys'); eauto using ksorted_tail; lia|auto|].
    intros ns (rs & Fn & K). exists rs. split; [auto|]. eapply KJ_b_drop; eauto.
  - rewrite N. rewrite !sizes_cons in *. inversion Ca; inversion Cb; inversion HQ; subst.
    pose proof (size_pos a). pose proof (size_pos b).
    eapply okp_bind; [apply (Hrec m rb a b); auto using cc_croot; lia|].
    intros n Hn. eapply okp_bind; [apply (IH na' itb' xs' ys'); eauto using ksorted_tail; lia|].
    intros ns (rs & Fn & K). apply okp_ok. eapply bothw_ok; eauto.
Qed.

Lemma left_children_with_ok (gR : forall o, g o d = o) (gl : forall o, g None o = None) fuel na o xs ys :
  Forall2 RA na xs -> OB o ys -> ksorted xs -> ksorted ys -> Forall cc xs -> Forall cc ys ->
  Forall Q ys -> sizes xs + sizes ys <= M -> sizes xs + sizes ys + 1 < fuel ->
  okp al (left_children_with rec fuel na o) (kpostw xs ys).
Proof.
  intros Ia Ob Sa Sb Ca Cb HQ HM Hfu. unfold left_children_with. destruct o as [itb|]; cbn in Ob.
  - destruct Ob as [_ Ib]. destruct na as [|m na].
    + inversion Ia; subst. apply okp_ok. exists []. split; [constructor|]. now apply KJ_nil_l.
    + eapply left_with_loop_ok; eauto.
  - subst ys. apply okp_ok. exists xs. split; [exact Ia|]. now apply KJ_nil_r_keep.
Qed.

Lemma inner_with_loop_ok (gR : forall o, g o d = None) (gl : forall o, g None o = None) :
  forall fuel na itb xs ys,
  Forall2 RA na xs -> IB itb ys -> ksorted xs -> ksorted ys -> Forall cc xs -> Forall cc ys ->
  Forall Q ys -> sizes xs + sizes ys <= M -> sizes xs + sizes ys + 1 < fuel ->
  okp al (inner_with_loop rec fuel na itb) (kpostw xs ys).
Proof.
  induction fuel as [|fuel IH]; intros na itb xs ys Ia Ib Sa Sb Ca Cb HQ HM Hfu; [lia|].
  cbn [inner_with_loop].
  destruct (cmp_with_cases idsA idsB rdA rdB al _ _ _ _ Ia Ib Sa Sb Ca Cb)
    as [-> -> -> -> | a xs' x q m na' -> -> E Aa Ab R I' -> | b ys' y q rb itb' -> E Aa Ab R I' N ->
       | a b xs' ys' x q q' m na' rb itb' -> -> -> Ea Eb Aa Ab Ra Ia' Rb Ib' N ->]; cbn [bind].
  - apply okp_ok. exists []. split; [constructor|]. now apply KJ_nil.
  - rewrite sizes_cons in *. inversion Ca; subst. pose proof (size_pos a).
    eapply okp_weaken; [apply (IH na' itb xs' ys); eauto using ksorted_tail; lia|auto|].
    intros ns (rs & Fn & K). exists rs. split; [auto|]. eapply KJ_a_drop; eauto.
  - rewrite N. rewrite sizes_cons in *. inversion Cb; inversion HQ; subst. pose proof (size_pos b).
    eapply okp_weaken; [apply (IH na itb' xs ys'); eauto using ksorted_tail; lia|auto|].
    intros ns (rs & Fn & K). exists rs. split; [auto|]. eapply KJ_b_drop; eauto.
  - rewrite N. rewrite !sizes_cons in *. inversion Ca; inversion Cb; inversion HQ; subst.
    pose proof (size_pos a). pose proof (size_pos b).
    eapply okp_bind; [apply (Hrec m rb a b); auto using cc_croot; lia|].
    intros n Hn. eapply okp_bind; [apply (IH na' itb' xs' ys'); eauto using ksorted_tail; lia|].
    intros ns (rs & Fn & K). apply okp_ok. eapply bothw_ok; eauto.
Qed.

Lemma inner_children_with_ok (gR : forall o, g o d = None) (gl : forall o, g None o = None) fuel na o xs ys :
  Forall2 RA na xs -> OB o ys -> ksorted xs -> ksorted ys -> Forall cc xs -> Forall cc ys ->
  Forall Q ys -> sizes xs + sizes ys <= M -> sizes xs + sizes ys + 1 < fuel ->
  okp al (inner_children_with rec fuel na o) (kpostw xs ys).
Proof.
  intros Ia Ob Sa Sb Ca Cb HQ HM Hfu. unfold inner_children_with. destruct o as [itb|]; cbn in Ob.
  - destruct Ob as [_ Ib]. destruct na as [|m na].
    + inversion Ia; subst. apply okp_ok. exists []. split; [constructor|]. now apply KJ_nil_l.
    + eapply inner_with_loop_ok; eauto.
  - subst ys. apply okp_ok. exists []. split; [constructor|]. now apply KJ_nil_r_drop.
Qed.

(** Finishing: the node carries prefix, value and the new children. *)
Lemma finishw ta tb p v xs ys rs pb vb ns :
  RepP idsA rdA pb p -> RepV rdA vb v ->
  Forall2 RA ns rs -> KJ d ob g xs ys rs ->
  (v = None -> merge_ok (Node pb vb (KArc ns))) ->
  (forall k, rawlook p v rs k = g (lookup ta k) (ob tb k)) ->
  okp al (canonicalize dbg (Node pb vb (KArc ns))) (postw ta tb).
Proof.
  intros RP RV F K HM HL.
  assert (RA (Node pb vb (KArc ns)) (T p v rs)) as R.
  { eapply Rep_mk; cbn; eauto. now left. }
  destruct (canonicalize_ok idsA rdA dbg _ _ _ _ R (KJ_cc _ _ _ _ _ _ K)) as (n & -> & R' & Em);
    [right; eexists; reflexivity|exact HM|].
  apply okp_ok. exists (mk p v rs). split; [exact R'|]. split; [exact Em|].
  destruct (mk_spec p v rs (KJ_sorted _ _ _ _ _ _ K) (KJ_cc _ _ _ _ _ _ K)) as [M1 M2].
  split; [exact M1|]. intros k. now rewrite M2.
Qed.

(** Emptying a node. *)
Lemma emptyw ta tb pb :
  (forall k, g (lookup ta k) (ob tb k) = None) ->
  okp al (canonicalize dbg (Node pb bnone (KId []))) (postw ta tb).
Proof.
  intros H. unfold canonicalize. cbn. rewrite andb_false_r. apply okp_ok.
  exists tempty. split.
  - eapply Rep_mk with (ns := []); cbn; auto; [now left|]. right; left; auto.
  - split; [reflexivity|]. split; [now left|]. intros k. now rewrite tempty_lookup, H.
Qed.
End Generic.

Lemma set_kids_eta n ns : set_kids n (KArc ns) = Node (n_prefix n) (n_value n) (KArc ns).
Proof. reflexivity. Qed.

Lemma noids_merge pb vb ns p v rs : idsA = false ->
  RepP idsA rdA pb p -> RepV rdA vb v -> Forall2 RA ns rs -> merge_ok (Node pb vb (KArc ns)).
Proof.
  intros E RP RV F. subst idsA. eapply Rep_noids_merge with (t := T p v rs).
  eapply Rep_mk; cbn; eauto. now left.
Qed.

(* ------------------------------------------------------------------ *)
Section Joins.
Context (c : converter) (f : blob -> blob -> res blob) (h : bytes -> bytes -> option bytes).
Context (Hf : forall av bv x y, RepV rdA av (Some x) -> RepV rdB bv (Some y) ->
  okp al (f av bv) (fun r => RepV rdA r (h x y))).

Definition anyt (t : tree) : Prop := True.

Lemma anyts l : Forall anyt l.
Proof. apply Forall_forall. intros; exact I. Qed.

Lemma not_starts_lookup (b : tree) k x q : tp b = x :: q -> starts b k = false -> lookup b k = None.
Proof. intros E. now apply (lookup_not_starts _ x q). Qed.

Notation recj g := (recw None lookup g anyt) (only parsing).

Lemma raw_g g p va vb v xs ys rs ta tb :
  g None None = None -> v = g va vb -> KJL g xs ys rs ->
  (forall k, lookup ta k = rawlook p va xs k) ->
  (forall k, lookup tb k = rawlook p vb ys k) ->
  forall k, rawlook p v rs k = g (lookup ta k) (lookup tb k).
Proof.
  intros G E K Ha Hb k. rewrite Ha, Hb. apply raw_pointwise; auto.
  intros r Hr. exact (KJ_look _ _ _ _ _ _ K r Hr).
Qed.

Section Left.
Context (Hids : idsA = false) (Hdbg : dbg = true -> det rdA \/ al).

Theorem left_combine_with_ok : forall fuel,
  recw lookup (gL h) anyt (left_combine_with dbg rdA rdB f fuel) (fuel - 2).
Proof.
  set (g := gL h).
  assert (gR : forall o, g o None = o) by (intros [|]; reflexivity).
  assert (gl : forall o, g None o = None) by reflexivity.
  assert (g0 : g None None = None) by reflexivity.
  induction fuel as [|fuel IH]; intros na rb ta tb Ra Rb Ca Cb _ Hs;
    [pose proof (size_pos ta); cbn in Hs; lia|].
  destruct ta as [ap va xs], tb as [bp vb ys]. cbn [left_combine_with].
  pose proof (Rep_inv _ _ _ _ _ _ Ra) as (RP & RV & nx & RK & RF).
  rewrite (RepP_load _ _ _ _ RP), (NRep_prefix _ _ _ _ _ _ _ Rb). cbn [bind].
  destruct (croot_kids _ Ca) as [Sa Ka]. destruct (croot_kids _ Cb) as [Sb Kb]. cbn [tc] in *.
  rewrite !size_T in Hs.
  destruct (NRep_children _ _ _ HdB _ _ _ _ Rb) as (ob & Eb & Ob).
  pose proof (RepV_opt _ _ _ RV) as VA. pose proof (NRep_value _ _ _ _ _ _ _ Rb) as VB.
  destruct (edges_cases ap bp) as [E1 E2 E3|E1 E2 E3|E1 E2 E3|x y E1 E2 E3 Ex Ey Nxy];
    set (n := common_prefix ap bp) in *; edge_tests.
  - subst bp.
    eapply okp_bind with (P := fun a1 => exists vb', a1 = Node (n_prefix na) vb' (n_kids na) /\ RepV rdA vb' (g va vb)).
    { destruct vb as [y|].
      - destruct VB as (bv & -> & RVb). destruct va as [x|].
        + rewrite VA. eapply okp_bind; [eapply Hf; eauto|]. intros r Hr. apply okp_ok. exists r. auto.
        + rewrite VA. apply okp_ok. exists (n_value na). split; [now destruct na|exact RV].
      - rewrite VB. apply okp_ok. exists (n_value na). split; [now destruct na|]. now rewrite gR. }
    intros a1 (vb' & -> & RV').
    rewrite (load_children_mut_ok rdA (Node (n_prefix na) vb' (n_kids na)) nx RK). cbn [bind].
    rewrite Eb. cbn [bind].
    eapply okp_bind; [eapply left_children_with_ok with (M := fuel - 2) (xs := xs) (ys := ys) (Q := anyt);
      eauto using anyts, not_starts_lookup; lia|].
    intros ns (rs & Fn & K). rewrite set_kids_eta. cbn [n_prefix n_value].
    eapply finishw with (rs := rs); eauto.
    + intros _. eapply noids_merge; eauto.
    + eapply raw_g with (va := va) (vb := vb); eauto; intros; apply lookup_raw.
  - rewrite (load_children_mut_ok rdA na nx RK). cbn [bind].
    eapply okp_bind; [eapply r_clone_shortened_ok with (t := T bp vb ys); cbn; eauto; lia|].
    intros b' [Rb' _].
    eapply okp_bind; [eapply left_children_with_ok with (M := fuel - 2) (xs := xs) (Q := anyt)
      (ys := [shorten n (T bp vb ys)]);
      eauto using anyts, not_starts_lookup, OB_single, cc_single_sorted;
      rewrite ?sizes_single, ?size_shorten, ?size_T; try lia|].
    { constructor; [now apply shorten_cc|constructor]. }
    intros ns (rs & Fn & K). rewrite set_kids_eta.
    eapply finishw with (rs := rs); eauto.
    + intros _. eapply noids_merge; eauto.
    + eapply raw_g with (va := va) (vb := None); eauto.
      * intros; apply lookup_raw.
      * intros k. rewrite (rawlook_shorten (T bp vb ys) k n E2). cbn [tp]. now rewrite E3.
  - destruct (split_ok idsA rdA na (T ap va xs) n Ra) as (n1 & m & -> & K1 & Rm & _ & P1 & V1); [cbn; lia|].
    cbn [bind]. rewrite (load_children_mut_ok rdA n1 [m]) by (left; exact K1). cbn [bind].
    rewrite Eb. cbn [bind].
    eapply okp_bind; [eapply left_children_with_ok with (M := fuel - 2) (Q := anyt)
      (xs := [shorten n (T ap va xs)]) (ys := ys);
      eauto using anyts, not_starts_lookup, OB_single, cc_single_sorted;
      rewrite ?sizes_single, ?size_shorten, ?size_T; try lia|].
    { constructor; [now apply shorten_cc|constructor]. }
    intros ns (rs & Fn & K). rewrite set_kids_eta, P1, V1. cbn [tp].
    eapply finishw with (rs := rs) (p := bp) (v := None); eauto.
    + rewrite E3. now left.
    + reflexivity.
    + intros _. eapply noids_merge with (p := bp) (v := None); eauto; [rewrite E3; now left|reflexivity].
    + eapply raw_g with (va := None) (vb := vb); eauto.
      * intros k. rewrite (rawlook_shorten (T ap va xs) k n E2). cbn [tp]. now rewrite E3.
      * intros; apply lookup_raw.
  - eapply okp_weaken; [eapply canonicalize_same with (t := T ap va xs) (al := al); eauto|auto|].
    intros n' [R' Em]. exists (T ap va xs). split; [exact R'|]. split; [exact Em|].
    split; [exact Ca|]. intros k. destruct (lookup (T ap va xs) k) eqn:El; [|reflexivity].
    rewrite (disjoint_keys ap bp va vb xs ys n x y k); auto; congruence.
Qed.

Theorem inner_combine_with_ok : forall fuel,
  recw lookup (gI h) anyt (inner_combine_with dbg rdA rdB f fuel) (fuel - 2).
Proof.
  set (g := gI h).
  assert (gR : forall o, g o None = None) by (intros [|]; reflexivity).
  assert (gl : forall o, g None o = None) by reflexivity.
  assert (g0 : g None None = None) by reflexivity.
  induction fuel as [|fuel IH]; intros na rb ta tb Ra Rb Ca Cb _ Hs;
    [pose proof (size_pos ta); cbn in Hs; lia|].
  destruct ta as [ap va xs], tb as [bp vb ys]. cbn [inner_combine_with].
  pose proof (Rep_inv _ _ _ _ _ _ Ra) as (RP & RV & nx & RK & RF).
  rewrite (RepP_load _ _ _ _ RP), (NRep_prefix _ _ _ _ _ _ _ Rb). cbn [bind].
  destruct (croot_kids _ Ca) as [Sa Ka]. destruct (croot_kids _ Cb) as [Sb Kb]. cbn [tc] in *.
  rewrite !size_T in Hs.
  destruct (NRep_children _ _ _ HdB _ _ _ _ Rb) as (ob & Eb & Ob).
  pose proof (RepV_opt _ _ _ RV) as VA. pose proof (NRep_value _ _ _ _ _ _ _ Rb) as VB.
  destruct (edges_cases ap bp) as [E1 E2 E3|E1 E2 E3|E1 E2 E3|x y E1 E2 E3 Ex Ey Nxy];
    set (n := common_prefix ap bp) in *; edge_tests.
  - subst bp.
    eapply okp_bind with (P := fun a1 => exists vb', a1 = Node (n_prefix na) vb' (n_kids na) /\ RepV rdA vb' (g va vb)).
    { destruct va as [x|].
      - rewrite VA. destruct vb as [y|].
        + destruct VB as (bv & -> & RVb). eapply okp_bind; [eapply Hf; eauto|]. intros r Hr. apply okp_ok. exists r. auto.
        + rewrite VB. apply okp_ok. exists bnone. split; reflexivity.
      - rewrite VA. apply okp_ok. exists bnone. split; reflexivity. }
    intros a1 (vb' & -> & RV').
    rewrite (load_children_mut_ok rdA (Node (n_prefix na) vb' (n_kids na)) nx RK). cbn [bind].
    rewrite Eb. cbn [bind].
    eapply okp_bind; [eapply inner_children_with_ok with (M := fuel - 2) (xs := xs) (ys := ys) (Q := anyt);
      eauto using anyts, not_starts_lookup; lia|].
    intros ns (rs & Fn & K). rewrite set_kids_eta. cbn [n_prefix n_value].
    eapply finishw with (rs := rs); eauto.
    + intros _. eapply noids_merge; eauto.
    + eapply raw_g with (va := va) (vb := vb); eauto; intros; apply lookup_raw.
  - rewrite (load_children_mut_ok rdA (set_value na bnone) nx RK). cbn [bind].
    eapply okp_bind; [eapply r_clone_shortened_ok with (t := T bp vb ys); cbn; eauto; lia|].
    intros b' [Rb' _].
    eapply okp_bind; [eapply inner_children_with_ok with (M := fuel - 2) (xs := xs) (Q := anyt)
      (ys := [shorten n (T bp vb ys)]);
      eauto using anyts, not_starts_lookup, OB_single, cc_single_sorted;
      rewrite ?sizes_single, ?size_shorten, ?size_T; try lia|].
    { constructor; [now apply shorten_cc|constructor]. }
    intros ns (rs & Fn & K). rewrite set_kids_eta. cbn [n_prefix n_value set_value].
    eapply finishw with (rs := rs) (v := None); eauto.
    + reflexivity.
    + intros _. eapply noids_merge with (v := None); eauto. reflexivity.
    + eapply raw_g with (va := va) (vb := None); eauto.
      * intros; apply lookup_raw.
      * intros k. rewrite (rawlook_shorten (T bp vb ys) k n E2). cbn [tp]. now rewrite E3.
  - destruct (split_ok idsA rdA na (T ap va xs) n Ra) as (n1 & m & -> & K1 & Rm & _ & P1 & V1); [cbn; lia|].
    cbn [bind]. rewrite (load_children_mut_ok rdA n1 [m]) by (left; exact K1). cbn [bind].
    rewrite Eb. cbn [bind].
    eapply okp_bind; [eapply inner_children_with_ok with (M := fuel - 2) (Q := anyt)
      (xs := [shorten n (T ap va xs)]) (ys := ys);
      eauto using anyts, not_starts_lookup, OB_single, cc_single_sorted;
      rewrite ?sizes_single, ?size_shorten, ?size_T; try lia|].
    { constructor; [now apply shorten_cc|constructor]. }
    intros ns (rs & Fn & K). rewrite set_kids_eta, P1, V1. cbn [tp].
    eapply finishw with (rs := rs) (p := bp) (v := None); eauto.
    + rewrite E3. now left.
    + reflexivity.
    + intros _. eapply noids_merge with (p := bp) (v := None); eauto; [rewrite E3; now left|reflexivity].
    + eapply raw_g with (va := None) (vb := vb); eauto.
      * intros k. rewrite (rawlook_shorten (T ap va xs) k n E2). cbn [tp]. now rewrite E3.
      * intros; apply lookup_raw.
  - eapply emptyw. intros k. destruct (lookup (T ap va xs) k) eqn:El; [|reflexivity].
    rewrite (disjoint_keys ap bp va vb xs ys n x y k); auto; congruence.
Qed.
End Left.

Section Outer.
Context (Hids : idsA = true -> forall x y, h x y <> None).
Context (HcN : forall fuel r t, NB r t -> size t < fuel ->
  okp al (conv_node c fuel r)
    (fun n => RA n t /\ (blob_is_id (r_prefix r) = false -> blob_is_id (n_prefix n) = false))).
Context (HcS : forall fuel r t k, NB r t -> k <= length (tp t) -> size t < fuel ->
  okp al (conv_node_shortened c fuel r k) (fun n => RA n (shorten k t))).
Context (HcV : forall bv y, RepV rdB bv (Some y) -> okp al (conv_value c bv) (fun v => RepV rdA v (Some y))).

Lemma convert_loop_ok : forall fuel itb ys,
  IB itb ys -> sizes ys + 1 < fuel ->
  okp al (convert_loop c fuel itb) (fun l => Forall2 RA l ys /\
    (forall b, itb = IOwned [b] -> blob_is_id (n_prefix b) = false ->
       forall m, l = [m] -> blob_is_id (n_prefix m) = false)).
Proof.
  assert (forall fuel itb ys, IB itb ys -> sizes ys + 1 < fuel ->
    okp al (convert_loop c fuel itb) (fun l => Forall2 RA l ys)) as H.
  { induction fuel as [|fuel IH]; intros itb ys Ib Hfu; [lia|]. cbn [convert_loop].
    destruct ys as [|b ys].
    - apply IRepT_nil in Ib as (-> & _). apply okp_ok. constructor.
    - apply IRepT_cons in Ib as (rb & itb' & -> & R & I & _). rewrite sizes_cons in Hfu.
      pose proof (size_pos b).
      eapply okp_bind; [apply (HcN fuel rb b R); lia|]. intros m [Rm _].
      eapply okp_bind; [apply (IH itb' ys I); lia|]. intros l Hl. apply okp_ok. constructor; auto. }
  intros fuel itb ys Ib Hfu.
  destruct itb as [l|data].
  2:{ eapply okp_weaken; [eapply H; eauto|auto|]. intros; split; auto. intros; discriminate. }
  destruct l as [|b [|b2 l]];
    try (eapply okp_weaken; [eapply H; eauto|auto|]; intros; split; auto; intros; discriminate).
  destruct fuel as [|fuel]; [lia|]. cbn [convert_loop it_next].
  destruct Ib as [O (ns & E & F)]. cbn in E. subst ns. inversion F as [|? t ? ? R F']; subst. inversion F'; subst.
  rewrite sizes_single in Hfu.
  eapply okp_bind; [apply (HcN fuel (ROwned b) t (Rep_NRep _ _ _ _ _ R)); lia|]. intros m [Rm Pm].
  destruct fuel as [|fuel]; [pose proof (size_pos t); lia|]. cbn. apply okp_ok. split; [auto|].
  intros b0 [= <-] Hb m0 [= <-]. auto.
Qed.

Lemma outer_with_loop_ok g (g0 : g None None = None) rec M (Hrec : recw lookup g anyt rec M)
  (gR : forall o, g o None = o) (gl : forall o, g None o = o) :
  forall fuel na itb xs ys,
  Forall2 RA na xs -> IB itb ys -> ksorted xs -> ksorted ys -> Forall cc xs -> Forall cc ys ->
  sizes xs + sizes ys <= M -> sizes xs + sizes ys + 1 < fuel ->
  okp al (outer_with_loop c rec fuel na itb) (kpostw None lookup g xs ys).
Proof.
  induction fuel as [|fuel IH]; intros na itb xs ys Ia Ib Sa Sb Ca Cb HM Hfu; [lia|].
  cbn [outer_with_loop].
  destruct (cmp_with_cases idsA idsB rdA rdB al _ _ _ _ Ia Ib Sa Sb Ca Cb)
    as [-> -> -> -> | a xs' x q m na' -> -> E Aa Ab R I' -> | b ys' y q rb itb' -> E Aa Ab R I' N ->
       | a b xs' ys' x q q' m na' rb itb' -> -> -> Ea Eb Aa Ab Ra Ia' Rb Ib' N ->]; cbn [bind].
  - apply okp_ok. exists []. split; [constructor|]. now apply KJ_nil.
  - rewrite sizes_cons in *. inversion Ca; subst. pose proof (size_pos a).
    eapply okp_bind; [apply (IH na' itb xs' ys); eauto using ksorted_tail; lia|].
    intros ns (rs & Fn & K). apply okp_ok.
    exists (a :: rs). split; [constructor; auto|]. eapply KJ_a; eauto.
  - rewrite N. rewrite sizes_cons in *. inversion Cb; subst. pose proof (size_pos b).
    eapply okp_bind; [apply (HcN fuel rb b R); lia|]. intros m [Rm _].
    eapply okp_bind; [apply (IH na itb' xs ys'); eauto using ksorted_tail; lia|].
    intros ns (rs & Fn & K). apply okp_ok. exists (b :: rs). split; [auto|]. eapply KJ_b; eauto.
  - rewrite N. rewrite !sizes_cons in *. inversion Ca; inversion Cb; subst.
    pose proof (size_pos a). pose proof (size_pos b).
    eapply okp_bind; [apply (Hrec m rb a b); auto using cc_croot; try lia; exact I|].
    intros n Hn. eapply okp_bind; [apply (IH na' itb' xs' ys'); eauto using ksorted_tail; lia|].
    intros ns (rs & Fn & K). apply okp_ok. eapply bothw_ok; eauto using not_starts_lookup.
Qed.

Lemma outer_children_with_ok g (g0 : g None None = None) rec M (Hrec : recw lookup g anyt rec M)
  (gR : forall o, g o None = o) (gl : forall o, g None o = o) fuel na o xs ys :
  Forall2 RA na xs -> OB o ys -> ksorted xs -> ksorted ys -> Forall cc xs -> Forall cc ys ->
  sizes xs + sizes ys <= M -> sizes xs + sizes ys + 1 < fuel ->
  okp al (outer_children_with c rec fuel na o) (fun l => kpostw None lookup g xs ys l /\
    (ys = [] -> l = na) /\ (xs = [] -> length l = length ys) /\
    (xs = [] -> forall b, o = it_single b -> blob_is_id (n_prefix b) = false ->
       forall m, l = [m] -> blob_is_id (n_prefix m) = false)).
Proof.
  intros Ia Ob Sa Sb Ca Cb HM Hfu. unfold outer_children_with. destruct o as [itb|]; cbn in Ob.
  - destruct Ob as [Ny Ib]. destruct na as [|m na].
    + inversion Ia; subst. cbn in Hfu.
      eapply okp_weaken; [eapply convert_loop_ok; eauto|auto|]. cbv beta. intros l [F P]. split; [|split; [|split]].
      * exists ys. split; [exact F|]. split; auto; cbn; lia.
      * congruence.
      * intros _. apply (Forall2_len _ _ _ F).
      * intros _ b [= ->]. now apply P.
    + eapply okp_weaken; [eapply outer_with_loop_ok; eauto|auto|]. cbv beta. intros l K.
      split; [exact K|]. split; [congruence|]. inversion Ia; subst. split; intros; discriminate.
  - subst ys. apply okp_ok. split; [|split; [reflexivity|split]].
    + exists xs. split; [exact Ia|]. now apply KJ_nil_r_keep.
    + intros ->. now inversion Ia.
    + intros -> ? ? ? m ->. now inversion Ia.
Qed.

(** With edges stored as ids, merging must not happen to such edges. *)
Lemma merge_count pb vb ns : 2 <= length ns -> merge_ok (Node pb vb (KArc ns)).
Proof. destruct ns as [|m [|m2 ns]]; cbn; auto; lia. Qed.

Lemma merge_nil pb vb : merge_ok (Node pb vb (KArc [])).
Proof. exact I. Qed.

Lemma ids_cases : idsA = false \/ (idsA = true /\ forall x y, h x y <> None).
Proof. destruct idsA; auto. Qed.

Lemma gO_nondel : (forall x y, h x y <> None) -> nondel (gO h).
Proof. intros H x [y|]; cbn; [apply H|congruence]. Qed.

Theorem outer_combine_with_ok : forall fuel,
  recw lookup (gO h) anyt (outer_combine_with dbg rdA rdB c f fuel) (fuel - 2).
Proof.
  set (g := gO h).
  assert (gR : forall o, g o None = o) by (intros [|]; reflexivity).
  assert (gl : forall o, g None o = o) by reflexivity.
  assert (g0 : g None None = None) by reflexivity.
  induction fuel as [|fuel IH]; intros na rb ta tb Ra Rb Ca Cb _ Hs;
    [pose proof (size_pos ta); cbn in Hs; lia|].
  destruct ta as [ap va xs], tb as [bp vb ys]. cbn [outer_combine_with].
  pose proof (Rep_inv _ _ _ _ _ _ Ra) as (RP & RV & nx & RK & RF).
  rewrite (RepP_load _ _ _ _ RP), (NRep_prefix _ _ _ _ _ _ _ Rb). cbn [bind].
  destruct (croot_kids _ Ca) as [Sa Ka]. destruct (croot_kids _ Cb) as [Sb Kb]. cbn [tc] in *.
  rewrite !size_T in Hs.
  destruct (NRep_children _ _ _ HdB _ _ _ _ Rb) as (ob & Eb & Ob).
  pose proof (RepV_opt _ _ _ RV) as VA. pose proof (NRep_value _ _ _ _ _ _ _ Rb) as VB.
  assert (vb = None -> ys = [] \/ 2 <= length ys) as Lb.
  { intros ->. destruct Cb as [Cb|([Cb|Cb] & _)]; [injection Cb as _ ->; auto|cbn in Cb; congruence|auto]. }
  assert (va = None -> xs = [] \/ 2 <= length xs) as La.
  { intros ->. destruct Ca as [Ca|([Ca|Ca] & _)]; [injection Ca as _ ->; auto|cbn in Ca; congruence|auto]. }
  destruct (edges_cases ap bp) as [E1 E2 E3|E1 E2 E3|E1 E2 E3|x y E1 E2 E3 Ex Ey Nxy];
    set (n := common_prefix ap bp) in *; edge_tests.
  - (* equal *)
    subst bp. cbn [bind].
    eapply okp_bind with (P := fun a1 => exists vb', a1 = Node (n_prefix na) vb' (n_kids na) /\ RepV rdA vb' (g va vb)).
    { destruct vb as [y|].
      - destruct VB as (bv & -> & RVb). destruct va as [x|].
        + rewrite VA. eapply okp_bind; [eapply Hf; eauto|]. intros r Hr. apply okp_ok. exists r. auto.
        + rewrite VA. eapply okp_bind; [eapply HcV; eauto|]. intros r Hr. apply okp_ok. exists r. auto.
      - rewrite VB. apply okp_ok. exists (n_value na). split; [now destruct na|]. now rewrite gR. }
    intros a1 (vb' & -> & RV').
    rewrite (load_children_mut_ok rdA (Node (n_prefix na) vb' (n_kids na)) nx RK). cbn [bind].
    rewrite Eb. cbn [bind].
    eapply okp_bind; [eapply outer_children_with_ok with (M := fuel - 2) (xs := xs) (ys := ys); eauto; lia|].
    cbv beta. intros ns ((rs & Fn & K) & N1 & N2 & N3). rewrite set_kids_eta. cbn [n_prefix n_value].
    eapply finishw with (rs := rs); eauto.
    + intros Ev. destruct ids_cases as [I|[I ND]]; [eapply noids_merge; eauto|].
      assert (va = None /\ vb = None) as [Eva Evb].
      { destruct va, vb; cbn in Ev; auto; try discriminate. now destruct (ND b b0). }
      destruct (La Eva) as [->|L].
      * specialize (N2 eq_refl). destruct (Lb Evb) as [->|L2].
        -- destruct ns; [apply merge_nil|discriminate].
        -- apply merge_count. lia.
      * apply merge_count. rewrite (Forall2_len _ _ _ Fn).
        pose proof (KJ_len _ _ _ _ _ _ K (gO_nondel ND)). lia.
    + eapply raw_g with (va := va) (vb := vb); eauto; intros; apply lookup_raw.
  - (* the left edge is shorter *)
    rewrite (load_children_mut_ok rdA na nx RK). cbn [bind].
    eapply okp_bind; [eapply r_clone_shortened_ok with (t := T bp vb ys); cbn; eauto; lia|].
    intros b' [Rb' Db'].
    eapply okp_bind; [eapply outer_children_with_ok with (M := fuel - 2) (xs := xs)
      (ys := [shorten n (T bp vb ys)]);
      eauto using OB_single, cc_single_sorted;
      rewrite ?sizes_single, ?size_shorten, ?size_T; try lia|].
    { constructor; [now apply shorten_cc|constructor]. }
    cbv beta. intros ns ((rs & Fn & K) & N1 & N2 & N3). rewrite set_kids_eta.
    eapply finishw with (rs := rs); eauto.
    + intros ->. destruct ids_cases as [I|[I ND]]; [eapply noids_merge; eauto|].
      destruct (La eq_refl) as [->|L].
      * unfold merge_ok. cbn. destruct ns as [|m [|m2 ns]]; auto. split; [|eapply N3; eauto].
        destruct Ca as [Ca|([Ca|Ca] & _)]; [|cbn in Ca; congruence|cbn in Ca; lia].
        injection Ca as ->. destruct RP as [->|(_ & ? & ? & ? & _ & _ & ?)]; [reflexivity|discriminate].
      * apply merge_count. rewrite (Forall2_len _ _ _ Fn).
        pose proof (KJ_len _ _ _ _ _ _ K (gO_nondel ND)). lia.
    + eapply raw_g with (va := va) (vb := None); eauto.
      * intros; apply lookup_raw.
      * intros k. rewrite (rawlook_shorten (T bp vb ys) k n E2). cbn [tp]. now rewrite E3.
  - (* the right edge is shorter *)
    destruct (split_ok idsA rdA na (T ap va xs) n Ra) as (n1 & m & -> & K1 & Rm & Dm & P1 & V1); [cbn; lia|].
    cbn [bind].
    eapply okp_bind with (P := fun a1 => exists vb', a1 = Node (n_prefix n1) vb' (n_kids n1) /\ RepV rdA vb' vb).
    { destruct vb as [y|].
      - destruct VB as (bv & -> & RVb). rewrite V1. cbn [blob_opt bnone].
        eapply okp_bind; [eapply HcV; eauto|]. intros r Hr. apply okp_ok. exists r. auto.
      - rewrite VB. apply okp_ok. exists (n_value n1). split; [now destruct n1|]. rewrite V1. reflexivity. }
    intros a1 (vb' & -> & RV').
    rewrite (load_children_mut_ok rdA (Node (n_prefix n1) vb' (n_kids n1)) [m]) by (left; exact K1). cbn [bind].
    rewrite Eb. cbn [bind].
    eapply okp_bind; [eapply outer_children_with_ok with (M := fuel - 2)
      (xs := [shorten n (T ap va xs)]) (ys := ys);
      eauto using OB_single, cc_single_sorted;
      rewrite ?sizes_single, ?size_shorten, ?size_T; try lia|].
    { constructor; [now apply shorten_cc|constructor]. }
    cbv beta. intros ns ((rs & Fn & K) & N1 & N2 & N3). rewrite set_kids_eta. cbn [n_prefix n_value]. rewrite P1. cbn [tp].
    eapply finishw with (rs := rs) (p := bp) (v := vb); eauto.
    + rewrite E3. now left.
    + intros Ev. destruct ids_cases as [I|[I ND]].
      { eapply noids_merge with (p := bp) (v := vb); eauto. rewrite E3. now left. }
      destruct (Lb Ev) as [->|L2].
      * rewrite N1 by reflexivity. cbn. auto.
      * apply merge_count. rewrite (Forall2_len _ _ _ Fn).
        apply Nat.le_trans with (length ys); [exact L2|]. apply fbs_length; auto.
        intros k Hk Hl. rewrite (KJ_look _ _ _ _ _ _ K) by assumption.
        destruct (lkids [shorten n (T ap va xs)] k) as [z|]; [now apply gO_nondel|exact Hl].
    + eapply raw_g with (va := None) (vb := vb); eauto.
      * intros k. rewrite (rawlook_shorten (T ap va xs) k n E2). cbn [tp]. now rewrite E3.
      * intros; apply lookup_raw.
  - (* disjoint *)
    destruct (split_ok idsA rdA na (T ap va xs) n Ra) as (n1 & m & -> & K1 & Rm & Dm & P1 & V1); [cbn; lia|].
    cbn [bind]. rewrite (load_children_mut_ok rdA n1 [m]) by (left; exact K1). cbn [bind].
    eapply okp_bind; [eapply HcS with (t := T bp vb ys); eauto; [cbn; lia|rewrite size_T; lia]|].
    intros b' Rb'. rewrite set_kids_eta, P1, V1. cbn [tp].
    destruct (tp_shorten_nth (T ap va xs) n x Ex) as [qa Eqa].
    destruct (tp_shorten_nth (T bp vb ys) n y Ey) as [qb Eqb].
    pose proof (shorten_cc n _ Ca E1) as Ca'. pose proof (shorten_cc n _ Cb E2) as Cb'.
    assert (exists rs, Forall2 RA (sort2 m b') rs /\
      KJL g [shorten n (T ap va xs)] [shorten n (T bp vb ys)] rs) as (rs & Fr & K).
    { unfold sort2. rewrite (Rep_first _ _ _ _ Rm), (Rep_first _ _ _ _ Rb'), Eqa, Eqb. cbn [hd_error cmp_ob].
      destruct (N.compare_spec (bnum x) (bnum y)) as [C|C|C].
      * now apply bnum_inj in C.
      * exists [shorten n (T ap va xs); shorten n (T bp vb ys)]. split; [repeat constructor; auto|].
        eapply KJ_a; eauto; [constructor| |].
        -- apply above_cons. rewrite Eqb. split; [exact C|constructor].
        -- eapply KJ_b; eauto; [constructor|constructor|now apply KJ_nil].
      * exists [shorten n (T bp vb ys); shorten n (T ap va xs)]. split; [repeat constructor; auto|].
        eapply KJ_b; eauto; [|constructor|].
        -- apply above_cons. rewrite Eqa. split; [exact C|constructor].
        -- eapply KJ_a; eauto; [constructor|constructor|now apply KJ_nil]. }
    eapply finishw with (rs := rs) (p := firstn n ap) (v := None); eauto.
    + now left.
    + reflexivity.
    + intros _. apply merge_count. unfold sort2. destruct (cmp_ob _ _); cbn; lia.
    + eapply raw_g with (va := None) (vb := None); eauto.
      * intros k. now apply (rawlook_shorten (T ap va xs)).
      * intros k. rewrite E3. now apply (rawlook_shorten (T bp vb ys)).
Qed.
End Outer.
End Joins.
End InPlace.

(* ------------------------------------------------------------------ *)
(** The converters satisfy their specifications. *)
Section Converters.
Context (idsA idsB : bool) (rdA : reader) (al : Prop).

Lemma downcast_node fuel r t : NRep idsB detached_read al r t -> size t < fuel ->
  okp al (conv_node downcast_converter fuel r)
    (fun n => Rep idsA rdA n t /\ (blob_is_id (r_prefix r) = false -> blob_is_id (n_prefix n) = false)).
Proof.
  intros [O (n & E & R)] _. destruct r as [m|b]; cbn in *.
  - injection E as ->. apply okp_ok. split; [|auto]. eapply Rep_detached; eauto.
  - destruct O as [[? O]|O]; [discriminate|]. right. auto.
Qed.

Lemma downcast_short fuel r t k : NRep idsB detached_read al r t -> k <= length (tp t) -> size t < fuel ->
  okp al (conv_node_shortened downcast_converter fuel r k) (fun n => Rep idsA rdA n (shorten k t)).
Proof.
  intros R Hk _. cbn. eapply okp_weaken; [eapply r_clone_shortened_ok; eauto|auto|].
  intros n [Rn _]. eapply Rep_detached; eauto.
Qed.

Lemma downcast_value bv y : RepV detached_read bv (Some y) ->
  okp al (conv_value downcast_converter bv) (fun v => RepV rdA v (Some y)).
Proof. intros [->|(c & id & -> & H)]; [|discriminate]. apply okp_ok. now left. Qed.

Lemma identity_node fuel r t : (idsB = true -> idsA = true) -> NRep idsB rdA al r t -> size t < fuel ->
  okp al (conv_node (identity_converter rdA) fuel r)
    (fun n => Rep idsA rdA n t /\ (blob_is_id (r_prefix r) = false -> blob_is_id (n_prefix n) = false)).
Proof.
  intros HI [O (n & E & R)] _. cbn. rewrite E. apply okp_ok. split; [eapply Rep_mono; eauto|].
  apply (owned_view rdA) in E as (-> & _). auto.
Qed.

Lemma identity_short fuel r t k : (idsB = true -> idsA = true) ->
  NRep idsB rdA al r t -> k <= length (tp t) -> size t < fuel ->
  okp al (conv_node_shortened (identity_converter rdA) fuel r k) (fun n => Rep idsA rdA n (shorten k t)).
Proof.
  intros HI R Hk _. cbn. eapply okp_weaken; [eapply r_clone_shortened_ok; eauto|auto|].
  intros n [Rn _]. eapply Rep_mono; eauto.
Qed.

Lemma identity_value bv y : RepV rdA bv (Some y) ->
  okp al (conv_value (identity_converter rdA) bv) (fun v => RepV rdA v (Some y)).
Proof. intros H. now apply okp_ok. Qed.

Context (rdB : reader) (HdB : det rdB \/ al).

Lemma detach_node fuel r t : NRep idsB rdB al r t -> size t < fuel ->
  okp al (conv_node (detach_converter rdB) fuel r)
    (fun n => Rep idsA rdA n t /\ (blob_is_id (r_prefix r) = false -> blob_is_id (n_prefix n) = false)).
Proof.
  intros R Hs. cbn. destruct (r_detached_ok _ _ _ _ _ _ R Hs) as (n & -> & Rn & Dn).
  apply okp_ok. split; [eapply Rep_detached; exact Rn|auto].
Qed.

Lemma detach_short fuel r t k : NRep idsB rdB al r t -> k <= length (tp t) -> size t < fuel ->
  okp al (conv_node_shortened (detach_converter rdB) fuel r k) (fun n => Rep idsA rdA n (shorten k t)).
Proof.
  intros R Hk Hs. cbn [conv_node_shortened detach_converter].
  eapply okp_bind; [eapply r_clone_shortened_ok; eauto|].
  intros n [Rn _]. destruct (r_detached_ok idsB rdB al fuel (ROwned n) (shorten k t)) as (m & -> & Rm & _).
  - now apply Rep_NRep.
  - now rewrite size_shorten.
  - apply okp_ok. eapply Rep_detached; exact Rm.
Qed.

Lemma detach_value bv y : RepV rdB bv (Some y) ->
  okp al (conv_value (detach_converter rdB) bv) (fun v => RepV rdA v (Some y)).
Proof.
  intros H. cbn. eapply okp_weaken; [eapply v_detached_ok; eauto|auto|]. intros v ->. now left.
Qed.
End Converters.
