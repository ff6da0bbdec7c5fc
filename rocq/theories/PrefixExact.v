(** What [retain_prefix_with] does for any selector. *)
From Verif Require Import Base BaseLemmas Header Node Combine Tree Rep JoinBase JoinProofs WithProofs PrefixProofs RetainSpec.

Section Maps.
Context (s : bytes -> bool).
Notation kept := (kept s).
Notation map := (bytes -> option bytes).

Lemma fork_ext (A A' : map) q : (forall r, A (q ++ r) = A' (q ++ r)) -> fork A q -> fork A' q.
Proof.
  intros E [H|(x & y & k & l & N & H1 & H2)].
  - left. specialize (E []). rewrite app_nil_r in E. congruence.
  - right. exists x, y, k, l. rewrite <- !E. auto.
Qed.

Lemma kept_ext (A A' B B' : map) x k : (forall z, A (x :: z) = A' (x :: z)) -> (forall z, B (x :: z) = B' (x :: z)) ->
  B [] = None -> B' [] = None -> kept A B (x :: k) -> kept A' B' (x :: k).
Proof.
  intros HA HB N N' (p & r & v & E & Hp & Sv & H). destruct p as [|x' p]; [congruence|].
  cbn in E. injection E as <- ->. exists (x :: p), r, v. split; [reflexivity|]. split; [now rewrite <- HB|]. split; [exact Sv|].
  intros q u y E Hu Hq Sy. destruct q as [|x' q]; [congruence|]. pose proof E as E'. cbn in E'. injection E' as <- E'.
  eapply (fork_ext A); [intros; apply HA|]. eapply H; eauto. now rewrite HB.
Qed.

Lemma kept_not (A B : map) x k : (forall z, B (x :: z) = None) -> B [] = None -> ~ kept A B (x :: k).
Proof. intros HB N (p & r & v & E & Hp & _). destruct p as [|x' p]; [congruence|]. cbn in E. injection E as <- ->. congruence. Qed.

(** Below a common prefix [p]. *)
Lemma kept_below (A B A' B' : map) p r :
  (forall z, z <> [] -> A (p ++ z) = A' z) -> (forall z, z <> [] -> B (p ++ z) = B' z) -> B' [] = None ->
  (forall z v, B z = Some v -> exists w, z = p ++ w) ->
  (forall v, B p = Some v -> s v = false /\ fork A p) ->
  kept A B (p ++ r) <-> kept A' B' r.
Proof.
  intros HA HB N HBp Hv.
  assert (forall q, q <> [] -> fork A (p ++ q) <-> fork A' q) as HF.
  { intros q Hq. split; intros [H|(x & y & k & l & Nxy & H1 & H2)].
    - left. now rewrite <- HA.
    - right. exists x, y, k, l. rewrite <- !app_assoc in *. rewrite HA in H1, H2 by (destruct q; discriminate). auto.
    - left. now rewrite HA.
    - right. exists x, y, k, l. rewrite <- !app_assoc. rewrite !HA by (destruct q; discriminate). auto. }
  split.
  - intros (P & u & v & E & HP & Sv & H). destruct (HBp _ _ HP) as [w ->]. rewrite <- app_assoc in E. apply app_inv_head in E. subst r.
    assert (w <> []) as Hw. { intros ->. rewrite app_nil_r in HP. destruct (Hv _ HP). congruence. }
    exists w, u, v. split; [reflexivity|]. split; [now rewrite <- HB|]. split; [exact Sv|].
    intros q t y -> Ht Hq Sy. assert (q <> []) as Hn by (intros ->; congruence).
    apply (HF q Hn). eapply (H (p ++ q) t y); [now rewrite app_assoc|exact Ht|now rewrite HB|exact Sy].
  - intros (w & u & v & -> & HP & Sv & H). assert (w <> []) as Hw by (intros ->; congruence).
    exists (p ++ w), u, v. split; [now rewrite app_assoc|]. split; [now rewrite HB|]. split; [exact Sv|].
    intros q t y E Ht Hq Sy. destruct (HBp _ _ Hq) as [q' ->]. rewrite <- app_assoc in E. apply app_inv_head in E. subst w.
    destruct (list_eq_dec byte_eq_dec q' []) as [->|Hn].
    + rewrite app_nil_r in *. now apply Hv in Hq.
    + apply (HF q' Hn). eapply (H q' t y); auto. now rewrite <- HB.
Qed.
End Maps.

(** The entries of a node lie below its prefix. *)
Lemma lookup_below p v cs k x : lookup (T p v cs) k = Some x -> exists w, k = p ++ w.
Proof.
  rewrite lookup_raw. unfold rawlook. destruct (strip p k) as [r|] eqn:E; [|discriminate]. apply strip_spec in E. eauto.
Qed.
Lemma lookup_at p v cs : lookup (T p v cs) p = v.
Proof. rewrite lookup_raw. unfold rawlook. rewrite <- (app_nil_r p) at 2. now rewrite strip_app. Qed.
Lemma lookup_under p v cs z : z <> [] -> lookup (T p v cs) (p ++ z) = lkids cs z.
Proof. intros H. rewrite lookup_raw. unfold rawlook. rewrite strip_app. now destruct z. Qed.

(** Every node of a canonical tree is a fork. *)
Lemma croot_fork p v cs k : croot (T p v cs) -> lookup (T p v cs) k <> None -> fork (lookup (T p v cs)) p.
Proof.
  intros [E|(L & S & C)] Hk; [rewrite E, tempty_lookup in Hk; congruence|]. cbn [tv tc] in *.
  destruct v as [x|]; [left; rewrite lookup_at; discriminate|]. right.
  destruct cs as [|a [|b cs]]; [exfalso; revert L; unfold live; cbn; intuition (try congruence; lia)|exfalso; revert L; unfold live; cbn; intuition (try congruence; lia)|].
  destruct (lkids_has_key (a :: b :: cs) a S C ltac:(now left)) as (ka & Ka & Sa).
  destruct (lkids_has_key (a :: b :: cs) b S C ltac:(right; now left)) as (kb & Kb & Sb).
  inversion C as [|? ? Ca C']; subst. inversion C' as [|? ? Cb C'']; subst.
  destruct (cc_nonempty_prefix _ Ca) as (x & qa & Ea). destruct (cc_nonempty_prefix _ Cb) as (y & qb & Eb).
  apply (ksorted_cons _ _ _ _ Ea) in S as [Ab _]. apply above_cons in Ab as [Ab _]. rewrite Eb in Ab.
  destruct ka as [|x' ka]; [now rewrite starts_nil in Sa|]. destruct kb as [|y' kb]; [now rewrite starts_nil in Sb|].
  unfold starts in Sa, Sb. rewrite Ea in Sa. rewrite Eb in Sb.
  destruct (byte_eqb_spec x x'); [subst x'|discriminate]. destruct (byte_eqb_spec y y'); [subst y'|discriminate].
  exists x, y, ka, kb. split; [intros ->; lia|]. split; rewrite lookup_under by discriminate; assumption.
Qed.

Section Exact.
Context (dbg : bool) (idsA idsB : bool) (rdA rdB : reader) (al : Prop).
Context (HdB : det rdB \/ al).
Context (Hids : idsA = false) (Hdbg : dbg = true -> det rdA \/ al).
Context (f : blob -> res bool) (s : bytes -> bool).
Context (Hf : forall bv y, RepV rdB bv (Some y) -> okp al (f bv) (fun b => b = s y)).

Notation NB := (NRep idsB rdB al).
Notation OB := (ORep idsB rdB al).
Notation IB := (IRepT idsB rdB al).
Notation RA := (Rep idsA rdA).
Notation kept := (kept s).

Notation retained := (retained s).

Definition postx (ta tb : tree) (n : node) : Prop :=
  exists t, RA n t /\ is_empty n = tnil t /\ croot t /\ retained (lookup ta) (lookup tb) (lookup t).
Definition recx (rec : node -> noderef -> res node) (M : nat) : Prop :=
  forall na rb ta tb, RA na ta -> NB rb tb -> croot ta -> croot tb -> size ta + size tb <= M -> okp al (rec na rb) (postx ta tb).

Record KX (xs ys rs : list tree) : Prop := {
  KX_sorted : ksorted rs;
  KX_cc : Forall cc rs;
  KX_above : forall c, above c xs -> above c rs;
  KX_look : retained (lkids xs) (lkids ys) (lkids rs) }.
Definition kpostx (xs ys : list tree) (l : list node) : Prop := exists rs, Forall2 RA l rs /\ KX xs ys rs.

Lemma lkids_skip a x q xs y k : tp a = x :: q -> x <> y -> lkids (a :: xs) (y :: k) = lkids xs (y :: k).
Proof. intros E N. cbn [lkids]. unfold starts. rewrite E. destruct (byte_eqb_spec x y); [contradiction|reflexivity]. Qed.
Lemma lkids_take a x q xs k : tp a = x :: q -> lkids (a :: xs) (x :: k) = lookup a (x :: k).
Proof. intros E. cbn [lkids]. unfold starts. rewrite E. destruct (byte_eqb_spec x x); [reflexivity|contradiction]. Qed.

Lemma KX_nil_l ys : KX [] ys [].
Proof. split; try constructor. - discriminate. - intros [H _]. discriminate. Qed.
Lemma KX_nil_r xs : KX xs [] [].
Proof.
  split; try constructor.
  - discriminate.
  - intros [H K]. exfalso. destruct k as [|y k]; [now rewrite lkids_nil_key in H|]. revert K. now apply kept_not.
Qed.

Lemma KX_a a x q xs ys rs : tp a = x :: q -> above x xs -> above x ys -> KX xs ys rs -> KX (a :: xs) ys rs.
Proof.
  intros E Hx Hy [K1 K2 K3 K4]. split; auto.
  - intros c Hc. apply above_cons in Hc as [_ Hc]. auto.
  - intros k v. destruct k as [|y k].
    { rewrite !lkids_nil_key. split; [discriminate|intros [? _]; discriminate]. }
    destruct (byte_eqb_spec x y) as [<-|N].
    + rewrite (lkids_above _ rs) by auto. split; [discriminate|]. intros [_ K]. exfalso. revert K. apply kept_not.
      * intros z. now apply lkids_above.
      * apply lkids_nil_key.
    + rewrite (K4 (y :: k) v), (lkids_skip a x q xs y k E N).
      split; intros [H K]; (split; [exact H|]); (eapply kept_ext; [| | | |exact K]); intros; rewrite ?lkids_nil_key; auto;
        try (now rewrite (lkids_skip a x q)).
Qed.
Lemma KX_b b x q xs ys rs : tp b = x :: q -> above x xs -> above x ys -> KX xs ys rs -> KX xs (b :: ys) rs.
Proof.
  intros E Hx Hy [K1 K2 K3 K4]. split; auto.
  intros k v. destruct k as [|y k].
  { rewrite !lkids_nil_key. split; [discriminate|intros [? _]; discriminate]. }
  destruct (byte_eqb_spec x y) as [<-|N].
  - rewrite (lkids_above _ rs) by auto. rewrite (lkids_above _ xs) by auto. split; [discriminate|]. intros [? _]; discriminate.
  - rewrite (K4 (y :: k) v).
    split; intros [H K]; (split; [exact H|]); (eapply kept_ext; [| | | |exact K]); intros; rewrite ?lkids_nil_key; auto;
      try (now rewrite (lkids_skip b x q)).
Qed.
Lemma KX_both a b t x q q' xs ys rs : cc a -> cc b -> tp a = x :: q -> tp b = x :: q' -> above x xs -> above x ys ->
  croot t -> retained (lookup a) (lookup b) (lookup t) ->
  KX xs ys rs -> KX (a :: xs) (b :: ys) (if tnil t then rs else t :: rs).
Proof.
  intros Ca Cb Ea Eb Hx Hy Ct Ht [K1 K2 K3 K4].
  assert (forall z, tp z = x :: q \/ tp z = x :: q' -> lookup z [] = None) as Hn.
  { intros z Hz. destruct Hz as [Hz|Hz]; eapply lookup_not_starts; eauto using starts_nil. }
  assert (t <> tempty -> exists q2, tp t = x :: q2) as Htp.
  { intros Hne. destruct (croot_has_key t Ct Hne) as (k & Hk).
    assert (forall k, lookup t k <> None -> exists k', k = x :: k') as Hall.
    { intros k0 H0. destruct (lookup t k0) as [v|] eqn:E0; [|congruence]. apply Ht in E0 as [E0 _].
      pose proof (lookup_some_starts _ _ _ _ _ Ea E0) as St. destruct k0 as [|y k0]; [now rewrite starts_nil in St|].
      unfold starts in St. rewrite Ea in St. destruct (byte_eqb_spec x y); [subst|discriminate]. eauto. }
    eapply croot_first; eauto. }
  assert (forall k v, k <> [] -> lkids (if tnil t then rs else t :: rs) k = Some v <->
    lkids (a :: xs) k = Some v /\ kept (lkids (a :: xs)) (lkids (b :: ys)) k) as HL.
  { intros [|y k] v Hk; [congruence|]. destruct (byte_eqb_spec x y) as [<-|N].
    - assert (lkids (if tnil t then rs else t :: rs) (x :: k) = lookup t (x :: k)) as ->.
      { destruct (tnil t) eqn:Et.
        - apply (croot_tnil t Ct) in Et. subst t. rewrite tempty_lookup. apply lkids_above. auto.
        - destruct Htp as [q2 E2]; [intros ->; discriminate|]. now apply lkids_take with q2. }
      rewrite (Ht (x :: k) v), (lkids_take a x q) by exact Ea.
      split; intros [H K]; (split; [exact H|]); (eapply kept_ext; [| | | |exact K]); intros;
        rewrite ?(lkids_take a x q _ _ Ea), ?(lkids_take b x q' _ _ Eb), ?lkids_nil_key; auto.
    - assert (lkids (if tnil t then rs else t :: rs) (y :: k) = lkids rs (y :: k)) as ->.
      { destruct (tnil t) eqn:Et; [reflexivity|]. destruct Htp as [q2 E2]; [intros ->; discriminate|]. now apply lkids_skip with x q2. }
      rewrite (K4 (y :: k) v), (lkids_skip a x q xs y k Ea N).
      split; intros [H K]; (split; [exact H|]); (eapply kept_ext; [| | | |exact K]); intros;
        rewrite ?(lkids_skip a x q _ _ _ Ea N), ?(lkids_skip b x q' _ _ _ Eb N), ?lkids_nil_key; auto. }
  split.
  - destruct (tnil t) eqn:Et; [exact K1|]. destruct Htp as [q2 E2]; [intros ->; discriminate|].
    apply (ksorted_cons _ _ _ _ E2). auto.
  - destruct (tnil t) eqn:Et; [exact K2|]. constructor; [|exact K2].
    apply croot_cc; [exact Ct|]. destruct Htp as [q2 ->]; [intros ->; discriminate|discriminate].
  - intros c Hc. apply above_cons in Hc as [Hc1 Hc]. rewrite Ea in Hc1. destruct (tnil t) eqn:Et; [auto|].
    destruct Htp as [q2 E2]; [intros ->; discriminate|]. apply above_cons. rewrite E2. auto.
  - intros [|y k] v; [|apply HL; discriminate]. rewrite !lkids_nil_key. split; [discriminate|intros [? _]; discriminate].
Qed.

Section Loop.
Context (rec : node -> noderef -> res node) (M : nat) (Hrec : recx rec M).

Lemma loopx : forall fuel na itb xs ys,
  Forall2 RA na xs -> IB itb ys -> ksorted xs -> ksorted ys -> Forall cc xs -> Forall cc ys ->
  sizes xs + sizes ys <= M -> sizes xs + sizes ys + 1 < fuel ->
  okp al (inner_with_loop rec fuel na itb) (kpostx xs ys).
Proof.
  induction fuel as [|fuel IH]; intros na itb xs ys Ia Ib Sa Sb Ca Cb HM Hfu; [lia|].
  cbn [inner_with_loop].
  destruct (cmp_with_cases idsA idsB rdA rdB al _ _ _ _ Ia Ib Sa Sb Ca Cb)
    as [-> -> -> -> | a xs' x q m na' -> -> E Aa Ab R I' -> | b ys' y q rb itb' -> E Aa Ab R I' N ->
       | a b xs' ys' x q q' m na' rb itb' -> -> -> Ea Eb Aa Ab Ra Ia' Rb Ib' N ->]; cbn [bind].
  - apply okp_ok. exists []. split; [constructor|]. apply KX_nil_l.
  - rewrite sizes_cons in *. inversion Ca; subst. pose proof (size_pos a).
    eapply okp_weaken; [apply (IH na' itb xs' ys); eauto using ksorted_tail; lia|auto|].
    intros ns (rs & Fn & K). exists rs. split; [auto|]. eapply KX_a; eauto.
  - rewrite N. rewrite sizes_cons in *. inversion Cb; subst. pose proof (size_pos b).
    eapply okp_weaken; [apply (IH na itb' xs ys'); eauto using ksorted_tail; lia|auto|].
    intros ns (rs & Fn & K). exists rs. split; [auto|]. eapply KX_b; eauto.
  - rewrite N. rewrite !sizes_cons in *. inversion Ca; inversion Cb; subst.
    pose proof (size_pos a). pose proof (size_pos b).
    eapply okp_bind; [apply (Hrec m rb a b); auto using cc_croot; lia|].
    intros n (t & Rt & Em & Ct & Lt). eapply okp_bind; [apply (IH na' itb' xs' ys'); eauto using ksorted_tail; lia|].
    intros ns (rs & Fn & K). apply okp_ok. exists (if tnil t then rs else t :: rs). split.
    + rewrite Em. destruct (tnil t); auto.
    + eapply KX_both; eauto.
Qed.

Lemma childrenx fuel na o xs ys :
  Forall2 RA na xs -> OB o ys -> ksorted xs -> ksorted ys -> Forall cc xs -> Forall cc ys ->
  sizes xs + sizes ys <= M -> sizes xs + sizes ys + 1 < fuel ->
  okp al (inner_children_with rec fuel na o) (kpostx xs ys).
Proof.
  intros Ia Ob Sa Sb Ca Cb HM Hfu. unfold inner_children_with. destruct o as [itb|]; cbn in Ob.
  - destruct Ob as [_ Ib]. destruct na as [|m na].
    + inversion Ia; subst. apply okp_ok. exists []. split; [constructor|]. apply KX_nil_l.
    + eapply loopx; eauto.
  - subst ys. apply okp_ok. exists []. split; [constructor|]. apply KX_nil_r.
Qed.
End Loop.

Lemma finishx ta tb p xs ys rs pb vb ns :
  RepP idsA rdA pb p -> RepV rdA vb None -> Forall2 RA ns rs -> KX xs ys rs ->
  retained (lookup ta) (lookup tb) (rawlook p None rs) ->
  okp al (canonicalize dbg (Node pb vb (KArc ns))) (postx ta tb).
Proof.
  intros RP RV F K HL.
  assert (RA (Node pb vb (KArc ns)) (T p None rs)) as R.
  { eapply Rep_mk; cbn; eauto. now left. }
  destruct (canonicalize_ok idsA rdA dbg _ _ _ _ R (KX_cc _ _ _ K)) as (n & -> & R' & Em);
    [right; eexists; reflexivity|intros _; eapply noids_merge with (idsA := idsA); eauto|].
  apply okp_ok. exists (mk p None rs). split; [exact R'|]. split; [exact Em|].
  destruct (mk_spec p None rs (KX_sorted _ _ _ K) (KX_cc _ _ _ K)) as [M1 M2].
  split; [exact M1|]. intros k x. rewrite M2. apply HL.
Qed.
Lemma emptyx ta tb pb : (forall k, lookup ta k <> None -> ~ kept (lookup ta) (lookup tb) k) ->
  okp al (canonicalize dbg (Node pb bnone (KId []))) (postx ta tb).
Proof.
  intros H. unfold canonicalize. cbn. rewrite andb_false_r. apply okp_ok.
  exists tempty. split.
  - eapply Rep_mk with (ns := []); cbn; auto; [now left|]. right; left; auto.
  - split; [reflexivity|]. split; [now left|]. intros k x. rewrite tempty_lookup. split; [discriminate|].
    intros [E K]. exfalso. apply (H k); [congruence|exact K].
Qed.

(** The result below a common prefix. *)
Lemma rawx (A B : bytes -> option bytes) p va vb xs ys rs :
  (forall k, A k = rawlook p va xs k) -> (forall k, B k = rawlook p vb ys k) ->
  selv s vb = false -> (vb = None \/ forall k, A k <> None -> fork A p) ->
  KX xs ys rs -> retained A B (rawlook p None rs).
Proof.
  intros HA HB Sv Hfk [_ _ _ K] k x.
  assert (forall z, z <> [] -> A (p ++ z) = lkids xs z) as A1.
  { intros z Hz. rewrite HA. unfold rawlook. rewrite strip_app. now destruct z. }
  assert (forall z, z <> [] -> B (p ++ z) = lkids ys z) as B1.
  { intros z Hz. rewrite HB. unfold rawlook. rewrite strip_app. now destruct z. }
  assert (A k <> None -> forall r, k = p ++ r -> kept A B (p ++ r) <-> kept (lkids xs) (lkids ys) r) as KB.
  { intros Hk r ->. apply kept_below; auto using lkids_nil_key.
    - intros z v. rewrite HB. unfold rawlook. destruct (strip p z) as [w|] eqn:E; [|discriminate]. apply strip_spec in E. eauto.
    - intros v. rewrite HB. unfold rawlook. rewrite <- (app_nil_r p) at 2. rewrite strip_app. intros ->. cbn in Sv.
      split; [exact Sv|]. destruct Hfk as [F|F]; [discriminate|eauto]. }
  unfold rawlook at 1. destruct (strip p k) as [r|] eqn:E.
  - apply strip_spec in E. destruct r as [|y r].
    + split; [discriminate|]. intros [Hx Hk]. exfalso. assert (A k <> None) as Hn by congruence.
      subst k. apply (KB Hn [] eq_refl) in Hk as (P & u & v & E & HP & _). destruct P; [|discriminate]. now rewrite lkids_nil_key in HP.
    + rewrite (K (y :: r) x). rewrite <- (A1 (y :: r)) by discriminate. rewrite <- E. split.
      * intros [Hx Hk]. split; [exact Hx|]. rewrite E. apply KB; [congruence|exact E|exact Hk].
      * intros [Hx Hk]. split; [exact Hx|]. rewrite E in Hk. apply KB in Hk; [exact Hk|congruence|exact E].
  - split; [discriminate|]. intros [Hx _]. exfalso. rewrite HA in Hx. unfold rawlook in Hx. now rewrite E in Hx.
Qed.

(** Everything is kept below a selected prefix that nothing in [b] is a prefix of. *)
Lemma allx (A : bytes -> option bytes) p vb ys k w : selv s vb = true -> k = p ++ w -> kept A (lookup (T p vb ys)) k.
Proof.
  intros Sv ->. destruct vb as [v|]; [|discriminate]. exists p, w, v. split; [reflexivity|]. split; [apply lookup_at|]. split; [exact Sv|].
  intros q u y E Hu Hq _. exfalso. apply lookup_below in Hq as [z ->]. rewrite <- app_assoc in E.
  rewrite <- (app_nil_r p) in E at 1. apply app_inv_head in E. destruct z; cbn in E; [congruence|discriminate].
Qed.

(** An unchanged node. *)
Lemma samex na ta tb : RA na ta -> croot ta -> (forall k, lookup ta k <> None -> kept (lookup ta) (lookup tb) k) ->
  okp al (canonicalize dbg na) (postx ta tb).
Proof.
  intros R C H. eapply okp_weaken; [eapply canonicalize_same with (t := ta) (al := al); eauto|auto|].
  intros n' [R' Em]. exists ta. split; [exact R'|]. split; [exact Em|]. split; [exact C|].
  intros k x. split; [|tauto]. intros E. split; [exact E|]. apply H. congruence.
Qed.

Theorem retain_prefix_exact : forall fuel, recx (retain_prefix_with dbg rdA rdB f fuel) (fuel - 2).
Proof.
  induction fuel as [|fuel IH]; intros na rb ta tb Ra Rb Ca Cb Hs;
    [pose proof (size_pos ta); cbn in Hs; lia|].
  destruct ta as [ap va xs], tb as [bp vb ys]. cbn [retain_prefix_with].
  pose proof (Rep_inv _ _ _ _ _ _ Ra) as (RP & RV & nx & RK & RF).
  rewrite (RepP_load _ _ _ _ RP), (NRep_prefix _ _ _ _ _ _ _ Rb). cbn [bind].
  destruct (croot_kids _ Ca) as [Sa Ka]. destruct (croot_kids _ Cb) as [Sb Kb]. cbn [tc] in *.
  rewrite !size_T in Hs.
  destruct (NRep_children _ _ _ HdB _ _ _ _ Rb) as (ob & Eb & Ob).
  pose proof (selected_ok idsB rdB al f s Hf _ _ _ _ Rb) as SB. pose proof (NRep_value _ _ _ _ _ _ _ Rb) as VB.
  destruct (edges_cases ap bp) as [E1 E2 E3|E1 E2 E3|E1 E2 E3|x y E1 E2 E3 Ex Ey Nxy];
    set (n := common_prefix ap bp) in *; edge_tests.
  - subst bp. eapply okp_bind; [exact SB|]. cbv beta. intros b ->. destruct (selv s vb) eqn:Sv.
    + apply samex; auto. intros k Hk. destruct (lookup (T ap va xs) k) as [v|] eqn:Ek; [|congruence].
      apply lookup_below in Ek as [w ->]. now apply allx with w.
    + rewrite (load_children_mut_ok rdA (set_value na bnone) nx RK). cbn [bind]. rewrite Eb. cbn [bind].
      eapply okp_bind; [eapply childrenx with (M := fuel - 2) (xs := xs) (ys := ys); eauto; lia|].
      intros ns (rs & Fn & K). rewrite set_kids_eta. cbn [set_value n_prefix n_value].
      eapply finishx with (rs := rs); eauto; [reflexivity|].
      eapply rawx with (va := va) (vb := vb); eauto using lookup_raw. right. intros k Hk. eapply croot_fork; eauto.
  - rewrite (load_children_mut_ok rdA (set_value na bnone) nx RK). cbn [bind].
    eapply okp_bind; [eapply r_clone_shortened_ok with (t := T bp vb ys); cbn; eauto; lia|].
    intros b' [Rb' _].
    eapply okp_bind; [eapply childrenx with (M := fuel - 2) (xs := xs) (ys := [shorten n (T bp vb ys)]);
      eauto using OB_single, cc_single_sorted; rewrite ?sizes_single, ?size_shorten, ?size_T; try lia|].
    { constructor; [now apply shorten_cc|constructor]. }
    intros ns (rs & Fn & K). rewrite set_kids_eta. cbn [set_value n_prefix n_value].
    eapply finishx with (rs := rs); eauto; [reflexivity|].
    eapply rawx with (va := va) (vb := None); eauto using lookup_raw.
    intros k. rewrite (rawlook_shorten (T bp vb ys) k n E2). cbn [tp]. now rewrite E3.
  - assert (forall k v, lookup (T ap va xs) k = Some v -> exists z w, k = bp ++ z :: w /\ nth_error ap n = Some z) as Hall.
    { intros k v Ek. apply lookup_below in Ek as [w ->].
      destruct (skipn_cons_nth n ap E2) as (z & Hz & Hsk). exists z, (skipn (S n) ap ++ w). split; [|exact Hz].
      rewrite <- (firstn_skipn n ap) at 1. rewrite E3, Hsk, <- app_assoc. reflexivity. }
    destruct vb as [v|].
    + destruct VB as (bv & -> & RVb). eapply okp_bind; [eapply Hf; eauto|]. cbv beta. intros b ->.
      destruct (s v) eqn:Sv.
      * apply samex; auto. intros k Hk. destruct (lookup (T ap va xs) k) as [v'|] eqn:Ek; [|congruence].
        apply Hall in Ek as (z & w & -> & _). now apply allx with (z :: w).
      * apply emptyx. intros k Hk (P & u & y & -> & HP & Sy & H).
        pose proof (lookup_below _ _ _ _ _ HP) as [w ->].
        assert (w <> []) as Hw. { intros ->. rewrite app_nil_r, lookup_at in HP. congruence. }
        destruct (H bp w v eq_refl Hw (lookup_at _ _ _) Sv) as [F|(c & d & k1 & k2 & Ncd & F1 & F2)].
        -- destruct (lookup (T ap va xs) bp) as [v'|] eqn:Ek; [|congruence]. apply Hall in Ek as (z & w' & E & _).
           rewrite <- (app_nil_r bp) in E at 1. apply app_inv_head in E. discriminate.
        -- destruct (lookup (T ap va xs) (bp ++ c :: k1)) as [v1|] eqn:Ek1; [|congruence].
           destruct (lookup (T ap va xs) (bp ++ d :: k2)) as [v2|] eqn:Ek2; [|congruence].
           apply Hall in Ek1 as (z1 & w1 & G1 & N1). apply Hall in Ek2 as (z2 & w2 & G2 & N2).
           apply app_inv_head in G1. apply app_inv_head in G2. congruence.
    + rewrite VB.
      destruct (split_ok idsA rdA na (T ap va xs) n Ra) as (n1 & m & -> & K1 & Rm & _ & P1 & V1); [cbn; lia|].
      cbn [bind]. rewrite (load_children_mut_ok rdA n1 [m]) by (left; exact K1). cbn [bind].
      rewrite Eb. cbn [bind].
      eapply okp_bind; [eapply childrenx with (M := fuel - 2)
        (xs := [shorten n (T ap va xs)]) (ys := ys);
        eauto using OB_single, cc_single_sorted; rewrite ?sizes_single, ?size_shorten, ?size_T; try lia|].
      { constructor; [now apply shorten_cc|constructor]. }
      intros ns (rs & Fn & K). rewrite set_kids_eta, P1, V1. cbn [tp].
      eapply finishx with (rs := rs) (p := bp); eauto.
      * rewrite E3. now left.
      * reflexivity.
      * eapply rawx with (va := None) (vb := None); eauto using lookup_raw.
        intros k. rewrite (rawlook_shorten (T ap va xs) k n E2). cbn [tp]. now rewrite E3.
  - apply emptyx. intros k Hk (P & u & v & -> & HP & Sv & _).
    assert (cov s (T bp vb ys) (P ++ u) = true) as Hc by (apply cov_spec; eauto 8).
    rewrite (disjoint_cov s ap bp va vb xs ys n x y (P ++ u)) in Hc; auto; discriminate.
Qed.
End Exact.
