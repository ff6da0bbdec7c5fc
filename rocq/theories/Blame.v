(** Who is to blame when an operation in memory fails: in memory nothing but the closure can fail, and it is only ever
    given the values of one key in both trees. *)
From Verif Require Import Base BaseLemmas Header Node Combine Tree Rep JoinBase JoinProofs WithProofs PrefixProofs
  InPlace InPlaceAgree InPlaceProofs WeakFind WeakJoin WeakWith Store Heap HeapSpec HeapProofs HeapOps HeapIter HeapTree HeapBorrow HeapMerge HeapClean
  HeapFail HeapFailOps HeapFailRec.

Section Blame.
Context (bk dbg : bool).
Notation R := (Rep false mem).
Notation NB := (NRep false mem False).

(** [P]: the values at a key are to blame. *)
Context (P : option bytes -> option bytes -> Prop) (P0 : forall o, ~ P o None).

Definition meet (ta tb : tree) : Prop := exists k, P (lookup ta k) (lookup tb k).
Definition meets (xs ys : list tree) : Prop := exists k, k <> [] /\ P (lkids xs k) (lkids ys k).
Definition blames (rec : node -> noderef -> left_in node) : Prop := forall n rb n' ta tb,
  R n ta -> NB rb tb -> wroot ta -> wroot tb -> rec n rb = (n', verdict false) -> meet ta tb.
Definition kblames (kids : list node -> option iter -> left_in (list node)) : Prop := forall ns o rs xs ys,
  Forall2 R ns xs -> ORep false mem False o ys -> ksorted xs -> ksorted ys -> Forall wcc xs -> Forall wcc ys ->
  kids ns o = (rs, verdict false) -> meets xs ys.

Lemma nb_owned rb t : NB rb t -> exists m, rb = ROwned m /\ R m t.
Proof. intros [[(m & ->)|[]] (n & E & H)]. injection E as <-. eauto. Qed.

Lemma elsewhere c l t q k : Tree.above c l -> tp t = c :: q -> lkids l k <> None -> starts t k = false.
Proof.
  intros A E N. destruct k as [|c' k]; [apply starts_nil|]. destruct (byte_eqb_spec c c') as [->|D].
  - now rewrite (lkids_above _ _ _ A) in N.
  - now apply (starts_other _ _ _ _ _ E).
Qed.
Lemma P_some o o' : P o o' -> o' <> None.
Proof. intros H ->. now apply P0 in H. Qed.

Lemma merge_blame keep i rec : ins_ne i -> blames rec -> forall fuel ns it rs xs ys,
  Forall2 R ns xs -> IRepT false mem False it ys -> ksorted xs -> ksorted ys -> Forall wcc xs -> Forall wcc ys ->
  pmerge_in bk keep i rec fuel ns it = (rs, verdict false) -> meets xs ys.
Proof.
  intros Hi Hrec. induction fuel as [|fuel IH]; intros ns it rs xs ys Ia Ib Sa Sb Ca Cb E; [discriminate E|].
  cbn [pmerge_in] in E. revert E.
  destruct (w_cmp_cases false false mem mem False _ _ _ _ Ia Ib Sa Sb Ca Cb)
    as [-> -> -> -> | a xs' x q m na' -> -> E Aa Ab Ra I' -> | b ys' y q rb itb' -> E Aa Ab Rb I' N ->
       | a b xs' ys' x q q' m na' rb itb' -> -> -> Ea Eb Aa Ab Ra Ia' Rb Ib' N ->]; intros Er.
  - discriminate Er.
  - assert (meets xs' ys) as (k & Hk & H).
    { inversion Ca; subst. destruct keep.
      - destruct (pmerge_in bk true i rec fuel na' it) as [rs' r'] eqn:El.
        assert (r' = verdict false) as -> by congruence. apply (IH _ _ _ _ _ I' Ib (ksorted_tail _ _ Sa) Sb ltac:(assumption) Cb El).
      - apply (IH _ _ _ _ _ I' Ib (ksorted_tail _ _ Sa) Sb ltac:(assumption) Cb Er). }
    exists k. split; [exact Hk|]. cbn [lkids]. now rewrite (elsewhere _ _ _ _ _ Ab E (P_some _ _ H)).
  - rewrite N in Er. assert (meets xs ys') as (k & Hk & H).
    { inversion Cb; subst. destruct i as [c|].
      - destruct (nb_owned _ _ Rb) as (mb & -> & _).
        destruct (try_inv _ _ _ _ _ Er) as [(z & Ez & E1)|(Ez & _)]; [|now apply Hi in Ez].
        destruct (pmerge_in bk keep (Some c) rec fuel ns itb') as [rs' r'] eqn:El.
        assert (r' = verdict false) as -> by congruence. apply (IH _ _ _ _ _ Ia I' Sa (ksorted_tail _ _ Sb) Ca ltac:(assumption) El).
      - apply (IH _ _ _ _ _ Ia I' Sa (ksorted_tail _ _ Sb) Ca ltac:(assumption) Er). }
    exists k. split; [exact Hk|]. cbn [lkids]. now rewrite (elsewhere _ _ _ _ _ Ab E (P_some _ _ H)).
  - rewrite N in Er. inversion Ca; inversion Cb; subst. destruct (rec m rb) as [x' r] eqn:Erec.
    destruct (try_inv _ _ _ _ _ Er) as [([] & -> & E1)|(-> & _ & _)].
    + destruct (pmerge_in bk keep i rec fuel na' itb') as [rs' r'] eqn:El. assert (r' = verdict false) as -> by congruence.
      destruct (IH _ _ _ _ _ Ia' Ib' (ksorted_tail _ _ Sa) (ksorted_tail _ _ Sb) ltac:(assumption) ltac:(assumption) El) as (k & Hk & H).
      exists k. split; [exact Hk|]. cbn [lkids]. now rewrite (elsewhere _ _ _ _ _ Ab Ea (P_some _ _ H)), (elsewhere _ _ _ _ _ Ab Eb (P_some _ _ H)).
    + destruct (Hrec _ _ x' _ _ Ra Rb ltac:(auto using wcc_wroot) ltac:(auto using wcc_wroot) Erec) as (k & H). exists k.
      destruct (lookup b k) as [v|] eqn:Hv; [|now apply P0 in H].
      pose proof (lookup_some_starts _ _ _ _ _ Eb Hv) as St. split; [intros ->; rewrite starts_nil in St; discriminate St|].
      cbn [lkids]. rewrite St. unfold starts in *. rewrite Ea. rewrite Eb in St. rewrite St. now rewrite Hv.
Qed.

Lemma left_kblame rec fuel : blames rec -> kblames (left_children_in bk rec fuel).
Proof.
  intros Hr ns o rs xs ys Ia Ob Sa Sb Ca Cb E. unfold left_children_in in E. destruct o as [it|]; [|discriminate E].
  destruct Ob as [_ Ib]. destruct ns as [|m ns]; [discriminate E|]. rewrite left_merge_in in E.
  apply (merge_blame true None rec Logic.I Hr _ _ _ _ _ _ Ia Ib Sa Sb Ca Cb E).
Qed.
Lemma inner_kblame rec fuel : blames rec -> kblames (inner_children_in bk rec fuel).
Proof.
  intros Hr ns o rs xs ys Ia Ob Sa Sb Ca Cb E. unfold inner_children_in in E. destruct o as [it|]; [|discriminate E].
  destruct Ob as [_ Ib]. destruct ns as [|m ns]; [discriminate E|]. rewrite inner_merge_in in E.
  apply (merge_blame false None rec Logic.I Hr _ _ _ _ _ _ Ia Ib Sa Sb Ca Cb E).
Qed.
Lemma convert_fine c : ne_conv c -> forall fuel l rs, convert_loop_in c fuel (IOwned l) <> (rs, verdict false).
Proof.
  intros [Hc _]. induction fuel as [|fuel IH]; intros l rs E; [discriminate E|]. cbn [convert_loop_in] in E.
  destruct l as [|y l]; [discriminate E|]. cbn [it_next] in E.
  destruct (try_inv _ _ _ _ _ E) as [(z & Ez & E1)|(Ez & _)]; [|now apply Hc in Ez].
  destruct (convert_loop_in c fuel (IOwned l)) as [rs' r'] eqn:El. assert (r' = verdict false) as -> by congruence.
  now apply IH in El.
Qed.
Lemma outer_kblame c rec fuel : ne_conv c -> blames rec -> kblames (outer_children_in bk rec c fuel).
Proof.
  intros Hc Hr ns o rs xs ys Ia Ob Sa Sb Ca Cb E. unfold outer_children_in in E. destruct o as [it|]; [|discriminate E].
  destruct Ob as [_ Ib]. destruct ns as [|m ns].
  - destruct Ib as [[(l & ->)|[]] _]. now apply (convert_fine _ Hc) in E.
  - rewrite outer_merge_in in E. apply (merge_blame true (Some c) rec (proj1 Hc) Hr _ _ _ _ _ _ Ia Ib Sa Sb Ca Cb E).
Qed.

Lemma recurse_blame kids a bc n' p v xs ys nx : kblames kids -> KidsOf mem (n_kids a) nx -> Forall2 R nx xs ->
  bc <> Err -> (forall o, bc = Ok o -> ORep false mem False o ys) -> ksorted xs -> ksorted ys -> Forall wcc xs -> Forall wcc ys ->
  recurse dbg mem kids a bc = (n', verdict false) ->
  forall ta tb, (forall k, k <> [] -> lookup ta (p ++ k) = rawlook p v xs (p ++ k)) -> (forall k, k <> [] -> lookup tb (p ++ k) = lkids ys k) -> meet ta tb.
Proof.
  intros Hk RK RF Hb Ho Sa Sb Ca Cb E ta tb Ha Hb'.
  destruct (recurse_inv _ _ _ _ _ _ Hb E) as (ac & po & rs & ok1 & Eac & Ebc & Ek & Ef).
  rewrite (load_children_mut_ok mem a nx RK) in Eac. injection Eac as <-.
  destruct ok1; [apply finish_inv in Ef as [? _]; discriminate|].
  destruct (Hk _ _ _ _ _ RF (Ho _ Ebc) Sa Sb Ca Cb Ek) as (k & Hn & H). exists (p ++ k). rewrite Ha, Hb' by exact Hn.
  unfold rawlook. rewrite strip_app. destruct k; [congruence|exact H].
Qed.

Lemma ne_shortened m n : shortened mem (ROwned m) n <> Err.
Proof. unfold shortened. apply ne_bind; [apply ne_short|discriminate]. Qed.

Lemma kids_orep m p v cs o : R m (T p v cs) -> load_children mem m = Ok o -> ORep false mem False o cs.
Proof.
  intros H E. assert (NB (ROwned m) (T p v cs)) as N by (split; [eauto|exists m; split; [reflexivity|exact H]]).
  destruct (NRep_children _ _ _ (or_introl det_detached) _ _ _ _ N) as (o' & Eo & Ho). cbn in Eo. congruence.
Qed.
Lemma short_orep m t n o : R m t -> n <= length (tp t) -> shortened mem (ROwned m) n = Ok o -> ORep false mem False o [shorten n t].
Proof.
  intros H Hn E. unfold shortened in E. cbn in E.
  destruct (clone_shortened_ok false mem _ _ _ H Hn) as (n' & En & Hn' & _). rewrite En in E. injection E as <-.
  split; [discriminate|]. split; [left; eauto|]. exists [n']. split; [reflexivity|]. constructor; [exact Hn'|constructor].
Qed.

(** The three shapes in which the children are combined. *)
Lemma same_blame kids a m n' p va va' vb xs ys nx : kblames kids -> KidsOf mem (n_kids a) nx -> Forall2 R nx xs -> R m (T p vb ys) ->
  wroot (T p va xs) -> wroot (T p vb ys) -> recurse dbg mem kids a (load_children mem m) = (n', verdict false) -> meet (T p va' xs) (T p vb ys).
Proof.
  intros Hk RK RF Rm Ca Cb E. destruct (wroot_kids _ Ca) as [Sa Ka], (wroot_kids _ Cb) as [Sb Kb].
  apply (recurse_blame kids a (load_children mem m) n' p va' xs ys nx); auto.
  - apply ne_kids.
  - intros o Eo. apply (kids_orep _ _ _ _ _ Rm Eo).
  - intros. apply lookup_raw.
  - intros k Hn. rewrite lookup_raw. now apply raw_below.
Qed.
Lemma below_blame kids a m n' n ap bp va vb xs ys nx : kblames kids -> KidsOf mem (n_kids a) nx -> Forall2 R nx xs -> R m (T bp vb ys) ->
  wroot (T ap va xs) -> wroot (T bp vb ys) -> n < length bp -> ap = firstn n bp ->
  recurse dbg mem kids a (shortened mem (ROwned m) n) = (n', verdict false) -> meet (T ap va xs) (T bp vb ys).
Proof.
  intros Hk RK RF Rm Ca Cb Hn -> E. destruct (wroot_kids _ Ca) as [Sa Ka].
  apply (recurse_blame kids a (shortened mem (ROwned m) n) n' (firstn n bp) va xs [shorten n (T bp vb ys)] nx); auto using cc_single_sorted.
  - apply ne_shortened.
  - intros o Eo. apply (short_orep _ _ _ _ Rm) in Eo; [exact Eo|cbn; lia].
  - constructor; [now apply shorten_wcc|constructor].
  - intros. apply lookup_raw.
  - intros k Hk'. rewrite (rawlook_shorten (T bp vb ys) _ n Hn). cbn [tp]. now apply raw_below.
Qed.
Lemma above_blame kids a a1 a2 m n' n ap bp va vb xs ys : kblames kids -> R a (T ap va xs) -> R m (T bp vb ys) ->
  wroot (T ap va xs) -> wroot (T bp vb ys) -> n < length ap -> bp = firstn n ap -> split mem a n = Ok a1 -> n_kids a2 = n_kids a1 ->
  recurse dbg mem kids a2 (load_children mem m) = (n', verdict false) -> meet (T ap va xs) (T bp vb ys).
Proof.
  intros Hk Ra Rm Ca Cb Hn -> Es Ek E. destruct (wroot_kids _ Cb) as [Sb Kb].
  destruct (split_ok false mem a _ n Ra) as (n1 & m1 & E1 & K1 & Rm1 & _ & _ & _); [cbn; lia|].
  assert (a1 = n1) as -> by congruence.
  apply (recurse_blame kids a2 (load_children mem m) n' (firstn n ap) None [shorten n (T ap va xs)] ys [m1]); auto using cc_single_sorted.
  - left. congruence.
  - apply ne_kids.
  - intros o Eo. apply (kids_orep _ _ _ _ _ Rm Eo).
  - constructor; [now apply shorten_wcc|constructor].
  - intros k _. apply (rawlook_shorten (T ap va xs) _ n Hn).
  - intros k Hk'. rewrite lookup_raw. now apply raw_below.
Qed.

Ltac start E ap bp :=
  match goal with Ra : Rep _ _ ?na (T ?ap0 ?va ?xs), Rb : Rep _ _ ?m (T ?bp0 ?vb ?ys) |- _ =>
    pose proof (Rep_inv _ _ _ _ _ _ Ra) as (RP & RV & nx & RK & RF);
    pose proof (Rep_inv _ _ _ _ _ _ Rb) as (RPb & RVb & nxb & RKb & RFb);
    pose proof (RepV_opt _ _ _ RV) as VA; pose proof (RepV_opt _ _ _ RVb) as VB;
    let Eap := fresh "Eap" in let Ebp := fresh "Ebp" in stepT E ap Eap ne_prefix; stepT E bp Ebp ne_prefix; cbn [r_prefix] in *;
    rewrite (RepP_load _ _ _ _ RP) in Eap; rewrite (RepP_load _ _ _ _ RPb) in Ebp; injection Eap as <-; injection Ebp as <-
  end.

Section Joins.
Context (f : blob -> blob -> res blob).
Context (Hf : forall av bv x y, RepV mem av (Some x) -> RepV mem bv (Some y) -> f av bv = Err -> P (Some x) (Some y)).

Lemma left_blames : forall fuel, blames (left_combine_in bk dbg mem mem f fuel).
Proof.
  induction fuel as [|fuel IH]; intros na rb n' ta tb Ra Rb Ca Cb E; [discriminate E|].
  destruct (nb_owned _ _ Rb) as (m & -> & Rm). clear Rb. destruct ta as [ap va xs], tb as [bp vb ys].
  cbn [left_combine_in] in E. cbv zeta in E. start E ap0 bp0.
  pose proof (left_kblame _ fuel IH) as Hk. cbn [r_value_opt r_load_children] in E. cbv zeta in E.
  destruct (edges_cases ap bp) as [E1 E2 E3|E1 E2 E3|E1 E2 E3|x y E1 E2 E3 Ex Ey Nxy];
    set (n := common_prefix ap bp) in *; revert E; edge_tests; intros E.
  - subst bp. destruct vb as [y|]; rewrite VB in E; [destruct va as [x|]; rewrite VA in E|].
    + destruct (try_inv _ _ _ _ _ E) as [(z & Ez & E4)|(Ez & _)].
      * eapply same_blame; [exact Hk| |exact RF|exact Rm|exact Ca|exact Cb|exact E4]. exact RK.
      * exists ap. rewrite !lookup_raw, !raw_at. eapply Hf; eauto.
    + eapply same_blame; [exact Hk|exact RK|exact RF|exact Rm|exact Ca|exact Cb|exact E].
    + destruct va; eapply same_blame; [exact Hk|exact RK|exact RF|exact Rm|exact Ca|exact Cb|exact E|exact Hk|exact RK|exact RF|exact Rm|exact Ca|exact Cb|exact E].
  - eapply below_blame; [exact Hk|exact RK|exact RF|exact Rm|exact Ca|exact Cb| | |exact E]; [lia|congruence].
  - destruct (try_inv _ _ _ _ _ E) as [(a1 & Es & E4)|(Es & _)]; [|now apply ne_split in Es].
    eapply above_blame; [exact Hk|exact Ra|exact Rm|exact Ca|exact Cb| | |exact Es|reflexivity|exact E4]; [lia|congruence].
  - apply finish_inv in E as [? _]. discriminate.
Qed.
Lemma inner_blames : forall fuel, blames (inner_combine_in bk dbg mem mem f fuel).
Proof.
  induction fuel as [|fuel IH]; intros na rb n' ta tb Ra Rb Ca Cb E; [discriminate E|].
  destruct (nb_owned _ _ Rb) as (m & -> & Rm). clear Rb. destruct ta as [ap va xs], tb as [bp vb ys].
  cbn [inner_combine_in] in E. cbv zeta in E. start E ap0 bp0.
  pose proof (inner_kblame _ fuel IH) as Hk. cbn [r_value_opt r_load_children] in E. cbv zeta in E.
  destruct (edges_cases ap bp) as [E1 E2 E3|E1 E2 E3|E1 E2 E3|x y E1 E2 E3 Ex Ey Nxy];
    set (n := common_prefix ap bp) in *; revert E; edge_tests; intros E.
  - subst bp. destruct va as [x|]; rewrite VA in E; [destruct vb as [y|]; rewrite VB in E|].
    + destruct (try_inv _ _ _ _ _ E) as [(z & Ez & E4)|(Ez & _)].
      * eapply same_blame; [exact Hk| |exact RF|exact Rm|exact Ca|exact Cb|exact E4]. exact RK.
      * exists ap. rewrite !lookup_raw, !raw_at. eapply Hf; eauto.
    + eapply same_blame; [exact Hk| |exact RF|exact Rm|exact Ca|exact Cb|exact E]. exact RK.
    + eapply same_blame; [exact Hk| |exact RF|exact Rm|exact Ca|exact Cb|exact E]. exact RK.
  - eapply below_blame; [exact Hk| |exact RF|exact Rm|exact Ca|exact Cb| | |exact E]; [exact RK|lia|congruence].
  - destruct (try_inv _ _ _ _ _ E) as [(a1 & Es & E4)|(Es & _)]; [|now apply ne_split in Es].
    eapply above_blame; [exact Hk|exact Ra|exact Rm|exact Ca|exact Cb| | |exact Es|reflexivity|exact E4]; [lia|congruence].
  - apply finish_inv in E as [? _]. discriminate.
Qed.
Lemma outer_blames c : ne_conv c -> forall fuel, blames (outer_combine_in bk dbg mem mem f c fuel).
Proof.
  intros Hc. induction fuel as [|fuel IH]; intros na rb n' ta tb Ra Rb Ca Cb E; [discriminate E|].
  destruct (nb_owned _ _ Rb) as (m & -> & Rm). clear Rb. destruct ta as [ap va xs], tb as [bp vb ys].
  cbn [outer_combine_in] in E. cbv zeta in E. start E ap0 bp0.
  pose proof (outer_kblame c _ fuel Hc IH) as Hk. cbn [r_value_opt r_load_children] in E. cbv zeta in E.
  destruct (edges_cases ap bp) as [E1 E2 E3|E1 E2 E3|E1 E2 E3|x y E1 E2 E3 Ex Ey Nxy];
    set (n := common_prefix ap bp) in *; revert E; edge_tests; cbn [negb]; intros E.
  - subst bp. cbn [try] in E. destruct vb as [y|]; rewrite VB in E; [destruct va as [x|]; rewrite VA in E|].
    + destruct (try_inv _ _ _ _ _ E) as [(z & Ez & E4)|(Ez & _)].
      * eapply same_blame; [exact Hk| |exact RF|exact Rm|exact Ca|exact Cb|exact E4]. exact RK.
      * exists ap. rewrite !lookup_raw, !raw_at. eapply Hf; eauto.
    + destruct (try_inv _ _ _ _ _ E) as [(z & Ez & E4)|(Ez & _)]; [|now apply Hc in Ez].
      eapply same_blame; [exact Hk| |exact RF|exact Rm|exact Ca|exact Cb|exact E4]. exact RK.
    + eapply same_blame; [exact Hk|exact RK|exact RF|exact Rm|exact Ca|exact Cb|exact E].
  - eapply below_blame; [exact Hk|exact RK|exact RF|exact Rm|exact Ca|exact Cb| | |exact E]; [lia|congruence].
  - destruct (try_inv _ _ _ _ _ E) as [(a1 & Es & E4)|(Es & _)]; [|now apply ne_split in Es]. clear E.
    destruct (split_ok false mem na _ n Ra) as (n1 & m1 & E5 & K1 & Rm1 & _ & P1 & V1); [cbn; lia|].
    assert (a1 = n1) as -> by congruence. clear E5. rewrite V1 in E4. cbn [blob_opt bnone] in E4.
    destruct vb as [y|]; rewrite VB in E4.
    + destruct (try_inv _ _ _ _ _ E4) as [(z & Ez & E5)|(Ez & _)]; [|now apply Hc in Ez].
      eapply above_blame; [exact Hk|exact Ra|exact Rm|exact Ca|exact Cb| | |exact Es| |exact E5]; [lia|congruence|reflexivity].
    + eapply above_blame; [exact Hk|exact Ra|exact Rm|exact Ca|exact Cb| | |exact Es| |exact E4]; [lia|congruence|reflexivity].
  - destruct (try_inv _ _ _ _ _ E) as [(a1 & Es & E4)|(Es & _)]; [|now apply ne_split in Es]. clear E.
    destruct (try_inv _ _ _ _ _ E4) as [(ac & Es1 & E5)|(Es1 & _)]; [|now apply ne_kids_mut in Es1]. clear E4.
    destruct (try_inv _ _ _ _ _ E5) as [(b' & Es2 & E6)|(Es2 & _)]; [|now apply Hc in Es2]. clear E5.
    apply finish_inv in E6 as [? _]. discriminate.
Qed.
End Joins.

Section Prefixes.
Context (f : blob -> res bool).
Context (Hf : forall bv o y, RepV mem bv (Some y) -> f bv = Err -> P o (Some y)).

Lemma retain_blames : forall fuel, blames (retain_prefix_in bk dbg mem mem f fuel).
Proof.
  induction fuel as [|fuel IH]; intros na rb n' ta tb Ra Rb Ca Cb E; [discriminate E|].
  destruct (nb_owned _ _ Rb) as (m & -> & Rm). clear Rb. destruct ta as [ap va xs], tb as [bp vb ys].
  cbn [retain_prefix_in] in E. cbv zeta in E. start E ap0 bp0.
  pose proof (inner_kblame _ fuel IH) as Hk. cbn [r_value_opt r_load_children] in E. cbv zeta in E.
  assert (selected f (blob_opt (n_value m)) = Err -> exists y, vb = Some y /\ f (n_value m) = Err) as Hsel.
  { destruct vb as [y|]; rewrite VB; cbn; [eauto|discriminate]. }
  assert (forall y, vb = Some y -> f (n_value m) = Err -> meet (T ap va xs) (T bp vb ys)) as Hm.
  { intros y Ey Ef. exists bp. rewrite (lookup_raw bp), raw_at. subst vb. apply (Hf (n_value m)); assumption. }
  destruct (edges_cases ap bp) as [E1 E2 E3|E1 E2 E3|E1 E2 E3|x y E1 E2 E3 Ex Ey Nxy];
    set (n := common_prefix ap bp) in *; revert E; edge_tests; intros E.
  - subst bp. destruct (try_inv _ _ _ _ _ E) as [(z & Ez & E4)|(Ez & _)].
    + destruct z; [apply finish_inv in E4 as [? _]; discriminate|].
      eapply same_blame; [exact Hk| |exact RF|exact Rm|exact Ca|exact Cb|exact E4]. exact RK.
    + destruct (Hsel Ez) as (y & Ey & Ef). eauto.
  - eapply below_blame; [exact Hk| |exact RF|exact Rm|exact Ca|exact Cb| | |exact E]; [exact RK|lia|congruence].
  - destruct vb as [y|]; rewrite VB in E.
    + destruct (try_inv _ _ _ _ _ E) as [([] & Ez & E4)|(Ez & _)]; [apply finish_inv in E4 as [? _]; discriminate..|]. eauto.
    + destruct (try_inv _ _ _ _ _ E) as [(a1 & Es & E4)|(Es & _)]; [|now apply ne_split in Es].
      eapply above_blame; [exact Hk|exact Ra|exact Rm|exact Ca|exact Cb| | |exact Es|reflexivity|exact E4]; [lia|congruence].
  - apply finish_inv in E as [? _]. discriminate.
Qed.
Lemma remove_blames : forall fuel, blames (remove_prefix_in bk dbg mem mem f fuel).
Proof.
  induction fuel as [|fuel IH]; intros na rb n' ta tb Ra Rb Ca Cb E; [discriminate E|].
  destruct (nb_owned _ _ Rb) as (m & -> & Rm). clear Rb. destruct ta as [ap va xs], tb as [bp vb ys].
  cbn [remove_prefix_in] in E. cbv zeta in E. start E ap0 bp0.
  pose proof (left_kblame _ fuel IH) as Hk. cbn [r_value_opt r_load_children] in E. cbv zeta in E.
  assert (selected f (blob_opt (n_value m)) = Err -> exists y, vb = Some y /\ f (n_value m) = Err) as Hsel.
  { destruct vb as [y|]; rewrite VB; cbn; [eauto|discriminate]. }
  assert (forall y, vb = Some y -> f (n_value m) = Err -> meet (T ap va xs) (T bp vb ys)) as Hm.
  { intros y Ey Ef. exists bp. rewrite (lookup_raw bp), raw_at. subst vb. apply (Hf (n_value m)); assumption. }
  destruct (edges_cases ap bp) as [E1 E2 E3|E1 E2 E3|E1 E2 E3|x y E1 E2 E3 Ex Ey Nxy];
    set (n := common_prefix ap bp) in *; revert E; edge_tests; intros E.
  - subst bp. destruct (try_inv _ _ _ _ _ E) as [(z & Ez & E4)|(Ez & _)].
    + destruct z; [apply finish_inv in E4 as [? _]; discriminate|].
      eapply same_blame; [exact Hk|exact RK|exact RF|exact Rm|exact Ca|exact Cb|exact E4].
    + destruct (Hsel Ez) as (y & Ey & Ef). eauto.
  - eapply below_blame; [exact Hk|exact RK|exact RF|exact Rm|exact Ca|exact Cb| | |exact E]; [lia|congruence].
  - destruct (try_inv _ _ _ _ _ E) as [(z & Ez & E4)|(Ez & _)].
    + destruct z; [apply finish_inv in E4 as [? _]; discriminate|].
      destruct (try_inv _ _ _ _ _ E4) as [(a1 & Es & E5)|(Es & _)]; [|now apply ne_split in Es].
      eapply above_blame; [exact Hk|exact Ra|exact Rm|exact Ca|exact Cb| | |exact Es|reflexivity|exact E5]; [lia|congruence].
    + destruct (Hsel Ez) as (y & Ey & Ef). eauto.
  - apply finish_inv in E as [? _]. discriminate.
Qed.
End Prefixes.
End Blame.
