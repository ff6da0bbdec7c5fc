(** Where [group_by] cuts and what [scan_prefix] gives, for the trees of programs. *)
From Verif Require Import Base BaseLemmas Header Node Combine Iter Api Tree Rep JoinBase PrefixProofs FindProofs Entries IterProofs Sim Store Spec Client Top
  TopOps MemLemmas RetainSpec ScanSpec GroupSpec GroupProofs InPlaceSpec ScanExact Heap HeapSpec HeapIter HeapIterSpec HeapGroup HeapGroupSpec
  HeapProofs HeapTop HeapIterTop HeapGroupProofs HeapGroupTop HeapTree HeapTreeSpec HeapWhole HeapWholeSpec HeapWholeReads.
From Coq Require Import Sorting.Sorted.

(** ** The cuts of a tree *)
Section Cuts.
Context (d : bytes -> option bytes -> bool).
Fixpoint gcuts (path : bytes) (t : tree) : list cut :=
  match t with
  | T p v cs =>
      if d (path ++ p) v then
        match v with Some x => [Own (path ++ p) x] | None => [] end ++ flat_map (gcuts (path ++ p)) cs
      else [Whole (path ++ p)]
  end.

Lemma gcuts_in g e : forall t q a, Sub g q a t -> Forall (fun x => d (fst x) (snd x) = true) a ->
  In e (gcuts q t) ->
  exists q' a' p v cs, Sub g q' a' (T p v cs) /\ Forall (fun x => d (fst x) (snd x) = true) a' /\
    ((d (q' ++ p) v = false /\ e = Whole (q' ++ p)) \/
     (d (q' ++ p) v = true /\ exists x, v = Some x /\ e = Own (q' ++ p) x)).
Proof.
  induction t as [p v cs IH] using tree_ind'. intros q a HS Ha Hin. cbn [gcuts] in Hin.
  destruct (d (q ++ p) v) eqn:Ed.
  - apply in_app_iff in Hin as [Hin|Hin].
    + destruct v as [x|]; [|destruct Hin]. destruct Hin as [<-|[]].
      exists q, a, p, (Some x), cs. split; [exact HS|]. split; [exact Ha|]. right. eauto.
    + apply in_flat_map in Hin as (c & Hc & Hin). eapply Forall_forall in IH; [|exact Hc].
      eapply (IH (q ++ p) ((q ++ p, v) :: a)); [econstructor; eauto| |exact Hin]. constructor; auto.
  - destruct Hin as [<-|[]]. exists q, a, p, v, cs. split; [exact HS|]. split; [exact Ha|]. left. auto.
Qed.
Lemma forks_same m m' p : same m m' -> forks m p -> forks m' p.
Proof. intros E [X|(c1 & c2 & z1 & z2 & X)]; [left|right; exists c1, c2, z1, z2]; now rewrite <- !E. Qed.

Lemma gcuts_sound g m : croot g -> same m (lookup g) -> forall c, In c (gcuts [] g) -> cut_ok d m c.
Proof.
  intros C Em c Hin.
  destruct (gcuts_in g c g [] [] (Sub_root g) (Forall_nil _) Hin) as (q & a & p & v & cs & HS & Ha & Hd).
  assert (lookup g (q ++ p) = v) as Hv.
  { pose proof (Sub_here _ _ _ _ [] C HS) as X. cbn [tp] in X. rewrite !app_nil_r in X. rewrite X. apply lookup_here. }
  assert (cut_at c = q ++ p) as Ec by (destruct Hd as [[_ ->]|[_ (x & _ & ->)]]; reflexivity).
  split; [|split].
  - rewrite Ec. assert (g = tempty \/ g <> tempty) as [->|N].
    { destruct (croot_cases g C) as [->|[k Hk]]; [now left|right]. intros ->. now rewrite tempty_lookup in Hk. }
    + right. split; [|intros k; now rewrite Em, tempty_lookup].
      inversion HS as [|q0 a0 p0 v0 cs0 c0 H0 Hin0]; subst; [reflexivity|].
      clear -H0 Hin0. exfalso.
      assert (forall q a t, Sub tempty q a t -> tc t = []) as K0.
      { intros q' a' t H. induction H as [|? ? ? ? ? ? _ IH Hi]; [reflexivity|]. cbn [tc] in IH. subst. destruct Hi. }
      pose proof (K0 _ _ _ H0) as K.
      cbn in K. subst cs0. destruct Hin0.
    + left. eapply forks_same; [|eapply Sub_forks; eauto]. intros x. symmetry. apply Em.
  - intros q' z Nz E Hf. rewrite Ec in E. apply (forks_same _ _ _ Em) in Hf.
    pose proof (forks_above g q a _ C HS q' z Nz E Hf) as X. rewrite Forall_forall in Ha.
    apply Ha in X. cbn in X. now rewrite Em.
  - destruct Hd as [[Hd ->]|[Hd (x & -> & ->)]]; rewrite Em, Hv; auto.
Qed.

Lemma forks_key m p : forks m p -> exists y, m (p ++ y) <> None.
Proof. intros [X|(c1 & c2 & z1 & z2 & _ & X & _)]; [exists []; now rewrite app_nil_r|eauto]. Qed.
Lemma gcuts_complete g m c : croot g -> g <> tempty -> same m (lookup g) -> cut_ok d m c -> forall t q a w,
  Sub g q a t -> cut_at c = q ++ w -> (a = [] \/ starts t w = true) -> In c (gcuts q t).
Proof.
  intros C N Em (F & Ab & D) t. induction t as [p v cs IH] using tree_ind'; intros q a w HS Ec Hw.
  assert (forks (lookup g) (q ++ w)) as Fg.
  { destruct F as [F|[_ F]].
    - rewrite <- Ec. now apply (forks_same _ _ _ Em).
    - destruct (croot_cases g C) as [->|[k Hk]]; [congruence|]. rewrite <- Em in Hk. congruence. }
  destruct (forks_key _ _ Fg) as (y & Hy). rewrite <- app_assoc in Hy.
  rewrite (Sub_lookup _ _ _ _ C HS) in Hy.
  2:{ destruct Hw as [Hw|Hw]; [now left|right]. revert Hw. unfold starts. destruct (tp (T p v cs)), w; cbn; auto; discriminate. }
  destruct (lookup (T p v cs) (w ++ y)) as [x|] eqn:El; [|congruence]. destruct (lookup_some_prefix _ _ _ El) as (r & Er). cbn [tp] in Er.
  assert (lookup g (q ++ p) = v) as Hv.
  { pose proof (Sub_here _ _ _ _ [] C HS) as X. cbn [tp] in X. rewrite !app_nil_r in X. rewrite X. apply lookup_here. }
  cbn [gcuts]. destruct (prefix_cases _ _ _ _ Er) as [(z & Ez & Eb)|(z & Nz & Ez & Eb)].
  - destruct z as [|z0 z].
    + rewrite app_nil_r in Ez. subst w. destruct c as [k|k xv]; cbn [cut_at] in *; subst k; rewrite Em, Hv in D.
      * rewrite D. now left.
      * destruct D as [D1 D2]. rewrite D1, D2. apply in_or_app. left. now left.
    + exfalso. apply (edge_no_fork g q a (T p v cs) w (z0 :: z) C HS Ez); [discriminate| |exact Fg].
      destruct Hw as [Hw|Hw]; [now left|right]. intros ->. now rewrite starts_nil in Hw.
  - assert (d (q ++ p) v = true) as ->.
    { rewrite <- Hv, <- Em. apply (Ab (q ++ p) z Nz); [rewrite Ec, Ez; apply app_assoc|].
      apply (forks_same (lookup g)); [intros k; symmetry; apply Em|]. eapply Sub_forks; eauto. }
    apply in_or_app. right. subst w. rewrite lookup_raw in El. unfold rawlook in El. rewrite <- app_assoc, strip_app in El.
    destruct z as [|z0 z]; [congruence|]. cbn [app] in El. destruct (lkids_some_in _ _ _ El) as (c' & Hc & St & _).
    apply in_flat_map. exists c'. split; [exact Hc|]. eapply Forall_forall in IH; [|exact Hc].
    apply (IH (q ++ p) ((q ++ p, v) :: a) (z0 :: z)); [econstructor; eauto|rewrite Ec; now rewrite app_assoc|right].
    revert St. unfold starts. destruct (tp c'); cbn; auto.
Qed.

Lemma gcuts_at t : forall path e, In e (gcuts path t) -> exists r, cut_at e = path ++ tp t ++ r.
Proof.
  induction t as [p v cs IH] using tree_ind'. intros path e H. cbn [gcuts] in H. cbn [tp]. destruct (d (path ++ p) v).
  - apply in_app_iff in H as [H|H].
    + destruct v as [x|]; [|destruct H]. destruct H as [<-|[]]. exists []. now rewrite app_nil_r.
    + apply in_flat_map in H as (c & Hc & H). eapply Forall_forall in IH; [|exact Hc]. destruct (IH _ _ H) as (r & ->).
      exists (tp c ++ r). now rewrite <- app_assoc.
  - destruct H as [<-|[]]. exists []. now rewrite app_nil_r.
Qed.
Lemma gcuts_sorted t : (ksorted (tc t) /\ Forall cc (tc t)) -> forall path,
  StronglySorted (fun a b => lex_lt (cut_at a) (cut_at b)) (gcuts path t).
Proof.
  induction t as [p v cs IH] using tree_ind'. intros [S C] path. cbn [tc] in *. cbn [gcuts]. destruct (d (path ++ p) v); [|repeat constructor].
  assert (forall c e, In c cs -> In e (gcuts (path ++ p) c) ->
    exists y q r, tp c = y :: q /\ cut_at e = (path ++ p) ++ y :: r) as HE.
  { intros c e Hc He. pose proof (proj1 (Forall_forall _ _) C c Hc) as Cc.
    destruct (gcuts_at _ _ _ He) as (r & Er). destruct (cc_nonempty_prefix _ Cc) as (y & q & E).
    exists y, q, (q ++ r). split; [exact E|]. now rewrite Er, E. }
  apply sorted_app.
  - destruct v; repeat constructor.
  - clear v. induction S as [|c cs Sc IHc F]; [constructor|].
    inversion IH; inversion C; subst. cbn [flat_map]. apply sorted_app.
    + apply H1. now apply croot_kids, cc_croot.
    + apply IHc; auto. intros; eapply HE; eauto. now right.
    + intros e e' He He'. apply in_flat_map in He' as (c' & Hc' & He').
      destruct (HE c e (or_introl eq_refl) He) as (y & q & r & E1 & Ef).
      destruct (HE c' e' (or_intror Hc') He') as (y' & q' & r' & E1' & Ef').
      rewrite Ef, Ef'. apply lex_lt_lexlt, lexlt_app. cbn. left.
      eapply Forall_forall in F; [|exact Hc']. unfold klt in F. now rewrite E1, E1' in F.
  - intros e e' He He'. apply in_flat_map in He' as (c' & Hc' & He').
    destruct (HE c' e' Hc' He') as (y' & q' & r' & E1' & Ef').
    destruct v as [x|]; [|destruct He]. destruct He as [<-|[]]. rewrite Ef'. cbn [cut_at].
    apply lex_lt_lexlt. rewrite <- (app_nil_r (path ++ p)) at 1. apply lexlt_app. exact I.
Qed.

Lemma strict_unique {A} (R : A -> A -> Prop) : (forall a b, R a b -> R b a -> False) -> forall l l', StronglySorted R l -> StronglySorted R l' ->
  (forall x, In x l <-> In x l') -> l = l'.
Proof.
  intros As l. induction l as [|a l IH]; intros [|b l'] S S' H.
  - reflexivity.
  - destruct (proj2 (H b) (or_introl eq_refl)).
  - destruct (proj1 (H a) (or_introl eq_refl)).
  - inversion S as [|? ? Sl Fl]; inversion S' as [|? ? Sl' Fl']; subst. rewrite Forall_forall in Fl, Fl'.
    assert (a = b) as ->.
    { destruct (proj1 (H a) (or_introl eq_refl)) as [E|Ha]; [auto|]. destruct (proj2 (H b) (or_introl eq_refl)) as [E|Hb]; [auto|].
      destruct (As _ _ (Fl _ Hb) (Fl' _ Ha)). }
    f_equal. apply IH; auto. intros x. split; intros Hx.
    + destruct (proj1 (H x) (or_intror Hx)) as [<-|Hx']; [|exact Hx']. destruct (As _ _ (Fl _ Hx) (Fl _ Hx)).
    + destruct (proj2 (H x) (or_intror Hx)) as [<-|Hx']; [|exact Hx']. destruct (As _ _ (Fl' _ Hx) (Fl' _ Hx)).
Qed.
Lemma cuts_unique m cs cs' : cuts d m cs -> cuts d m cs' -> cs = cs'.
Proof.
  intros [H1 S1] [H2 S2]. apply (strict_unique _) with (2 := S1) (3 := S2).
  - intros a b Hab Hba. apply lex_lt_lexlt in Hab, Hba. apply (lexlt_irrefl _ (lexlt_trans _ _ _ Hab Hba)).
  - intros x. now rewrite H1, H2.
Qed.
Lemma gcuts_cuts g m : croot g -> same m (lookup g) -> cuts d m (gcuts [] g).
Proof.
  intros C Em. split; [|apply gcuts_sorted, croot_kids, C].
  intros c. split; [now apply gcuts_sound|]. intros H.
  assert (g = tempty \/ g <> tempty) as [->|N].
  { destruct (croot_cases g C) as [->|[k Hk]]; [now left|right]. intros ->. now rewrite tempty_lookup in Hk. }
  - destruct H as (F & _ & D). assert (forall k, m k = None) as E0 by (intros k; rewrite Em; apply tempty_lookup).
    assert (cut_at c = []) as Ec.
    { destruct F as [F|[F _]]; [|exact F]. destruct (forks_key _ _ F) as (y & Hy). rewrite E0 in Hy. congruence. }
    destruct c as [p|p v]; cbn [cut_at] in Ec; subst p; rewrite E0 in D; [|destruct D; discriminate].
    change (In (Whole []) (gcuts [] (T [] None []))). cbn [gcuts app]. rewrite D. now left.
  - apply (gcuts_complete g m c C N Em H g [] [] (cut_at c) (Sub_root g) eq_refl). now left.
Qed.

(** The trees of a grouping. *)
Lemma find_child ns cs i n a c q : Forall2 (Rep false detached_read) ns cs -> ksorted cs -> Forall cc cs ->
  nth_error ns i = Some n -> nth_error cs i = Some a -> tp a = c :: q -> find_owned ns c = Some n.
Proof.
  intros F So C En Ea Et. pose proof (find_owned_ok false detached_read ns cs c F So C) as H.
  assert (forall x, find_owned ns c = Some x -> In x ns) as Hi.
  { assert (forall f l r x, bsearch ns c f l r = Some x -> In x ns) as Hb.
    { induction f as [|f IHf]; intros l r x E; cbn [bsearch] in E; [discriminate|].
      destruct (l <? r); [|discriminate]. cbv zeta in E. destruct (nth_error ns (l + (r - l) / 2)) as [y|] eqn:Ey; [|discriminate].
      destruct (cmp_ob _ _); [|now apply IHf in E|now apply IHf in E]. assert (y = x) as -> by congruence. apply (nth_error_In _ _ Ey). }
    unfold find_owned. intros x. destruct (length ns =? 256); [apply nth_error_In|apply Hb]. }
  destruct (find_owned ns c) as [x|]; cbn [option_map has_child] in H.
  - destruct H as (a' & q' & Hin & Et' & _ & nx & Ex & Rx). cbn in Ex. assert (nx = x) as -> by congruence. specialize (Hi x eq_refl).
    apply In_nth_error in Hi as (j & Ej). pose proof (Forall2_nth _ _ _ F j) as Hj. rewrite Ej in Hj.
    destruct (nth_error cs j) as [b|] eqn:Eb; [|contradiction].
    pose proof (Rep_first _ _ _ _ Hj) as F1. pose proof (Rep_first _ _ _ _ Rx) as F2. rewrite Et' in F2. rewrite F1 in F2.
    destruct (tp b) as [|y r] eqn:Etb; [discriminate|]. cbn in F2. assert (y = c) as -> by congruence.
    assert (i = j) as ->; [|congruence].
    destruct (Nat.lt_trichotomy i j) as [L|[L|L]]; [exfalso|exact L|exfalso].
    + pose proof (sorted_nth _ So i j a b L Ea Eb) as K. unfold klt in K. rewrite Et, Etb in K. lia.
    + pose proof (sorted_nth _ So j i b a L Eb Ea) as K. unfold klt in K. rewrite Et, Etb in K. lia.
  - exfalso. apply (H a q); [apply (nth_error_In _ _ Ea)|exact Et].
Qed.
Lemma find_self n g : Rep false detached_read n g -> forall N, 1 <= N -> find detached_read N (ROwned n) (tp g) = Ok (Found (ROwned n)).
Proof.
  intros Rg [|N] HN; [lia|]. destruct g as [p v cs]. cbn [find tp]. rewrite (NRep_prefix _ _ _ _ _ _ _ (Rep_NRep _ _ True _ _ Rg)). cbn [bind].
  rewrite common_prefix_refl, Nat.sub_diag. reflexivity.
Qed.
Lemma find_down N p v cs ns vb i n a w : Rep false detached_read (Node (Data p) vb (KArc ns)) (T p v cs) -> ksorted cs -> Forall cc cs ->
  nth_error ns i = Some n -> nth_error cs i = Some a ->
  find detached_read (S N) (ROwned (Node (Data p) vb (KArc ns))) (p ++ tp a ++ w) = find detached_read N (ROwned n) (tp a ++ w).
Proof.
  intros Rg So C En Ea. pose proof (proj1 (Forall_forall _ _) C a (nth_error_In _ _ Ea)) as Ca.
  destruct (cc_nonempty_prefix _ Ca) as (y & q & Et).
  inversion Rg as [? ? ? ? ? ns' ? RP RV RK RC]; subst. destruct RK as [E|[[E _]|(? & ? & ? & E & _)]]; try discriminate. injection E as <-.
  cbn [find r_prefix n_prefix]. change (load_prefix detached_read (Data p)) with (@Ok bytes p). cbn [bind].
  rewrite common_prefix_app, Nat.sub_diag. replace (length (p ++ tp a ++ w) - length p) with (S (length (q ++ w))).
  2:{ rewrite Et. cbn [app]. unfold bytes in *. rewrite !app_length. cbn [length]. rewrite app_length. lia. }
  cbn [Nat.eqb andb]. rewrite nth_error_app2, Nat.sub_diag by lia. rewrite Et. cbn [app nth_error].
  destruct ns as [|n0 ns]; [destruct i; discriminate|]. cbn [r_load_children load_children n_kids bind it_find].
  rewrite (find_child (n0 :: ns) cs i n a y q RC So C En Ea Et). cbn [option_map].
  rewrite skipn_app, skipn_all, Nat.sub_diag. reflexivity.
Qed.
Definition cut_node (n : node) (pre : bytes) (nd : node) (c : cut) : Prop :=
  match c with
  | Whole p => exists q n' N0, p = pre ++ q /\ nd = set_prefix_slice n' p /\
      forall N, N0 <= N -> find detached_read N (ROwned n) q = Ok (Found (ROwned n'))
  | Own p v => nd = n_single p v
  end.
Lemma shown_rep v v' : RepV detached_read v v' -> shown v = Some v' /\ (forall x, v' = Some x -> v = Data x).
Proof.
  unfold shown. destruct v' as [y|]; cbn [RepV]; [intros [->|(? & ? & _ & D)]; [|discriminate D]|intros ->]; cbn; split; congruence.
Qed.
Lemma cut_nodes n : forall g pre gs, Rep false detached_read n g -> ksorted (tc g) -> Forall cc (tc g) -> grouping d pre n = Some gs ->
  Forall2 (cut_node n pre) gs (gcuts pre g).
Proof.
  induction n as [p v ns IH|p v id] using hnode_ind; intros g pre gs Rg So C E; inversion Rg as [? ? ? p' v' ns' cs RP RV RK RC]; subst; cbn [tc] in *.
  - destruct RP as [->|[? _]]; [|discriminate].
    pose proof RK as RK0. destruct RK as [E1|[[E1 _]|(? & ? & ? & E1 & _)]]; try discriminate. injection E1 as <-.
    destruct (shown_rep _ _ RV) as [Sv Dv]. cbn [grouping] in E. rewrite Sv in E. cbn [gcuts]. destruct (d (pre ++ p') v').
    + match type of E with context [match ?g ns with _ => _ end] => assert (forall x, g x = groupings d (pre ++ p') x) as Hf end.
      { induction x as [|y z IHx]; [reflexivity|]. cbn [groupings]. now rewrite IHx. }
      rewrite Hf in E. clear Hf. destruct (groupings d (pre ++ p') ns) as [l|] eqn:El; [|discriminate E]. injection E as <-. apply Forall2_app.
      * destruct v' as [x|]; constructor; [|constructor]. cbn [cut_node]. now rewrite (Dv x eq_refl).
      * assert (forall ns1 ns2 cs1 cs2 l, ns = ns1 ++ ns2 -> cs = cs1 ++ cs2 -> length ns1 = length cs1 -> groupings d (pre ++ p') ns2 = Some l ->
          Forall2 (cut_node (Node (Data p') v (KArc ns)) pre) l (flat_map (gcuts (pre ++ p')) cs2)) as Hall; [|apply (Hall [] ns [] cs l eq_refl eq_refl eq_refl El)].
        clear l El. intros ns1 ns2. revert ns1. induction ns2 as [|n ns2 IH2]; intros ns1 cs1 cs2 l En Ec Hl El.
        -- destruct cs2 as [|c cs2]; [cbn in El; injection El as <-; constructor|]. exfalso.
           apply Forall2_len in RC. rewrite En, Ec, !app_length in RC. cbn in RC. lia.
        -- destruct cs2 as [|c cs2]; [exfalso; apply Forall2_len in RC; rewrite En, Ec, !app_length in RC; cbn in RC; lia|].
           cbn [groupings] in El. destruct (grouping d (pre ++ p') n) as [l1|] eqn:E1; [|discriminate El].
           destruct (groupings d (pre ++ p') ns2) as [l2|] eqn:E2; [|discriminate El]. injection El as <-. cbn [flat_map].
           assert (nth_error ns (length ns1) = Some n) as Hn by (rewrite En, nth_error_app2, Nat.sub_diag by lia; reflexivity).
           assert (nth_error cs (length ns1) = Some c) as Hc by (rewrite Ec, nth_error_app2, Hl, Nat.sub_diag by lia; reflexivity).
           pose proof (Forall2_nth _ _ _ RC (length ns1)) as Rn. rewrite Hn, Hc in Rn.
           pose proof (proj1 (Forall_forall _ _) C c (nth_error_In _ _ Hc)) as Cc.
           apply Forall2_app.
           ++ pose proof (proj1 (Forall_forall _ _) IH n (nth_error_In _ _ Hn) c (pre ++ p') l1 Rn (proj1 (croot_kids _ (cc_croot _ Cc)))
                (proj2 (croot_kids _ (cc_croot _ Cc))) E1) as H1.
              assert (Forall (fun e => exists r, cut_at e = (pre ++ p') ++ tp c ++ r) (gcuts (pre ++ p') c)) as At.
              { apply Forall_forall. intros e He. apply (gcuts_at _ _ _ He). }
              clear -H1 At Rg So C Hn Hc. induction H1 as [|nd e l1 es He _ IHl]; inversion At as [|? ? (r & Er) At']; subst; constructor; [|now apply IHl].
              destruct e as [k|k x]; cbn [cut_node cut_at] in *; [|exact He]. destruct He as (q & n' & N0 & Ek & Hnd & Hf).
              exists (p' ++ q), n', (S N0). split; [now rewrite app_assoc|]. split; [exact Hnd|]. intros [|N] HN; [lia|].
              assert (q = tp c ++ r) as -> by (apply (app_inv_head (pre ++ p')); congruence).
              rewrite (find_down N p' v' cs ns v (length ns1) n c r Rg So C Hn Hc). apply Hf. lia.
           ++ apply (IH2 (ns1 ++ [n]) (cs1 ++ [c]) cs2 l2); [rewrite En, <- app_assoc; reflexivity|rewrite Ec, <- app_assoc; reflexivity|rewrite !app_length; cbn; lia|reflexivity].
    + assert (gs = [Node (Data (pre ++ p')) v (KArc ns)]) as -> by congruence. constructor; [|constructor]. cbn [cut_node].
      exists p', (Node (Data p') v (KArc ns)), 1. split; [reflexivity|]. split; [reflexivity|]. apply (find_self _ _ Rg).
  - destruct RP as [->|[? _]]; [|discriminate].
    destruct RK as [E1|[[E1 ->]|(? & ? & ? & E1 & D & _)]]; try discriminate. inversion E1; subst. inversion RC; subst.
    destruct (shown_rep _ _ RV) as [Sv Dv]. cbn [grouping] in E. rewrite Sv in E. cbn [gcuts]. destruct (d (pre ++ p') v').
    + injection E as <-. cbn [flat_map]. rewrite app_nil_r. destruct v' as [x|]; constructor; [|constructor]. cbn [cut_node]. now rewrite (Dv x eq_refl).
    + assert (gs = [Node (Data (pre ++ p')) v (KId [])]) as -> by congruence. constructor; [|constructor]. cbn [cut_node].
      exists p', (Node (Data p') v (KId [])), 1. split; [reflexivity|]. split; [reflexivity|]. apply (find_self _ _ Rg).
Qed.
End Cuts.
