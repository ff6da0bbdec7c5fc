(** What the reads of a tree give, for the trees of programs. *)
From Verif Require Import Base BaseLemmas Header Node Combine Iter Api Tree Rep FindProofs Entries IterProofs Sim Store Spec Client Top
  TopOps MemLemmas RetainSpec ScanSpec GroupSpec InPlaceSpec ScanExact Heap HeapSpec HeapIter HeapIterSpec HeapGroup HeapGroupSpec
  HeapProofs HeapTop HeapIterTop HeapGroupProofs HeapGroupTop HeapTree HeapTreeRec HeapClean HeapFind HeapTreeSpec HeapTreeTop HeapWhole HeapWholeSpec HeapWholeReads HeapWholePure.

Notation D := (fun e : bytes * bytes => (fst e, Data (snd e))).

Section Good.
Context (dbg : bool) (T : Prop).
Notation tgood n m := (HeapTreeTop.good dbg T (FNode n) (Some (MTree m))).

Lemma tree_rep n m : tgood n m -> exists g, Rep false mem n g /\ croot g /\ same m (lookup g).
Proof.
  intros Gn. destruct (HeapTreeTop.good_holds dbg T _ _ Gn) as [Hh Hr]. destruct (reachable_good _ _ Hr) as (g & Rg & C & _).
  exists g. split; [exact Rg|]. split; [exact C|]. apply (holds_lookup false mem n g m Rg C Hh).
Qed.
Lemma iter_good n m l : tgood n m -> lists l m -> listing [] n = Some (map D l).
Proof.
  intros Gn Hl. destruct (HeapTreeTop.good_holds dbg T _ _ Gn) as [Hh Hr]. destruct (listing_map dbg n m Hr Hh) as (l' & Hl' & E).
  now rewrite E, (lists_where_unique _ _ _ _ Hl Hl').
Qed.

(** ** Groups *)
Lemma group_good n m d cs : tgood n m -> cuts d m cs ->
  exists gs, grouping d [] n = Some gs /\ Forall2 (fun nd k => tgood nd k) gs (map (cut_map m) cs).
Proof.
  intros Gn Hc. destruct (tree_rep _ _ Gn) as (g & Rg & C & Em). destruct (grouping_rep d n g Rg []) as (gs & E).
  exists gs. split; [exact E|].
  rewrite (cuts_unique d m cs _ Hc (gcuts_cuts d g m C Em)).
  pose proof (cut_nodes d n g [] gs Rg (proj1 (croot_kids _ C)) (proj2 (croot_kids _ C)) E) as H.
  destruct Gn as [(q & A & Eq & Hq) Hcl]. clear E Hc.
  induction H as [|nd c gs cs' Hn _ IH]; [constructor|]. cbn [map]. constructor; [|exact IH].
  destruct c as [p|p v]; cbn [cut_node cut_map] in *.
  - destruct Hn as (q' & n' & N0 & Ep & End & Hf). cbn in Ep. subst q'.
    assert (allowed (PFilterPrefix q p p)) as Al. { split; [exact A|]. destruct p; [right; now left|left; discriminate]. }
    destruct (yields_holds _ _ _ _ (TopOps.run_ok dbg _ Al)) as (r & Hr & _).
    assert (exists N, filter_prefix mem N n p p = Ok r /\ N0 <= N) as (N & Ef & HN).
    { destruct Hr as (_ & N1 & Hr), Hq as (_ & N2 & Hq). exists (N0 + N1 + N2). split; [|lia].
      specialize (Hr (N0 + N1 + N2) ltac:(lia)). cbn [Client.run] in Hr. rewrite Hq in Hr by lia. exact Hr. }
    assert (r = nd) as ->.
    { pose proof Ef as Ef'. unfold filter_prefix in Ef'. rewrite (Hf N HN) in Ef'. cbn [bind r_to_owned] in Ef'. congruence. }
    split.
    + exists (PFilterPrefix q p p). split; [exact Al|]. split; [cbn [meaning]; now rewrite Eq|exact Hr].
    + intros t. apply (filter_clean N n p p nd (Hcl t)); [|exact Ef]. destruct p; [right; now right|right; left; discriminate].
  - subst nd. split.
    + exists (PSingle p v). split; [exact Logic.I|]. split; [reflexivity|]. split; [discriminate|]. exists 0. reflexivity.
    + intros _. right. apply single_clean.
Qed.

(** ** Scans *)
Lemma last_edge_unique m k e e' : last_edge m k e -> last_edge m k e' -> e = e'.
Proof.
  intros (p & E & F & N & H) (p' & E' & F' & N' & H'). destruct k as [|k0 k].
  { symmetry in E, E'. apply app_eq_nil in E, E'. destruct E as [_ ->], E' as [_ ->]. reflexivity. }
  specialize (N ltac:(discriminate)). specialize (N' ltac:(discriminate)).
  rewrite E in E'. destruct (GroupProofs.prefix_cases _ _ _ _ E') as [(z & -> & ->)|(z & Nz & -> & ->)].
  - destruct z as [|z0 z]; [reflexivity|exfalso]. destruct F' as [F'|F']; [destruct p; discriminate|].
    apply (H (z0 :: z) e' eq_refl ltac:(discriminate) N' F').
  - exfalso. destruct F as [F|F]; [apply app_eq_nil in F as [_ F]; congruence|].
    apply (H' z e eq_refl Nz N F).
Qed.
Lemma scans_unique m p l l' : scans m p l -> scans m p l' -> l = l'.
Proof.
  intros (l0 & e & Hl & -> & He) (l0' & e' & Hl' & -> & He'). rewrite (lists_where_unique _ _ _ _ Hl Hl').
  assert (e = e') as ->; [|reflexivity]. destruct He as [[F He]|[F ->]], He' as [[F' He']|[F' ->]]; try tauto.
  apply (last_edge_unique _ _ _ _ He He').
Qed.
Lemma data_entries l l' : Forall2 (erel mem) l l' -> l = map D l'.
Proof.
  induction 1 as [|[k b] [k' x] l l' [E V] _ IH]; [reflexivity|]. cbn [map fst snd] in *. subst k' l. f_equal. f_equal.
  cbn [vrel RepV] in V. destruct V as [->|(? & ? & _ & X)]; [reflexivity|discriminate X].
Qed.
Lemma scan_good n m p l : tgood n m -> scans m p l -> exists N k, scan_prefix mem N n p = Ok k /\ scan_list k = Some (map D l).
Proof.
  intros Gn Hs. destruct (HeapTreeTop.good_holds dbg T _ _ Gn) as [Hh Hr]. destruct (tree_rep _ _ Gn) as (g & Rg & C & Em).
  destruct (any_scan_exact dbg mem n m p (in_memory dbg n m Hr Hh)) as (l0 & l' & e & (_ & N0 & Cs) & Hl & Hf & He).
  assert (l' = l) as ->.
  { apply (scans_unique m p); [|exact Hs]. exists l0, e. split; [exact Hl|]. split; [|exact He]. clear -Hf.
    induction Hf as [|[a x] [b y] l0 l' [E (z & Ea & Eb)] _ IH]; [reflexivity|]. cbn [map fst snd] in *. subst y a b l'. f_equal.
    unfold shift. cbn [fst snd]. unfold bytes in *. now rewrite skipn_app, skipn_all, Nat.sub_diag. }
  clear Hf He Hs Hl l0 e.
  assert (forall N pre n' g', Rep false mem n' g' -> croot g' -> length (entries pre g') + 3 * size g' + 5 < N ->
    (l <- collect (kv_next mem) N (KV pre [(0, Some (IOwned [n']))]) ;; load_entries mem l) = Ok l -> listing pre n' = Some (map D l)) as A.
  { intros N pre n' g' R' C' HN E. destruct (kv_collect_ok false mem N pre n' g' R' C' HN) as (lb & Ec & Fe).
    rewrite Ec in E. cbn [bind] in E. rewrite (load_entries_ok mem _ _ Fe) in E. rewrite (listing_rep n' g' R' pre). congruence. }
  destruct (find_ok false mem (S (size g)) (ROwned n) g p (Rep_NRep _ _ _ _ _ Rg) C ltac:(lia)) as (x & Ex & Hx).
  assert (forall N, S (size g) <= N -> find mem N (ROwned n) p = Ok x) as Fx.
  { intros N HN. pose proof (find_sim false mem mem (rsim_refl false mem) (S (size g)) N (ROwned n) p HN) as X. rewrite Ex in X.
    destruct X as [X|[[X _]|X]]; congruence. }
  assert (forall N, S (size g) <= N -> N0 <= N -> exists k, scan_prefix mem N n p = Ok k /\
    (l <- collect (kv_next mem) N k ;; load_entries mem l) = Ok l) as Hk.
  { intros N H1 H2. specialize (Cs N H2). unfold scan_bytes, t_scan_prefix in Cs.
    destruct (scan_prefix mem N n p) as [k| | |]; cbn [bind] in Cs; try discriminate Cs. eauto. }
  destruct x as [r|r j|]; cbn [find_post] in Hx.
  - destruct Hx as (t' & (_ & n' & Er & R') & C' & _).
    set (N := S (size g) + N0 + S (length (entries p t') + 3 * size t' + 5)).
    destruct (Hk N ltac:(unfold N; lia) ltac:(unfold N; lia)) as (k & E & El). exists N, k. split; [exact E|].
    unfold scan_prefix in E. rewrite (Fx N) in E by (unfold N; lia). cbn [bind] in E. rewrite Er in E. cbn [bind] in E.
    assert (k = KV p [(0, Some (IOwned [n']))]) as -> by congruence. apply (A N p n' t' R' C'); [unfold N; lia|exact El].
  - destruct Hx as (t' & (_ & n' & Er & R') & C' & _).
    destruct (slice_to (length p - j) p) as [p'| | |] eqn:Ep.
    2-4: exfalso; destruct (Hk (S (size g) + N0) ltac:(lia) ltac:(lia)) as (k & E & _); unfold scan_prefix in E;
      rewrite (Fx (S (size g) + N0)) in E by lia; cbn [bind] in E; rewrite Er in E; cbn [bind] in E; rewrite Ep in E; discriminate E.
    set (N := S (size g) + N0 + S (length (entries p' t') + 3 * size t' + 5)).
    destruct (Hk N ltac:(unfold N; lia) ltac:(unfold N; lia)) as (k & E & El). exists N, k. split; [exact E|].
    unfold scan_prefix in E. rewrite (Fx N) in E by (unfold N; lia). cbn [bind] in E. rewrite Er in E. cbn [bind] in E. rewrite Ep in E. cbn [bind] in E.
    assert (k = KV p' [(0, Some (IOwned [n']))]) as -> by congruence. apply (A N p' n' t' R' C'); [unfold N; lia|exact El].
  - set (N := S (size g) + N0 + 1).
    destruct (Hk N ltac:(unfold N; lia) ltac:(unfold N; lia)) as (k & E & El). exists N, k. split; [exact E|].
    unfold scan_prefix in E. rewrite (Fx N) in E by (unfold N; lia). cbn [bind] in E. assert (k = KV [] []) as -> by congruence.
    unfold N in El. rewrite Nat.add_1_r in El. cbn in El. assert (l = []) as -> by congruence. reflexivity.
Qed.

(** ** First and last *)
Lemma opt_data (o : option blob) x : load_opt mem o = Ok x -> o = option_map Data x.
Proof.
  destruct o as [b|]; cbn [load_opt]; intros E; [|assert (x = None) as -> by congruence; reflexivity]. stepE E y Ey.
  assert (x = Some y) as -> by congruence. cbn. f_equal. unfold value_load in Ey. destruct b as [d|[|z id]]; cbn in Ey; try discriminate Ey; congruence.
Qed.
Lemma first_good n m l : tgood n m -> lists l m -> exists N, first_value mem N (ROwned n) = Ok (option_map Data (option_map snd (first_of l))).
Proof.
  intros Gn Hl. destruct (HeapTreeTop.good_holds dbg T _ _ Gn) as [Hh Hr]. destruct (mem_first_last dbg n m Hr Hh []) as (l' & Hl' & _ & _ & (_ & N & E) & _).
  rewrite (lists_where_unique _ _ _ _ Hl Hl'). exists N. specialize (E N (le_n _)). unfold first_value_bytes, t_first_value in E.
  stepE E o Eo. now rewrite (opt_data _ _ E).
Qed.
Lemma last_good n m l : tgood n m -> lists l m -> exists N, last_value mem N (ROwned n) = Ok (option_map Data (option_map snd (last_of l))).
Proof.
  intros Gn Hl. destruct (HeapTreeTop.good_holds dbg T _ _ Gn) as [Hh Hr]. destruct (mem_first_last dbg n m Hr Hh []) as (l' & Hl' & _ & _ & _ & (_ & N & E)).
  rewrite (lists_where_unique _ _ _ _ Hl Hl'). exists N. specialize (E N (le_n _)). unfold last_value_bytes, t_last_value in E.
  stepE E o Eo. now rewrite (opt_data _ _ E).
Qed.
Lemma entry_data (o : option (bytes * blob)) x : load_entry mem o = Ok x -> o = option_map D x.
Proof.
  destruct o as [[k b]|]; cbn [load_entry]; intros E; [|assert (x = None) as -> by congruence; reflexivity]. stepE E y Ey.
  assert (x = Some (k, y)) as -> by congruence. cbn. do 2 f_equal. unfold value_load in Ey. destruct b as [d|[|z id]]; cbn in Ey; try discriminate Ey; congruence.
Qed.
Lemma first_entry_good n m l p : tgood n m -> lists l m -> exists N, first_entry mem N p (ROwned n) = Ok (option_map D (option_map (push p) (first_of l))).
Proof.
  intros Gn Hl. destruct (HeapTreeTop.good_holds dbg T _ _ Gn) as [Hh Hr]. destruct (mem_first_last dbg n m Hr Hh p) as (l' & Hl' & (_ & N & E) & _).
  rewrite (lists_where_unique _ _ _ _ Hl Hl'). exists N. specialize (E N (le_n _)). unfold first_entry_bytes, t_first_entry in E.
  stepE E o Eo. now rewrite (entry_data _ _ E).
Qed.
Lemma last_entry_good n m l p : tgood n m -> lists l m -> exists N, last_entry mem N p (ROwned n) = Ok (option_map D (option_map (push p) (last_of l))).
Proof.
  intros Gn Hl. destruct (HeapTreeTop.good_holds dbg T _ _ Gn) as [Hh Hr]. destruct (mem_first_last dbg n m Hr Hh p) as (l' & Hl' & _ & (_ & N & E) & _).
  rewrite (lists_where_unique _ _ _ _ Hl Hl'). exists N. specialize (E N (le_n _)). unfold last_entry_bytes, t_last_entry in E.
  stepE E o Eo. now rewrite (entry_data _ _ E).
Qed.
End Good.
