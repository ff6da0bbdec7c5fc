(** Paging files, and trees on them, in a file of the browser file system. *)
From Verif Require Import Base BaseLemmas Header Node Combine Iter Api Tree Rep Spec Client Top Store StoreSpec StoreProofs
  World WorldProofs U64 File FileProofs Chunk ChunkProofs WebFile WebProofs WebPlans WebSpec WebTop WebAppend
  WebFs WebFsSpec WebFsSim WebFsProofs WebFsBlob WebFsBlobProofs Paging PagingSpec PagingProofs PagingTop
  PagingRun PagingWeb PagingStore PagingStoreProofs WebFsStaleSpec WebFsStale WebFsLike SyncDev SyncDevProofs.
Local Open Scope N_scope.

Lemma any_same g h F : WebProofs.same g h -> web_any g F -> web_any h F.
Proof. intros S [H1 H2]. split; [exact (rep_same _ _ _ S H1)|exact H2]. Qed.
Lemma end_same g h F : WebProofs.same g h -> web_end g F -> web_end h F.
Proof. intros S [H1 H2]. split; [exact (lin_same _ _ _ S H1)|exact H2]. Qed.
Definition any_inv := sinv web_any.
Definition end_inv := sinv web_end.
Lemma sync_any d f : ~ In quest f -> file_dev (sync_dev d f) true (any_inv d f).
Proof. intros Hf. apply sync_file_dev; [exact web_file_dev|exact any_same|now intros g F [H _]|exact Hf]. Qed.
Lemma sync_end d f : ~ In quest f -> file_dev (sync_dev d f) false (end_inv d f).
Proof. intros Hf. apply sync_file_dev; [exact web_end_dev|exact end_same|intros g F [H _]; now apply lin_rep|exact Hf]. Qed.
Lemma sync_end_exact d f : ~ In quest f -> exact_length (sync_dev d f) (end_inv d f).
Proof. intros Hf. apply sync_exact; [exact end_same|intros g F [H _]; now apply lin_rep|exact Hf|exact web_end_exact]. Qed.

Lemma sim0_read L f r : valid f -> sim0 L f (j_read f r) (wf_read r).
Proof.
  intros Hf j Hm Hc Ht. unfold j_read, wf_read. cbn [w_chunks]. generalize (snd (crange (prev (j_chunks j)))). intros n.
  revert j Hm Hc Ht. apply sim0_bind; [apply sim0_ret|]. intros _. apply sim0_bind; [apply sim0_ret|]. intros _.
  intros j Hm Hc Ht. unfold j_read_raw, read_raw. cbn [w_chunks].
  apply (sim0_load_chunks L f Hf r (intersecting (j_chunks j) r)); auto. now apply good_filter.
Qed.
Lemma sync_readable d f : ~ In quest f -> readable (sync_dev d f) (end_inv d f) (sync_works d f).
Proof.
  intros Hf s F a b (_ & W & (s1 & I & LK) & HL & _) [Ht (n & Hn & Hlt)] Hab Hb.
  cbn [dv_read sync_dev]. unfold wbind, wret, sf_call. rewrite Ht. cbn [hd tl fst snd fs_run]. apply (link_like _ _ _ _ _ _ LK) in HL.
  destruct (fs_call (KLength d f) [] (sf_fs s)) as [q g] eqn:El0. cbn [fst] in Hn. subst q.
  destruct (like_call d _ _ _ _ _ _ LK El0 ltac:(discriminate)) as (g1 & El & _).
  destruct (fs_call (KRead d f a b) [] (sf_fs s)) as [q2 g2] eqn:Er0.
  destruct (like_call d _ _ _ _ _ _ LK Er0 ltac:(discriminate)) as (g3 & Er & _).
  assert (q2 = Ok (RBytes (f_read F a (N.to_nat (b - a))))) as ->; [|cbn [as_bytes]; eauto].
  clear El0 Er0. revert Er. set (x := sf_fs s) in *. clearbody x. clear x LK. intros Er.
  destruct (call_length web_end end_same d f Hf _ _ _ _ _ _ I HL El)
    as [X|(m & h & h' & X & HR & Em)]; [discriminate|]. injection X as <-.
  pose proof (web_end_exact _ _ _ _ HR Em) as ->.
  unfold fs_call in El, Er. destruct (fs_up s1); [|discriminate]. cbn [fs_exec] in El, Er.
  unfold WebFs.on_file in El, Er. destruct (get d (fs_dirs s1)) as [[o files]|] eqn:Hd; [|cbn in El; discriminate El].
  destruct (get f files) as [cs|] eqn:Hg; [|cbn in El; discriminate El].
  destruct (open_inv _ _ _ _ _ _ _ I Hf Hd Hg) as (_ & Hm & Hc & _).
  destruct (sim0_read (changes W) f (a, b) Hf (jfile_of s1 o cs []) Hm Hc eq_refl) as (r & E1 & E2).
  cbn [jfile_of j_chunks j_cache] in E2.
  pose proof (link_open web_end end_same d f _ _ _ _ _ _ [] I HL Hd Hg) as [L _].
  assert (read_now (WFile cs (WebFsSim.view f (nth o (fs_objs s1) [])) []) [] a b = Ok (f_read F a (N.to_nat (b - a)))) as K.
  { apply read_accepts; [now apply lin_rep|exact Hlt|exact Hab|]. right. exists (f_len F). split; [|exact Hb].
    unfold length_now, wf_length. cbn [fst]. rewrite (lin_end _ _ L), contents_length. f_equal. lia. }
  unfold read_now, with_faults in K. cbn [w_chunks w_cache] in K. rewrite E2 in K. cbn [fst] in K. subst r.
  rewrite E1 in Er. cbn [bind] in Er. now injection Er as <- _.
Qed.

(** ** New files *)
Section Start.
Context (any : bool) (R : wfile -> file -> Prop).
Context (HD : file_dev web_dev any R) (HRs : forall g h F, WebProofs.same g h -> R g F -> R h F) (HRr : forall g F, R g F -> rep g F).
Context (HR0 : R new_web_file empty_file).

Lemma fs_run_app l1 : forall l2 s rs s', fs_run (l1 ++ l2) s = (rs, s') ->
  exists rs1 rs2 s1, rs = rs1 ++ rs2 /\ length rs1 = length l1 /\ fs_run l1 s = (rs1, s1) /\ fs_run l2 s1 = (rs2, s').
Proof.
  induction l1 as [|e l1 IH]; intros l2 s rs s' E; [exists [], rs, s; auto|]. destruct e as [c t|]; cbn [app fs_run] in E |- *.
  - destruct (fs_call c t s) as [r s0]. destruct (fs_run (l1 ++ l2) s0) as [rs0 s2] eqn:E0. injection E as <- <-.
    destruct (IH _ _ _ _ E0) as (rs1 & rs2 & s1 & -> & HL & E1 & E2). exists (r :: rs1), rs2, s1. rewrite E1. cbn [length]. auto.
  - destruct (fs_run (l1 ++ l2) (fs_restart s)) as [rs0 s2] eqn:E0. injection E as <- <-.
    destruct (IH _ _ _ _ E0) as (rs1 & rs2 & s1 & -> & HL & E1 & E2). exists (Ok RUnit :: rs1), rs2, s1. rewrite E1. cbn [length]. auto.
Qed.
Lemma effect_any_changes e r WD WD' : fs_effect_any e r WD WD' -> changes (fst WD') <= changes (fst WD) + 1.
Proof. intros H. inversion H; subst; cbn [fst]; try lia. now apply (effect_changes (Call c t) r). Qed.
(** Where any history leads; [d] is deleted but open only if a deletion of [d] came after
    it was opened and no restart came since. *)
Lemma run_any d l : Forall event_ok l -> exists WD, Inv_any (snd (fs_run l new_fs)) WD /\ changes (fst WD) <= N.of_nat (length l) /\
  (snd WD d = true -> ~ not_stale d l).
Proof.
  assert (Forall event_ok l -> exists WD, Inv_any (snd (fs_run l new_fs)) WD /\ changes (fst WD) <= N.of_nat (length l) /\
    (get d (fs_dirs (snd (fs_run l new_fs))) <> None -> WebFsProofs.opened l d) /\
    (snd WD d = true -> exists a1 t1 a2 t2 a3, l = a1 ++ Call (KOpenDir d) t1 :: a2 ++ Call (KDeleteDir d) t2 :: a3 /\
      ~ In Restart a2 /\ ~ In Restart a3)) as H.
  2:{ intros Hok. destruct (H Hok) as (WD & H1 & H2 & _ & H3). exists WD. split; [exact H1|]. split; [exact H2|].
      intros HX HN. destruct (H3 HX) as (a1 & t1 & a2 & t2 & a3 & E & X & Y). destruct (HN _ _ _ _ _ E); auto. }
  induction l as [|e l IH] using rev_ind; intros Hok.
  { exists (new_world, fun _ => false). split; [|split; [cbn; lia|split; [intros X; now destruct X|discriminate]]].
    exists new_fs, []. split; [exact inv_new|]. split; [|reflexivity]. constructor; try reflexivity. discriminate. }
  apply Forall_app in Hok as [Hok He]. inversion He as [|? ? Hx _]; subst. destruct (IH Hok) as (WD & IA & HC & Ho & HS).
  destruct (fs_run (l ++ [e]) new_fs) as [rs s'] eqn:E. apply fs_run_app in E as (rs1 & rs2 & s1 & -> & _ & E1 & E2).
  rewrite E1 in IA, Ho. cbn [snd] in IA, Ho |- *.
  assert (exists r, fs_run [e] s1 = ([r], s')) as (r & E3).
  { destruct e as [c t|]; cbn [fs_run] in E2 |- *; [destruct (fs_call c t s1)|]; injection E2 as _ <-; eauto. }
  destruct (event_any e s1 WD r s' IA Hx E3) as (WD' & HE & IA'). exists WD'. split; [exact IA'|].
  split; [pose proof (effect_any_changes _ _ _ _ HE); rewrite app_length; cbn [length]; lia|]. split.
  - intros Hd. destruct e as [c t|]; cbn [fs_run] in E3.
    + destruct (fs_call c t s1) as [r1 x] eqn:Ec. injection E3 as _ <-.
      destruct (call_dirs _ _ _ _ _ _ Ec Hd) as [Hd0| ->]; [now apply opened_snoc, Ho|].
      exists l, t, []. split; [reflexivity|intros []].
    + injection E3 as <- <-. now destruct Hd.
  - intros HD'.
    assert (forall c t, snd WD d = true -> exists a1 t1 a2 t2 a3, l ++ [Call c t] = a1 ++ Call (KOpenDir d) t1 :: a2 ++ Call (KDeleteDir d) t2 :: a3 /\
      ~ In Restart a2 /\ ~ In Restart a3) as Hold.
    { intros c t X. destruct (HS X) as (a1 & t1 & a2 & t2 & a3 & -> & H1 & H2). exists a1, t1, a2, t2, (a3 ++ [Call c t]).
      split; [now rewrite <- !app_assoc; cbn [app]; rewrite <- !app_assoc|]. split; [exact H1|].
      intros Y. apply in_app_or in Y as [Y|[Y|[]]]; [auto|discriminate]. }
    inversion HE as [W D c t r0 W' Hx1 Hx2|W D d' t Hopen|W D d' t Hopen|W D W']; subst; cbn [snd] in *; try discriminate HD'; try (now apply Hold).
    unfold upd1 in HD'. destruct (beq_dec d' d) as [->|Hne]; [|rewrite beq_neq in HD' by exact Hne; now apply Hold].
    destruct IA as (y & L & I & A & _). cbn [fst snd] in *. rewrite (i_dir _ _ I), (al_dirs _ _ _ A) in Hopen.
    destruct Ho as (a1 & t1 & a2 & -> & Hr); [intros X; rewrite X in Hopen; discriminate|].
    exists a1, t1, a2, t, []. split; [now rewrite <- app_assoc|]. split; [exact Hr|intros []].
Qed.
Lemma unused_inv d f s : unused_file d f s -> sinv R d f s empty_file.
Proof.
  intros (l & (Hf & Hok & (rs & E) & Ha & HB) & H). split; [exact Ha|].
  assert (exists W, Inv_but d (sf_fs s) W /\ link R d f (sf_fs s) empty_file /\ changes W <= N.of_nat (length l)) as (W & I & HL & HC);
    [|exists W; split; [exact I|]; split; [exact HL|lia]].
  assert (forall x W, Inv x W -> Inv_but d x W) as Hbut.
  { intros x W I. exists x. split; [exact I|]. exists (fun _ => false), []. split; [|split; reflexivity]. constructor; try reflexivity. discriminate. }
  assert (forall k, Forall event_ok k -> Forall (fun e => ~ concerns d f e) k -> Forall (apart d f) k) as Hap.
  { intros k H1 H2. rewrite Forall_forall in *. intros e He. split; auto. }
  destruct H as [Hn|(l1 & t & l2 & rs' & b & -> & Hst & E' & Hb & Hn)].
  - destruct (apart_link R HRr d f Hf l new_fs new_world empty_file (Hbut _ _ inv_new) (Hap _ Hok Hn)) as (W & I & HL & HC).
    { now apply link_nil. }
    rewrite E in I, HL. exists W. auto.
  - clear rs E. apply fs_run_app in E' as (rs1 & rs2 & s1 & -> & Hl & E1 & E2). rewrite <- Hl in Hb.
    apply Forall_app in Hok as [Hok1 Hok2]. inversion Hok2 as [|? ? He Hok3]; subst.
    destruct (run_any d l1 Hok1) as ((W1 & D1) & (y & L & I1 & A & HDL) & C1 & HD1). rewrite E1 in A. cbn [fst snd] in *.
    assert (like d s1 y) as LK.
    { exists D1, L. split; [exact A|]. split; [exact HDL|]. destruct (D1 d); [now destruct (HD1 eq_refl)|reflexivity]. }
    cbn [fs_run] in E2. destruct (fs_call (KDeleteFile d f) t s1) as [r s2] eqn:Ec0. destruct (fs_run l2 s2) as [rs3 s3] eqn:E3.
    injection E2 as <- ->. rewrite app_nth2, Nat.sub_diag in Hb by lia. cbn [nth] in Hb. subst r.
    destruct (like_call d _ _ _ _ _ _ LK Ec0 ltac:(discriminate)) as (y2 & Ec & LK2).
    destruct (call_effect y W1 (KDeleteFile d f) t _ y2 I1 He ltac:(discriminate) Ec) as (W2 & HE2 & I2).
    pose proof (effect_unchanged (KDeleteFile d f) t _ _ _ (fun x => x) HE2) as C2.
    assert (link R d f y2 empty_file) as HL2.
    { unfold fs_call in Ec. destruct (fs_up y); [|discriminate]. cbn [fs_exec] in Ec.
      destruct (get d (fs_dirs y)) as [[o files]|] eqn:Hd; [|discriminate].
      destruct (on_view y W1 d o files f (filter (fun e => negb (same_path (slash :: f) (fst e))) (nth o (fs_objs y) [])) (del f files) I1 Hd)
        as (B1 & B2 & _); [intros h Hh; now apply (view_delete_path_other (changes W1)); try apply I1
                          |intros h Hh; rewrite get_del, beq_neq by congruence; reflexivity|].
      rewrite get_del, beq_refl in B1. rewrite (view_delete_path (changes W1)) in B2 by (assumption || apply I1).
      destruct t as [|[] t]; cbn [fs_js] in Ec; try discriminate; injection Ec as _ <-; now apply link_nil. }
    apply (link_like _ _ _ _ _ _ LK2) in HL2.
    destruct (apart_link R HRr d f Hf l2 s2 W2 empty_file) as (W3 & I3 & HL3 & C3); auto.
    + now exists y2.
    + rewrite E3 in I3, HL3. exists W3. split; [exact I3|]. split; [exact HL3|]. rewrite app_length. cbn [length]. lia.
Qed.
End Start.
Lemma unused_any d f s : unused_file d f s -> any_inv d f s empty_file.
Proof. apply unused_inv; [now intros g F [H _]|exact (new_any [])]. Qed.
Lemma unused_end d f s : unused_file d f s -> end_inv d f s empty_file.
Proof. apply unused_inv; [intros g F [H _]; now apply lin_rep|exact (new_end [])]. Qed.
Lemma unused_valid d f s : unused_file d f s -> ~ In quest f.
Proof. intros (l & (H & _) & _). exact H. Qed.

(** ** The theorems *)
Theorem sync_session d f ps : page_size_ok ps -> forall s cs rs s', unused_file d f s -> Forall (size_ok ps) cs ->
  prun (sync_dev d f) ps cs (s, None) = (rs, s') -> all_right false (Ledger [] []) cs rs.
Proof.
  intros Hps s cs rs s' HU Hc E.
  now apply (paging_history (sync_dev d f) false (any_inv d f) ps (sync_any d f (unused_valid _ _ _ HU)) ltac:(discriminate) Hps _ _ cs rs s'
    (unused_any _ _ _ HU) Hc E).
Qed.
Theorem sync_once d f ps : page_size_ok ps -> forall s cs cs2 rs s', unused_file d f s ->
  Forall (size_ok ps) cs -> Forall no_sync cs -> Forall only_reads cs2 ->
  prun (sync_dev d f) ps (cs ++ PSync :: cs2) (s, None) = (rs, s') ->
  all_right true (Ledger [] []) (cs ++ PSync :: cs2) rs /\
  (sync_works d f (fst s') -> snd s' <> None -> forall id b,
    In (id, b) (saved (notes (cs ++ PSync :: cs2) rs (Ledger [] []))) ->
    fst (pstep (sync_dev d f) ps (PLoad id) s') = Ok (OData b)).
Proof.
  intros Hps s cs cs2 rs s' HU Hc Hn Hr E. pose proof (unused_valid _ _ _ HU) as Hf.
  destruct (paging_once (sync_dev d f) (end_inv d f) ps (sync_end d f Hf) (sync_end_exact d f Hf) Hps _ _ cs cs2 rs s' (unused_end _ _ _ HU)
    ltac:(cbn [empty_file f_len]; apply N.mod_0_l; pose proof (ps_bounds ps Hps); lia) Hc Hn Hr E) as [A B].
  split; [exact A|]. intros Hw Ho id b. apply (B (sync_works d f) (sync_readable d f Hf) Hw Ho).
Qed.
Theorem sync_lawful d f ps any : page_size_ok ps -> ~ In quest f ->
  lawful (paging_store (sync_dev d f) ps) (paging_inv (sync_dev d f) (unused_file d f) any ps).
Proof.
  intros Hps Hf. destruct any.
  - apply (paging_lawful (sync_dev d f) true false (any_inv d f)); auto using sync_any; [discriminate|].
    intros s HU. exists empty_file. auto using unused_any.
  - apply (paging_lawful (sync_dev d f) false true (end_inv d f)); auto using sync_end, sync_end_exact.
    intros s HU. exists empty_file. split; [now apply unused_end|right]. cbn [empty_file f_len]. apply N.mod_0_l.
    pose proof (ps_bounds ps Hps). lia.
Qed.
Theorem sync_durable d f ps dbg s h : page_size_ok ps -> ~ In quest f ->
  paging_inv (sync_dev d f) (unused_file d f) false ps s -> history_ok dbg h ->
  let S := paging_store (sync_dev d f) ps in
  exists oks w, exec dbg S (World.start (S:=S) s) h ⇓ Ok (oks, w) /\ length oks = length h /\
    Forall2 (holds (st_read S (w_st w))) (w_trees w) (m_trees (model no_maps h oks)) /\
    forall cs rs s2, Forall only_reads cs ->
    prun (sync_dev d f) ps (PSync :: cs) (fst (w_st w)) = (Ok ODone :: rs, s2) ->
    sync_works d f (fst s2) -> snd s2 <> None ->
    Forall2 (fun id m => exists t, t_load S (s2, []) (Some id) = Ok t /\ holds (st_read S (s2, [])) t m)
      (w_ids w) (m_saved (model no_maps h oks)).
Proof.
  intros Hps Hf HI H S.
  destruct (paging_once_durable (sync_dev d f) (end_inv d f) (unused_file d f) ps dbg s h (sync_end d f Hf) (sync_end_exact d f Hf) Hps
    (unused_end d f) HI H) as (oks & w & A & B & C & K).
  exists oks, w. split; [exact A|]. split; [exact B|]. split; [exact C|].
  intros cs rs s2 Hc E Hg. apply (K cs rs s2 (sync_works d f) Hc E (sync_readable d f Hf) Hg).
Qed.
