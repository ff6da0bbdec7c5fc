(** Proofs about the program of the browser crate. *)
From Verif Require Import WebSpec WebFsSim WebFsProofs Base BaseLemmas Header Node Combine Iter Api Tree Rep JoinBase FindProofs Entries IterProofs Canon ScanProofs
  Sim Spec Client Top TopOps MemLemmas Store StoreSpec StoreProofs World WorldProofs Logged StoreLemmas PagedStoreProofs AcceptSpec AcceptProofs AcceptTop
  U64 File Chunk WebFile WebFs WebFsSpec Paging PagingSpec PagingProofs PagingTop PagingRun PagingStore PagingStoreProofs
  SyncDev SyncDevProofs SyncTop BrowserMain.

Lemma count_collect {X A} (next : nat -> X -> res (yielded A * X)) fuel : forall s l,
  collect next fuel s = Ok l -> count next fuel s = Ok (length l).
Proof.
  induction fuel as [|n IH]; intros s l E; cbn [collect count] in *; [discriminate|].
  destruct (next n s) as [[y s']| | |]; cbn [bind] in *; try discriminate.
  destruct y; try discriminate.
  - injection E as <-. reflexivity.
  - destruct (collect next n s') as [l'| | |] eqn:El; cbn [bind] in E; try discriminate. injection E as <-.
    now rewrite (IH _ _ El).
Qed.
Lemma count_conv {X A} (next : nat -> X -> res (yielded A * X)) s l :
  (fun n => collect next n s) ⇓ Ok l -> (fun n => count next n s) ⇓ Ok (length l).
Proof. intros (_ & n0 & H). split; [discriminate|]. exists n0. intros n Hn. apply count_collect. auto. Qed.

Section Good.
Context (ids : bool) (rd : reader) (t : node) (g : tree) (R : Rep ids rd t g) (C : croot g).
Lemma count_iter : (fun n => count (kv_next rd) n (kv_new t)) ⇓ Ok (length (entries [] g)).
Proof.
  destruct (conv_ok (t_iter rd t) (4 * size g + 10) (fun l => Forall2 (erel rd) l (entries [] g))) as (l & Cl & Hl).
  - apply mono_collect. intros. apply kv_next_sim; [apply rsim_refl|assumption].
  - apply kv_collect_ok with (ids := ids); auto. pose proof (entries_size [] g). lia.
  - apply count_conv in Cl. now rewrite (Forall2_len _ _ _ Hl) in Cl.
Qed.
Lemma count_values : (fun n => count (vi_next rd) n [IOwned [t]]) ⇓ Ok (length (entries [] g)).
Proof.
  destruct (conv_ok (t_values rd t) (4 * size g + 10) (fun l => Forall2 (vrel rd) l (vals g))) as (l & Cl & Hl).
  - apply mono_collect. intros. apply vi_next_sim; [apply rsim_refl|assumption].
  - apply vi_collect_ok with (ids := ids); auto. pose proof (vals_size g). lia.
  - apply count_conv in Cl. now rewrite (Forall2_len _ _ _ Hl), (vals_entries g []), map_length in Cl.
Qed.
End Good.

(** The number of entries is the number of different keys. *)
Lemma sorted_nodup l : Sorted.StronglySorted (fun a b : bytes * bytes => lex_lt (fst a) (fst b)) l -> NoDup (map fst l).
Proof.
  induction 1 as [|a l _ IH F]; cbn; constructor; auto. intros Hin. apply in_map_iff in Hin as (b & E & Hb).
  rewrite Forall_forall in F. specialize (F b Hb). rewrite E in F. now apply lex_lt_irrefl in F.
Qed.
Lemma lists_different l m elems : lists l m ->
  (forall k, m k <> None <-> In k (map fst elems)) -> length l = different elems.
Proof.
  intros [Hs Hl] Hk. unfold different. rewrite <- (map_length fst l). apply Nat.le_antisymm.
  - apply NoDup_incl_length; [now apply sorted_nodup|]. intros k Hin. apply nodup_In, Hk.
    apply in_map_iff in Hin as ([k' v] & <- & Hin). cbn. apply Hl in Hin as [-> _]. discriminate.
  - apply NoDup_incl_length; [apply NoDup_nodup|]. intros k Hin. apply nodup_In, Hk in Hin.
    destruct (m k) as [v|] eqn:Ek; [|congruence]. apply in_map_iff. exists (k, v). split; [reflexivity|]. apply Hl. auto.
Qed.
Lemma pairs_some l k : pairs_map l k <> None <-> In k (map fst l).
Proof.
  unfold pairs_map, last_of. split.
  - intros H. destruct (rev (filter (fun e => beq (fst e) k) l)) as [|[k' v] r] eqn:E; [cbn in H; congruence|].
    assert (In (k', v) (filter (fun e => beq (fst e) k) l)) as Hin by (apply in_rev; rewrite E; now left).
    apply filter_In in Hin as [Hin Hb]. cbn in Hb. destruct (beq_spec k' k) as [->|]; [|discriminate].
    apply in_map_iff. exists (k, v). auto.
  - intros H. apply in_map_iff in H as ([k' v] & E & Hin). cbn in E. subst k'.
    assert (In (k, v) (rev (filter (fun e => beq (fst e) k) l))) as Hr.
    { apply -> in_rev. apply filter_In. split; [exact Hin|]. cbn. destruct (beq_spec k k); congruence. }
    destruct (rev (filter (fun e => beq (fst e) k) l)); [destruct Hr|]. cbn. discriminate.
Qed.

Lemma pairs_in l k v : pairs_map l k = Some v -> In (k, v) l.
Proof.
  unfold pairs_map, last_of. destruct (rev (filter (fun e => beq (fst e) k) l)) as [|[k' v'] r] eqn:E; [discriminate|].
  cbn. intros [= ->]. assert (In (k', v) (filter (fun e => beq (fst e) k) l)) as Hin by (apply in_rev; rewrite E; now left).
  apply filter_In in Hin as [Hin Hb]. cbn in Hb. destruct (beq_spec k' k) as [->|]; [exact Hin|discriminate].
Qed.

Lemma within_entries b elems l : lists l (pairs_map elems) -> entries_within b elems -> entries_within b l.
Proof.
  intros Hl Hw. apply Forall_forall. intros [k v] Hin. apply Hl in Hin as [Hin _]. apply pairs_in in Hin.
  unfold entries_within in Hw. rewrite Forall_forall in Hw. exact (Hw _ Hin).
Qed.

Section Test.
Context (dbg : bool) (S : store) (inv : st S -> Prop) (L : lawful S inv).

Lemma attach_elsewhere s t g : inv s -> good false detached_read t g ->
  (exists t' s', t_attached S t s = (Ok t', s') /\ inv s' /\ forall rd, knows S inv s' rd -> good true rd t' g) \/
  (exists s', t_attached S t s = (Err, s') /\ inv s' /\ may_refuse S inv).
Proof.
  intros I G.
  pose proof (good_attach (logged S) true _ _ (s, []) G) as (R & C & E).
  pose proof (attached_ok (logged S) (linv S inv) (logged_strict S inv L) true g t (s, []) (linv_start S inv s I) R (or_introl eq_refl)) as W.
  destruct (wpost_logged S inv L _ (t_attached S t) s (fun t' s' => forall rd, knows S inv s' rd -> Rep true rd t' g /\ is_empty t' = tnil g)
    (fwd_attached S inv L t)) as [(t' & s' & Ew & I' & H')|W']; [|left|right; exact W'].
  { eapply wpost_imp; [exact W|]. cbv beta. intros t' s' _ _ [R' E'] [_ F] rd K. split; [|exact E'].
    eapply Rep_mono; [|intros X; exact X|exact R']. intros id x Ex. apply lfind_in in Ex.
    rewrite Forall_forall in F. destruct (F _ Ex) as (s0 & s1 & ds & I0 & Ew & Ea). symmetry in Ea. exact (K s0 x id s1 ds I0 Ew Ea). }
  exists t', s'. split; [exact Ew|]. split; [exact I'|]. intros rd K. destruct (H' rd K). repeat split; auto.
Qed.

Lemma do_test_tk sync elems s : keeping S inv sync -> inv s ->
  exists r s', ends (do_test dbg S sync elems) s r s' /\
    (r = Err \/ exists u, r = Ok (repeat (different elems) 4, u) /\ holds mem u (pairs_map elems)) /\
    forall b (tk : nat -> st S -> Prop), (kids_max <= b)%N -> entries_within b elems ->
      (forall k s, tk (Datatypes.S k) s -> tk k s) ->
      (forall k s d, tk (Datatypes.S k) s -> (N.of_nat (length d) <= b)%N -> exists id s', st_write S s d = (Ok id, s') /\ tk k s') ->
      tk (writes_max (different elems)) s ->
      (forall s1, inv s1 -> tk 0 s1 -> fst (sync s1) = Ok tt) -> r <> Err.
Proof.
  intros HK I. destruct (mem_collect dbg elems) as (t & Ct & Hr & Hm). fold (pairs_map elems) in Hm.
  destruct (reachable_good dbg t Hr) as (g & G). destruct G as (R & C & E). pose proof (conj R (conj C E)) as G. fold (good false detached_read t g) in G.
  assert (same (pairs_map elems) (lookup g)) as Em by exact (holds_lookup false detached_read t g _ R C Hm).
  assert (lists (entries [] g) (pairs_map elems)) as Hle0 by (apply lists_entries; auto).
  assert (length (entries [] g) = different elems) as Hn.
  { exact (lists_different _ _ _ Hle0 (pairs_some elems)). }
  pose proof (count_iter _ _ _ _ R C) as C1. rewrite Hn in C1.
  destruct Ct as (_ & n1 & Ct). destruct C1 as (_ & n2 & C1).
  destruct (attach_elsewhere s t g I G) as [(t' & s1 & Ea & I1 & HG)|(s1 & Ea & _ & _)].
  2: { exists Err, s1. split; [|split; [now left|]].
       - exists (max n1 n2). intros n Hle. unfold do_test, wbind, wret. rewrite Ct by lia. rewrite C1 by lia. now rewrite Ea.
       - intros b tk Hb Hw TS TW Hk _. exfalso. rewrite <- Hn in Hk.
         destruct (acc_attached_tk dbg S inv L b Hb tk s t (pairs_map elems) (entries [] g) TS TW I Hr Hm Hle0 (within_entries b elems _ Hle0 Hw) Hk) as (t2 & s2 & E2 & _).
         congruence. }
  destruct (HK s1 I1) as (q & s2 & Es & [->|[-> Kn]]).
  { exists Err, s2. split; [|split; [now left|]].
    - exists (max n1 n2). intros n Hle. unfold do_test, wbind, wret.
      rewrite Ct by lia. rewrite C1 by lia. rewrite Ea, Es. reflexivity.
    - intros b tk Hb Hw TS TW Hk Hs. rewrite <- Hn in Hk.
      destruct (acc_attached_tk dbg S inv L b Hb tk s t (pairs_map elems) (entries [] g) TS TW I Hr Hm Hle0 (within_entries b elems _ Hle0 Hw) Hk) as (t3 & s3 & E3 & _ & _ & T0).
      assert (s3 = s1) as -> by congruence. specialize (Hs s1 I1 T0). now rewrite Es in Hs. }
  change (knows S inv s1 (st_read S s2)) in Kn. pose proof (HG _ Kn) as G'. pose proof G' as (R' & _ & _).
  pose proof (count_values _ _ _ _ R') as C2. pose proof (count_iter _ _ _ _ R' C) as C3.
  destruct (detach_good _ _ _ _ G') as (u & Cu & Du).
  pose proof (count_iter _ _ _ _ Du C) as C4. rewrite Hn in C2, C3, C4.
  destruct C2 as (_ & n3 & C2), C3 as (_ & n4 & C3), Cu as (_ & n5 & Cu), C4 as (_ & n6 & C4).
  exists (Ok (repeat (different elems) 4, u)), s2. split; [|split; [|discriminate]].
  - exists (n1 + n2 + n3 + n4 + n5 + n6). intros n Hle. unfold do_test, wbind, wret.
    rewrite Ct by lia. rewrite C1 by lia. rewrite Ea, Es. rewrite C2, C3, Cu, C4 by lia. reflexivity.
  - right. exists u. split; [reflexivity|]. eapply holds_ext; [intros k; symmetry; apply Em|]. eapply good_holds; eauto.
Qed.
Lemma do_test_ok sync elems s : keeping S inv sync -> inv s ->
  exists r s', ends (do_test dbg S sync elems) s r s' /\
    (r = Err \/ exists u, r = Ok (repeat (different elems) 4, u) /\ holds mem u (pairs_map elems)) /\
    forall b, (kids_max <= b)%N -> entries_within b elems -> takes S b (writes_max (different elems)) s ->
      (forall s1, inv s1 -> fst (sync s1) = Ok tt) -> r <> Err.
Proof.
  intros HK I. destruct (do_test_tk sync elems s HK I) as (r & s' & He & Hr & Ha). exists r, s'. split; [exact He|]. split; [exact Hr|].
  intros b Hb Hw T Hs. exact (Ha b (takes S b) Hb Hw (takes_S S b) (fun k x d Hx Hd => Hx d Hd) T (fun s1 I1 _ => Hs s1 I1)).
Qed.
End Test.

(** ** Paging files *)
Lemma paging_keeping D inv ps (P : dv D -> Prop) : file_dev D true inv -> page_size_ok ps ->
  (forall s, P s -> exists F, inv s F) ->
  keeping (paging_store D ps) (paging_inv D P true ps) (paging_sync D ps).
Proof.
  intros HD Hps HP s HI.
  assert (forall s, P s -> exists F, inv s F /\ (true = true \/ (f_len F mod ps = 0)%N)) as HP'
    by (intros x Hx; destruct (HP x Hx) as (F & HF); exists F; auto).
  assert (false = true -> exact_length D inv) as Hex by discriminate.
  destruct (inv_state D true false inv ps P HD Hex (or_introl eq_refl) Hps HP' s HI) as (l0 & S0).
  unfold paging_sync. destruct (pstep D ps PSync (fst s)) as [r f] eqn:E. eexists _, _. split; [reflexivity|].
  destruct (step_ok D true false inv ps HD Hex (or_introl eq_refl) Hps PSync _ _ _ _ S0 Logic.I (or_introl eq_refl) E) as [R _].
  destruct R as [->| ->]; [now left|right]. split; [reflexivity|].
  intros s0 d id s1 ds I0 Ew Ea.
  destruct (store_written D true false inv ps P HD Hex (or_introl eq_refl) Hps HP' s0 d id s1 ds I0 Ew)
    as (n & l & -> & Hn & Hin & HS & Ho). rewrite Ea in HS, Ho.
  destruct (step_ok D true false inv ps HD Hex (or_introl eq_refl) Hps PSync _ _ _ _ HS Logic.I (or_introl eq_refl) E) as [_ S1].
  apply (fresh_read D true false inv ps HD Hex (or_introl eq_refl) Hps f _ n d (snd s) S1).
  - exact (pstep_open D ps PSync _ _ _ Logic.I Ho E).
  - now apply note_fresh.
  - exact Hn.
Qed.

(** ** The program *)
Lemma fs_run_cat l1 : forall l2 s, fs_run (l1 ++ l2) s =
  (fst (fs_run l1 s) ++ fst (fs_run l2 (snd (fs_run l1 s))), snd (fs_run l2 (snd (fs_run l1 s)))).
Proof.
  induction l1 as [|e l1 IH]; intros l2 s; [cbn; now destruct (fs_run l2 s)|]. destruct e as [c t|]; cbn [app fs_run].
  - destruct (fs_call c t s) as [r s0]. rewrite IH. now destruct (fs_run l1 s0).
  - rewrite IH. now destruct (fs_run l1 (fs_restart s)).
Qed.
Lemma fs_run_length l : forall s, length (fst (fs_run l s)) = length l.
Proof.
  induction l as [|e l IH]; intros s; [reflexivity|]. destruct e as [c t|]; cbn [fs_run].
  - destruct (fs_call c t s) as [r s0]. specialize (IH s0). destruct (fs_run l s0). cbn [fst length] in *. now rewrite IH.
  - specialize (IH (fs_restart s)). destruct (fs_run l (fs_restart s)). cbn [fst length] in *. now rewrite IH.
Qed.
Lemma not_stale_after h d t1 t2 : not_stale d (h ++ [Restart; Call (KDeleteDir d) t1; Call (KOpenDir d) t2]).
Proof.
  apply not_staleb. rewrite fold_left_app. cbn. now rewrite Bool.andb_false_r.
Qed.

Theorem browser_program dbg d f ps elems h s : page_size_ok ps -> ~ In quest f ->
  Forall event_ok h -> (exists rs, fs_run h new_fs = (rs, sf_fs s)) ->
  Forall (fun e => fst e = []) (sf_todo s) -> (N.of_nat (length h) + 4 + sf_left s < u64_max)%N ->
  exists r s', ends (tree_test_sync dbg d f ps elems) s r s' /\
    (r = Err \/ exists u, r = Ok (repeat (different elems) 4, u) /\ holds mem u (pairs_map elems)).
Proof.
  intros Hps Hf Hok (rs & E) Ht Hn. destruct s as [s todo left]. cbn [sf_fs sf_todo sf_left] in *.
  unfold ends, tree_test_sync. cbn [sf_fs sf_todo sf_left].
  assert (forall c k, Forall (fun e : list event * list bool => fst e = []) k -> forall x,
    sf_call c (SyncFile x k left) = let (r, x') := fs_call c (snd (hd ([], []) k)) x in (r, SyncFile x' (tl k) left)) as Hcall.
  { intros c k Hk x. unfold sf_call. cbn [sf_fs sf_todo sf_left]. destruct Hk as [|e k Hk1 Hk2]; cbn [hd fst snd fs_run]; [reflexivity|].
    rewrite Hk1. reflexivity. }
  assert (forall k, Forall (fun e : list event * list bool => fst e = []) k -> Forall (fun e => fst e = []) (tl k)) as Htl
    by (intros k Hk; destruct Hk; [constructor|assumption]).
  set (t1 := snd (hd ([], []) todo)) in *. set (k1 := tl todo) in *. pose proof (Htl _ Ht : Forall _ k1) as Ht1.
  set (t2 := snd (hd ([], []) k1)) in *. set (k2 := tl k1) in *. pose proof (Htl _ Ht1 : Forall _ k2) as Ht2.
  set (t3 := snd (hd ([], []) k2)) in *. set (k3 := tl k2) in *. pose proof (Htl _ Ht2 : Forall _ k3) as Ht3.
  unfold wbind at 1. rewrite Hcall by assumption. fold t1 k1.
  destruct (fs_call (KDeleteDir d) t1 (fs_restart s)) as [r1 x1] eqn:E1.
  assert (r1 = Err \/ exists b, r1 = Ok (RBool b)) as R1.
  { unfold fs_call in E1. cbn [fs_up fs_restart fs_exec] in E1. destruct t1 as [|[] t1]; cbn [fs_js] in E1; injection E1 as <- <-; eauto. }
  assert (fs_up x1 = true) as U1.
  { unfold fs_call in E1. cbn [fs_up fs_restart fs_exec] in E1. destruct t1 as [|[] t1]; cbn [fs_js] in E1; injection E1 as <- <-; reflexivity. }
  destruct R1 as [->|(b1 & ->)].
  { eexists Err, _. split; [|now left]. exists 0. intros n _. reflexivity. }
  unfold wbind at 1. rewrite Hcall by assumption. fold t2 k2.
  destruct (fs_call (KOpenDir d) t2 x1) as [r2 x2] eqn:E2.
  assert ((r2 = Err \/ r2 = Ok RUnit /\ get d (fs_dirs x2) <> None) /\ fs_up x2 = true) as [R2 U2].
  { unfold fs_call in E2. rewrite U1 in E2. cbn [fs_exec] in E2. destruct (get d (fs_dirs x1)) as [[o fl]|] eqn:G1.
    - injection E2 as <- <-. rewrite G1. split; [right; split; congruence|exact U1].
    - destruct t2 as [|[] t2]; cbn [fs_js] in E2; [|injection E2 as <- <-; auto|];
        destruct (get d (fs_names x1)); injection E2 as <- <-; cbn [fs_dirs fs_up]; rewrite get_set_same; (split; [right; split; congruence|exact U1]). }
  destruct R2 as [->|[-> D2]].
  { eexists Err, _. split; [|now left]. exists 0. intros n _. reflexivity. }
  unfold wbind at 1. rewrite Hcall by assumption. fold t3 k3.
  destruct (fs_call (KDeleteFile d f) t3 x2) as [r3 x3] eqn:E3.
  assert ((r3 = Err \/ exists b, r3 = Ok (RBool b) /\ get d (fs_dirs x3) <> None) /\ fs_up x3 = true) as [R3 U3].
  { unfold fs_call in E3. rewrite U2 in E3. cbn [fs_exec] in E3. destruct (get d (fs_dirs x2)) as [[o fl]|] eqn:G2; [|congruence].
    destruct t3 as [|[] t3]; cbn [fs_js] in E3; injection E3 as <- <-; cbn [fs_dirs fs_up]; rewrite ?get_set_same;
      (split; [first [now left|right; eexists; split; [reflexivity|congruence]]|exact U2]). }
  destruct R3 as [->|(b3 & -> & D3)].
  { eexists Err, _. split; [|now left]. exists 0. intros n _. reflexivity. }
  (* now the file is unused *)
  set (h' := h ++ [Restart; Call (KDeleteDir d) t1; Call (KOpenDir d) t2; Call (KDeleteFile d f) t3]).
  assert (fs_run h' new_fs = (rs ++ [Ok RUnit; Ok (RBool b1); Ok RUnit; Ok (RBool b3)], x3)) as Eh.
  { unfold h'. rewrite fs_run_cat, E. cbn [fst snd fs_run]. rewrite E1, E2, E3. reflexivity. }
  assert (length rs = length h) as Hlen.
  { pose proof (f_equal (fun x => length (fst x)) E) as X. cbn [fst] in X. rewrite <- X. apply fs_run_length. }
  set (s0 := SyncFile x3 (([], []) :: k3) left).
  assert (events k3 = 0%N) as Hev.
  { clear -Ht3. induction Ht3 as [|e k He _ IH]; [reflexivity|]. cbn. rewrite He. cbn. exact IH. }
  assert (unused_file d f s0) as HU.
  { exists h'. split.
    - split; [exact Hf|]. split.
      { apply Forall_app. split; [exact Hok|]. repeat constructor; exact Hf. }
      split; [eexists; exact Eh|]. split.
      { constructor; [constructor|]. eapply Forall_impl; [|exact Ht3]. cbv beta. intros e ->. constructor. }
      cbn [sf_left sf_todo s0 events fold_right fst length]. fold (events k3). rewrite Hev.
      unfold h'. rewrite app_length. cbn [length]. lia.
    - right. exists (h ++ [Restart; Call (KDeleteDir d) t1; Call (KOpenDir d) t2]), t3, [], (rs ++ [Ok RUnit; Ok (RBool b1); Ok RUnit; Ok (RBool b3)]), b3.
      split; [unfold h'; now rewrite <- app_assoc|]. split; [apply not_stale_after|]. split; [exact Eh|]. split; [|constructor].
      rewrite app_length, app_nth2, <- Hlen by (cbn [length]; lia). cbn [length].
      replace (length rs + 3 - length rs) with 3 by lia. reflexivity. }
  assert (pstep (sync_dev d f) ps POpen (s0, None) =
    match (_ <~ sf_call (KOpenFile d f) ;; p_new (sync_dev d f) ps) (SyncFile x3 k3 left) with
    | (Ok p, d) => (Ok ODone, (d, Some p))
    | (Err, d) => (Err, (d, None))
    | (Panic, d) => (Panic, (d, None))
    | (Fuel, d) => (Fuel, (d, None))
    end) as Eo.
  { cbn [pstep fst]. f_equal. unfold wbind at 1. cbn [dv_open sync_dev]. unfold s0. cbn [sf_fs sf_todo sf_left]. rewrite U3.
    unfold wbind at 1. unfold sf_call at 1. cbn [sf_fs sf_todo sf_left hd tl fst snd fs_run].
    unfold fs_call at 1. rewrite U3. cbn [fs_exec]. destruct (get d (fs_dirs x3)) as [[o fl]|]; [|congruence].
    cbv beta iota. unfold wbind, wret. destruct (sf_call (KOpenFile d f) (SyncFile x3 k3 left)) as [[]]; reflexivity. }
  destruct (pstep (sync_dev d f) ps POpen (s0, None)) as [ro so] eqn:Ep.
  pose proof (step_ok (sync_dev d f) true false (any_inv d f) ps (sync_any d f Hf) ltac:(discriminate) (or_introl eq_refl) Hps POpen
    (s0, None) (Ledger [] []) ro so) as Sp.
  assert (ro = Err \/ ro = Ok ODone) as Ro.
  { apply Sp; auto; [|exact Logic.I]. exists empty_file. split; [now apply unused_any|]. split; [reflexivity|]. split; [now left|intros _ n d0 []]. }
  destruct ((_ <~ sf_call (KOpenFile d f) ;; p_new (sync_dev d f) ps) (SyncFile x3 k3 left)) as [q y] eqn:Eq.
  assert (forall B (K : pmem -> wm sync_file B), (_ <~ sf_call (KOpenFile d f) ;; m <~ p_new (sync_dev d f) ps ;; K m) (SyncFile x3 k3 left) =
    match q with Ok m => K m y | Err => (Err, y) | Panic => (Panic, y) | Fuel => (Fuel, y) end) as HK.
  { intros B K. revert Eq. unfold wbind. destruct (sf_call (KOpenFile d f) (SyncFile x3 k3 left)) as [[a| | |] z];
      [destruct (p_new (sync_dev d f) ps z) as [[p| | |] z']|..]; intros Eq; injection Eq as <- <-; reflexivity. }
  destruct q as [m| | |]; injection Eo as -> ->; try (destruct Ro; discriminate).
  2: { exists Err, y. split; [|now left]. exists 0. intros n _. now rewrite HK. }
  destruct (do_test_ok dbg (paging_store (sync_dev d f) ps) (paging_inv (sync_dev d f) (unused_file d f) true ps) (sync_lawful d f ps true Hps Hf)
    (paging_sync _ ps) elems ((y, Some m), [])) as (r & s' & (n0 & Hr) & Hres & _).
  - apply (paging_keeping (sync_dev d f) (any_inv d f)); auto using sync_any. intros x Hx. exists empty_file. now apply unused_any.
  - split; [|split; [discriminate|constructor]]. exists s0, [POpen], [Ok ODone]. split; [exact HU|]. split; [repeat constructor|].
    split; [now left|]. cbn [prun fst]. exact (f_equal (fun z : res pout * pfile (sync_dev d f) => let (r, s1) := z in ([r], s1)) Ep).
  - exists r, (fst (fst s')). split; [|exact Hres]. exists n0. intros n Hle. rewrite HK, Hr by exact Hle. reflexivity.
Qed.

(** ** The other stores *)
Lemma noop_sync_keeping S inv : lawful S inv -> keeping S inv noop_sync.
Proof. intros L s I. eexists _, s. split; [reflexivity|right]. split; [reflexivity|]. intros s0 d id s1 ds I0 Ew <-. exact (law_read _ _ L s0 d id s1 ds I0 Ew). Qed.
Theorem main_accepts dbg S inv elems s b : lawful S inv -> inv s -> (kids_max <= b)%N -> entries_within b elems ->
  takes S b (writes_max (different elems)) s ->
  exists u s', ends (do_test dbg S noop_sync elems) s (Ok (repeat (different elems) 4, u)) s' /\ holds mem u (pairs_map elems).
Proof.
  intros L I Hb Hw Ht. destruct (do_test_ok dbg S inv L noop_sync elems s (noop_sync_keeping S inv L) I) as (r & s' & He & [->|(u & -> & Hu)] & Hn).
  - exfalso. exact (Hn b Hb Hw Ht (fun _ _ => eq_refl) eq_refl).
  - exists u, s'. auto.
Qed.
