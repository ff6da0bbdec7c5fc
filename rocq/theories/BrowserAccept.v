(** The program of the browser crate succeeds when nothing fails: proofs. *)
From Verif Require Import WebSpec WebFsSim WebFsProofs Base BaseLemmas Header Node Combine Iter Api Tree Rep JoinBase FindProofs Entries IterProofs Canon ScanProofs
  Sim Spec Client Top TopOps MemLemmas Store StoreSpec StoreProofs World WorldProofs Logged StoreLemmas PagedStoreProofs AcceptSpec AcceptProofs AcceptTop
  U64 File Chunk WebFile WebFs WebFsSpec WebFsAccept WebTakes Paging PagingSpec PagingProofs PagingTop PagingRun PagingWeb PagingStore PagingStoreProofs
  WebFsStaleSpec WebFsStale SyncDev SyncDevProofs SyncTop SyncAccept BrowserMain BrowserMainProofs Decimals.

Lemma total_app l m : (total (l ++ m) = total l + total m)%N.
Proof. induction l as [|x l IH]; cbn; [reflexivity|]. fold (total l) (total (l ++ m)). rewrite IH. lia. Qed.
Lemma filter_cache_size p (m : jcache) : (jcache_size (filter p m) <= jcache_size m)%N.
Proof.
  induction m as [|e m IH]; [reflexivity|]. cbn [filter]. destruct (p e); cbn [jcache_size fold_right] in *; fold (jcache_size m) in *;
    [fold (jcache_size (filter p m))|]; lia.
Qed.

Theorem browser_succeeds dbg d f ps elems b h s : page_size_ok ps -> ~ In quest f ->
  Forall event_ok h -> (exists rs, fs_run h new_fs = (rs, sf_fs s)) ->
  sf_todo s = [] -> (N.of_nat (length h) + 4 + sf_left s < u64_max)%N ->
  (kids_max <= b)%N -> (b + 12 <= ps)%N -> entries_within b elems ->
  (N.of_nat (writes_max (different elems)) < sf_left s)%N ->
  (total (fs_objs (sf_fs s)) + (N.of_nat (writes_max (different elems)) + 1) * ps < quota)%N ->
  exists u s', ends (tree_test_sync dbg d f ps elems) s (Ok (repeat (different elems) 4, u)) s' /\ holds mem u (pairs_map elems).
Proof.
  intros Hps Hf Hok (rs & E) Ht Hn Hb Hbp Hw Hleft Hroom. destruct s as [s todo left]. cbn [sf_fs sf_todo sf_left] in *. subst todo.
  unfold ends, tree_test_sync. cbn [sf_fs sf_todo sf_left].
  assert (forall c x, sf_call c (SyncFile x [] left) = let (r, x') := fs_call c [] x in (r, SyncFile x' [] left)) as Hcall
    by (intros c x; reflexivity).
  unfold wbind at 1. rewrite Hcall.
  destruct (fs_call (KDeleteDir d) [] (fs_restart s)) as [r1 x1] eqn:E1.
  assert ((exists b, r1 = Ok (RBool b)) /\ fs_up x1 = true /\ fs_objs x1 = fs_objs s) as ((b1 & ->) & U1 & O1).
  { unfold fs_call in E1. cbn [fs_up fs_restart fs_exec fs_js] in E1. injection E1 as <- <-. eauto. }
  unfold wbind at 1. rewrite Hcall.
  destruct (fs_call (KOpenDir d) [] x1) as [r2 x2] eqn:E2.
  assert (r2 = Ok RUnit /\ get d (fs_dirs x2) <> None /\ fs_up x2 = true /\ total (fs_objs x2) = total (fs_objs s)) as (-> & D2 & U2 & O2).
  { unfold fs_call in E2. rewrite U1 in E2. cbn [fs_exec fs_js] in E2. destruct (get d (fs_dirs x1)) as [[o fl]|] eqn:G1.
    - injection E2 as <- <-. rewrite G1, O1. split; [reflexivity|split; [congruence|split; [exact U1|reflexivity]]].
    - destruct (get d (fs_names x1)); injection E2 as <- <-; cbn [fs_dirs fs_up fs_objs]; rewrite get_set_same, O1, ?total_app;
        (split; [reflexivity|split; [congruence|split; [exact U1|cbn; lia]]]). }
  unfold wbind at 1. rewrite Hcall.
  destruct (fs_call (KDeleteFile d f) [] x2) as [r3 x3] eqn:E3.
  set (h2 := h ++ [Restart; Call (KDeleteDir d) []; Call (KOpenDir d) []]).
  assert (fs_run h2 new_fs = (rs ++ [Ok RUnit; Ok (RBool b1); Ok RUnit], x2)) as Eh2.
  { unfold h2. rewrite fs_run_cat, E. cbn [fst snd fs_run]. rewrite E1, E2. reflexivity. }
  assert (forall o fl, get d (fs_dirs x2) = Some (o, fl) -> o < length (fs_objs x2)) as Hlt.
  { destruct (run_any d h2) as (WD & (y & L & I & A & _) & _).
    - apply Forall_app. split; [exact Hok|]. repeat constructor.
    - rewrite Eh2 in A. cbn [snd] in A. intros o fl G. rewrite <- (al_dirs _ _ _ A) in G. rewrite <- (al_objs _ _ _ A).
      exact (i_names _ _ I _ _ (i_dirs _ _ I _ _ _ G)). }
  assert ((exists b, r3 = Ok (RBool b)) /\ (exists o files, get d (fs_dirs x3) = Some (o, files)) /\ fs_up x3 = true /\
    (total (fs_objs x3) <= total (fs_objs s))%N) as ((b3 & ->) & (o3 & files3 & D3) & U3 & O3).
  { unfold fs_call in E3. rewrite U2 in E3. cbn [fs_exec fs_js] in E3. destruct (get d (fs_dirs x2)) as [[o fl]|] eqn:G2; [|congruence].
    injection E3 as <- <-. cbn [fs_dirs fs_up fs_objs]. rewrite get_set_same. split; [eauto|]. split; [eauto|]. split; [exact U2|].
    rewrite <- O2. pose proof (Hlt _ _ eq_refl) as Ho.
    match goal with |- context [replace o ?m _] => pose proof (total_put o m (fs_objs x2) Ho) end.
    pose proof (filter_cache_size (fun e => negb (same_path (slash :: f) (fst e))) (nth o (fs_objs x2) [])). lia. }
  (* now the file is unused *)
  set (h' := h ++ [Restart; Call (KDeleteDir d) []; Call (KOpenDir d) []; Call (KDeleteFile d f) []]).
  assert (fs_run h' new_fs = (rs ++ [Ok RUnit; Ok (RBool b1); Ok RUnit; Ok (RBool b3)], x3)) as Eh.
  { unfold h'. rewrite fs_run_cat, E. cbn [fst snd fs_run]. rewrite E1, E2, E3. reflexivity. }
  assert (length rs = length h) as Hlen.
  { pose proof (f_equal (fun x => length (fst x)) E) as X. cbn [fst] in X. rewrite <- X. apply fs_run_length. }
  set (s0 := SyncFile x3 [] left).
  assert (unused_file d f s0) as HU.
  { exists h'. split.
    - split; [exact Hf|]. split.
      { apply Forall_app. split; [exact Hok|]. repeat constructor; exact Hf. }
      split; [eexists; exact Eh|]. split; [constructor|].
      cbn [sf_left sf_todo s0 events fold_right]. unfold h'. rewrite app_length. cbn [length]. lia.
    - right. exists (h ++ [Restart; Call (KDeleteDir d) []; Call (KOpenDir d) []]), [], [], (rs ++ [Ok RUnit; Ok (RBool b1); Ok RUnit; Ok (RBool b3)]), b3.
      split; [unfold h'; now rewrite <- app_assoc|]. split; [apply not_stale_after|]. split; [exact Eh|]. split; [|constructor].
      rewrite app_length, app_nth2, <- Hlen by (cbn [length]; lia). cbn [length].
      replace (length rs + 3 - length rs) with 3 by lia. reflexivity. }
  (* opening *)
  pose proof (unused_end d f s0 HU) as HI0.
  set (k := N.of_nat (writes_max (different elems))) in *.
  assert (exists y, sf_call (KOpenFile d f) s0 = (Ok RUnit, y) /\ stocked d f ps (k + 1) y) as (y & Ey & Hy).
  { unfold s0. rewrite Hcall. unfold fs_call. rewrite U3. cbn [fs_exec]. rewrite D3.
    destruct (get f files3) as [cs|] eqn:G3.
    - eexists. split; [reflexivity|]. constructor; cbn [sf_fs sf_todo sf_left]; auto; [|lia|lia].
      unfold open_chunks. rewrite D3, G3. discriminate.
    - match goal with |- context [j_find f ?j] => set (jj := j) end.
      assert (exists cs, fst (j_find f jj) = Ok cs) as (cs & ->).
      { destruct HI0 as (_ & W & (y & I & D0 & l0 & A & _) & _). pose proof (find_accepts y W I f o3) as X. eexists.
        unfold jj, jfile_of in *. rewrite (al_objs _ _ _ A) in X. exact (f_equal fst X). }
      eexists. split; [reflexivity|]. constructor; cbn [sf_fs sf_todo sf_left fs_up fs_objs]; auto; [|lia|lia].
      unfold open_chunks. cbn [fs_dirs]. rewrite get_set_same, get_set_same. discriminate. }
  destruct (quiet_call web_end (fun g F H => lin_rep _ _ (proj1 H)) d f Hf (KOpenFile d f) s0 empty_file _ _ ltac:(intros []) Hf ltac:(intros []) Logic.I HI0 Ey)
    as (HIy & _).
  destruct (paging_new_accepted d f Hf ps Hps _ y HIy Hy) as (m & z & Ez & Hz).
  assert (pstep (sync_dev d f) ps POpen (s0, None) = (Ok ODone, (z, Some m))) as Ep.
  { cbn [pstep fst]. unfold wbind at 1. cbn [dv_open sync_dev]. unfold s0 at 1 2 3 4. cbn [sf_fs sf_todo sf_left]. rewrite U3.
    unfold wbind at 1. rewrite Hcall. unfold fs_call at 1. rewrite U3. cbn [fs_exec]. rewrite D3.
    cbv beta iota. unfold wbind, wret. fold s0. rewrite Ey. now rewrite Ez. }
  assert (state_inv (sync_dev d f) false true (end_inv d f) ps (z, Some m) (Ledger [] [])) as Sz.
  { refine (proj2 (step_ok (sync_dev d f) false true (end_inv d f) ps (sync_end d f Hf) (fun _ => sync_end_exact d f Hf) (or_intror eq_refl) Hps POpen
      (s0, None) (Ledger [] []) _ _ _ Logic.I (or_intror Logic.I) Ep)).
    exists empty_file. split; [exact HI0|]. split; [reflexivity|]. split; [right; reflexivity|intros _ n d0 []]. }
  destruct (do_test_tk dbg (paging_store (sync_dev d f) ps) (paging_inv (sync_dev d f) (unused_file d f) true ps) (sync_lawful d f ps true Hps Hf)
    (paging_sync _ ps) elems ((z, Some m), [])) as (r & s' & (n0 & Hr) & Hres & Hacc).
  - apply (paging_keeping (sync_dev d f) (any_inv d f)); auto using sync_any. intros x Hx. exists empty_file. now apply unused_any.
  - split; [|split; [discriminate|constructor]]. exists s0, [POpen], [Ok ODone]. split; [exact HU|]. split; [repeat constructor|].
    split; [now left|]. cbn [prun fst]. exact (f_equal (fun z : res pout * pfile (sync_dev d f) => let (r, s1) := z in ([r], s1)) Ep).
  - assert (r <> Err) as Hne.
    { apply (Hacc b (paging_stocked d f ps)); auto.
      - apply paging_stocked_S.
      - intros j x v Hx Hv. exact (paging_stocked_write d f Hf ps Hps b j x v Hbp Hx Hv).
      - exists z, m, (Ledger [] []). split; [reflexivity|]. split; [exact Sz|exact Hz].
      - intros s1 _ (x & m1 & l1 & -> & S1 & K1). unfold paging_sync. cbn [fst snd].
        pose proof (paging_stocked_sync d f Hf ps Hps 0 x m1 l1 S1 K1) as P1.
        destruct (pstep (sync_dev d f) ps PSync (x, Some m1)) as [r1 f1]. cbn [fst] in P1 |- *. now rewrite P1. }
    destruct Hres as [->|(u & -> & Hu)]; [congruence|]. exists u, (fst (fst s')). split; [|exact Hu].
    exists n0. intros n Hle. unfold wbind at 1. fold s0. rewrite Ey. unfold wbind at 1. rewrite Ez. rewrite Hr by exact Hle. reflexivity.
Qed.

(** The program with its own names, page size and data. *)
Lemma N_size_nat_le k n : (n < 2 ^ N.of_nat k)%N -> N.size_nat n <= k.
Proof.
  intros H. destruct n as [|p]; [cbn; lia|]. pose proof (N.size_le (N.pos p)). cbn [N.size_nat].
  assert (N.size (N.pos p) <= N.of_nat k)%N.
  { rewrite N.size_log2 by discriminate. apply N.le_succ_l. apply N.log2_lt_pow2; [reflexivity|exact H]. }
  assert (N.of_nat (Pos.size_nat p) = N.size (N.pos p)) as X; [|lia].
  clear. induction p as [p IH|p IH|]; [| |reflexivity]; cbn [Pos.size_nat N.size Pos.size] in *; rewrite Nat2N.inj_succ, IH; reflexivity.
Qed.
Lemma numbers_within n : (N.of_nat n < 2 ^ 64)%N -> entries_within 65 (numbers n).
Proof.
  intros Hn. apply Forall_forall. intros e He. apply in_map_iff in He as (i & <- & Hi). apply in_seq in Hi. cbn [fst snd].
  pose proof (decimal_length i) as L.
  assert (N.size_nat (N.of_nat i) <= 64) as H.
  { apply N_size_nat_le. lia. }
  split; lia.
Qed.
Lemma numbers_map n k v : pairs_map (numbers n) k = Some v <-> v = k /\ exists i, i < n /\ k = decimal i.
Proof.
  assert (pairs_map (numbers n) k = Some v -> v = k /\ exists i, i < n /\ k = decimal i) as H.
  { intros H. apply pairs_in in H. unfold numbers in H. apply in_map_iff in H as (i & E & Hi). apply in_seq in Hi.
    injection E as <- <-. split; [reflexivity|]. exists i. split; [lia|reflexivity]. }
  split; [exact H|]. intros (-> & i & Hi & E). destruct (pairs_map (numbers n) k) as [w|] eqn:Ew.
  - apply pairs_in in Ew. unfold numbers in Ew. apply in_map_iff in Ew as (j & Ej & _). injection Ej as <- <-. reflexivity.
  - exfalso. revert Ew. apply pairs_some. unfold numbers. rewrite map_map. cbn [fst]. apply in_map_iff. exists i.
    split; [now symmetry|]. apply in_seq. lia.
Qed.
Theorem browser_itself dbg h s : Forall event_ok h -> (exists rs, fs_run h new_fs = (rs, sf_fs s)) ->
  sf_todo s = [] -> (N.of_nat (length h) + 4 + sf_left s < u64_max)%N ->
  (12000004 < sf_left s)%N -> (total (fs_objs (sf_fs s)) + 12000005 * 1048576 < quota)%N ->
  exists u s' m, ends (tree_test_sync dbg b_sync b_test 1048576 (numbers (N.to_nat 2000000))) s (Ok (repeat (N.to_nat 2000000) 4, u)) s' /\
    holds mem u m /\ forall k v, m k = Some v <-> v = k /\ exists i, (N.of_nat i < 2000000)%N /\ k = decimal i.
Proof.
  intros Hok E Ht Hn Hl Hr. set (n := N.to_nat 2000000). assert (N.of_nat n = 2000000%N) as Hnn by apply N2Nat.id.
  clearbody n. pose proof (different_numbers n) as Dn.
  assert (N.of_nat (writes_max n) = 12000004%N) as Hw by (unfold writes_max; lia).
  destruct (browser_succeeds dbg b_sync b_test 1048576 (numbers n) kids_max h s) as (u & s' & H1 & H2); auto.
  - split; reflexivity.
  - intros H. repeat (destruct H as [H|H]; [discriminate H|]). exact H.
  - reflexivity.
  - vm_compute. discriminate.
  - eapply Forall_impl; [|apply numbers_within; lia]. cbv beta. intros e [X Y]. unfold kids_max. lia.
  - rewrite Dn, Hw. exact Hl.
  - rewrite Dn, Hw. exact Hr.
  - rewrite Dn in H1. exists u, s', (pairs_map (numbers n)). split; [exact H1|]. split; [exact H2|]. intros k v. rewrite numbers_map.
    split; intros (A & i & B & C); (split; [exact A|]); exists i; (split; [lia|exact C]).
Qed.
