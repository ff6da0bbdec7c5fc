(** Paging files in the browser file system accept the writes of a tree: proofs. *)
From Verif Require Import Base BaseLemmas Header Node Store StoreProofs U64 File FileProofs Chunk ChunkProofs WebFile WebProofs WebPlans
  WebSpec WebTop WebAppend WebFs WebFsSpec WebFsSim WebFsProofs WebFsBlob WebFsBlobProofs WebFsAccept WebTakes Paging PagingSpec PagingProofs
  PagingTop PagingRun PagingWeb PagingStore PagingStoreProofs WebFsStaleSpec WebFsStale WebFsLike SyncDev SyncDevProofs SyncTop.
Local Open Scope N_scope.

Section File.
Context (d f : bytes) (Hf : valid f).
Notation linked := (link web_end d f).

Lemma end_open s W F o files cs : Inv s W -> linked s F -> get d (fs_dirs s) = Some (o, files) -> get f files = Some cs ->
  lin (PagingWeb.contents F) (WFile cs (WebFsSim.view f (nth o (fs_objs s) [])) []) /\ f_len F <= total (fs_objs s).
Proof.
  intros I HL Hd Hg. destruct (link_open web_end end_same d f _ _ _ _ _ _ [] I HL Hd Hg) as [L _]. split; [exact L|].
  destruct (open_inv _ _ _ _ _ _ _ I Hf Hd Hg) as (_ & Hm & _). pose proof (view_size _ f _ Hm) as V.
  pose proof (lin_size _ _ L) as [HS _]. cbn [w_cache] in HS. rewrite PagingWeb.contents_length, N2Nat.id in HS.
  pose proof (total_replace o (fs_objs s) (i_names _ _ I _ _ (i_dirs _ _ I _ _ _ Hd))). lia.
Qed.
(** A write at the end of the file. *)
Lemma end_write s W F b : Inv s W -> linked s F -> fs_up s = true -> open_chunks s d f <> None ->
  N.of_nat (length b) < usize_lim -> total (fs_objs s) + N.of_nat (length b) < quota ->
  exists s', fs_call (KWrite d f (f_len F) b) [] s = (Ok RUnit, s') /\ fs_up s' = true /\ open_chunks s' d f <> None /\
    total (fs_objs s') <= total (fs_objs s) + N.of_nat (length b).
Proof.
  intros I HL Hup Hcs Hb HQ. unfold open_chunks in Hcs. destruct (get d (fs_dirs s)) as [[o files]|] eqn:Hd; [|congruence].
  destruct (get f files) as [cs|] eqn:Hg; [|congruence]. clear Hcs.
  pose proof (i_names _ _ I _ _ (i_dirs _ _ I _ _ _ Hd)) as Hlen.
  destruct (end_open s W F o files cs I HL Hd Hg) as [L HF].
  destruct (lin_add _ _ b L) as [Ha Hi]. cbn [w_chunks] in Ha, Hi. rewrite PagingWeb.contents_length, N2Nat.id in Ha, Hi.
  set (c0 := Chunk 0 (f_len F) (N.of_nat (length b))) in *.
  assert (j_write f (f_len F) b (jfile_of s o cs []) = (Ok tt,
    JFile (set_insert c0 cs) (j_put (request_str f c0) b (nth o (fs_objs s) [])) (total (replace o [] (fs_objs s))) [])) as Ej.
  { unfold j_write, wbind, wret. change (j_chunks (jfile_of s o cs [])) with cs. rewrite Ha, Hi.
    unfold sum_ok. assert (f_len F + N.of_nat (length b) <? u64_max = true) as -> by (apply N.ltb_lt; unfold quota, u64_max in *; lia).
    unfold level_ok. change (next_level [] <? u64_max) with true. cbn iota.
    cbn [j_execute j_exec_op]. unfold wbind, wret, j_write_chunk, jjs. cbn [jfile_of j_faults tl j_other j_cache j_chunks].
    pose proof (total_replace o (fs_objs s) Hlen).
    assert (total (replace o [] (fs_objs s)) + jcache_size (nth o (fs_objs s) []) + N.of_nat (length b) <? quota = true) as ->
      by (apply N.ltb_lt; lia). reflexivity. }
  eexists. split.
  { unfold fs_call. rewrite Hup. cbn [fs_exec]. unfold WebFs.on_file. rewrite Hd, Hg, Ej. cbn [bind j_cache j_chunks]. reflexivity. }
  cbn [fs_up fs_objs]. split; [exact Hup|]. split.
  - unfold open_chunks. cbn [fs_dirs]. rewrite get_set_same, get_set_same. discriminate.
  - pose proof (total_put o (j_put (request_str f c0) b (nth o (fs_objs s) [])) (fs_objs s) Hlen).
    pose proof (j_put_size (request_str f c0) b (nth o (fs_objs s) [])). lia.
Qed.

(** The file is open, nothing fails, and there is room for [k] more writes of [n] bytes. *)
Record stocked (n k : N) (x : sync_file) : Prop := {
  sk_todo : sf_todo x = [];
  sk_up : fs_up (sf_fs x) = true;
  sk_open : open_chunks (sf_fs x) d f <> None;
  sk_left : k <= sf_left x;
  sk_room : total (fs_objs (sf_fs x)) + k * n < quota
}.
Lemma stocked_le n k k' x : k' <= k -> stocked n k x -> stocked n k' x.
Proof. intros H [A1 A2 A3 A4 A5]. constructor; auto; nia. Qed.
Lemma stocked_write n k x F b : end_inv d f x F -> stocked n (k + 1) x -> N.of_nat (length b) <= n -> n < i32_lim ->
  exists x', dv_write (sync_dev d f) (f_len F) b x = (Ok tt, x') /\ stocked n k x'.
Proof.
  intros (_ & W & (x1 & I & LK) & HL & _) [A1 A2 A3 A4 A5] Hb Hn.
  assert (i32_lim < usize_lim /\ quota = i64_lim) as [Hlim Hq] by (split; reflexivity).
  apply (link_like _ _ _ _ _ _ LK) in HL.
  pose proof LK as (D & l & A & _). pose proof (al_objs _ _ _ A) as Ho. pose proof (al_up _ _ _ A) as Hu.
  assert (open_chunks x1 d f <> None) as A3' by (rewrite (like_chunks _ _ _ _ LK); exact A3).
  destruct (end_write _ W F b I HL ltac:(congruence) A3' ltac:(lia) ltac:(rewrite Ho; nia)) as (s1' & E1 & B1 & B2 & B3).
  assert (f_len F <= total (fs_objs (sf_fs x))) as HF.
  { rewrite <- Ho. unfold open_chunks in A3'. destruct (get d (fs_dirs x1)) as [[o files]|] eqn:Hd; [|congruence].
    destruct (get f files) as [cs|] eqn:Hg; [|congruence]. exact (proj2 (end_open _ W F o files cs I HL Hd Hg)). }
  destruct (fs_call (KWrite d f (f_len F) b) [] (sf_fs x)) as [r s'] eqn:E.
  destruct (like_call d _ _ _ _ _ _ LK E ltac:(discriminate)) as (s2' & E2 & LK'). rewrite E1 in E2. injection E2 as <- <-.
  rewrite (like_chunks _ _ _ _ LK') in B2. destruct LK' as (D' & l' & A' & _). rewrite (al_objs _ _ _ A'), Ho in B3. rewrite (al_up _ _ _ A') in B1.
  cbn [dv_write sync_dev].
  assert (f_len F + N.of_nat (length b) <? i64_lim = true) as -> by (apply N.ltb_lt; nia).
  assert (N.of_nat (length b) <? usize_lim = true) as -> by (apply N.ltb_lt; lia).
  assert (0 <? sf_left x = true) as -> by (apply N.ltb_lt; lia). cbn [andb].
  unfold wbind, wret, sf_call. cbn [sf_fs sf_todo sf_left]. rewrite A1. cbn [hd tl fst snd fs_run]. rewrite E.
  eexists. split; [reflexivity|]. constructor; cbn [sf_fs sf_todo sf_left]; auto; [lia|nia].
Qed.

(** Calls that change nothing. *)
Lemma stocked_quiet {A} n k x F c (m : wm jfile A) (r : A -> reply) : end_inv d f x F -> stocked n k x ->
  (forall s, fs_exec c [] s = WebFs.on_file d f m r [] s) -> (forall j, exists a, m j = (Ok a, j)) ->
  exists a x', sf_call c x = (Ok (r a), x') /\ stocked n k x'.
Proof.
  intros (_ & W & (x1 & I & D0 & l0 & AL & _) & _) [A1 A2 A3 A4 A5] Hc Hm. unfold sf_call. rewrite A1. cbn [hd tl fst snd fs_run].
  unfold fs_call. rewrite A2, Hc. unfold WebFs.on_file.
  unfold open_chunks in A3. destruct (get d (fs_dirs (sf_fs x))) as [[o files]|] eqn:Hd; [|congruence].
  destruct (get f files) as [cs|] eqn:Hg; [|congruence].
  destruct (Hm (jfile_of (sf_fs x) o cs [])) as (a & ->). cbn [bind jfile_of j_cache j_chunks].
  exists a. eexists. split; [reflexivity|]. constructor; cbn [sf_fs sf_todo sf_left fs_up fs_objs]; auto.
  - unfold open_chunks. cbn [fs_dirs]. rewrite get_set_same, get_set_same. discriminate.
  - rewrite <- (al_dirs _ _ _ AL) in Hd. pose proof (i_names _ _ I _ _ (i_dirs _ _ I _ _ _ Hd)) as Ho. rewrite (al_objs _ _ _ AL) in Ho.
    pose proof (total_put o (nth o (fs_objs (sf_fs x)) []) (fs_objs (sf_fs x)) Ho). lia.
Qed.
Lemma read_nothing j : j_read f (0, 0) j = (Ok [], j).
Proof.
  assert (intersecting (j_chunks j) (0, 0) = []) as Hi.
  { unfold intersecting. induction (j_chunks j) as [|c l IH]; [reflexivity|]. cbn [filter].
    assert (overlap (crange c) (0, 0) = false) as ->; [|exact IH].
    destruct (overlap (crange c) (0, 0)) eqn:O; [|reflexivity]. apply overlap_iff in O. cbn [fst snd] in O. lia. }
  unfold j_read, wbind, wret, j_read_raw, j_load_chunks. cbn [fst snd]. rewrite Hi.
  assert (0 <=? snd (crange (prev (j_chunks j))) = true) as -> by (apply N.leb_le; lia). reflexivity.
Qed.

Section Paging.
Context (ps : N) (Hps : page_size_ok ps).
Notation D := (sync_dev d f).
Notation state_ok := (state_inv D false true (end_inv d f) ps).


Lemma paging_append_accepted k x m l b : state_ok (x, Some m) l -> stocked ps (k + 1) x ->
  N.of_nat (length b) + 12 <= ps ->
  exists n x' m' l', pstep D ps (PAppend b) (x, Some m) = (Ok (OId n), (x', Some m')) /\ state_ok (x', Some m') l' /\ stocked ps k x'.
Proof.
  intros HS HK Hb. destruct (pstep D ps (PAppend b) (x, Some m)) as [r s'] eqn:E.
  pose proof (ps_bounds ps Hps) as Hpb.
  assert (size_ok ps (PAppend b)) as Hc by (cbn [size_ok]; unfold usize_lim; split; [lia|tauto]).
  destruct (step_ok D false true (end_inv d f) ps (sync_end d f Hf) (fun _ => sync_end_exact d f Hf) (or_intror eq_refl) Hps (PAppend b) _ _ _ _ HS Hc
    (or_intror Logic.I) E) as [R S'].
  cbn [right] in R.
  assert (forall p t, fst (p_put D ps p t) <> Err /\ fst (snd (p_put D ps p t)) = fst t) as NP.
  { intros p t. unfold p_put, wbind, wret, sum_ok, offset_within_page, page_range, page_num, copy_to, bind, sum_ok.
    repeat (match goal with |- context [if ?b then _ else _] => destruct b end; cbn [fst snd]; try (split; [discriminate|reflexivity])). }
  destruct HS as (F & HI & HP). cbn [fst snd] in *.
  pose proof (fd_small _ _ _ (sync_end d f Hf) _ _ HI) as Hsm. destruct (pinv_small false true ps Hps _ _ _ HP Hsm) as [B1 B2].
  cbn [pstep on_open snd fst] in E. unfold on_open in E. cbn [snd fst] in E. unfold p_append_lp in E.
  assert (N.of_nat (length b) <? usize_lim = true) as Hu by (apply N.ltb_lt; unfold usize_lim; lia). rewrite Hu in E.
  set (y := to_be 4 (N.of_nat (length b)) ++ b) in E.
  assert (N.of_nat (length y) = 4 + N.of_nat (length b)) as Hy by (unfold y; rewrite app_length, to_be_length; lia).
  destruct (p_append D ps y (x, m)) as [q g] eqn:Ea. unfold wbind at 1 in E. rewrite Ea in E.
  assert (s' = (fst g, Some (snd g))) as -> by (destruct q; unfold wret in E; congruence).
  assert (q <> Err /\ stocked ps k (fst g)) as [Hq HK'].
  { unfold p_append, wbind, wret in Ea. cbn [snd] in Ea.
    assert (N.of_nat (length y) <=? ps = true) as Hle by (apply N.leb_le; lia). rewrite Hle in Ea.
    unfold p_remaining in Ea. rewrite (page_range_ok ps Hps) in Ea by exact B2. cbn [bind fst snd] in Ea.
    destruct (_ <? _) in Ea.
    - unfold p_close, wbind, wret in Ea. cbn [snd fst] in Ea. rewrite (page_num_ok ps Hps), (page_range_ok ps Hps) in Ea by exact B2.
      cbn [fst snd] in Ea. unfold on_dev in Ea. cbn [fst snd] in Ea.
      destruct (pi_mode _ _ _ _ _ _ HP) as [X|X]; [discriminate|]. rewrite <- X in Ea.
      destruct (stocked_write ps k x F (p_last m) HI HK) as (x1 & E1 & HK1).
      { rewrite (pi_last _ _ _ _ _ _ HP). lia. }
      { apply Hps. }
      rewrite E1, (page_num_ok ps Hps) in Ea.
      match type of Ea with (if ?c then _ else _) = _ => idtac | _ => idtac end.
      destruct (_ =? _) in Ea.
      + match type of Ea with p_put D ps y ?t = _ => destruct (NP y t) as [N1 N2]; rewrite Ea in N1, N2 end.
        cbn [fst snd] in N1, N2. rewrite N2. auto.
      + injection Ea as <- <-. cbn [fst]. split; [discriminate|exact HK1].
    - destruct (NP y (x, m)) as [N1 N2]. rewrite Ea in N1, N2. cbn [fst snd] in N1, N2. rewrite N2.
      split; [exact N1|]. eapply stocked_le; [|exact HK]. lia. }
  destruct R as [->|(n & ->)].
  - exfalso. apply Hq. destruct q; unfold wret in E; congruence.
  - exists n, (fst g), (snd g). eexists. split; [reflexivity|]. split; [exact S'|exact HK'].
Qed.

(** Opening an empty file. *)
Lemma paging_new_accepted k x : end_inv d f x empty_file -> stocked ps k x ->
  exists m x', p_new D ps x = (Ok m, x') /\ stocked ps k x'.
Proof.
  intros HI HK. pose proof (ps_bounds ps Hps) as Hpb.
  destruct (stocked_quiet ps k x _ (KLength d f) j_length RNum HI HK) as (n & x1 & E1 & HK1); [reflexivity|intros j; eexists; reflexivity|].
  assert (dv_length D x = (Ok n, x1)) as El by (cbn [dv_length sync_dev]; unfold wbind, wret; now rewrite E1).
  pose proof (sync_end_exact d f Hf _ _ _ _ HI El) as ->. cbn [empty_file f_len] in *.
  destruct (fd_length _ _ _ (sync_end d f Hf) _ _ _ _ HI El) as [HI1 _].
  destruct (stocked_quiet ps k x1 _ (KRead d f 0 0) (j_read f (0, 0)) RBytes HI1 HK1) as (z & x2 & E2 & HK2);
    [reflexivity|intros j; exists []; apply read_nothing|].
  unfold p_new, wbind at 1. rewrite El. unfold wbind, wret. rewrite (page_range_ok ps Hps) by reflexivity. cbn [fst snd].
  assert (start ps 0 = 0) as -> by (unfold start; rewrite N.div_0_l by lia; reflexivity).
  assert (dv_read D 0 0 x1 = (Ok z, x2)) as -> by (cbn [dv_read sync_dev]; unfold wbind, wret; now rewrite E2).
  eexists _, x2. split; [reflexivity|exact HK2].
Qed.

(** [PagingFile] as a store. *)
Definition paging_stocked (k : nat) (s : st (paging_store D ps)) : Prop := exists x m l,
  s = ((x, Some m), []) /\ state_ok (x, Some m) l /\ stocked ps (N.of_nat k + 1) x.
Lemma paging_stocked_S k s : paging_stocked (S k) s -> paging_stocked k s.
Proof.
  intros (x & m & l & -> & HS & HK). exists x, m, l. split; [reflexivity|]. split; [exact HS|]. eapply stocked_le; [|exact HK]. lia.
Qed.
Lemma paging_stocked_write b k s y : b + 12 <= ps -> paging_stocked (S k) s -> N.of_nat (length y) <= b ->
  exists id s', st_write (paging_store D ps) s y = (Ok id, s') /\ paging_stocked k s'.
Proof.
  intros Hb (x & m & l & -> & HS & HK) Hy.
  destruct (paging_append_accepted (N.of_nat k + 1) x m l y HS) as (n & x' & m' & l' & E & HS' & HK').
  { eapply stocked_le; [|exact HK]. lia. }
  { lia. }
  cbn [st_write paging_store fst snd hd tl prun].
  assert (fits ps y = true) as ->.
  { pose proof (ps_bounds ps Hps). unfold fits.
    assert (N.of_nat (length y) <? usize_lim = true) as -> by (apply N.ltb_lt; unfold usize_lim; lia).
    assert (N.of_nat (length y) + 12 <=? ps = true) as -> by (apply N.leb_le; lia). reflexivity. }
  exists (to_be 8 n), ((x', Some m'), []). split.
  - exact (f_equal (fun z : res pout * pfile D => let (r, g) := z in
      (match r with Ok (OId n) => Ok (to_be 8 n) | Panic => Panic | _ => Err end, (g, @nil (list pcall)))) E).
  - exists x', m', l'. auto.
Qed.
Lemma paging_stocked_sync k x m l : state_ok (x, Some m) l -> stocked ps (k + 1) x ->
  fst (pstep D ps PSync (x, Some m)) = Ok ODone.
Proof.
  intros (F & HI & HP) HK. cbn [fst snd] in *.
  pose proof (fd_small _ _ _ (sync_end d f Hf) _ _ HI) as Hsm. destruct (pinv_small false true ps Hps _ _ _ HP Hsm) as [B1 B2].
  cbn [pstep]. unfold on_open. cbn [snd fst]. unfold p_sync, wbind, wret. cbn [snd].
  rewrite (page_range_ok ps Hps), (offset_ok ps Hps) by exact B2. cbn [fst snd].
  pose proof (start_bounds ps Hps (p_len m)) as Hst. pose proof (pi_last _ _ _ _ _ _ HP) as Hl.
  unfold slice_to. destruct (Nat.leb_spec (N.to_nat (p_len m - start ps (p_len m))) (length (p_last m))) as [_|C]; [|lia].
  unfold on_dev. cbn [fst snd]. destruct (pi_mode _ _ _ _ _ _ HP) as [X|X]; [discriminate|]. rewrite <- X.
  destruct (stocked_write ps k x F (firstn (N.to_nat (p_len m - f_len F)) (p_last m)) HI HK) as (x1 & E1 & _).
  { rewrite firstn_length. lia. }
  { apply Hps. }
  rewrite E1. reflexivity.
Qed.
End Paging.
End File.
