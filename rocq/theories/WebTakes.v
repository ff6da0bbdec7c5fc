(** Files in the browser cache accept the writes of a tree: proofs. *)
From Verif Require Import Base BaseLemmas Header Node Combine Iter Api Spec Client Top Store StoreSpec World U64 File Chunk ChunkProofs WebFile WebProofs WebPlans
  WebSpec WebTop WebAppend WebStore WebFs WebFsSpec WebFsSim WebFsProofs WebFsStaleSpec WebFsStale WebFsLike WebFsBlob WebFsBlobProofs WebAccept WebFsAccept AcceptSpec AcceptTop.
Local Open Scope N_scope.

Lemma lin_add b f d : lin b f -> add (w_chunks f) (N.of_nat (length b)) d =
  [WWrite (Chunk 0 (N.of_nat (length b)) (N.of_nat (length d))) d] /\
  intersecting (w_chunks f) (N.of_nat (length b), N.of_nat (length b) + N.of_nat (length d)) = [].
Proof.
  intros L. set (o := N.of_nat (length b)). pose proof (lin_ok _ _ L) as (W & HV & HB).
  assert (filter (fun c => overlap (crange c) (o, o + N.of_nat (length d))) (w_chunks f) = []) as Hrel.
  { destruct (filter _ _) as [|c l] eqn:Ef; [reflexivity|].
    assert (In c (filter (fun c => overlap (crange c) (o, o + N.of_nat (length d))) (w_chunks f))) as Hc by (rewrite Ef; now left).
    apply filter_In in Hc as [Hc Ho]. apply overlap_iff in Ho. cbn [crange fst snd] in Ho.
    pose proof (HB c Hc). lia. }
  split; [|exact Hrel].
  unfold add. rewrite Hrel. cbn. unfold chunk_new. cbn [fst snd].
  replace (o + N.of_nat (length d) - o) with (N.of_nat (length d)) by lia. reflexivity.
Qed.

Lemma put_size c d m : cache_size (cache_put c d m) <= cache_size m + N.of_nat (length d).
Proof.
  unfold cache_put. cbn [cache_size fold_right snd]. fold (cache_size (cache_delete c m)).
  assert (cache_size (cache_delete c m) <= cache_size m); [|lia].
  unfold cache_delete. induction m as [|[c' d'] m IH]; [cbn; lia|]. cbn [filter fst].
  destruct (chunk_eqb c c'); cbn [negb cache_size fold_right snd]; fold (cache_size m);
    try fold (cache_size (filter (fun e => negb (chunk_eqb c (fst e))) m)); lia.
Qed.

(** ** One file *)
Lemma append_accepts b f d : lin b f -> w_faults f = [] -> cache_size (w_cache f) + N.of_nat (length d) < quota ->
  exists g, wf_append d f = (Ok (N.of_nat (length b)), g) /\ cache_size (w_cache g) <= cache_size (w_cache f) + N.of_nat (length d).
Proof.
  intros L Hf HQ. pose proof (lin_size _ _ L) as HS. destruct (lin_add b f d L) as [Ha _].
  unfold wf_append. rewrite (lin_end _ _ L), Ha. cbv zeta. unfold sum_ok.
  assert (N.of_nat (length b) + N.of_nat (length d) <? u64_max = true) as -> by (apply N.ltb_lt; unfold u64_max, quota in *; lia).
  unfold wbind, wret. cbn [execute_plan exec_op]. unfold wbind, write_chunk, js, wret. rewrite Hf. cbn [w_cache].
  apply N.ltb_lt in HQ. rewrite HQ. eexists. split; [reflexivity|]. cbn [w_cache]. apply put_size.
Qed.
Lemma web_takes b k : forall f, web_inv (f, []) -> b + 4 < 2147483648 ->
  cache_size (w_cache f) + N.of_nat k * (b + 4) < quota -> takes web_store b k (f, []).
Proof.
  induction k as [|k IH]; intros f HI Hb HQ; [exact Logic.I|]. cbn [takes]. intros d Hd.
  destruct (web_inv_lin _ HI) as [(x & L) _]. cbn [fst] in L.
  assert (lin x (with_faults [] f)) as L0 by (apply (lin_same _ f); [now split|exact L]).
  set (dd := to_be 4 (N.of_nat (length d)) ++ d).
  assert (N.of_nat (length dd) = 4 + N.of_nat (length d)) as Hdd by (unfold dd; rewrite app_length, to_be_length; lia).
  destruct (append_accepts x (with_faults [] f) dd L0 eq_refl) as (g & E & HG).
  { cbn [with_faults w_cache]. lia. }
  cbn [with_faults w_cache] in HG.
  assert (st_write web_store (f, []) d = (Ok (to_be 8 (N.of_nat (length x))), (g, []))) as Ew.
  { cbn [st_write web_store fst snd hd tl]. unfold i32_lim.
    assert (2147483648 <=? 4 + N.of_nat (length d) = false) as -> by (apply N.leb_gt; lia).
    unfold wf_append_lp. assert (N.of_nat (length d) <? usize_lim = true) as -> by (apply N.ltb_lt; unfold usize_lim; lia).
    fold dd. unfold wbind, wret. rewrite E. reflexivity. }
  exists (to_be 8 (N.of_nat (length x))), (g, []). split; [exact Ew|].
  apply IH; [exact (web_write_inv _ _ _ _ HI Ew)|exact Hb|]. lia.
Qed.

(** ** A file of the file system *)
Lemma total_put o m : forall l, (o < length l)%nat -> total (replace o m l) + jcache_size (nth o l []) = total l + jcache_size m.
Proof.
  induction o as [|o IH]; intros [|x l] H; cbn [length] in H; try lia; cbn [replace nth total fold_right].
  - fold (total l). lia.
  - fold (total l) (total (replace o m l)). specialize (IH l ltac:(lia)). lia.
Qed.
Lemma fs_append s W d f cs bs b : Inv s W -> valid f -> linked s d f bs -> fs_up s = true -> open_chunks s d f = Some cs ->
  4 + N.of_nat (length b) < i32_lim -> total (fs_objs s) + 4 + N.of_nat (length b) < quota ->
  exists n s', fs_call (KAppend d f b) [] s = (Ok (RNum n), s') /\ fs_up s' = true /\
    (exists cs', open_chunks s' d f = Some cs') /\ total (fs_objs s') <= total (fs_objs s) + 4 + N.of_nat (length b).
Proof.
  intros I Hf (cs0 & x & Ho & L & _) Hup Hcs Hb HQ. assert (cs0 = cs) as -> by (destruct Ho; congruence). clear Ho.
  unfold open_chunks in Hcs. destruct (get d (fs_dirs s)) as [[o files]|] eqn:Hd; [|discriminate].
  pose proof (i_names _ _ I _ _ (i_dirs _ _ I _ _ _ Hd)) as Hlen.
  destruct (lin_add x _ (to_be 4 (N.of_nat (length b)) ++ b) L) as [Ha Hi]. cbn [w_chunks] in Ha, Hi.
  pose proof (lin_end _ _ L) as He. cbn [w_chunks] in He. pose proof (lin_size _ _ L) as HS.
  assert (Hlim : i32_lim < usize_lim /\ quota + i32_lim < u64_max) by (split; reflexivity).
  set (dd := to_be 4 (N.of_nat (length b)) ++ b) in *.
  assert (N.of_nat (length dd) = 4 + N.of_nat (length b)) as Hdd by (unfold dd; rewrite app_length, to_be_length; lia).
  set (c0 := Chunk 0 (N.of_nat (length x)) (N.of_nat (length dd))) in *.
  assert (j_append_lp f b (jfile_of s o cs []) = (Ok (N.of_nat (length x)),
    JFile (set_insert c0 cs) (j_put (request_str f c0) dd (nth o (fs_objs s) [])) (total (replace o [] (fs_objs s))) [])) as Ej.
  { unfold j_append_lp. assert (N.of_nat (length b) <? usize_lim = true) as -> by (apply N.ltb_lt; lia). fold dd.
    unfold j_append. cbv zeta. change (j_chunks (jfile_of s o cs [])) with cs. rewrite He.
    unfold j_write, wbind, wret. change (j_chunks (jfile_of s o cs [])) with cs. rewrite Ha, Hi.
    unfold sum_ok. assert (N.of_nat (length x) + N.of_nat (length dd) <? u64_max = true) as -> by (apply N.ltb_lt; unfold quota in *; lia).
    unfold level_ok. cbn [next_level]. change (next_level [] <? u64_max) with true. cbn iota.
    cbn [j_execute j_exec_op]. unfold wbind, wret, j_write_chunk, jjs. cbn [jfile_of j_faults tl j_other j_cache j_chunks].
    pose proof (total_replace o (fs_objs s) Hlen).
    assert (total (replace o [] (fs_objs s)) + jcache_size (nth o (fs_objs s) []) + N.of_nat (length dd) <? quota = true) as ->
      by (apply N.ltb_lt; lia). reflexivity. }
  eexists (N.of_nat (length x)), _. split.
  { unfold fs_call. rewrite Hup. cbn [fs_exec]. unfold on_file. rewrite Hd, Hcs, Ej. cbn [bind j_cache j_chunks]. reflexivity. }
  cbn [fs_up fs_objs]. split; [exact Hup|]. split.
  - unfold open_chunks. cbn [fs_dirs]. rewrite get_set_same, get_set_same. eauto.
  - pose proof (total_put o (j_put (request_str f c0) dd (nth o (fs_objs s) [])) (fs_objs s) Hlen).
    pose proof (j_put_size (request_str f c0) dd (nth o (fs_objs s) [])). lia.
Qed.
Lemma fs_append_but s W d f cs bs b : Inv_but d s W -> valid f -> linked s d f bs -> fs_up s = true -> open_chunks s d f = Some cs ->
  4 + N.of_nat (length b) < i32_lim -> total (fs_objs s) + 4 + N.of_nat (length b) < quota ->
  exists n s', fs_call (KAppend d f b) [] s = (Ok (RNum n), s') /\ fs_up s' = true /\
    (exists cs', open_chunks s' d f = Some cs') /\ total (fs_objs s') <= total (fs_objs s) + 4 + N.of_nat (length b).
Proof.
  intros (q & I & LK) Hf HL Hup Hcs Hb HQ. apply (linked_like _ _ _ _ _ LK) in HL.
  assert (forall x y, like d x y -> fs_objs y = fs_objs x) as Ho by (intros x y (D & l & A & _); apply (al_objs _ _ _ A)).
  rewrite <- (like_up _ _ _ LK) in Hup. rewrite <- (like_chunks _ f _ _ LK) in Hcs. rewrite <- (Ho _ _ LK) in HQ |- *.
  destruct (fs_append q W d f cs bs b I Hf HL Hup Hcs Hb HQ) as (n & q' & E & A1 & (cs' & A2) & A3).
  destruct (fs_call (KAppend d f b) [] s) as [r s'] eqn:E'.
  destruct (like_call d _ _ _ _ _ _ LK E' ltac:(discriminate)) as (q2 & E2 & LK2). rewrite E in E2. injection E2 as <- <-.
  exists n, s'. split; [reflexivity|]. rewrite <- (like_up _ _ _ LK2), <- (like_chunks _ f _ _ LK2), <- (Ho _ _ LK2). eauto.
Qed.
Lemma fs_takes d f b k : forall s, fs_inv d f (s, []) -> fst (fs_call (KFlush d f) [] s) = Ok RUnit -> b + 4 < 2147483648 ->
  total (fs_objs s) + N.of_nat k * (b + 4) < quota -> takes (fs_store d f) b k (s, []).
Proof.
  induction k as [|k IH]; intros s HI Hop Hb HQ; [exact Logic.I|]. cbn [takes]. intros x Hx.
  destruct (flushed _ _ _ Hop) as (Hup & cs & Hcs). pose proof HI as (Hf & (l & rs & Hl & El) & _). cbn [fst] in El.
  destruct (beside_linked d f l rs s Hf Hl El) as (W & HW & HL).
  destruct (fs_append_but s W d f cs _ x HW Hf HL Hup Hcs) as (n & s' & E & Hup' & (cs' & Hcs') & HT); [unfold i32_lim; lia|lia|].
  assert (st_write (fs_store d f) (s, []) x = (Ok (to_be 8 n), (s', []))) as Ew.
  { cbn [st_write fs_store fst snd hd tl fs_run]. unfold i32_lim.
    assert (2147483648 <=? 4 + N.of_nat (length x) = false) as -> by (apply N.leb_gt; lia). rewrite E. reflexivity. }
  exists (to_be 8 n), (s', []). split; [exact Ew|].
  apply IH; [exact (proj1 (store_write _ _ _ _ _ _ HI Ew))| |exact Hb|lia].
  unfold fs_call. rewrite Hup'. cbn [fs_exec]. unfold on_file. unfold open_chunks in Hcs'.
  destruct (get d (fs_dirs s')) as [[o files]|]; [|discriminate]. rewrite Hcs'. reflexivity.
Qed.

(** ** Trees *)
Lemma attached_inv dbg S inv (L : lawful S inv) s t m : attached dbg S inv s t m -> inv s.
Proof. intros A. destruct (attached_logged dbg S inv L s t m A) as (lg & ids & I & _). apply I. Qed.
Theorem web_attach dbg f t m l b : web_inv (f, []) -> Client.reachable dbg t -> holds mem t m -> lists l m ->
  kids_max <= b -> b + 4 < 2147483648 -> entries_within b l ->
  cache_size (w_cache f) + N.of_nat (writes_max (length l)) * (b + 4) < quota ->
  exists t' s', t_attached web_store t (f, []) = (Ok t', s') /\ web_inv s' /\ holds (st_read web_store s') t' m.
Proof.
  intros HI R H Hl Hb Hb' W HQ. apply (acc_attached dbg web_store web_inv web_lawful b Hb (f, []) t m l); auto. now apply web_takes.
Qed.
Theorem web_reattach dbg f t m l b : attached dbg web_store web_inv (f, []) t m -> lists l m ->
  kids_max <= b -> b + 4 < 2147483648 -> entries_within b l ->
  cache_size (w_cache f) + N.of_nat (writes_max (length l)) * (b + 4) < quota ->
  exists id t' s', t_reattach web_store t (f, []) = (Ok (id, t'), s') /\ web_inv s' /\
    t_load web_store s' (Some id) = Ok t' /\ holds (st_read web_store s') t' m.
Proof.
  intros A Hl Hb Hb' W HQ. assert (web_inv (f, [])) as HI by exact (attached_inv _ _ _ web_lawful _ _ _ A). apply (acc_reattach dbg web_store web_inv web_lawful b Hb (f, []) t m l); auto. now apply web_takes.
Qed.
Theorem fs_attach dbg d f s t m l b : fs_inv d f (s, []) -> fst (fs_call (KFlush d f) [] s) = Ok RUnit ->
  Client.reachable dbg t -> holds mem t m -> lists l m ->
  kids_max <= b -> b + 4 < 2147483648 -> entries_within b l ->
  total (fs_objs s) + N.of_nat (writes_max (length l)) * (b + 4) < quota ->
  exists t' s', t_attached (fs_store d f) t (s, []) = (Ok t', s') /\ fs_inv d f s' /\ holds (st_read (fs_store d f) s') t' m.
Proof.
  intros HI Ho R H Hl Hb Hb' W HQ. apply (acc_attached dbg (fs_store d f) (fs_inv d f) (fs_lawful d f) b Hb (s, []) t m l); auto.
  now apply fs_takes.
Qed.
Theorem fs_reattach dbg d f s t m l b : attached dbg (fs_store d f) (fs_inv d f) (s, []) t m ->
  fst (fs_call (KFlush d f) [] s) = Ok RUnit -> lists l m ->
  kids_max <= b -> b + 4 < 2147483648 -> entries_within b l ->
  total (fs_objs s) + N.of_nat (writes_max (length l)) * (b + 4) < quota ->
  exists id t' s', t_reattach (fs_store d f) t (s, []) = (Ok (id, t'), s') /\ fs_inv d f s' /\
    t_load (fs_store d f) s' (Some id) = Ok t' /\ holds (st_read (fs_store d f) s') t' m.
Proof.
  intros A Ho Hl Hb Hb' W HQ.
  assert (fs_inv d f (s, [])) as HI by exact (attached_inv _ _ _ (fs_lawful d f) _ _ _ A). apply (acc_reattach dbg (fs_store d f) (fs_inv d f) (fs_lawful d f) b Hb (s, []) t m l); auto.
  now apply fs_takes.
Qed.
