(** Programs that use the whole in-memory API, on the heap. *)
From Verif Require Import RetainSpec ScanSpec GroupSpec InPlaceSpec ScanExact Base BaseLemmas Header Node Combine Iter Api Spec Client Top TopOps Store Heap HeapSpec HeapProofs HeapOps HeapRun
  HeapTop HeapIter HeapIterSpec HeapIterProofs HeapIterRun HeapIterTop HeapTree HeapBorrow HeapMerge HeapClean HeapTreeOps HeapTreeRec HeapFind HeapAsk HeapTreeMono
  HeapTreeSpec HeapTreeTop HeapGroup HeapGroupSpec HeapGroupProofs HeapGroupTop MemLemmas HeapWhole HeapWholeSpec HeapWholeReads HeapWholePure HeapWholeGood.

(** ** More fuel changes nothing *)
Lemma first_value_sim : forall f f' c, f <= f' -> msim (h_first_value f c) (h_first_value f' c).
Proof. induction f as [|f IH]; intros [|f'] c Hf; try lia; cbn [h_first_value]; ms. Qed.
Lemma last_value_sim : forall f f' c, f <= f' -> msim (h_last_value f c) (h_last_value f' c).
Proof. induction f as [|f IH]; intros [|f'] c Hf; try lia; cbn [h_last_value]; ms. Qed.
Lemma first_entry_sim : forall f f' p c, f <= f' -> msim (h_first_entry f p c) (h_first_entry f' p c).
Proof. induction f as [|f IH]; intros [|f'] p c Hf; try lia; cbn [h_first_entry]; ms. Qed.
Lemma last_entry_sim : forall f f' p c, f <= f' -> msim (h_last_entry f p c) (h_last_entry f' p c).
Proof. induction f as [|f IH]; intros [|f'] p c Hf; try lia; cbn [h_last_entry]; ms. Qed.
Lemma scan_sim f f' p c : f <= f' -> msim (h_scan_prefix f p c) (h_scan_prefix f' p c).
Proof. intros Hf. pose proof h_find_sim. unfold h_scan_prefix. ms. Qed.
Lemma w_step_more dbg i : forall f f' s h r, f <= f' -> w_step dbg f i s h = Done r -> w_step dbg f' i s h = Done r.
Proof.
  assert (forall g f f' s h r, f <= f' -> w_with f dbg g s h = Done r -> w_with f' dbg g s h = Done r) as W.
  { intros g f f' s h r L E. unfold w_with in *. apply bind_done in E. destruct E as (y & h1 & E1 & E).
    now rewrite (bind_eq _ _ _ _ _ (g_step_more _ _ _ _ _ _ _ L E1)). }
  pose proof first_value_sim. pose proof last_value_sim. pose proof first_entry_sim. pose proof last_entry_sim. pose proof scan_sim.
  induction i; intros f f' st h x L E; cbn [w_step] in *; try exact E; try (now apply (W _ _ _ _ _ _ L E)).
  - apply (done_more _ _ _ _ (msim_bind _ _ _ _ (t_step_sim dbg f f' _ _ L) (fun a => msim_refl _)) E).
  - apply bind_done in E. destruct E as (b & h1 & E1 & E).
    rewrite (bind_eq _ _ _ _ _ (done_more _ _ _ _ (t_ask_sim f f' _ _ L) E1)). destruct b; [apply (IHi _ _ _ _ _ L E)|exact E].
  - eapply done_more; [|exact E]. ms.
  - eapply done_more; [|exact E]. unfold t_new1. ms.
  - eapply done_more; [|exact E]. unfold t_new1. ms.
  - eapply done_more; [|exact E]. ms.
  - eapply done_more; [|exact E]. ms.
Qed.
Lemma w_run_more dbg p : forall f f' s h r, f <= f' -> w_run dbg f p s h = Done r -> w_run dbg f' p s h = Done r.
Proof.
  induction p as [|i p IH]; intros f f' s h r L E; cbn [w_run] in *; [exact E|].
  apply bind_done in E. destruct E as (y & h1 & E1 & E). rewrite (bind_eq _ _ _ _ _ (w_step_more _ _ _ _ _ _ _ L E1)).
  apply (IH _ _ _ _ _ L E).
Qed.

(** ** The state *)
Section Run.
Context (dbg : bool) (T : Prop).
Notation tgood n m := (HeapTreeTop.good dbg T (FNode n) (Some (MTree m))).

Definition bits (s : wst) : list item := oits hblob_items (w_blobs s).
Definition blobs_rep (G : ghost) := Forall2 (orel (fun (b : hblob) k => G (fst b) = GB k /\ snd b = k)).
Record wrel (f : fgst) (ms : mst) : Prop := WRel {
  wr_env : Forall2 (HeapTreeTop.good dbg T) (fx_env (fg_x f)) (ms_env ms);
  wr_its : fx_iters (fg_x f) = map (option_map (map D)) (ms_iters ms);
  wr_vals : fx_vals (fg_x f) = map (option_map (map Data)) (ms_vals ms);
  wr_keys : fx_keys (fg_x f) = ms_keys ms;
  wr_groups : Forall2 (orel (Forall2 (fun n m => tgood n m))) (fg_groups f) (ms_groups ms) }.
Definition w_inv (f : fgst) (lk : list item) (s : wst) (ms : mst) (h : heap) (G : ghost) : Prop :=
  g_inv (bits s ++ lk) f (w_g s) h G /\ leaks_ok G lk /\ (T -> lk = []) /\ blobs_rep G (w_blobs s) (ms_blobs ms) /\
  wrel f ms /\ w_vecs s = ms_vecs ms.
Definition w_state (s : wst) (ms : mst) (h : heap) : Prop := exists f lk G, w_inv f lk s ms h G.

Lemma blobs_kept h G l f h' G' : blobs_rep G l f -> kept (oits hblob_items l) h G h' G' -> blobs_rep G' l f.
Proof.
  intros H [K _]. apply (orel_map _ _ _ _ H). intros a b Hin [Hr Hs]. split; [|exact Hs]. rewrite K; [exact Hr|].
  pose proof (occ_in_oits hblob_items l a (fst a) Hin) as O. cbn in O. rewrite Nat.eqb_refl in O. lia.
Qed.

(** Trees and questions: everything else is held meanwhile. *)
Definition rests (s : wst) : list item := x_rest (w_x s) ++ gbs (w_g s) ++ bits s.
Definition frame (s : wst) (f : fgst) (ms : mst) (h : heap) (G : ghost) (F : list item) : Prop :=
  F = rests s /\ its_rep h G (x_iters (w_x s)) (fx_iters (fg_x f)) /\ vls_rep h G (x_vals (w_x s)) (fx_vals (fg_x f)) /\
  keys_rep G (x_keys (w_x s)) (fx_keys (fg_x f)) /\ gbs_rep h G (g_groups (w_g s)) (fg_groups f) /\ blobs_rep G (w_blobs s) (ms_blobs ms).
Lemma frame_kept s f ms h G F h' G' : frame s f ms h G F -> kept F h G h' G' -> frame s f ms h' G' F.
Proof.
  intros (-> & Hi & Hv & Hk & Hg & Hb) K. unfold rests, x_rest, gbs, bits in K. split; [reflexivity|]. split; [|split; [|split; [|split]]].
  - apply (its_rep_kept _ _ _ _ _ _ Hi), (kept_le _ _ _ _ _ _ K). occ_solve.
  - apply (vls_rep_kept _ _ _ _ _ _ Hv), (kept_le _ _ _ _ _ _ K). occ_solve.
  - apply (keys_rep_kept h G _ _ h' G' Hk), (kept_le _ _ _ _ _ _ K). occ_solve.
  - apply (gbs_kept _ _ _ _ _ _ Hg), (kept_le _ _ _ _ _ _ K). occ_solve.
  - apply (blobs_kept h G _ _ h' G' Hb), (kept_le _ _ _ _ _ _ K). occ_solve.
Qed.
Lemma state_of s ms h : w_state s ms h ->
  exists f, wrel f ms /\ w_vecs s = ms_vecs ms /\ HeapTreeTop.state dbg T (frame s f ms) (w_env s) (ms_env ms) h.
Proof.
  intros (f & lk & G & (I & Hx & Hg) & L & Z & Hb & Hr & Hv). exists f. split; [exact Hr|]. split; [exact Hv|].
  exists G, (lk ++ rests s), (fx_env (fg_x f)). split; [|split; [|split; [apply Hx|apply Hr]]].
  - unfold rests, w_env, w_x. rearr I.
  - exists lk, (rests s). split; [reflexivity|]. split; [exact L|]. split; [exact Z|]. split.
    + split; [reflexivity|]. destruct Hx. auto 6.
    + pose proof (i_root _ _ _ I) as Rt. unfold rests, w_x. rewrite !Forall_app in *. tauto.
Qed.
Definition put_env (e : list (option mval)) (ms : mst) : mst :=
  MS e (ms_iters ms) (ms_vals ms) (ms_keys ms) (ms_groups ms) (ms_vecs ms) (ms_blobs ms).
Lemma state_back s ms f h e me : wrel f ms -> w_vecs s = ms_vecs ms -> HeapTreeTop.state dbg T (frame s f ms) e me h ->
  w_state (w_put e s) (put_env me ms) h.
Proof.
  intros Hr Hv (G & lk0 & fe & I & (lk & F & -> & L & Z & (-> & Hi & Hvl & Hk & Hg & Hb) & _) & He & Hge).
  exists (FG (FX fe (fx_iters (fg_x f)) (fx_vals (fg_x f)) (fx_keys (fg_x f))) (fg_groups f)), lk, G.
  split; [|split; [exact L|split; [exact Z|split; [exact Hb|split; [|exact Hv]]]]].
  - split; [|split; [|exact Hg]].
    + unfold rests, x_rest, gbs, bits, w_put, w_x in *. cbn [w_g g_x g_groups x_env x_iters x_vals x_keys w_blobs]. rearr I.
    + constructor; cbn; assumption.
  - destruct Hr as [Re Ri Rv Rk Rg]. constructor; cbn; assumption.
Qed.

(** ** Steps *)
Lemma with_step i s ms ms' f f' lk h G : w_inv f lk s ms h G -> fg_step dbg i f = Some (f', 0) -> wrel f' ms' ->
  ms_blobs ms' = ms_blobs ms -> ms_vecs ms' = ms_vecs ms ->
  exists N s' h', w_with N dbg i s h = Done (s', h') /\ w_state s' ms' h'.
Proof.
  intros (I & L & Z & Hb & Hr & Hv) E Hr' Eb Ev. destruct (g_step_ok dbg i _ _ _ _ _ _ _ I E) as (N & g & h' & G' & Dn & St & (lk' & I' & Hl & L')).
  destruct lk'; [|discriminate Hl]. cbn [app] in I'. exists N, (W g (w_vecs s) (w_blobs s)), h'.
  split; [unfold w_with; now rewrite (bind_eq _ _ _ _ _ Dn)|]. exists f', lk, G'. pose proof (kept_stp _ _ _ _ _ St) as K. rewrite kept_app in K.
  split; [exact I'|]. split; [apply (leaks_ext _ _ _ L), K|]. split; [exact Z|]. split; [|split; [exact Hr'|cbn; congruence]].
  rewrite Eb. apply (blobs_kept h G _ _ h' G' Hb), K.
Qed.
Lemma its_nth (l : list (option (list (bytes * bytes)))) j : nth j (map (option_map (map D)) l) None = option_map (map D) (nth j l None).
Proof. change None with (option_map (map D) None) at 1. apply map_nth. Qed.
Lemma vls_nth (l : list (option (list bytes))) j : nth j (map (option_map (map Data)) l) None = option_map (map Data) (nth j l None).
Proof. change None with (option_map (map Data) None) at 1. apply map_nth. Qed.
Lemma upd_map {A B} (g : A -> B) j x l : map g (upd j x l) = upd j (g x) (map g l).
Proof. revert j. induction l as [|y l IH]; intros [|j]; cbn; congruence. Qed.
Lemma good_var f ms r m : wrel f ms -> mvar r (ms_env ms) = Some m -> exists n, fvar r (fx_env (fg_x f)) = FNode n /\ tgood n m.
Proof.
  intros [Re _ _ _ _] Hm. unfold mvar in Hm. destruct (mat r (ms_env ms)) as [[m'|v]|] eqn:Ha; try discriminate Hm. injection Hm as ->.
  assert (r < length (ms_env ms)) as Hr.
  { destruct (Nat.lt_ge_cases r (length (ms_env ms))) as [|Hge]; [assumption|]. unfold mat in Ha. rewrite nth_overflow in Ha by lia. discriminate Ha. }
  rewrite <- (Forall2_len _ _ _ Re) in Hr. pose proof (Forall2_nth_def _ _ _ r FGone None Re Hr) as Hg. fold (mat r (ms_env ms)) in Hg. rewrite Ha in Hg.
  unfold fvar. destruct (nth r (fx_env (fg_x f)) FGone) as [n|b|l|]; try (cbn in Hg; tauto). eauto.
Qed.
Lemma env_snoc f g (e : fenv) (me : list (option mval)) : Forall2 (HeapTreeTop.good dbg T) e me -> HeapTreeTop.good dbg T f g ->
  Forall2 (HeapTreeTop.good dbg T) (e ++ [f]) (me ++ [g]).
Proof. intros H H1. apply Forall2_app; [exact H|]. constructor; [exact H1|constructor]. Qed.

Lemma entry_step (s : wst) f ms h r m o k (mo : nat -> cnode -> M (option bytes * slot)) :
  HeapTreeTop.state dbg T (frame s f ms) (w_env s) (ms_env ms) h -> mvar r (ms_env ms) = Some m ->
  (forall n, tgood n m -> exists N g, HeapTreeTop.good dbg T g o /\
     forall a R B G, inv h G (R ++ B) -> bor h G B a n ->
       wpk (mo N a) R B (fun x h' G' => fst x = k /\ inv h' G' (slot_items (snd x) ++ R ++ B) /\ srep G' (snd x) g) h G) ->
  exists N c v h', var r (w_env s) = SNode c /\ mo N c h = Done ((k, v), h') /\
    HeapTreeTop.state dbg T (frame s f ms) (w_env s ++ [v]) (ms_env ms ++ [o]) h'.
Proof.
  intros (G & lk & fe & I & L & He & Hg) Hm Hp.
  destruct (find_var dbg T _ _ _ _ _ _ He Hg Hm) as (a & n & Er & Ef & C & Gn & Hr).
  destruct (Hp n Gn) as (N & g & Gf & Hw). set (e := w_env s) in *.
  assert (inv h G (lk ++ items e)) as J by rearr I.
  assert (bor h G (items e) a n) as Hb.
  { split; [exact C|]. intros x Hx. apply deep_root. pose proof (occ_var e r x) as O. rewrite Er in O. cbn [slot_items] in O. lia. }
  destruct (Hw a lk (items e) G J Hb) as ([k' v] & h' & G' & Dn & St & K & (Ek & I' & C')). cbn [fst snd] in *. subst k'.
  pose proof (lks_stp T (frame s f ms) (frame_kept s f ms) _ _ _ _ _ _ L St ltac:(intros; lia)) as L2.
  exists N, a, v, h'. split; [exact Er|]. split; [exact Dn|].
  exists G', lk, (fe ++ [g]). split; [|split; [exact L2|split]].
  - rewrite items_app. cbn [flat_map]. rewrite app_nil_r. rearr I'.
  - apply Forall2_app; [|constructor; [exact C'|constructor]].
    apply (env_ext _ _ _ _ He). intros x Hx. apply (K x). now apply deep_root.
  - apply env_snoc; assumption.
Qed.
Lemma scan_step s ms h r m p l : w_state s ms h -> mvar r (ms_env ms) = Some m -> scans m p l ->
  exists N s' h', w_step dbg N (WScan r p) s h = Done (s', h') /\ w_state s' (m_iter l ms) h'.
Proof.
  intros (f & lk & G & (I & Hx & Hg) & L & Z & Hb & Hr & Hv) Hm Hs. destruct (good_var _ _ _ _ Hr Hm) as (n & Ef & Gn).
  destruct (scan_good dbg T n m p l Gn Hs) as (N & k & Es & El).
  destruct (env_node (w_x s) (fg_x f) h G (x_rest (w_x s) ++ gbs (w_g s) ++ bits s ++ lk) r n I (xr_env _ _ _ _ Hx) Ef) as (c & Er & C & _).
  set (R := x_rest (w_x s) ++ gbs (w_g s) ++ bits s ++ lk). set (B := items (w_env s)).
  assert (inv h G (R ++ B)) as J by (unfold R, B, w_env, w_x; rearr I).
  assert (bor h G B c n) as Hc.
  { split; [exact C|]. intros x Ho. apply deep_root. unfold B, w_env. pose proof (occ_var (x_env (w_x s)) r x) as O. rewrite Er in O. cbn [slot_items] in O. lia. }
  destruct (scan_ok N n p k _ R B h G c Es El J Hc) as (y & h' & G' & Dn & St & K & (I' & Ry)). apply kept_stp in St.
  assert (kept B h G h' G') as KB. { split; [intros a Ha; apply (K a); now apply deep_root|intros a Ha; apply (K a); now apply deep_root]. }
  eexists N, _, h'. split; [cbn [w_step]; unfold w_env; rewrite Er; rewrite (bind_eq _ _ _ _ _ Dn); reflexivity|].
  exists (FG (FX (fx_env (fg_x f)) (fx_iters (fg_x f) ++ [Some (map D l)]) (fx_vals (fg_x f)) (fx_keys (fg_x f))) (fg_groups f)), lk, G'.
  split; [|split; [|split; [exact Z|split; [|split; [|exact Hv]]]]].
  - split; [|split].
    + unfold R, B, x_rest, gbs, bits, w_env, w_x in *. cbn [w_g g_x g_groups x_env x_iters x_vals x_keys w_blobs]. rewrite oits_app.
      replace (oits kv_items [Some y]) with (kv_items y) by (cbn; now rewrite app_nil_r). rearr I'.
    + destruct Hx as [He Hi Hvl Hk]. unfold R, x_rest, w_x in St. cbn [w_g g_x fg_x]. constructor; cbn [x_env x_iters x_vals x_keys fx_env fx_iters fx_vals fx_keys].
      * apply (env_kept h G _ _ h' _ He). exact KB.
      * apply Forall2_app; [|constructor; [exact Ry|constructor]]. apply (its_rep_kept _ _ _ _ _ _ Hi), (kept_le _ _ _ _ _ _ St). unfold w_x. occ_solve.
      * apply (vls_rep_kept _ _ _ _ _ _ Hvl), (kept_le _ _ _ _ _ _ St). unfold w_x. occ_solve.
      * apply (keys_rep_kept h G _ _ h' G' Hk), (kept_le _ _ _ _ _ _ St). unfold w_x. occ_solve.
    + cbn [w_g g_groups fg_groups]. apply (gbs_kept _ _ _ _ _ _ Hg), (kept_le _ _ _ _ _ _ St). unfold R, gbs. occ_solve.
  - apply (leaks_ext _ _ _ L). apply (kept_le _ _ _ _ _ _ St). unfold R. occ_solve.
  - cbn [w_blobs m_iter ms_blobs]. apply (blobs_kept h G _ _ h' G' Hb), (kept_le _ _ _ _ _ _ St). unfold R, bits. occ_solve.
  - destruct Hr as [Re Ri Rv Rk Rg]. constructor; cbn [fg_x fg_groups fx_env fx_iters fx_vals fx_keys m_iter ms_env ms_iters ms_vals ms_keys ms_groups]; auto.
    rewrite map_app, Ri. reflexivity.
Qed.
(** What is read is remembered. *)
Lemma read_state s ms h b : w_state s ms h -> w_state (W (w_g s) (w_vecs s ++ [b]) (w_blobs s)) (m_read b ms) h.
Proof.
  intros (f & lk & G & I & L & Z & Hb & Hr & Hv). exists f, lk, G.
  split; [exact I|]. split; [exact L|]. split; [exact Z|]. split; [exact Hb|]. split; [|cbn; now rewrite Hv].
  destruct Hr. constructor; assumption.
Qed.
Lemma key_step s ms h k b : w_state s ms h -> nth k (ms_keys ms) None = Some b ->
  exists a, nth k (x_keys (w_x s)) None = Some a /\ h_key_read a h = Done (b, h) /\
    (exists h', arc_clone (Ptr a) h = Done (tt, h') /\ w_state (W (w_g s) (w_vecs s) (w_blobs s ++ [Some (a, b)]))
       (MS (ms_env ms) (ms_iters ms) (ms_vals ms) (ms_keys ms) (ms_groups ms) (ms_vecs ms) (ms_blobs ms ++ [Some b])) h').
Proof.
  intros (f & lk & G & (I & Hx & Hg) & L & Z & Hb & Hr & Hv) Hk.
  pose proof (orel_nth _ _ _ k (xr_keys _ _ _ _ Hx)) as Ho. rewrite (wr_keys _ _ Hr), Hk in Ho. fold (w_x s) in Ho.
  destruct (nth k (x_keys (w_x s)) None) as [a|] eqn:Ea; cbn [orel] in Ho; [|tauto]. exists a. split; [reflexivity|].
  assert (0 < occ a (oits key_items (x_keys (w_x s)))) as Oa.
  { rewrite (occ_owned key_items _ _ _ a Ea). cbn. rewrite Nat.eqb_refl. lia. }
  set (Zs := items (x_env (g_x (w_g s))) ++ x_rest (g_x (w_g s)) ++ gbs (w_g s) ++ bits s ++ lk) in *.
  assert (0 < occ a Zs) as Oz. { unfold Zs, x_rest. fold (w_x s). rewrite !occ_app. lia. }
  split; [apply (key_read_ok h G Zs a b I Oz Ho)|].
  assert (0 < cnt h a) as Ca. { pose proof (i_cnt _ _ _ I a). lia. }
  destruct (wp_arc_clone a BytesK Zs Zs h G I Ca ltac:(now rewrite Ho) ltac:(rewrite Ho; discriminate)) as ([] & h' & G' & Dn & St & (-> & I' & _)).
  exists h'. split; [exact Dn|]. apply kept_stp in St. exists f, lk, G. split; [|split; [exact L|split; [exact Z|split; [|split; [|exact Hv]]]]].
  - split; [|split].
    + cbn [w_g w_blobs]. unfold bits in *. cbn [w_blobs]. rewrite oits_app. cbn [oits flat_map oit hblob_items fst app]. unfold Zs in I'. rearr I'.
    + cbn [w_g]. apply (xrep_kept _ _ _ _ _ _ Hx), (kept_le _ _ _ _ _ _ St). unfold Zs. occ_solve.
    + cbn [w_g]. apply (gbs_kept _ _ _ _ _ _ Hg), (kept_le _ _ _ _ _ _ St). unfold Zs, gbs. occ_solve.
  - cbn [w_blobs ms_blobs]. apply Forall2_app; [exact Hb|]. constructor; [|constructor]. split; [exact Ho|reflexivity].
  - destruct Hr. constructor; assumption.
Qed.
Lemma blob_step s ms h j k : w_state s ms h -> nth j (ms_blobs ms) None = Some k ->
  exists b, nth j (w_blobs s) None = Some b /\ h_blob_read b h = Done (k, h).
Proof.
  intros (f & lk & G & (I & Hx & Hg) & L & Z & Hb & Hr & Hv) Hk.
  pose proof (orel_nth _ _ _ j Hb) as Ho. rewrite Hk in Ho.
  destruct (nth j (w_blobs s) None) as [[a k']|] eqn:Ea; cbn [orel] in Ho; [|tauto]. destruct Ho as [Ho Es]. cbn [fst snd] in *. subst k'.
  exists (a, k). split; [reflexivity|]. unfold h_blob_read. cbn [fst snd].
  rewrite (bind_eq _ _ _ _ _ (key_read_ok h G _ a k I ltac:(unfold bits; rewrite !occ_app, (occ_owned hblob_items _ _ _ a Ea); cbn; rewrite Nat.eqb_refl; lia) Ho)).
  destruct (list_eq_dec _ k k); [reflexivity|congruence].
Qed.
Lemma drop_blob_step s ms h j : w_state s ms h ->
  exists s' h', w_step dbg 0 (WDropBlob j) s h = Done (s', h') /\
    w_state s' (MS (ms_env ms) (ms_iters ms) (ms_vals ms) (ms_keys ms) (ms_groups ms) (ms_vecs ms) (upd j None (ms_blobs ms))) h'.
Proof.
  intros (f & lk & G & (I & Hx & Hg) & L & Z & Hb & Hr & Hv). cbn [w_step].
  pose proof (orel_nth _ _ _ j Hb) as Ho. destruct (nth j (w_blobs s) None) as [b|] eqn:Ea.
  - set (E := items (x_env (g_x (w_g s))) ++ x_rest (g_x (w_g s)) ++ gbs (w_g s)) in *.
    set (R := E ++ oits hblob_items (upd j None (w_blobs s)) ++ lk).
    assert (inv h G (hblob_items b ++ R)) as J.
    { apply (inv_perm _ _ _ _ I).
      - intros c. unfold R, E, bits. rewrite !occ_app, (occ_owned hblob_items _ _ _ c Ea). lia.
      - intros y Hy. unfold R, E, bits in *. rewrite !in_app_iff in *.
        pose proof (oits_in hblob_items _ _ _ Ea y). pose proof (oits_incl hblob_items (w_blobs s) j None y) as Hu.
        rewrite in_app_iff in Hu. cbn [oit In] in Hu. tauto. }
    destruct (wp_drop _ _ _ _ J) as ([] & h' & G' & Dn & St & (-> & I' & _)). apply kept_stp in St.
    eexists _, h'. split; [rewrite (bind_eq _ _ _ _ _ Dn); reflexivity|].
    exists f, lk, G. split; [|split; [exact L|split; [exact Z|split; [|split; [|exact Hv]]]]].
    + split; [|split]; cbn [w_g w_blobs].
      * unfold bits. cbn [w_blobs]. unfold R, E in I'. rearr I'.
      * apply (xrep_kept _ _ _ _ _ _ Hx), (kept_le _ _ _ _ _ _ St). unfold R, E. occ_solve.
      * apply (gbs_kept _ _ _ _ _ _ Hg), (kept_le _ _ _ _ _ _ St). unfold R, E, gbs. occ_solve.
    + cbn [w_blobs ms_blobs]. apply orel_upd; [exact Hb|exact Logic.I].
    + destruct Hr. constructor; assumption.
  - exists s, h. split; [reflexivity|]. exists f, lk, G. split; [split; [exact I|split; [exact Hx|exact Hg]]|]. split; [exact L|]. split; [exact Z|].
    split; [|split; [destruct Hr; constructor; assumption|exact Hv]]. cbn [ms_blobs].
    destruct (nth j (ms_blobs ms) None) eqn:Ef; cbn [orel] in Ho; [tauto|].
    replace (upd j None (ms_blobs ms)) with (ms_blobs ms); [exact Hb|].
    clear -Ef. revert j Ef. induction (ms_blobs ms) as [|o l IH]; intros [|j] Ef; cbn in *; try congruence. now rewrite <- IH.
Qed.
Lemma value_step s ms h r v : w_state s ms h -> mat r (ms_env ms) = Some (MValue v) ->
  exists hd w, var r (w_env s) = SValue hd w /\ hdr_is_id hd = false /\ blob_read hd w h = Done (v, h).
Proof.
  intros S Hm. destruct (state_of _ _ _ S) as (f & _ & _ & St). pose proof (state_shows _ _ _ _ _ _ St) as H.
  assert (r < length (ms_env ms)) as Hr.
  { destruct (Nat.lt_ge_cases r (length (ms_env ms))) as [|Hge]; [assumption|]. unfold mat in Hm. rewrite nth_overflow in Hm by lia. discriminate Hm. }
  pose proof (Forall2_nth_def _ _ _ r None SGone H Hr) as X. fold (mat r (ms_env ms)) in X. rewrite Hm in X. fold (var r (w_env s)) in X.
  destruct (var r (w_env s)) as [c|hd w|a|]; cbn [var_holds] in X; try tauto. exists hd, w. split; [reflexivity|]. destruct X as [X1 X2]. split; [exact X2|exact X1].
Qed.

(** One instruction. *)
Lemma w_does_good i s ms ms' h : w_state s ms h -> w_may i ms -> (T -> w_grows i ms) -> w_does i ms ms' ->
  exists N s' h', w_step dbg N i s h = Done (s', h') /\ w_state s' ms' h'.
Proof.
  intros S Hm Ht Dn. pose proof S as (f & lk & G & Iv). pose proof Iv as (_ & _ & _ & _ & Hr & _).
  destruct Dn as [i ms e E|r m l ms Em Hl|r p m l ms Em Hs|j k v l ms Ej|j ms Ej|j ms|r m l ms Em Hl|j v l ms Ej|j ms Ej|j ms|k b ms Ek|k ms|k b ms Ek|j b ms Ej|j ms
    |r d m cs ms Em Hc|j g l ms Ej|j ms Ej|j ms|r m l ms Em Hl|r m l ms Em Hl|r p m l ms Em Hl|r p m l ms Em Hl|r v ms Em]; cbn [w_step w_may w_grows] in *.
  - destruct (state_of _ _ _ S) as (f0 & Hr0 & Hv0 & St).
    destruct (step_good dbg T (frame s f0 ms) (frame_kept s f0 ms) i _ _ _ h St Hm Ht E) as (N & e' & h' & D1 & S1).
    eexists N, _, h'. split; [rewrite (bind_eq _ _ _ _ _ D1); reflexivity|]. apply (state_back _ _ _ _ _ _ Hr0 Hv0 S1).
  - destruct (good_var _ _ _ _ Hr Em) as (n & Ef & Gn). eapply (with_step (GDo (XIter r [])) s ms _ f _ lk h G Iv); [|..|reflexivity|reflexivity].
    + cbn [fg_step fx_step]. rewrite Ef, (iter_good dbg T n m l Gn Hl). reflexivity.
    + destruct Hr as [Re Ri Rv Rk Rg]. constructor; cbn; auto. rewrite map_app, Ri. reflexivity.
  - apply (scan_step _ _ _ _ _ _ _ S Em Hs).
  - eapply (with_step (GDo (XNext j)) s ms _ f _ lk h G Iv); [|..|reflexivity|reflexivity].
    + cbn [fg_step fx_step]. rewrite (wr_its _ _ Hr), its_nth, Ej. cbn [option_map map fst snd]. reflexivity.
    + destruct Hr as [Re Ri Rv Rk Rg]. constructor; cbn; auto.
      * apply env_snoc; [exact Re|reflexivity].
      * now rewrite upd_map.
      * now rewrite Rk.
  - eapply (with_step (GDo (XNext j)) s ms _ f _ lk h G Iv); [|..|reflexivity|reflexivity].
    + cbn [fg_step fx_step]. rewrite (wr_its _ _ Hr), its_nth, Ej. cbn [option_map map]. reflexivity.
    + destruct Hr as [Re Ri Rv Rk Rg]. constructor; cbn; auto.
      * apply env_snoc; [exact Re|exact Logic.I].
      * now rewrite Rk.
  - eapply (with_step (GDo (XDropIter j)) s ms _ f _ lk h G Iv); [reflexivity|..|reflexivity|reflexivity].
    destruct Hr as [Re Ri Rv Rk Rg]. constructor; cbn; auto. now rewrite upd_map, Ri.
  - destruct (good_var _ _ _ _ Hr Em) as (n & Ef & Gn). eapply (with_step (GDo (XValues r)) s ms _ f _ lk h G Iv); [|..|reflexivity|reflexivity].
    + cbn [fg_step fx_step]. rewrite Ef, (iter_good dbg T n m l Gn Hl). reflexivity.
    + destruct Hr as [Re Ri Rv Rk Rg]. constructor; cbn; auto. rewrite map_app, Rv. cbn [map option_map]. do 3 f_equal.
      rewrite !map_map. reflexivity.
  - eapply (with_step (GDo (XNextValue j)) s ms _ f _ lk h G Iv); [|..|reflexivity|reflexivity].
    + cbn [fg_step fx_step]. rewrite (wr_vals _ _ Hr), vls_nth, Ej. cbn [option_map map]. reflexivity.
    + destruct Hr as [Re Ri Rv Rk Rg]. constructor; cbn; auto.
      * apply env_snoc; [exact Re|reflexivity].
      * now rewrite upd_map.
  - eapply (with_step (GDo (XNextValue j)) s ms _ f _ lk h G Iv); [|..|reflexivity|reflexivity].
    + cbn [fg_step fx_step]. rewrite (wr_vals _ _ Hr), vls_nth, Ej. cbn [option_map map]. reflexivity.
    + destruct Hr as [Re Ri Rv Rk Rg]. constructor; cbn; auto. apply env_snoc; [exact Re|exact Logic.I].
  - eapply (with_step (GDo (XDropValues j)) s ms _ f _ lk h G Iv); [reflexivity|..|reflexivity|reflexivity].
    destruct Hr as [Re Ri Rv Rk Rg]. constructor; cbn; auto. now rewrite upd_map, Rv.
  - destruct (key_step _ _ _ _ _ S Ek) as (a & Ea & Rd & _). rewrite Ea. eexists 0, _, h. split; [rewrite (bind_eq _ _ _ _ _ Rd); reflexivity|].
    apply (read_state _ _ _ (Some b) S).
  - eapply (with_step (GDo (XDropKey k)) s ms _ f _ lk h G Iv); [reflexivity|..|reflexivity|reflexivity].
    destruct Hr as [Re Ri Rv Rk Rg]. constructor; cbn; auto. now rewrite Rk.
  - destruct (key_step _ _ _ _ _ S Ek) as (a & Ea & Rd & h' & Dc & S'). rewrite Ea. eexists 0, _, h'. split; [|exact S'].
    unfold h_key_blob, mbind. rewrite Rd, Dc. reflexivity.
  - destruct (blob_step _ _ _ _ _ S Ej) as (x & Ex & Rd). rewrite Ex. eexists 0, _, h. split; [rewrite (bind_eq _ _ _ _ _ Rd); reflexivity|].
    apply (read_state _ _ _ (Some b) S).
  - destruct (drop_blob_step _ _ _ j S) as (s' & h' & D1 & S1). exists 0, s', h'. split; [exact D1|exact S1].
  - destruct (good_var _ _ _ _ Hr Em) as (n & Ef & Gn). destruct (group_good dbg T n m d cs Gn Hc) as (gs & Eg & Hg).
    eapply (with_step (GGroup r d) s ms _ f _ lk h G Iv); [|..|reflexivity|reflexivity].
    + cbn [fg_step]. rewrite Ef, Eg. reflexivity.
    + destruct Hr as [Re Ri Rv Rk Rg]. constructor; cbn; auto. apply Forall2_app; [exact Rg|]. constructor; [exact Hg|constructor].
  - pose proof (orel_nth _ _ _ j (wr_groups _ _ Hr)) as Ho. rewrite Ej in Ho.
    destruct (nth j (fg_groups f) None) as [gs|] eqn:Ef; cbn [orel] in Ho; [|tauto]. inversion Ho as [|n m gs' l' Hn Hl]; subst.
    eapply (with_step (GNext j) s ms _ f _ lk h G Iv); [|..|reflexivity|reflexivity].
    + cbn [fg_step]. rewrite Ef. reflexivity.
    + destruct Hr as [Re Ri Rv Rk Rg]. constructor; cbn; auto; [now apply env_snoc|]. apply orel_upd; [exact Rg|exact Hl].
  - pose proof (orel_nth _ _ _ j (wr_groups _ _ Hr)) as Ho. rewrite Ej in Ho.
    destruct (nth j (fg_groups f) None) as [gs|] eqn:Ef; cbn [orel] in Ho; [|tauto]. inversion Ho; subst.
    eapply (with_step (GNext j) s ms _ f _ lk h G Iv); [|..|reflexivity|reflexivity].
    + cbn [fg_step]. rewrite Ef. reflexivity.
    + destruct Hr as [Re Ri Rv Rk Rg]. constructor; cbn; auto. now apply env_snoc.
  - eapply (with_step (GDrop j) s ms _ f _ lk h G Iv); [reflexivity|..|reflexivity|reflexivity].
    destruct Hr as [Re Ri Rv Rk Rg]. constructor; cbn; auto. apply orel_upd; [exact Rg|exact Logic.I].
  - destruct (state_of _ _ _ S) as (f0 & Hr0 & Hv0 & St).
    destruct (new1_step dbg T (frame s f0 ms) (frame_kept s f0 ms) _ _ h r m (option_map MValue (option_map snd (first_of l))) h_first_value St Em) as (N & e' & h' & D1 & S1).
    { intros n Gn. destruct (first_good dbg T n m l Gn Hl) as (N & E). exists N, (match option_map snd (first_of l) with Some v => FValue (Data v) | None => FGone end).
      split; [destruct (option_map snd (first_of l)); reflexivity|]. intros a R B G1 I Ha.
      eapply wpk_weaken; [apply (first_value_ok _ _ _ E R B h G1 a I Ha)|]. cbn beta. intros x h1 G2 [I1 C1] _. split; [exact I1|].
      destruct (option_map snd (first_of l)), x; cbn [srep option_map] in *; tauto. }
    eexists N, _, h'. split; [rewrite (bind_eq _ _ _ _ _ D1); reflexivity|]. apply (state_back _ _ _ _ _ _ Hr0 Hv0 S1).
  - destruct (state_of _ _ _ S) as (f0 & Hr0 & Hv0 & St).
    destruct (new1_step dbg T (frame s f0 ms) (frame_kept s f0 ms) _ _ h r m (option_map MValue (option_map snd (last_of l))) h_last_value St Em) as (N & e' & h' & D1 & S1).
    { intros n Gn. destruct (last_good dbg T n m l Gn Hl) as (N & E). exists N, (match option_map snd (last_of l) with Some v => FValue (Data v) | None => FGone end).
      split; [destruct (option_map snd (last_of l)); reflexivity|]. intros a R B G1 I Ha.
      eapply wpk_weaken; [apply (last_value_ok _ _ _ E R B h G1 a I Ha)|]. cbn beta. intros x h1 G2 [I1 C1] _. split; [exact I1|].
      destruct (option_map snd (last_of l)), x; cbn [srep option_map] in *; tauto. }
    eexists N, _, h'. split; [rewrite (bind_eq _ _ _ _ _ D1); reflexivity|]. apply (state_back _ _ _ _ _ _ Hr0 Hv0 S1).
  - destruct (state_of _ _ _ S) as (f0 & Hr0 & Hv0 & St).
    destruct (entry_step s f0 ms h r m (option_map MValue (option_map snd (first_of l))) (option_map (fun x => p ++ fst x) (first_of l)) (fun N => h_first_entry N p) St Em) as (N & c & v & h' & Er & D1 & S1).
    { intros n Gn. destruct (first_entry_good dbg T n m l p Gn Hl) as (N & E). exists N, (match option_map snd (first_of l) with Some v => FValue (Data v) | None => FGone end).
      split; [destruct (option_map snd (first_of l)); reflexivity|]. intros a R B G1 I Ha.
      eapply wpk_weaken; [apply (first_entry_ok _ _ _ _ E R B h G1 a I Ha)|]. cbn beta. intros x h1 G2 [Ek [I1 C1]] _.
      split; [rewrite Ek; now destruct (first_of l) as [[k0 v0]|]|]. split; [exact I1|].
      destruct (first_of l) as [[k0 v0]|], (snd x); cbn [srep option_map snd push] in *; tauto. }
    eexists N, _, h'. split; [rewrite Er, (bind_eq _ _ _ _ _ D1); reflexivity|]. cbn [fst snd].
    apply (read_state (w_put (w_env s ++ [v]) s) (m_give (option_map snd (first_of l)) ms) h' _). apply (state_back _ _ _ _ _ _ Hr0 Hv0 S1).
  - destruct (state_of _ _ _ S) as (f0 & Hr0 & Hv0 & St).
    destruct (entry_step s f0 ms h r m (option_map MValue (option_map snd (last_of l))) (option_map (fun x => p ++ fst x) (last_of l)) (fun N => h_last_entry N p) St Em) as (N & c & v & h' & Er & D1 & S1).
    { intros n Gn. destruct (last_entry_good dbg T n m l p Gn Hl) as (N & E). exists N, (match option_map snd (last_of l) with Some v => FValue (Data v) | None => FGone end).
      split; [destruct (option_map snd (last_of l)); reflexivity|]. intros a R B G1 I Ha.
      eapply wpk_weaken; [apply (last_entry_ok _ _ _ _ E R B h G1 a I Ha)|]. cbn beta. intros x h1 G2 [Ek [I1 C1]] _.
      split; [rewrite Ek; now destruct (last_of l) as [[k0 v0]|]|]. split; [exact I1|].
      destruct (last_of l) as [[k0 v0]|], (snd x); cbn [srep option_map snd push] in *; tauto. }
    eexists N, _, h'. split; [rewrite Er, (bind_eq _ _ _ _ _ D1); reflexivity|]. cbn [fst snd].
    apply (read_state (w_put (w_env s ++ [v]) s) (m_give (option_map snd (last_of l)) ms) h' _). apply (state_back _ _ _ _ _ _ Hr0 Hv0 S1).
  - destruct (value_step _ _ _ _ _ S Em) as (hd & w & Er & Eh & Rd). rewrite Er, Eh. eexists 0, _, h. split; [rewrite (bind_eq _ _ _ _ _ Rd); reflexivity|].
    apply (read_state _ _ _ (Some v) S).
Qed.

Lemma w_run_good (ok : winstr -> mst -> Prop) p ms ms' : (forall i m, ok i m -> w_may i m /\ (T -> w_grows i m)) -> w_runs ok p ms ms' ->
  forall s h, w_state s ms h -> exists N s' h', w_run dbg N p s h = Done (s', h') /\ w_state s' ms' h'.
Proof.
  intros Ho R. induction R as [ms|i p ms m1 m2 Hi Dn R IH|q P i p ms m2 Hi Eq HP R IH|q P i p ms m2 Hi Eq HP R IH]; intros s h S.
  - exists 0, s, h. split; [reflexivity|exact S].
  - destruct (Ho _ _ Hi) as [Hm Ht]. destruct (w_does_good i s ms m1 h S Hm Ht Dn) as (N1 & s1 & h1 & D1 & S1).
    destruct (IH s1 h1 S1) as (N2 & s2 & h2 & D2 & S2). exists (N1 + N2), s2, h2. split; [|exact S2].
    cbn [w_run]. rewrite (bind_eq _ _ _ _ _ (w_step_more dbg i N1 (N1 + N2) s h _ ltac:(lia) D1)). apply (w_run_more dbg p N2 (N1 + N2) _ _ _ ltac:(lia) D2).
  - destruct (Ho _ _ Hi) as [Hm Ht]. destruct (state_of _ _ _ S) as (f & Hr & Hv & St).
    destruct (ask_good dbg T (frame s f ms) (frame_kept s f ms) q P _ _ h St Hm Eq) as (N1 & b & h1 & D1 & Hb & S1).
    pose proof (state_back _ _ _ _ _ _ Hr Hv S1) as S1'. assert (b = true) as -> by tauto.
    assert (w_put (w_env s) s = s) as Es by (destruct s as [[[? ? ? ?] ?] ? ?]; reflexivity). rewrite Es in S1'.
    assert (put_env (ms_env ms) ms = ms) as Em by (destruct ms; reflexivity). rewrite Em in S1'.
    destruct (IH s h1 S1') as (N2 & s2 & h2 & D2 & S2). exists (N1 + N2), s2, h2. split; [|exact S2].
    cbn [w_run w_step]. unfold mbind at 1 2. rewrite (done_more _ _ _ _ (t_ask_sim N1 (N1 + N2) q _ ltac:(lia)) D1).
    apply (w_run_more dbg (i :: p) N2 (N1 + N2) _ _ _ ltac:(lia) D2).
  - destruct (Ho _ _ Hi) as [Hm Ht]. destruct (state_of _ _ _ S) as (f & Hr & Hv & St).
    destruct (ask_good dbg T (frame s f ms) (frame_kept s f ms) q P _ _ h St Hm Eq) as (N1 & b & h1 & D1 & Hb & S1).
    pose proof (state_back _ _ _ _ _ _ Hr Hv S1) as S1'. assert (b = false) as -> by (destruct b; tauto).
    assert (w_put (w_env s) s = s) as Es by (destruct s as [[[? ? ? ?] ?] ? ?]; reflexivity). rewrite Es in S1'.
    assert (put_env (ms_env ms) ms = ms) as Em by (destruct ms; reflexivity). rewrite Em in S1'.
    destruct (IH s h1 S1') as (N2 & s2 & h2 & D2 & S2). exists (N1 + N2), s2, h2. split; [|exact S2].
    cbn [w_run w_step]. unfold mbind at 1 2. rewrite (done_more _ _ _ _ (t_ask_sim N1 (N1 + N2) q _ ltac:(lia)) D1).
    unfold ret. apply (w_run_more dbg p N2 (N1 + N2) _ _ _ ltac:(lia) D2).
Qed.
Lemma w_start_state : w_state w_start ms_start [].
Proof.
  exists fg_start, [], G0. split; [|split; [constructor|split; [reflexivity|split; [constructor|split; [|reflexivity]]]]].
  - split; [apply inv_empty|]. split; constructor; constructor.
  - constructor; try constructor; reflexivity.
Qed.
Lemma w_run_start (ok : winstr -> mst -> Prop) p ms : (forall i m, ok i m -> w_may i m /\ (T -> w_grows i m)) -> w_runs ok p ms_start ms ->
  exists s h, w_runs_to dbg p s h /\ w_state s ms h.
Proof.
  intros Ho R. destruct (w_run_good ok p _ _ Ho R _ _ w_start_state) as (N & s & h & Dn & S). exists s, h. split; [|exact S].
  exists N. intros fuel Hf. apply (w_run_more dbg p N fuel _ _ _ Hf Dn).
Qed.
Lemma w_state_holds s ms h : w_state s ms h -> w_holds dbg h ms s.
Proof.
  intros S. destruct (state_of _ _ _ S) as (f0 & _ & _ & St). pose proof (state_shows _ _ _ _ _ _ St) as He.
  destruct S as (f & lk & G & (I & Hx & Hg) & L & Z & Hb & Hr & Hv). split; [exact He|]. split; [|split; [|exact Hv]].
  - destruct (x_shows_ok h G (w_x s) (fg_x f) (gbs (w_g s) ++ bits s ++ lk) I Hx) as [_ Hk]. now rewrite (wr_keys _ _ Hr) in Hk.
  - assert (forall a, occ a (oits hblob_items (w_blobs s)) <= occ a (items (x_env (g_x (w_g s))) ++ x_rest (g_x (w_g s)) ++ gbs (w_g s) ++ bits s ++ lk)) as O by (unfold bits; occ_solve).
    revert O. generalize (items (x_env (g_x (w_g s))) ++ x_rest (g_x (w_g s)) ++ gbs (w_g s) ++ bits s ++ lk) I. clear -Hb. intros Zs I.
    unfold blobs_rep in Hb. induction Hb as [|[[a k']|] [k|] l fl H1 H2 IH]; intros O; try (now constructor); cbn [orel] in H1; try tauto.
    + destruct H1 as [Ga Es]. cbn [fst snd] in *. subst k'. constructor.
      * cbn [blob_reads]. unfold h_blob_read. cbn [fst snd].
        assert (0 < occ a Zs) as Oa. { eapply Nat.lt_le_trans; [|apply (O a)]. cbn. rewrite Nat.eqb_refl. lia. }
        rewrite (bind_eq _ _ _ _ _ (key_read_ok h G Zs a k I Oa Ga)). destruct (list_eq_dec _ k k); [reflexivity|congruence].
      * apply IH. intros b. specialize (O b). unfold oits in *. cbn [flat_map] in O. rewrite occ_app in O. lia.
    + constructor; [exact Logic.I|]. apply IH. intros b. apply (O b).
Qed.
End Run.

(** ** The end of all scopes *)
Lemma w_runs_app ok p q a b c : w_runs ok p a b -> w_runs ok q b c -> w_runs ok (p ++ q) a c.
Proof. induction 1; intros H'; cbn [app]; [exact H'|eapply w_next; eauto|eapply w_yes; eauto|eapply w_no; eauto]. Qed.
Definition all_none (s : mst) : Prop :=
  Forall (eq None) (ms_env s) /\ Forall (eq None) (ms_iters s) /\ Forall (eq None) (ms_vals s) /\ Forall (eq None) (ms_keys s) /\
  Forall (eq None) (ms_groups s) /\ Forall (eq None) (ms_blobs s).
Lemma w_drop_all_none (ok : winstr -> mst -> Prop) s : (forall r s, ok (WTree (TDrop r)) s) -> (forall i s, (exists j, i = WDropIter j \/ i = WDropValues j \/ i = WDropKey j \/ i = WDropGroup j \/ i = WDropBlob j) -> ok i s) ->
  exists s', w_runs ok (w_drop_all s) s s' /\ all_none s'.
Proof.
  intros H1 H2. destruct s as [e its vs ks gs vc bs].
  exists (MS (nones 0 (length e) e) (nones 0 (length its) its) (nones 0 (length vs) vs) (nones 0 (length ks) ks) (nones 0 (length gs) gs) vc (nones 0 (length bs) bs)).
  split.
  - unfold w_drop_all. cbn [ms_env ms_iters ms_vals ms_keys ms_groups ms_blobs].
    assert (forall n k e its vs ks gs bs, w_runs ok (map (fun r => WTree (TDrop r)) (seq k n)) (MS e its vs ks gs vc bs) (MS (nones k n e) its vs ks gs vc bs)) as A1.
    { induction n as [|n IH]; intros; cbn [seq map nones]; [constructor|]. eapply w_next; [apply H1|apply do_tree; reflexivity|apply IH]. }
    assert (forall n k e its vs ks gs bs, w_runs ok (map WDropIter (seq k n)) (MS e its vs ks gs vc bs) (MS e (nones k n its) vs ks gs vc bs)) as A2.
    { induction n as [|n IH]; intros; cbn [seq map nones]; [constructor|]. eapply w_next; [apply H2; eauto 8|apply do_drop_iter|apply IH]. }
    assert (forall n k e its vs ks gs bs, w_runs ok (map WDropValues (seq k n)) (MS e its vs ks gs vc bs) (MS e its (nones k n vs) ks gs vc bs)) as A3.
    { induction n as [|n IH]; intros; cbn [seq map nones]; [constructor|]. eapply w_next; [apply H2; eauto 8|apply do_drop_values|apply IH]. }
    assert (forall n k e its vs ks gs bs, w_runs ok (map WDropKey (seq k n)) (MS e its vs ks gs vc bs) (MS e its vs (nones k n ks) gs vc bs)) as A4.
    { induction n as [|n IH]; intros; cbn [seq map nones]; [constructor|]. eapply w_next; [apply H2; eauto 8|apply do_drop_key|apply IH]. }
    assert (forall n k e its vs ks gs bs, w_runs ok (map WDropGroup (seq k n)) (MS e its vs ks gs vc bs) (MS e its vs ks (nones k n gs) vc bs)) as A5.
    { induction n as [|n IH]; intros; cbn [seq map nones]; [constructor|]. eapply w_next; [apply H2; eauto 8|apply do_drop_group|apply IH]. }
    assert (forall n k e its vs ks gs bs, w_runs ok (map WDropBlob (seq k n)) (MS e its vs ks gs vc bs) (MS e its vs ks gs vc (nones k n bs))) as A6.
    { induction n as [|n IH]; intros; cbn [seq map nones]; [constructor|]. eapply w_next; [apply H2; eauto 8|apply do_drop_blob|apply IH]. }
    eapply w_runs_app; [apply A1|]. eapply w_runs_app; [apply A2|]. eapply w_runs_app; [apply A3|].
    eapply w_runs_app; [apply A4|]. eapply w_runs_app; [apply A5|]. apply A6.
  - unfold all_none. cbn. repeat split; apply nones_all; auto; constructor.
Qed.
Lemma w_all_gone dbg T s ms h : w_state dbg T s ms h -> all_none ms -> exists G lk, inv h G lk /\ leaks_ok G lk /\ (T -> lk = []).
Proof.
  intros (f & lk & G & (I & [He Hi Hv Hk] & Hg) & L & Z & Hb & [Re Ri Rv Rk Rg] & _) (Ne & Ni & Nv & Nk & Ng & Nb). exists G, lk. split; [|auto].
  assert (Forall (eq FGone) (fx_env (fg_x f))) as Hf.
  { revert Ne. clear -Re. induction Re as [|x o fe mm H1 H2 IH]; intros Ne; [constructor|]. inversion Ne; subst. constructor; [|auto].
    destruct x; cbn [HeapTreeTop.good] in H1; tauto. }
  assert (forall A B (g : A -> B) l, Forall (eq None) l -> Forall (eq None) (map (option_map g) l)) as Nm.
  { intros A B g l. induction 1 as [|? ? <- H IH]; cbn [map option_map]; auto. }
  assert (oits gb_items (g_groups (w_g s)) = []) as Eg.
  { apply (gone_oits _ _ _ _ Hg). revert Ng. clear -Rg. induction Rg as [|x o l mm H1 H2 IH]; intros Ng; [constructor|]. inversion Ng; subst. constructor; [|auto].
    destruct x; cbn [orel] in H1; tauto. }
  unfold x_rest, gbs, bits in I. rewrite (gone_items _ (f_gone _ _ _ He Hf)) in I.
  rewrite (gone_oits _ _ _ _ Hi) in I by (rewrite Ri; auto). rewrite (gone_oits _ _ _ _ Hv) in I by (rewrite Rv; auto).
  rewrite (gone_oits _ _ _ _ Hk) in I by (rewrite Rk; auto). rewrite (gone_oits _ _ _ _ Hb) in I by exact Nb. rewrite Eg in I.
  exact I.
Qed.

Lemma whole_values dbg p ms : w_runs w_may p ms_start ms -> exists s h, w_runs_to dbg p s h /\ w_holds dbg h ms s.
Proof.
  intros R. destruct (w_run_start dbg False w_may p ms ltac:(tauto) R) as (s & h & Dn & S). exists s, h. split; [exact Dn|].
  apply (w_state_holds dbg False _ _ _ S).
Qed.
Lemma whole_leftover dbg p ms : w_runs w_may p ms_start ms ->
  exists s h, w_runs_to dbg (p ++ w_drop_all ms) s h /\ Forall (fun x => snd x = CNodes []) (in_use h).
Proof.
  intros R. destruct (w_drop_all_none w_may ms) as (ms' & R' & Hn).
  { intros; exact Logic.I. }
  { intros i s (j & [->|[->|[->|[->| ->]]]]); exact Logic.I. }
  destruct (w_run_start dbg False w_may _ ms' ltac:(tauto) (w_runs_app _ _ _ _ _ _ R R')) as (s & h & Dn & S).
  destruct (w_all_gone _ _ _ _ _ S Hn) as (G & lk & I & L & _). exists s, h. split; [exact Dn|]. apply (left_over _ _ _ I L).
Qed.
Lemma whole_freed dbg p ms : w_runs w_grows p ms_start ms ->
  exists s h, w_runs_to dbg (p ++ w_drop_all ms) s h /\ in_use h = [].
Proof.
  intros R. destruct (w_drop_all_none w_grows ms) as (ms' & R' & Hn).
  { intros; exact Logic.I. }
  { intros i s (j & [->|[->|[->|[->| ->]]]]); exact Logic.I. }
  assert (forall i m, w_grows i m -> w_may i m /\ (True -> w_grows i m)) as Hok.
  { intros i m Hi. split; [|auto]. destruct i as [i|q i| | | | | | | | | | | | | | | | | | | | ]; try exact Logic.I; [destruct i; cbn in *; tauto|exact Hi]. }
  destruct (w_run_start dbg True w_grows _ ms' Hok (w_runs_app _ _ _ _ _ _ R R')) as (s & h & Dn & S).
  destruct (w_all_gone _ _ _ _ _ S Hn) as (G & lk & I & L & Z). exists s, h. split; [exact Dn|].
  rewrite (Z Logic.I) in I. destruct (in_use h) as [|[n x] u] eqn:E; [reflexivity|].
  destruct (in_use_in h (n, x)) as (a & Ea); [rewrite E; now left|].
  destruct (all_leaked _ _ _ I ltac:(constructor) a n x Ea) as [Ho _]. cbn in Ho. lia.
Qed.

(** ** What a program gives is determined *)
Lemma w_does_det i s a b : w_does i s a -> w_does i s b -> a = b.
Proof.
  intros H1 H2. destruct H1; inversion H2; subst; try congruence.
  all: repeat match goal with
  | A : mvar ?r ?e = Some ?x, B : mvar ?r ?e = Some ?y |- _ => rewrite A in B; injection B as <-
  | A : ?l = Some _, B : ?l = Some _ |- _ => rewrite A in B; injection B as ?; subst
  end; try reflexivity.
  all: try (match goal with A : lists ?l ?m, B : lists ?l' ?m |- _ => now rewrite (lists_where_unique _ _ _ _ A B) end).
  - f_equal. eapply scans_unique; eassumption.
  - do 4 f_equal. f_equal. f_equal. eapply cuts_unique; eassumption.
Qed.
Lemma w_runs_det ok ok' p s a b : w_runs ok p s a -> w_runs ok' p s b -> a = b.
Proof.
  intros H. revert b. induction H as [s|i p s s1 s2 Hi Dn R IH|q P i p s s2 Hi Eq HP R IH|q P i p s s2 Hi Eq HP R IH]; intros b H'; inversion H'; subst.
  - reflexivity.
  - apply IH. match goal with X : w_does i s ?y |- _ => now rewrite (w_does_det _ _ _ _ Dn X) end.
  - inversion Dn.
  - inversion Dn.
  - match goal with X : w_does (WIf _ _) _ _ |- _ => inversion X end.
  - now apply IH.
  - exfalso. match goal with X : q_asks _ _ = Some ?Q, Y : ~ ?Q |- _ => rewrite Eq in X; injection X as ->; tauto end.
  - match goal with X : w_does (WIf _ _) _ _ |- _ => inversion X end.
  - exfalso. match goal with X : q_asks _ _ = Some ?Q, Y : ?Q |- _ => rewrite Eq in X; injection X as ->; tauto end.
  - now apply IH.
Qed.
(** ** Nothing is left undefined *)
Lemma lists_exists dbg T n m : HeapTreeTop.good dbg T (FNode n) (Some (MTree m)) -> exists l, lists l m.
Proof.
  intros Gn. destruct (HeapTreeTop.good_holds dbg T _ _ Gn) as [Hh Hr]. destruct (listing_map dbg n m Hr Hh) as (l' & Hl' & E). eauto.
Qed.
Lemma scans_exists dbg T n m p : HeapTreeTop.good dbg T (FNode n) (Some (MTree m)) -> exists l, scans m p l.
Proof.
  intros Gn. destruct (HeapTreeTop.good_holds dbg T _ _ Gn) as [Hh Hr].
  destruct (any_scan_exact dbg mem n m p (in_memory dbg n m Hr Hh)) as (l0 & l' & e & _ & Hl & Hf & He).
  exists (map (shift p e) l0), l0, e. split; [exact Hl|]. split; [reflexivity|exact He].
Qed.
Lemma cuts_exists dbg T n m d : HeapTreeTop.good dbg T (FNode n) (Some (MTree m)) -> exists cs, cuts d m cs.
Proof. intros Gn. destruct (tree_rep dbg T _ _ Gn) as (g & Rg & C & Em). exists (gcuts d [] g). apply (gcuts_cuts d g m C Em). Qed.
Lemma w_total p ms i : w_runs w_may p ms_start ms -> w_may i ms -> w_alive i ms ->
  match i with
  | WIf q _ => exists P, q_asks q (ms_env ms) = Some P /\ (P \/ ~ P)
  | _ => exists ms', w_does i ms ms'
  end.
Proof.
  intros R Hm Ha. destruct (w_run_start false False w_may p ms ltac:(tauto) R) as (s & h & _ & St).
  assert (forall r, mvar r (ms_env ms) <> None -> exists n m, mvar r (ms_env ms) = Some m /\ HeapTreeTop.good false False (FNode n) (Some (MTree m))) as V.
  { intros r Hr. destruct (mvar r (ms_env ms)) as [m|] eqn:Em; [|congruence]. destruct St as (f & lk & G & _ & _ & _ & _ & Hw & _).
    destruct (good_var false False _ _ _ _ Hw Em) as (n & _ & Gn). eauto. }
  destruct i as [i|q i|r|r p0|j|j|r|j|j|k|k|k|j|j|r d|j|j|r|r|r p0|r p0|r]; cbn [w_alive w_may] in *.
  - destruct (m_step i (ms_env ms)) as [e|] eqn:E; [|congruence]. eexists. apply (do_tree _ _ _ E).
  - destruct (q_asks q (ms_env ms)) as [P|] eqn:E; [|congruence]. exists P. split; [reflexivity|].
    destruct (state_of false False _ _ _ St) as (f & _ & _ & S1).
    destruct (ask_good false False (frame s f ms) (frame_kept s f ms) q P _ _ h S1 Hm E) as (N & b & h1 & _ & Hb & _).
    destruct b; [left; now apply Hb|right; intros HP; apply Hb in HP; discriminate HP].
  - destruct (V r Ha) as (n & m & Em & Gn). destruct (lists_exists _ _ _ _ Gn) as (l & Hl). eexists. apply (do_iter _ _ _ _ Em Hl).
  - destruct (V r Ha) as (n & m & Em & Gn). destruct (scans_exists _ _ _ _ p0 Gn) as (l & Hl). eexists. apply (do_scan _ _ _ _ _ Em Hl).
  - destruct (nth j (ms_iters ms) None) as [[|[k v] l]|] eqn:E; [| |congruence]; eexists; [apply (do_end _ _ E)|apply (do_next _ _ _ _ _ E)].
  - eexists. apply do_drop_iter.
  - destruct (V r Ha) as (n & m & Em & Gn). destruct (lists_exists _ _ _ _ Gn) as (l & Hl). eexists. apply (do_values _ _ _ _ Em Hl).
  - destruct (nth j (ms_vals ms) None) as [[|v l]|] eqn:E; [| |congruence]; eexists; [apply (do_end_value _ _ E)|apply (do_next_value _ _ _ _ E)].
  - eexists. apply do_drop_values.
  - destruct (nth k (ms_keys ms) None) as [b|] eqn:E; [|congruence]. eexists. apply (do_read_key _ _ _ E).
  - eexists. apply do_drop_key.
  - destruct (nth k (ms_keys ms) None) as [b|] eqn:E; [|congruence]. eexists. apply (do_blob _ _ _ E).
  - destruct (nth j (ms_blobs ms) None) as [b|] eqn:E; [|congruence]. eexists. apply (do_read_blob _ _ _ E).
  - eexists. apply do_drop_blob.
  - destruct (V r Ha) as (n & m & Em & Gn). destruct (cuts_exists _ _ _ _ d Gn) as (cs & Hc). eexists. apply (do_group _ _ _ _ _ Em Hc).
  - destruct (nth j (ms_groups ms) None) as [[|g l]|] eqn:E; [| |congruence]; eexists; [apply (do_end_group _ _ E)|apply (do_next_group _ _ _ _ E)].
  - eexists. apply do_drop_group.
  - destruct (V r Ha) as (n & m & Em & Gn). destruct (lists_exists _ _ _ _ Gn) as (l & Hl). eexists. apply (do_first _ _ _ _ Em Hl).
  - destruct (V r Ha) as (n & m & Em & Gn). destruct (lists_exists _ _ _ _ Gn) as (l & Hl). eexists. apply (do_last _ _ _ _ Em Hl).
  - destruct (V r Ha) as (n & m & Em & Gn). destruct (lists_exists _ _ _ _ Gn) as (l & Hl). eexists. apply (do_first_entry _ p0 _ _ _ Em Hl).
  - destruct (V r Ha) as (n & m & Em & Gn). destruct (lists_exists _ _ _ _ Gn) as (l & Hl). eexists. apply (do_last_entry _ p0 _ _ _ Em Hl).
  - destruct Ha as (v & E). eexists. apply (do_read_value _ _ _ E).
Qed.

(** ** Iterators are snapshots *)
Lemma w_does_iter i s s' j : w_does i s s' -> keeps_iter j i -> j < length (ms_iters s) ->
  nth j (ms_iters s') None = nth j (ms_iters s) None /\ length (ms_iters s) <= length (ms_iters s').
Proof.
  intros H K L. destruct H; cbn [keeps_iter m_iter m_read m_give ms_iters] in *; auto.
  - rewrite app_nth1, app_length by exact L. split; [reflexivity|lia].
  - rewrite app_nth1, app_length by exact L. split; [reflexivity|lia].
  - rewrite upd_nth_other by congruence. rewrite upd_len. auto.
  - rewrite upd_nth_other by congruence. rewrite upd_len. auto.
Qed.
Lemma w_runs_iter ok p s s' j : w_runs ok p s s' -> Forall (keeps_iter j) p -> j < length (ms_iters s) ->
  nth j (ms_iters s') None = nth j (ms_iters s) None /\ length (ms_iters s) <= length (ms_iters s').
Proof.
  induction 1 as [s|i p s s1 s2 Hi Dn R IH|q P i p s s2 Hi Eq HP R IH|q P i p s s2 Hi Eq HP R IH]; intros F L; [auto|..]; pose proof (Forall_inv F) as Ki; pose proof (Forall_inv_tail F) as Kp.
  - destruct (w_does_iter _ _ _ _ Dn Ki L) as [E1 L1]. destruct (IH Kp ltac:(lia)) as [E2 L2]. rewrite E2, E1. split; [reflexivity|lia].
  - apply IH; [|exact L]. constructor; [exact Ki|exact Kp].
  - now apply IH.
Qed.
Lemma w_runs_nexts j l : forall s, nth j (ms_iters s) None = Some l ->
  exists s', w_runs w_may (repeat (WNext j) (S (length l))) s s' /\
    ms_env s' = ms_env s ++ map (fun e => Some (MValue (snd e))) l ++ [None] /\ ms_keys s' = ms_keys s ++ map (fun e => Some (fst e)) l ++ [None].
Proof.
  induction l as [|[k v] l IH]; intros s E.
  - eexists. split; [|split]; [cbn [repeat length]; eapply w_next; [exact Logic.I|apply (do_end _ _ E)|apply w_done]|reflexivity|reflexivity].
  - assert (j < length (ms_iters s)) as L.
    { destruct (Nat.lt_ge_cases j (length (ms_iters s))) as [|Hge]; [assumption|]. rewrite nth_overflow in E by lia. discriminate E. }
    edestruct IH as (s' & R & E1 & E2); [|exists s'; split; [|split]].
    2:{ change (length ((k, v) :: l)) with (S (length l)). cbn [repeat]. eapply w_next; [exact Logic.I|apply (do_next _ _ _ _ _ E)|exact R]. }
    + cbn [ms_iters]. clear -L. revert j L. generalize (ms_iters s). intros q. induction q as [|o q IH]; intros [|j] L; cbn in *; try lia; [reflexivity|apply IH; lia].
    + rewrite E1. cbn [ms_env map snd]. now rewrite <- app_assoc.
    + rewrite E2. cbn [ms_keys map fst]. now rewrite <- app_assoc.
Qed.
Lemma w_snapshot dbg p i r m l q ms ms2 :
  w_runs w_may p ms_start ms -> mvar r (ms_env ms) = Some m ->
  (i = WIter r /\ lists l m \/ exists pre, i = WScan r pre /\ scans m pre l) ->
  Forall (keeps_iter (length (ms_iters ms))) q -> w_runs w_may q (m_iter l ms) ms2 ->
  exists s h, w_runs_to dbg (p ++ i :: q ++ repeat (WNext (length (ms_iters ms))) (S (length l))) s h /\
    Forall2 (key_shows h) (map (fun e => Some (fst e)) l ++ [None]) (skipn (length (ms_keys ms2)) (x_keys (w_x s))) /\
    Forall2 (var_holds dbg h) (map (fun e => Some (MValue (snd e))) l ++ [None]) (skipn (length (ms_env ms2)) (w_env s)).
Proof.
  intros R Em Hi Hq R2.
  assert (w_does i ms (m_iter l ms) /\ w_may i ms) as [Di Mi].
  { destruct Hi as [[-> Hl]|(pre & -> & Hl)]; split; try exact Logic.I; [apply (do_iter _ _ _ _ Em Hl)|apply (do_scan _ _ _ _ _ Em Hl)]. }
  destruct (w_runs_iter _ _ _ _ _ R2 Hq) as [E2 _]; [cbn [m_iter ms_iters]; rewrite app_length; cbn; lia|].
  cbn [m_iter ms_iters] in E2. rewrite app_nth2, Nat.sub_diag in E2 by lia. cbn [nth] in E2.
  destruct (w_runs_nexts _ _ _ E2) as (ms3 & R3 & Ee & Ek).
  destruct (whole_values dbg _ _ (w_runs_app _ _ _ _ _ _ R (w_next _ _ _ _ _ _ Mi Di (w_runs_app _ _ _ _ _ _ R2 R3)))) as (s & h & Dn & (He & Hk & _ & _)).
  exists s, h. split; [exact Dn|]. rewrite Ee in He. rewrite Ek in Hk.
  assert (forall A B (P : A -> B -> Prop) x y z, Forall2 P (x ++ y) z -> Forall2 P y (skipn (length x) z)) as Sk.
  { intros A B P x. induction x as [|a x IH]; intros y z H; [exact H|]. inversion H; subst. cbn. now apply IH. }
  split; [apply Sk; exact Hk|apply Sk; exact He].
Qed.
