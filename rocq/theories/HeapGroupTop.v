(** Programs that group: what they guarantee. *)
From Verif Require Import Base BaseLemmas Header Node Combine Iter Api Tree Rep Store Spec Client Top TopOps MemLemmas GroupSpec GroupTop
  Heap HeapSpec HeapIter HeapIterSpec HeapGroup HeapGroupSpec HeapProofs HeapOps HeapRun HeapTop HeapIterProofs HeapIterRun HeapIterTop HeapGroupProofs.

(** ** More fuel changes nothing *)
Lemma gb_more d : forall fuel fuel' k h r, fuel <= fuel' -> h_gb_next d fuel k h = Done r -> h_gb_next d fuel' k h = Done r.
Proof.
  induction fuel as [|fuel IH]; intros [|fuel'] k h r L E; try discriminate; [lia|]. apply le_S_n in L. cbn [h_gb_next] in *.
  destruct (HeapIter.kv_stack k) as [|[n [it|]] rest]; [exact E| |].
  - apply bind_done in E. destruct E as (x & h1 & E1 & E). rewrite (bind_eq _ _ _ _ _ E1). destruct (fst x) as [c|].
    + apply bind_done in E. destruct E as (p & h2 & E2 & E). rewrite (bind_eq _ _ _ _ _ E2).
      apply bind_done in E. destruct E as (a & h3 & E3 & E). rewrite (bind_eq _ _ _ _ _ E3).
      apply bind_done in E. destruct E as (path & h4 & E4 & E). rewrite (bind_eq _ _ _ _ _ E4).
      apply bind_done in E. destruct E as (v & h5 & E5 & E). rewrite (bind_eq _ _ _ _ _ E5).
      destruct (d path v); [|exact E].
      apply bind_done in E. destruct E as (ch & h6 & E6 & E). rewrite (bind_eq _ _ _ _ _ E6).
      cbv zeta in *. destruct (h_has_value c); [exact E|]. now apply IH.
    + apply bind_done in E. destruct E as (v & h2 & E2 & E). rewrite (bind_eq _ _ _ _ _ E2). now apply IH.
  - apply bind_done in E. destruct E as (v & h2 & E2 & E). rewrite (bind_eq _ _ _ _ _ E2). now apply IH.
Qed.
Lemma g_step_more dbg i fuel fuel' s h r : fuel <= fuel' -> g_step fuel dbg i s h = Done r -> g_step fuel' dbg i s h = Done r.
Proof.
  intros L E. destruct i as [i|r0 d|j|j]; cbn [g_step] in *; try exact E.
  - apply bind_done in E. destruct E as (y & h1 & E1 & E). now rewrite (bind_eq _ _ _ _ _ (step_more _ _ _ _ _ _ _ L E1)).
  - destruct (nth j (g_groups s) None) as [[d k]|]; [|exact E].
    apply bind_done in E. destruct E as (y & h1 & E1 & E). now rewrite (bind_eq _ _ _ _ _ (gb_more _ _ _ _ _ _ L E1)).
Qed.
Lemma g_run_more dbg p : forall fuel fuel' s h r, fuel <= fuel' -> g_run fuel dbg p s h = Done r -> g_run fuel' dbg p s h = Done r.
Proof.
  induction p as [|i p IH]; intros fuel fuel' s h r L E; cbn [g_run] in *; [exact E|].
  apply bind_done in E. destruct E as (y & h1 & E1 & E). rewrite (bind_eq _ _ _ _ _ (g_step_more _ _ _ _ _ _ _ L E1)).
  apply (IH _ _ _ _ _ L E).
Qed.

(** ** One step *)
Definition gbs (s : gst) : list item := oits gb_items (g_groups s).
Definition gbs_rep h G := Forall2 (orel (gb_rep h G)).
Lemma gbs_kept h G l f h' G' : gbs_rep h G l f -> kept (oits gb_items l) h G h' G' -> gbs_rep h' G' l f.
Proof.
  intros H K. apply (orel_map _ _ _ _ H). intros a b Hin Hr. apply (gb_kept _ _ _ _ _ _ Hr), (kept_le _ _ _ _ _ _ K).
  intros c. now apply occ_in_oits.
Qed.
Definition g_inv (lk : list item) (f : fgst) (s : gst) (h : heap) (G : ghost) : Prop :=
  inv h G (items (x_env (g_x s)) ++ x_rest (g_x s) ++ gbs s ++ lk) /\ xrep h G (g_x s) (fg_x f) /\ gbs_rep h G (g_groups s) (fg_groups f).
Definition g_post (lk : list item) (f : fgst) (l : nat) (s : gst) (h : heap) (G : ghost) : Prop :=
  exists lk', g_inv (lk' ++ lk) f s h G /\ length lk' = l /\ leaks_ok G lk'.
Lemma xrep_kept h G x f h' G' : xrep h G x f -> kept (items (x_env x) ++ x_rest x) h G h' G' -> xrep h' G' x f.
Proof.
  intros [He Hi Hv Hk] K. unfold x_rest in K. constructor.
  - apply (env_kept h G _ _ h' _ He), (kept_le _ _ _ _ _ _ K). occ_solve.
  - apply (its_rep_kept _ _ _ _ _ _ Hi), (kept_le _ _ _ _ _ _ K). occ_solve.
  - apply (vls_rep_kept _ _ _ _ _ _ Hv), (kept_le _ _ _ _ _ _ K). occ_solve.
  - apply (keys_rep_kept h G _ _ h' G' Hk), (kept_le _ _ _ _ _ _ K). occ_solve.
Qed.

Lemma g_step_ok dbg i s f f' l lk h G : g_inv lk f s h G ->
  fg_step dbg i f = Some (f', l) -> exists fuel, wp (g_step fuel dbg i s) lk (g_post lk f' l) h G.
Proof.
  intros (I & Hx & Hg) F. destruct i as [i|r d|j|j]; cbn [fg_step] in F.
  - destruct (fx_step dbg i (fg_x f)) as [[x' l']|] eqn:Fs; [|discriminate]. apply some_inj in F. injection F as <- <-.
    destruct (x_step_ok dbg i _ _ _ _ (gbs s ++ lk) h G I Hx Fs) as (fuel & W). exists fuel. cbn [g_step].
    eapply wp_bind.
    { eapply (wp_frame _ _ (gbs s ++ lk) lk _ h G I); [occ_solve|occ_solve|]. exact W. }
    cbn beta. intros x1 h1 G1 ((lk' & I1 & Hx1 & Hl & Lk) & S). apply kept_stp in S. apply wp_ret.
    exists lk'. split; [|auto]. split; [|split].
    + unfold gbs in *. cbn [g_x g_groups]. rearr I1.
    + exact Hx1.
    + apply (gbs_kept _ _ _ _ _ _ Hg), (kept_le _ _ _ _ _ _ S). unfold gbs. cbn [g_groups]. occ_solve.
  - exists 0. cbn [g_step]. destruct (fvar r (fx_env (fg_x f))) as [n| | |] eqn:Fv; try discriminate.
    destruct (grouping d [] n) as [gs|] eqn:El; [|discriminate]. apply some_inj in F. injection F as <- <-.
    destruct (env_node (g_x s) (fg_x f) h G (x_rest (g_x s) ++ gbs s ++ lk) r n I (xr_env _ _ _ _ Hx) Fv) as (c & -> & C & L & A).
    set (E := items (x_env (g_x s))) in *. set (Rs := x_rest (g_x s)) in *.
    eapply wp_bind.
    { eapply (wp_frame _ _ (Rs ++ gbs s ++ lk) lk _ h G I); [occ_solve|occ_solve|].
      apply (wp_iter_of c n (E ++ Rs ++ gbs s ++ lk) (Rs ++ gbs s ++ lk) h G I C L A). occ_solve. }
    cbn beta. intros it h1 G1 ((I1 & Ir & X1) & S1). apply kept_stp in S1.
    eapply wp_bind.
    { eapply (wp_frame _ _ (iter_items it ++ E ++ Rs ++ gbs s ++ lk) lk _ h1 G1 I1); [auto|occ_solve|].
      apply (wp_new (CBytes []) (GB []) _ h1 G1 I1). reflexivity. }
    cbn beta. intros p h2 G2 ((-> & I2 & _) & S2). apply kept_stp in S2. cbn [gkind] in I2. apply wp_ret.
    assert (xrep h1 G1 (g_x s) (fg_x f)) as Hx1.
    { destruct Hx as [He Hi Hv Hk]. unfold Rs, x_rest in S1. constructor.
      - apply (env_ext _ _ _ _ He). rewrite ext_app in X1. apply X1.
      - apply (its_rep_kept _ _ _ _ _ _ Hi), (kept_le _ _ _ _ _ _ S1). occ_solve.
      - apply (vls_rep_kept _ _ _ _ _ _ Hv), (kept_le _ _ _ _ _ _ S1). occ_solve.
      - apply (keys_rep_kept h G _ _ h1 G1 Hk), (kept_le _ _ _ _ _ _ S1). occ_solve. }
    exists []. split; [|split; [reflexivity|constructor]]. split; [|split].
    + unfold gbs in *. cbn [g_x g_groups]. rewrite oits_app. fold E Rs.
      replace (oits gb_items [Some (d, HKv p [(0, Some it)])]) with ((BytesK, Ptr p) :: iter_items it) by (cbn; now rewrite ?app_nil_r). rearr I2.
    + cbn [g_x fg_x]. apply (xrep_kept _ _ _ _ _ _ Hx1). apply (kept_le _ _ _ _ _ _ S2). fold E Rs. occ_solve.
    + cbn [g_groups fg_groups]. apply Forall2_app.
      * apply (gbs_kept h1 G1); [|apply (kept_le _ _ _ _ _ _ S2); unfold gbs; occ_solve].
        apply (gbs_kept _ _ _ _ _ _ Hg), (kept_le _ _ _ _ _ _ S1). unfold gbs. occ_solve.
      * constructor; [|constructor]. exists [], [(0, Some [n])]. cbn [fst snd HeapIter.kv_path HeapIter.kv_stack].
        split; [apply gset_eq|]. split; [|cbn [gremaining groupings]; rewrite El; cbn; now rewrite !app_nil_r].
        constructor; [|constructor]. split; [reflexivity|]. cbn [snd ch_rep].
        apply (it_kept _ _ _ _ _ _ Ir), (kept_le _ _ _ _ _ _ S2). occ_solve.
  - pose proof (orel_nth _ _ _ j Hg) as Hj. destruct (nth j (fg_groups f) None) as [gs|] eqn:Ef; [|discriminate].
    destruct (nth j (g_groups s) None) as [[d k]|] eqn:Ej; cbn [orel] in Hj; [|tauto].
    destruct Hj as (path & fr & Gp & Hf & Hr). cbn [fst snd] in Gp, Hf, Hr. exists (S (fweight fr)). cbn [g_step]. rewrite Ej.
    set (E := items (x_env (g_x s)) ++ x_rest (g_x s)).
    set (R := E ++ oits gb_items (upd j None (g_groups s)) ++ lk).
    assert (inv h G (kv_items k ++ R)) as J.
    { apply (inv_perm _ _ _ _ I).
      - intros b. unfold R, E, gbs. rewrite !occ_app, (occ_owned gb_items _ _ _ b Ej). change (gb_items (d, k)) with (kv_items k). lia.
      - intros y Hy. unfold R, E, gbs in *. rewrite !in_app_iff in *. 
        pose proof (oits_in gb_items _ _ _ Ej y). pose proof (oits_incl gb_items (g_groups s) j None y) as Hu.
        rewrite in_app_iff in Hu. cbn [oit In] in Hu. tauto. }
    eapply wp_bind.
    { eapply (wp_frame _ _ R lk _ h G J); [occ_solve|unfold R; occ_solve|].
      apply (gb_next_ok d (S (fweight fr)) k path fr gs R h G J Gp Hf Hr). lia. }
    cbn beta. intros [k' out] h1 G1 ((I1 & Rk & Ro) & S1). cbn [fst snd] in *. apply kept_stp in S1. cbv zeta.
    set (y' := (d, k') : hgb) in *.
    assert (gbs_rep h1 G1 (upd j (Some y') (g_groups s)) (upd j (Some (tl gs)) (fg_groups f))) as Hg1.
    { assert (gbs_rep h1 G1 (upd j None (g_groups s)) (upd j None (fg_groups f))) as H0.
      { apply (gbs_kept h G); [apply orel_upd; [exact Hg|exact Logic.I]|]. apply (kept_le _ _ _ _ _ _ S1). unfold R. occ_solve. }
      pose proof (orel_upd _ _ _ j (Some y') (Some (tl gs)) H0 Rk) as H1. now rewrite !upd_upd in H1. }
    assert (xrep h1 G1 (g_x s) (fg_x f)) as Hx1.
    { apply (xrep_kept _ _ _ _ _ _ Hx). apply (kept_le _ _ _ _ _ _ S1). unfold R, E. occ_solve. }
    assert (forall v, xrep h1 G1 (g_x s) (fg_x f) -> forall fv, srep G1 v fv ->
      xrep h1 G1 (X (x_env (g_x s) ++ [v]) (x_iters (g_x s)) (x_vals (g_x s)) (x_keys (g_x s))) (fg_give fv (fg_x f))) as Give.
    { intros v [He Hi Hv Hk] fv Hs. constructor; cbn [x_env x_iters x_vals x_keys fx_env fx_iters fx_vals fx_keys fg_give]; auto.
      apply Forall2_app; [exact He|]. constructor; [exact Hs|constructor]. }
    assert (forall v, slot_items v = node_out out ->
      inv h1 G1 (items (x_env (g_x s) ++ [v]) ++ x_rest (g_x s) ++ oits gb_items (upd j (Some y') (g_groups s)) ++ [] ++ lk)) as J1.
    { intros v Hv. assert (items [v] = node_out out) as Hv1 by (cbn; now rewrite Hv, app_nil_r). apply (inv_perm _ _ _ _ I1).
      - intros b. rewrite items_app, Hv1. unfold R, E.
        rewrite !occ_app, (occ_back gb_items _ _ _ (Some y') b Ej). cbn [oit occ]. change (gb_items y') with (kv_items k'). lia.
      - intros y Hy. rewrite items_app, Hv1 in Hy. unfold R, E. rewrite !in_app_iff in *.
        pose proof (oits_incl gb_items (upd j None (g_groups s)) j (Some y') y) as Hu. rewrite upd_upd, in_app_iff in Hu.
        cbn [oit] in Hu. change (gb_items y') with (kv_items k') in Hu. cbn [oit In] in *. tauto. }
    destruct gs as [|nd gs], out as [c|]; try tauto.
    + apply some_inj in F. injection F as <- <-. apply wp_ret. exists []. split; [|split; [reflexivity|constructor]]. split; [|split].
      * apply (J1 SGone). reflexivity.
      * apply (Give SGone Hx1 FGone). exact Logic.I.
      * cbn [g_groups fg_groups tl] in *. replace (fg_groups f) with (upd j (Some (@nil node)) (fg_groups f)); [exact Hg1|].
        clear -Ef. revert j Ef. induction (fg_groups f) as [|o l IH]; intros [|j] Ef; cbn in *; try congruence. now rewrite IH.
    + apply some_inj in F. injection F as <- <-. apply wp_ret. exists []. split; [|split; [reflexivity|constructor]]. split; [|split].
      * apply (J1 (SNode c)). reflexivity.
      * apply (Give (SNode c) Hx1 (FNode nd)). exact Ro.
      * exact Hg1.
  - exists 0. cbn [g_step]. apply some_inj in F. injection F as <- <-.
    pose proof (orel_nth _ _ _ j Hg) as Hj. destruct (nth j (g_groups s) None) as [[d k]|] eqn:Ej.
    + set (E := items (x_env (g_x s)) ++ x_rest (g_x s)).
      set (R := E ++ oits gb_items (upd j None (g_groups s)) ++ lk).
      assert (inv h G (kv_items k ++ R)) as J.
      { apply (inv_perm _ _ _ _ I).
        - intros b. unfold R, E, gbs. rewrite !occ_app, (occ_owned gb_items _ _ _ b Ej). change (gb_items (d, k)) with (kv_items k). lia.
        - intros y Hy. unfold R, E, gbs in *. rewrite !in_app_iff in *. 
          pose proof (oits_in gb_items _ _ _ Ej y). pose proof (oits_incl gb_items (g_groups s) j None y) as Hu.
          rewrite in_app_iff in Hu. cbn [oit In] in Hu. tauto. }
      eapply wp_bind.
      { eapply (wp_frame _ _ R lk _ h G J); [occ_solve|unfold R; occ_solve|]. apply (wp_drop _ R _ _ J). }
      cbn beta. intros _ h1 G1 ((-> & I1 & _) & S1). apply kept_stp in S1. apply wp_ret.
      exists []. split; [|split; [reflexivity|constructor]]. split; [|split].
      * unfold gbs. cbn [g_x g_groups app]. unfold R, E in I1. rearr I1.
      * apply (xrep_kept _ _ _ _ _ _ Hx). apply (kept_le _ _ _ _ _ _ S1). unfold R, E. occ_solve.
      * cbn [g_groups fg_groups]. apply (gbs_kept h G); [apply orel_upd; [exact Hg|exact Logic.I]|]. apply (kept_le _ _ _ _ _ _ S1). unfold R. occ_solve.
    + apply wp_ret. exists []. split; [|split; [reflexivity|constructor]]. split; [exact I|]. split; [exact Hx|]. cbn [fg_groups].
      destruct (nth j (fg_groups f) None) eqn:Ef; cbn [orel] in Hj; [tauto|].
      replace (upd j None (fg_groups f)) with (fg_groups f); [exact Hg|].
      clear -Ef. revert j Ef. induction (fg_groups f) as [|o l IH]; intros [|j] Ef; cbn in *; try congruence. now rewrite <- IH.
Qed.

(** ** Programs *)
Lemma g_run_ok dbg p : forall s f f' l lk h G, g_inv lk f s h G -> leaks_ok G lk -> fg_run dbg p f = Some (f', l) ->
  exists fuel s' h' G' lk', g_run fuel dbg p s h = Done (s', h') /\ g_inv lk' f' s' h' G' /\ leaks_ok G' lk' /\ length lk' = length lk + l.
Proof.
  induction p as [|i p IH]; intros s f f' l lk h G I Lk F; cbn [fg_run g_run] in *.
  - assert (f' = f /\ l = 0) as [-> ->] by (split; congruence). exists 0, s, h, G, lk. rewrite Nat.add_0_r. auto 6.
  - destruct (fg_step dbg i f) as [[f1 l1]|] eqn:F1; [|congruence].
    destruct (fg_run dbg p f1) as [[f2 l2]|] eqn:F2; [|congruence].
    assert (f' = f2 /\ l = l1 + l2) as [-> ->] by (split; congruence).
    destruct (g_step_ok dbg i s f f1 l1 lk h G I F1) as (n1 & x1 & h1 & G1 & D & (X & _) & (lk1 & I1 & Hl & Lk1)).
    destruct (IH x1 f1 f2 l2 (lk1 ++ lk) h1 G1 I1) as (n2 & x2 & h2 & G2 & lk2 & D2 & I2 & Lk2 & Hl2).
    + apply Forall_app. split; [exact Lk1|apply (leaks_ext _ _ _ Lk X)].
    + exact F2.
    + exists (n1 + n2), x2, h2, G2, lk2. split; [|rewrite app_length in Hl2; split; [exact I2|split; [exact Lk2|lia]]].
      rewrite (bind_eq _ _ _ _ _ (g_step_more dbg i n1 (n1 + n2) _ _ _ (Nat.le_add_r _ _) D)).
      apply (g_run_more dbg p n2 (n1 + n2)); [lia|exact D2].
Qed.
Lemma g_run_start dbg p f l : fg_run dbg p fg_start = Some (f, l) ->
  exists fuel s h G lk, (forall fuel', fuel <= fuel' -> g_run fuel' dbg p g_start [] = Done (s, h)) /\
    g_inv lk f s h G /\ leaks_ok G lk /\ length lk = l.
Proof.
  intros F. destruct (g_run_ok dbg p g_start fg_start f l [] [] G0) as (fuel & x & h & G & lk & D & R).
  - split; [apply inv_empty|]. split; [constructor; constructor|constructor].
  - constructor.
  - exact F.
  - exists fuel, x, h, G, lk. split; [|exact R]. intros fuel' L. apply (g_run_more _ _ _ _ _ _ _ L D).
Qed.
Lemma g_values dbg p f l : fg_run dbg p fg_start = Some (f, l) ->
  exists fuel s h, (forall fuel', fuel <= fuel' -> g_run fuel' dbg p g_start [] = Done (s, h)) /\ x_shows h (fg_x f) (g_x s).
Proof.
  intros F. destruct (g_run_start _ _ _ _ F) as (fuel & x & h & G & lk & D & (I & Hx & _) & _).
  exists fuel, x, h. split; [exact D|apply (x_shows_ok _ _ _ _ _ I Hx)].
Qed.

(** ** Dropping everything *)
Lemma fg_run_app dbg p q : forall f f1 f2 l1 l2, fg_run dbg p f = Some (f1, l1) -> fg_run dbg q f1 = Some (f2, l2) ->
  fg_run dbg (p ++ q) f = Some (f2, l1 + l2).
Proof.
  induction p as [|i p IH]; intros f f1 f2 l1 l2 F1 F2; cbn [fg_run app] in *.
  - assert (f1 = f /\ l1 = 0) as [-> ->] by (split; congruence). exact F2.
  - destruct (fg_step dbg i f) as [[f' l']|]; [|congruence]. destruct (fg_run dbg p f') as [[f'' l'']|] eqn:E; [|congruence].
    assert (f1 = f'' /\ l1 = l' + l'') as [-> ->] by (split; congruence).
    rewrite (IH f' f'' f2 l'' l2 E F2). now rewrite Nat.add_assoc.
Qed.
Lemma fg_run_do dbg p gs : forall x x' l, fx_run dbg p x = Some (x', l) -> fg_run dbg (map GDo p) (FG x gs) = Some (FG x' gs, l).
Proof.
  induction p as [|i p IH]; intros x x' l F; cbn [fx_run map fg_run fg_step fg_x fg_groups] in *.
  - assert (x' = x /\ l = 0) as [-> ->] by (split; congruence). reflexivity.
  - destruct (fx_step dbg i x) as [[e1 l1]|]; [|congruence]. destruct (fx_run dbg p e1) as [[e2 l2]|] eqn:E; [|congruence].
    assert (x' = e2 /\ l = l1 + l2) as [-> ->] by (split; congruence). now rewrite (IH _ _ _ E).
Qed.
Lemma fg_run_gs dbg n : forall s x gs, fg_run dbg (map GDrop (seq s n)) (FG x gs) = Some (FG x (nones s n gs), 0).
Proof. induction n as [|n IH]; intros; cbn [seq map fg_run fg_step fg_x fg_groups nones]; [reflexivity|]. now rewrite IH. Qed.
Lemma g_freed dbg p f l : fg_run dbg p fg_start = Some (f, l) ->
  exists fuel s h, (forall fuel', fuel <= fuel' -> g_run fuel' dbg (p ++ g_drop_all f) g_start [] = Done (s, h)) /\
    Forall (fun e => snd e = CNodes []) (in_use h) /\ list_sum (map fst (in_use h)) = l /\ (l = 0 -> in_use h = []).
Proof.
  intros F. destruct f as [x gs]. destruct (x_drop_all_gone dbg x) as (x' & F' & Ge & Gi & Gv & Gk).
  assert (fg_run dbg (g_drop_all (FG x gs)) (FG x gs) = Some (FG x' (nones 0 (length gs) gs), 0)) as F1.
  { unfold g_drop_all. cbn [fg_x fg_groups]. apply (fg_run_app _ _ _ _ _ _ 0 0 (fg_run_do _ _ gs _ _ _ F')). apply fg_run_gs. }
  pose proof (fg_run_app _ _ _ _ _ _ _ _ F F1) as F2. rewrite Nat.add_0_r in F2.
  destruct (g_run_start _ _ _ _ F2) as (fuel & s & h & G & lk & D & (I & [He Hi Hv Hk] & Hg) & Lk & Hl).
  exists fuel, s, h. split; [exact D|]. unfold x_rest, gbs in I. cbn [fg_x fg_groups] in *. rewrite (gone_items _ (f_gone _ _ _ He Ge)) in I.
  assert (Forall (eq None) (nones 0 (length gs) gs)) as Gg by (apply nones_all; [reflexivity|constructor]).
  rewrite (gone_oits _ _ _ _ Hi Gi), (gone_oits _ _ _ _ Hv Gv), (gone_oits _ _ _ _ Hk Gk), (gone_oits _ _ _ _ Hg Gg) in I. cbn [app] in I.
  destruct (left_over _ _ _ I Lk) as [L1 L2]. split; [exact L1|]. split; [congruence|].
  intros ->. destruct lk; [|discriminate Hl]. destruct (in_use h) as [|[n y] u] eqn:E; [reflexivity|].
  destruct (in_use_in h (n, y)) as (a & Ea); [rewrite E; now left|].
  destruct (all_leaked _ _ _ I Lk a n y Ea) as [Ho _]. cbn in Ho. lia.
Qed.

(** ** Iterators over groups are snapshots *)
Lemma fg_step_groups dbg i f f' l j : fg_step dbg i f = Some (f', l) -> leaves_groups j i -> j < length (fg_groups f) ->
  nth j (fg_groups f') None = nth j (fg_groups f) None /\ length (fg_groups f) <= length (fg_groups f').
Proof.
  intros F Hj L. destruct i as [i|r d|j'|j']; cbn [fg_step leaves_groups] in *.
  - destruct (fx_step _ _ _) as [[e ?]|]; [|discriminate]. apply some_inj, (f_equal fst) in F. cbn in F. subst f'. cbn. auto.
  - destruct (fvar _ _); try discriminate. destruct (grouping _ _ _); [|discriminate]. apply some_inj, (f_equal fst) in F. cbn in F. subst f'. cbn.
    rewrite app_nth1, app_length by exact L. split; [reflexivity|lia].
  - destruct (nth j' _ _) as [[|? ?]|]; try discriminate; apply some_inj, (f_equal fst) in F; cbn in F; subst f'; cbn; auto.
    rewrite upd_nth_other by congruence. rewrite upd_len. auto.
  - apply some_inj, (f_equal fst) in F; cbn in F; subst f'; cbn. rewrite upd_nth_other by congruence. rewrite upd_len. auto.
Qed.
Lemma fg_run_groups dbg q : forall f f' l j, fg_run dbg q f = Some (f', l) -> Forall (leaves_groups j) q -> j < length (fg_groups f) ->
  nth j (fg_groups f') None = nth j (fg_groups f) None /\ length (fg_groups f) <= length (fg_groups f').
Proof.
  induction q as [|i q IH]; intros f f' l j F Hq L; cbn [fg_run] in F.
  - assert (f' = f) as -> by congruence. auto.
  - inversion Hq; subst. destruct (fg_step dbg i f) as [[f1 l1]|] eqn:F1; [|discriminate].
    destruct (fg_run dbg q f1) as [[f2 l2]|] eqn:F2; [|discriminate]. assert (f' = f2) as -> by congruence.
    destruct (fg_step_groups _ _ _ _ _ _ F1 H1 L) as [E1 L1]. destruct (IH _ _ _ j F2 H2) as [E2 L2]; [lia|]. split; [congruence|lia].
Qed.
Lemma fg_nexts dbg gs : forall f j, nth j (fg_groups f) None = Some gs ->
  exists f', fg_run dbg (repeat (GNext j) (S (length gs))) f = Some (f', 0) /\
    fx_env (fg_x f') = fx_env (fg_x f) ++ map FNode gs ++ [FGone].
Proof.
  induction gs as [|n gs IH]; intros f j E.
  - cbn [length repeat fg_run fg_step]. rewrite E. eexists. split; [reflexivity|]. reflexivity.
  - assert (j < length (fg_groups f)) as L.
    { destruct (Nat.lt_ge_cases j (length (fg_groups f))) as [|Hge]; [assumption|]. rewrite (nth_overflow _ _ Hge) in E. discriminate. }
    change (repeat (GNext j) (S (length (n :: gs)))) with (GNext j :: repeat (GNext j) (S (length gs))).
    cbn [fg_run fg_step]. rewrite E.
    destruct (IH (FG (fg_give (FNode n) (fg_x f)) (upd j (Some gs) (fg_groups f))) j) as (f' & F & E1).
    { cbn [fg_groups]. now apply upd_last_nth. }
    rewrite F. exists f'. split; [reflexivity|]. cbn [fg_x fg_give fx_env map] in *. rewrite E1, <- !app_assoc. auto.
Qed.
Lemma g_snapshot dbg p r d q f l n gs f1 l1 f2 l2 : fg_run dbg p fg_start = Some (f, l) ->
  fvar r (fx_env (fg_x f)) = FNode n -> grouping d [] n = Some gs ->
  fg_step dbg (GGroup r d) f = Some (f1, l1) -> Forall (leaves_groups (length (fg_groups f))) q -> fg_run dbg q f1 = Some (f2, l2) ->
  exists fuel s h, (forall fuel', fuel <= fuel' ->
    g_run fuel' dbg (p ++ GGroup r d :: q ++ repeat (GNext (length (fg_groups f))) (S (length gs))) g_start [] = Done (s, h)) /\
    Forall2 (slot_shows h) (map FNode gs ++ [FGone]) (skipn (length (fx_env (fg_x f2))) (x_env (g_x s))).
Proof.
  intros F Fv El F1 Hq F2. assert (length (fg_groups f) < length (fg_groups f1) /\ nth (length (fg_groups f)) (fg_groups f1) None = Some gs) as [L1 E1].
  { cbn [fg_step] in F1. rewrite Fv, El in F1. apply some_inj, (f_equal fst) in F1. cbn in F1. subst f1. cbn.
    rewrite app_length, app_nth2, Nat.sub_diag by lia. cbn. split; [lia|reflexivity]. }
  destruct (fg_run_groups _ _ _ _ _ _ F2 Hq L1) as [E2 _]. rewrite E1 in E2.
  destruct (fg_nexts dbg gs f2 _ E2) as (f3 & F3 & Ee).
  pose proof (fg_run_app _ _ _ _ _ _ _ _ F2 F3) as F23.
  assert (fg_run dbg (GGroup r d :: q ++ repeat (GNext (length (fg_groups f))) (S (length gs))) f = Some (f3, l1 + (l2 + 0))) as F13.
  { cbn [fg_run]. rewrite F1, F23. reflexivity. }
  pose proof (fg_run_app _ _ _ _ _ _ _ _ F F13) as Fall.
  destruct (g_values _ _ _ _ Fall) as (fuel & s & h & D & Se & _). exists fuel, s, h. split; [exact D|].
  rewrite Ee in Se. apply (shows_end _ _ _ _ _ Se eq_refl).
Qed.

(** ** The groups are those of [group_by] *)
Section Pure.
Context (d : bytes -> option bytes -> bool).
Let dd := by_path detached_read d.
Definition iframes (fr : list (nat * option (list node))) : list (nat * option iter) :=
  map (fun f => (fst f, option_map IOwned (snd f))) fr.
Lemma weight_pos n : 0 < weight n.
Proof. destruct n. cbn [weight]. lia. Qed.
Lemma gb_pure : forall fuel path fr gs, gremaining d path fr = Some gs -> fweight fr < fuel ->
  match gs with
  | [] => exists s, gb_next0 detached_read dd fuel (KV path (iframes fr)) = Ok (None, s)
  | n :: gs' => exists path' fr', gb_next0 detached_read dd fuel (KV path (iframes fr)) = Ok (Some n, KV path' (iframes fr')) /\
      gremaining d path' fr' = Some gs' /\ fweight fr' < fweight fr
  end.
Proof.
  induction fuel as [|fuel IH]; intros path fr gs Hr Hw; [lia|]. cbn [gb_next0 Iter.kv_stack Iter.kv_path].
  destruct fr as [|[n [[|nd ns]|]] fr]; cbn [iframes map fst snd option_map gremaining fweight oweight weights] in *.
  - apply some_inj in Hr. subst gs. eauto.
  - cbn [it_next]. specialize (IH path ((n, None) :: fr) gs Hr). cbn [fweight oweight iframes map fst snd option_map] in IH.
    assert (1 + 0 + fweight fr < fuel) as Hw' by lia. specialize (IH Hw'). destruct gs; [exact IH|].
    destruct IH as (path' & fr' & E1 & E2 & E3). exists path', fr'. split; [exact E1|]. split; [exact E2|lia].
  - cbn [it_next r_prefix]. cbn [groupings] in Hr. destruct (grouping d path nd) as [l1|] eqn:E1; [|discriminate Hr].
    destruct (groupings d path ns) as [l2|] eqn:E2; [|discriminate Hr]. cbn [opt_app] in Hr.
    destruct (gremaining d (k_pop n path) fr) as [l3|] eqn:E3; [|discriminate Hr]. apply some_inj in Hr.
    destruct (grouping_some _ _ _ _ E1) as (p & x & Ep & Ex & El1).
    rewrite Ep. cbn [load_prefix bind].
    assert (dd (path ++ p) (ROwned nd) = Ok (d (path ++ p) x)) as ->.
    { unfold dd, by_path. cbn [r_value_opt]. unfold shown in Ex. destruct (blob_opt (n_value nd)) as [[b|b]|]; try discriminate;
        apply some_inj in Ex; subst x; reflexivity. }
    cbn [bind]. destruct (d (path ++ p) x).
    + destruct El1 as (oc & l' & El & Ec & El1).
      assert (r_load_children_owned detached_read (ROwned nd) = Ok (option_map IOwned oc)) as ->.
      { cbn [r_load_children_owned]. unfold load_children_owned. destruct (n_kids nd) as [cs|[|y id]]; cbn [loaded] in El; try discriminate;
          apply some_inj in El; subst oc; reflexivity. }
      cbn [bind]. pose proof (weight_loaded _ _ El) as Hl.
      assert (gremaining d (path ++ p) ((length p, oc) :: (n, Some ns) :: fr) = Some (l' ++ l2 ++ l3)) as R2.
      { cbn [gremaining]. rewrite Ec. change (path ++ p) with (k_append p path). rewrite pop_append, E2, E3. reflexivity. }
      assert (r_value_opt (ROwned nd) = None /\ x = None \/ exists b, r_value_opt (ROwned nd) = Some (Data b) /\ x = Some b) as Hx.
      { cbn [r_value_opt]. unfold shown in Ex. destruct (blob_opt (n_value nd)) as [[b|b]|]; try discriminate; apply some_inj in Ex; subst x; eauto. }
      destruct Hx as [[-> ->]|(b & -> & ->)].
      * cbn [gown app] in El1. subst l1 gs. rewrite <- app_assoc.
        specialize (IH (path ++ p) ((length p, oc) :: (n, Some ns) :: fr) (l' ++ l2 ++ l3) R2).
        cbn [fweight oweight iframes map fst snd option_map] in IH.
        assert (1 + oweight oc + (1 + (1 + weights ns) + fweight fr) < fuel) as Hw' by lia. specialize (IH Hw').
        destruct (l' ++ l2 ++ l3); [exact IH|]. destruct IH as (path' & fr' & X1 & X2 & X3). exists path', fr'. split; [exact X1|]. split; [exact X2|lia].
      * cbn [gown app] in El1. subst l1. cbn [app] in Hr. subst gs. cbn [r_to_owned bind].
        exists (path ++ p), ((length p, oc) :: (n, Some ns) :: fr). split; [reflexivity|]. split; [rewrite R2; f_equal; apply app_assoc|].
        cbn [fweight oweight]. lia.
    + subst l1. cbn [app] in Hr. subst gs. cbn [r_to_owned bind].
      exists path, ((n, Some ns) :: fr). split.
      * change (key_pop (path ++ p) (length p)) with (k_pop (length p) (k_append p path)). rewrite pop_append. reflexivity.
      * cbn [gremaining fweight oweight]. rewrite E2, E3. split; [reflexivity|]. pose proof (weight_pos nd). lia.
  - assert (gremaining d (k_pop n path) fr = Some gs) as Hr'. { cbn [opt_app app] in Hr. destruct (gremaining d (k_pop n path) fr); exact Hr. }
    specialize (IH (k_pop n path) fr gs Hr'). assert (fweight fr < fuel) as Hw' by lia. specialize (IH Hw').
    change (key_pop path n) with (k_pop n path). destruct gs; [exact IH|].
    destruct IH as (path' & fr' & X1 & X2 & X3). exists path', fr'. split; [exact X1|]. split; [exact X2|lia].
Qed.
Lemma gb_collect : forall gs fuel path fr, gremaining d path fr = Some gs -> fweight fr + length gs + 1 < fuel ->
  collect (gb_next detached_read dd) fuel (KV path (iframes fr)) = Ok gs.
Proof.
  induction gs as [|n gs IH]; intros [|fuel] path fr Hr Hw; try lia; cbn [collect length] in *; unfold gb_next at 1;
    (assert (fweight fr < fuel) as Hf by lia); pose proof (gb_pure fuel path fr _ Hr Hf) as G; cbn beta iota in G.
  - destruct G as (s & ->). reflexivity.
  - destruct G as (path' & fr' & -> & R' & W'). cbn [bind]. rewrite (IH fuel path' fr' R'); [reflexivity|lia].
Qed.
Lemma gb_all t gs : grouping d [] t = Some gs -> t_group_by detached_read t dd ⇓ Ok gs.
Proof.
  intros E. split; [discriminate|]. exists (fweight [(0, Some [t])] + length gs + 2). intros fuel L. unfold t_group_by, kv_new.
  apply (gb_collect gs fuel [] [(0, Some [t])]); [|lia]. cbn [gremaining groupings]. rewrite E. cbn. now rewrite !app_nil_r.
Qed.
Lemma grouping_rep n g : Rep false detached_read n g -> forall pre, exists gs, grouping d pre n = Some gs.
Proof.
  revert g. induction n as [p v ns IH|p v id] using hnode_ind; intros g Rg pre; inversion Rg as [? ? ? p' v' ns' cs RP RV RK RC]; subst.
  - destruct RP as [->|[? _]]; [|discriminate].
    destruct RK as [E|[[E _]|(? & ? & ? & E & _)]]; try discriminate. injection E as <-.
    assert (exists x, shown v = Some x) as (x & Ex).
    { unfold shown. destruct v' as [y|]; cbn [RepV] in RV; [destruct RV as [->|(? & ? & _ & D)]; [|discriminate D]|subst v]; cbn; eauto. }
    cbn [grouping]. rewrite Ex. destruct (d (pre ++ p') x); [|eauto].
    assert (exists l, groupings d (pre ++ p') ns = Some l) as (l & EL).
    { clear -IH RC. induction RC as [|n c ns cs H1 H2 IH2]; [cbn; eauto|]. inversion IH; subst. cbn [groupings].
      destruct (H3 _ H1 (pre ++ p')) as (a & ->). destruct (IH2 H4) as (b & ->). eauto. }
    match goal with |- context [match ?g ns with _ => _ end] => assert (forall x, g x = groupings d (pre ++ p') x) as -> end.
    { induction x0 as [|y z IHx]; [reflexivity|]. cbn [groupings]. now rewrite IHx. }
    rewrite EL. eauto.
  - destruct RP as [->|[? _]]; [|discriminate].
    destruct RK as [E|[[E ->]|(? & ? & ? & E & D & _)]]; try discriminate. inversion E; subst.
    assert (exists x, shown v = Some x) as (x & Ex).
    { unfold shown. destruct v' as [y|]; cbn [RepV] in RV; [destruct RV as [->|(? & ? & _ & D)]; [|discriminate D]|subst v]; cbn; eauto. }
    cbn [grouping]. rewrite Ex. destruct (d (pre ++ p') x); eauto.
Qed.
End Pure.
Lemma grouping_map dbg t m d : reachable dbg t -> holds detached_read t m ->
  exists ts ls, grouping d [] t = Some ts /\
    Forall2 (fun u l => exists mu, holds detached_read u mu /\ lists l mu) ts ls /\ lists (concat ls) m /\
    Forall (group_of d m) ls.
Proof.
  intros R H. destruct (reachable_good dbg t R) as (g & Rg & _). destruct (grouping_rep d t g Rg []) as (gs & Eg).
  destruct (mem_groups dbg t m d R H) as (ts & ls & C & Rest).
  assert (Ok ts = Ok gs) as Et by (apply (converges_det _ _ _ C (gb_all d t gs Eg))).
  injection Et as ->. exists gs, ls. auto.
Qed.
