(** Histories on attached trees behave like histories on plain maps. *)
From Verif Require Import Base BaseLemmas Header Node Combine Iter Api Tree Rep JoinBase JoinProofs
  WithProofs PrefixProofs PredProofs FindProofs Entries IterProofs Canon ScanProofs Sim Spec Client Top TopOps
  Store StoreSpec StoreProofs World.

(** Merging an in-memory tree into any tree, never deleting. *)
Lemma y_merge dbg ids rd t g (G : good ids rd t g) u gu (U : good false detached_read u gu) h :
  yields ids rd (t_outer_combine_with dbg rd detached_read (detach_converter detached_read) t u
      (combiner_with rd detached_read (fun x y => Some (h x y))))
    (m_outer (fun x y => Some (h x y)) (lookup g) (lookup gu)).
Proof.
  eapply yields_ok with (n := size g + size gu + 3).
  { intros a b L. apply outer_combine_with_sim; auto using rsim_refl, sim_refl.
    - intros. apply r_detached_sim; auto using rsim_refl.
    - intros. apply detach_conv_sim; auto using rsim_refl. }
  destruct G as (R & C & E), U as (R' & C' & E'). unfold t_outer_combine_with.
  eapply okp_imp; [eapply use_recw with (ta := g) (tb := gu); [eapply (outer_combine_with_ok dbg ids false rd detached_read False (or_introl det_detached)
    (detach_converter detached_read) _ (fun x y => Some (h x y)))|..]|].
  - apply combiner_with_ok.
  - intros _ x y. discriminate.
  - intros. eapply detach_node; eauto using det_detached.
  - intros. eapply detach_short; eauto using det_detached.
  - intros. eapply detach_value; eauto using det_detached.
  - exact R.
  - now apply Rep_NRep.
  - exact C.
  - exact C'.
  - exact I.
  - lia.
  - intros n (t' & R2 & E2 & C2 & L2). exists t'. split; [repeat split; auto|].
    intros x. rewrite L2. unfold m_outer. destruct (lookup g x), (lookup gu x); reflexivity.
Qed.

Section World.
Context (dbg : bool) (S : store) (inv : st S -> Prop) (L : strict S inv).
(** [ids = true]: keys of any length; [ids = false]: short keys. *)
Context (ids : bool).

(** A tree of the world and its contents. *)
Definition tok (s : st S) (t : node) (m : kmap) : Prop :=
  exists g, good ids (st_read S s) t g /\ same (lookup g) m /\ (ids = false -> short_keys m).
(** A saved id and the contents saved. *)
Definition iok (s : st S) (id : bytes) (m : kmap) : Prop :=
  exists t, t_load S s (Some id) = Ok t /\ tok s t m.
Definition wok (w : world S) (a : maps) : Prop :=
  inv (w_st w) /\ Forall2 (tok (w_st w)) (w_trees w) (m_trees a) /\
  Forall2 (iok (w_st w)) (w_ids w) (m_saved a).

Lemma tok_grows s s' t m : grows S s s' -> tok s t m -> tok s' t m.
Proof.
  intros G (g & (R & C & E) & H). exists g. split; [|exact H]. repeat split; auto. eapply Rep_grows; eauto.
Qed.
Lemma iok_grows s s' id m : grows S s s' -> iok s id m -> iok s' id m.
Proof.
  intros G (t & E & H). exists t. split; [|eapply tok_grows; eauto].
  unfold t_load in *. destruct (st_read S s id) eqn:Er; try discriminate. now rewrite (G _ _ Er).
Qed.
Lemma Forall2_imp {A B} (P Q : A -> B -> Prop) l l' : (forall a b, P a b -> Q a b) ->
  Forall2 P l l' -> Forall2 Q l l'.
Proof. induction 2; constructor; auto. Qed.
Lemma wok_grows s' w a : grows S (w_st w) s' -> inv s' -> wok w a -> wok (World s' (w_trees w) (w_ids w)) a.
Proof.
  intros G I (_ & T & J). split; [exact I|]. cbn. split.
  - eapply Forall2_imp; [|exact T]. intros. eapply tok_grows; eauto.
  - eapply Forall2_imp; [|exact J]. intros. eapply iok_grows; eauto.
Qed.

Lemma Forall2_nth {A B} (P : A -> B -> Prop) l l' i : Forall2 P l l' ->
  match nth_error l i, nth_error l' i with
  | Some x, Some y => P x y
  | None, None => True
  | _, _ => False
  end.
Proof. intros F. revert i. induction F; intros [|i]; cbn; auto; apply IHF. Qed.
Lemma Forall2_replace {A B} (P : A -> B -> Prop) l l' i x y : Forall2 P l l' -> P x y ->
  Forall2 P (replace i x l) (replace i y l').
Proof. intros F. revert i. induction F; intros [|i] H'; cbn; constructor; auto. Qed.
Lemma replace_same {A} (l : list A) i x : nth_error l i = Some x -> replace i x l = l.
Proof. revert i. induction l as [|y l IH]; intros [|i]; cbn; try congruence. intros H. now rewrite IH. Qed.

Lemma wok_add w a t m : wok w a -> tok (w_st w) t m -> wok (add_tree S w t) (add_map a m).
Proof.
  intros (I & T & J) H. split; [exact I|]. split; [|exact J]. cbn. apply Forall2_app; auto.
Qed.
Lemma wok_set w a i t m : wok w a -> tok (w_st w) t m -> wok (set_tree S w i t) (set_map a i m).
Proof.
  intros (I & T & J) H. split; [exact I|]. split; [|exact J]. cbn. apply Forall2_replace; auto.
Qed.

(** One command does what it should. *)
Definition step_ok (w : world S) (a : maps) (c : cmd) : Prop :=
  exists ok w', exec1 dbg S w c ⇓ Ok (ok, w') /\ wok w' (model1 a c ok) /\ (ok = false -> may_refuse S inv).

Lemma step_on_tree w a i (f : node -> nat -> res (bool * world S)) (fm : kmap -> maps) : wok w a ->
  (forall t m, nth_error (w_trees w) i = Some t -> nth_error (m_trees a) i = Some m -> tok (w_st w) t m ->
    exists w', f t ⇓ Ok (true, w') /\ wok w' (fm m)) ->
  exists ok w', (fun n => with_tree S w i (fun t => f t n)) ⇓ Ok (ok, w') /\
    wok w' (if negb ok then a else on_map a i fm) /\ (ok = false -> may_refuse S inv).
Proof.
  intros (I & T & J) H. pose proof (Forall2_nth _ _ _ i T) as N. unfold with_tree, on_map.
  destruct (nth_error (w_trees w) i) as [t|] eqn:E, (nth_error (m_trees a) i) as [m|] eqn:E'; try tauto.
  - destruct (H t m eq_refl eq_refl N) as (w' & C & W). exists true, w'. cbn. repeat split; try apply C; try apply W.
    discriminate.
  - exists true, w. cbn. split; [apply conv_const; discriminate|]. split; [repeat split; auto|discriminate].
Qed.

(** An in-place operation. *)
Lemma step_set w a i (f : node -> nat -> res node) (fm : kmap -> kmap) : wok w a ->
  (forall t g m, good ids (st_read S (w_st w)) t g -> same (lookup g) m -> (ids = false -> short_keys m) ->
    yields ids (st_read S (w_st w)) (f t) (fm m) /\ (ids = false -> short_keys (fm m))) ->
  exists ok w', (fun n => with_tree S w i (fun t => t' <- f t n ;; Ok (true, set_tree S w i t'))) ⇓ Ok (ok, w') /\
    wok w' (if negb ok then a else on_map a i (fun m => set_map a i (fm m))) /\ (ok = false -> may_refuse S inv).
Proof.
  intros W H. apply (step_on_tree w a i (fun t n => t' <- f t n ;; Ok (true, set_tree S w i t'))); [exact W|].
  intros t m _ _ (g & G & E & Sh). destruct (H t g m G E Sh) as [(t' & g' & C & G' & E') Sh'].
  exists (set_tree S w i t'). split.
  - eapply (conv_bind (f t) (fun x _ => Ok (true, set_tree S w i x))); [exact C|]. apply conv_const. discriminate.
  - apply wok_set; [exact W|]. exists g'. auto.
Qed.

Lemma conv_run_bind {B} p (k : node -> nat -> res B) (P : res B -> Prop) : allowed p ->
  (forall u gu, good false detached_read u gu -> same (lookup gu) (meaning p) -> exists r, k u ⇓ r /\ P r) ->
  exists r, (fun n => u <- run dbg p n ;; k u n) ⇓ r /\ P r.
Proof.
  intros A H. destruct (run_ok dbg p A) as (u & gu & C & U & E). destruct (H u gu U E) as (r & C' & Hr).
  exists r. split; [|exact Hr]. eapply conv_bind; eauto.
Qed.

(** The same, after building an in-memory tree. *)
Lemma step_set2 w a i p (f : node -> node -> nat -> res node) (fm : kmap -> kmap) : wok w a -> allowed p ->
  (forall u gu t g m, good false detached_read u gu -> same (lookup gu) (meaning p) ->
    good ids (st_read S (w_st w)) t g -> same (lookup g) m -> (ids = false -> short_keys m) ->
    yields ids (st_read S (w_st w)) (f u t) (fm m) /\ (ids = false -> short_keys (fm m))) ->
  exists ok w', (fun n => u <- run dbg p n ;; with_tree S w i (fun t => t' <- f u t n ;; Ok (true, set_tree S w i t'))) ⇓ Ok (ok, w') /\
    wok w' (if negb ok then a else on_map a i (fun m => set_map a i (fm m))) /\ (ok = false -> may_refuse S inv).
Proof.
  intros W A H.
  destruct (conv_run_bind p (fun u n => with_tree S w i (fun t => t' <- f u t n ;; Ok (true, set_tree S w i t')))
    (fun r => exists ok w', r = Ok (ok, w') /\
      wok w' (if negb ok then a else on_map a i (fun m => set_map a i (fm m))) /\ (ok = false -> may_refuse S inv)) A)
    as (r & C & ok & w' & -> & H').
  - intros u gu U E. destruct (step_set w a i (f u) fm W) as (ok & w' & C & H').
    + intros t g m G Em Sh. eapply H; eauto.
    + exists (Ok (ok, w')). split; [exact C|]. eauto.
  - exists ok, w'. auto.
Qed.

Lemma on_write_ok {A} w a (m : wm (st S) A) (Q : A -> st S -> Prop) (k : A -> st S -> world S) am :
  wok w a -> wpost S inv m (w_st w) Q ->
  (forall x s', inv s' -> grows S (w_st w) s' -> Q x s' -> wok (k x s') am) ->
  exists ok w', on_write S w (m (w_st w)) k = Ok (ok, w') /\ wok w' (if negb ok then a else am) /\
    (ok = false -> may_refuse S inv).
Proof.
  intros W (r & s' & E & I' & G & H) K. unfold on_write. rewrite E. destruct H as [[-> M]|(x & -> & H)].
  - exists false. eexists. split; [reflexivity|]. cbn. split; [|auto]. now apply wok_grows.
  - exists true. eexists. split; [reflexivity|]. cbn. split; [eauto|discriminate].
Qed.

Lemma short_sub m m' : (forall k, m' k <> None -> m k <> None) -> short_keys m -> short_keys m'.
Proof. intros H Sh k Hk. apply Sh. auto. Qed.

Lemma tshort_ok g m : croot g -> same (lookup g) m -> (ids = false -> short_keys m) -> ids = true \/ tshort g.
Proof.
  intros C E H. destruct ids; [now left|right]. apply short_edges; [exact C|].
  intros k. rewrite E. now apply H.
Qed.

Lemma good_attach u gu s : good false detached_read u gu -> good ids (st_read S s) u gu.
Proof. intros (R & C & E). repeat split; auto. eapply Rep_detached; eauto. Qed.

(** Which commands are admissible. *)
Definition cmd_ok (c : cmd) : Prop := if ids then extending c else short_cmd c.

Lemma exec1_ok w a c : wok w a -> cmd_ok c -> (dbg = true -> ~ release_only c) -> step_ok w a c.
Proof.
  intros W Hc Hd0. pose proof W as (I & T & J). unfold step_ok, model1.
  destruct c; cbn [exec1].
  - (* empty *) exists true. eexists. split; [apply conv_const; discriminate|]. split; [|discriminate].
    apply wok_add; [exact W|]. exists tempty. split; [apply good_empty|]. split; [intros k; apply tempty_lookup|].
    intros _ k H. now destruct H.
  - (* attach *)
    assert (allowed p /\ (ids = false -> short_keys (meaning p))) as [A Sh].
    { unfold cmd_ok in Hc. destruct ids; cbn in Hc; split; try tauto. discriminate. }
    destruct (conv_run_bind p (fun t _ => on_write S w (t_attached S t (w_st w))
        (fun t' s' => World s' (w_trees w ++ [t']) (w_ids w)))
      (fun r => exists ok w', r = Ok (ok, w') /\ wok w' (if negb ok then a else add_map a (meaning p)) /\
         (ok = false -> may_refuse S inv)) A) as (r & C & ok & w' & -> & H').
    + intros u gu U E. pose proof (good_attach u gu (w_st w) U) as (R & C & Ee).
      destruct (on_write_ok w a (t_attached S u) _ (fun t' s' => World s' (w_trees w ++ [t']) (w_ids w))
        (add_map a (meaning p)) W (attached_ok S inv L ids gu u (w_st w) I R (tshort_ok _ _ C E Sh))) as (ok & w' & E' & H').
      * intros t' s' I' G' (R' & E'). change (wok (add_tree S (World s' (w_trees w) (w_ids w)) t') (add_map a (meaning p))).
        apply wok_add; [apply wok_grows; auto|]. cbn. exists gu. repeat split; auto.
      * exists (Ok (ok, w')). split; [|eauto]. rewrite E'. apply conv_const. discriminate.
    + exists ok, w'. auto.
  - (* load *)
    pose proof (Forall2_nth _ _ _ j J) as N.
    destruct (nth_error (w_ids w) j) as [id|] eqn:E, (nth_error (m_saved a) j) as [m|] eqn:E'; try tauto.
    + destruct N as (t & El & H). exists true, (add_tree S w t). cbn [negb].
      split; [unfold exec1; rewrite E, El; apply conv_const; discriminate|]. split; [now apply wok_add|discriminate].
    + exists true, w. cbn [negb]. split; [unfold exec1; rewrite E; apply conv_const; discriminate|]. split; [exact W|discriminate].
  - (* clone *)
    apply (step_on_tree w a i (fun t _ => Ok (true, add_tree S w t))); [exact W|].
    intros t m _ _ H. exists (add_tree S w t). split; [apply conv_const; discriminate|]. now apply wok_add.
  - (* insert *)
    apply (step_set w a i (fun t => t_insert dbg (st_read S (w_st w)) t k v) (fun m => m_insert m k v)); [exact W|].
    intros t g m G E Sh. split.
    + eapply yields_ext; [|exact (y_insert dbg _ _ t g G k v)]. intros x. unfold m_insert. now rewrite E.
    + intros Hi x. unfold m_insert. destruct (beq_spec x k) as [->|].
      * intros _. unfold cmd_ok in Hc. rewrite Hi in Hc. exact Hc.
      * apply Sh; exact Hi.
  - (* merge *)
    assert (allowed p /\ (ids = false -> short_keys (meaning p))) as [A Sp].
    { unfold cmd_ok in Hc. destruct ids; cbn in Hc; split; try tauto. discriminate. }
    apply (step_set2 w a i p (fun u t => t_outer_combine_with dbg (st_read S (w_st w)) detached_read (detach_converter detached_read) t u
      (combiner_with (st_read S (w_st w)) detached_read (fun x y => Some (h x y)))) (fun m => m_outer (fun x y => Some (h x y)) m (meaning p))); auto.
    intros u gu t g m U Eu G E Sh. split.
    + eapply yields_ext; [|eapply y_merge; eauto]. intros x. unfold m_outer. now rewrite E, Eu.
    + intros Hi x. unfold m_outer. destruct (m x) eqn:Em; [intros _; apply (Sh Hi); congruence|].
      destruct (meaning p x) eqn:Ep; [|congruence]. intros _. apply (Sp Hi). congruence.
  - (* filter_prefix *)
    assert (k <> [] \/ s = []) as Hk by (unfold cmd_ok in Hc; destruct ids; cbn in Hc; tauto).
    apply (step_on_tree w a i (fun t n => t' <- t_filter_prefix (st_read S (w_st w)) t k s n ;; Ok (true, add_tree S w t'))); [exact W|].
    intros t m _ _ (g & (R & C & Ee) & E & Sh).
    assert (holds (st_read S (w_st w)) t m) as Hh by (eapply holds_ext; [exact E|eapply good_holds; eauto]).
    destruct (g_filter_prefix ids (st_read S (w_st w)) t g m R C Hh k s ltac:(tauto) Ee) as (t' & g' & Ct & G' & H').
    exists (add_tree S w t'). split.
    + eapply (conv_bind (t_filter_prefix (st_read S (w_st w)) t k s) (fun x _ => Ok (true, add_tree S w x))); [exact Ct|].
      apply conv_const. discriminate.
    + apply wok_add; [exact W|]. exists g'. split; [exact G'|]. split.
      * destruct G' as (R' & C' & _). intros x. symmetry. revert x. eapply holds_lookup; eauto.
      * intros Hi x. unfold m_filter_prefix. destruct (strip_prefix s x) as [r|] eqn:Es; [|congruence].
        intros Hx. apply (Sh Hi) in Hx. unfold cmd_ok in Hc. rewrite Hi in Hc. destruct Hc as [_ Hl].
        rewrite strip_prefix_strip in Es. apply strip_spec in Es as ->. unfold short in *. rewrite app_length in *. unfold bytes in *. lia.
  - (* reattach *)
    unfold exec1, with_tree. pose proof (Forall2_nth _ _ _ i T) as N. unfold on_map.
    destruct (nth_error (w_trees w) i) as [t|] eqn:E, (nth_error (m_trees a) i) as [m|] eqn:E'; try tauto.
    + destruct N as (g & (R & C & Ee) & Em & Sh).
      destruct (on_write_ok w a (t_reattach S t) _ (fun x s' => World s' (replace i (snd x) (w_trees w)) (w_ids w ++ [fst x]))
        (Maps (m_trees a) (m_saved a ++ [m])) W (reattach_ok S inv L ids g t (w_st w) I R (tshort_ok _ _ C Em Sh))) as (ok & w' & Ew & H').
      * intros [id t'] s' I' G' (El & R' & E2). cbn [fst snd] in *.
        destruct (wok_grows s' w a G' I' W) as (_ & T' & J'). cbn in T', J'.
        assert (tok s' t' m) as Ht by (exists g; repeat split; auto).
        split; [exact I'|]. cbn. split.
        -- rewrite <- (replace_same (m_trees a) i m E'). apply Forall2_replace; auto.
        -- apply Forall2_app; auto. constructor; [|constructor]. exists t'. auto.
      * exists ok, w'. split; [|exact H']. rewrite Ew. apply conv_const. discriminate.
    + exists true, w. cbn [negb]. split; [apply conv_const; discriminate|]. split; [exact W|discriminate].
  - (* write *)
    destruct (on_write_ok w a (w_write S d) _ (fun _ s' => World s' (w_trees w) (w_ids w)) a W (wpost_write S inv L d (w_st w) I))
      as (ok & w' & Ew & H').
    + intros x s' I' G' _. now apply wok_grows.
    + exists ok, w'. split; [|exact H']. unfold w_write in Ew. unfold exec1. rewrite Ew. apply conv_const. discriminate.
  - (* remove *)
    assert (ids = false) as Hi by (unfold cmd_ok in Hc; destruct ids; [destruct Hc|reflexivity]).
    apply (step_set w a i (fun t => t_remove dbg (st_read S (w_st w)) t k) (fun m => m_remove m k)); [exact W|].
    intros t g m G E Sh. split.
    + eapply yields_ext; [|exact (y_remove dbg _ _ t g G Hi (fun h0 => False_ind _ (Hd0 h0 Logic.I)) k)]. intros x. unfold m_remove. now rewrite E.
    + intros _. eapply short_sub; [|exact (Sh Hi)]. intros x. unfold m_remove. destruct (beq x k); congruence.
  - (* remove_prefix *)
    assert (ids = false) as Hi by (unfold cmd_ok in Hc; destruct ids; [destruct Hc|reflexivity]).
    apply (step_set w a i (fun t => t_remove_prefix dbg (st_read S (w_st w)) t k) (fun m => m_remove_prefix m k)); [exact W|].
    intros t g m G E Sh. split.
    + eapply yields_ext; [|exact (y_remove_prefix dbg _ _ t g k G Hi (fun h0 => False_ind _ (Hd0 h0 Logic.I)))]. intros x. unfold m_remove_prefix. now rewrite E.
    + intros _. eapply short_sub; [|exact (Sh Hi)]. intros x. unfold m_remove_prefix. destruct (starts_with k x); congruence.
  - (* outer_with *)
    assert (ids = false) as Hi by (unfold cmd_ok in Hc; destruct ids; [destruct Hc|reflexivity]).
    unfold cmd_ok in Hc. rewrite Hi in Hc. destruct Hc as [A Sp].
    apply (step_set2 w a i p (fun u t => t_outer_combine_with dbg (st_read S (w_st w)) detached_read (detach_converter detached_read) t u
      (combiner_with (st_read S (w_st w)) detached_read h)) (fun m => m_outer h m (meaning p))); auto.
    intros u gu t g m U Eu G E Sh. split.
    + eapply yields_ext; [|exact (y_outer_with dbg ids _ t g G Hi false detached_read det_detached u gu U h)].
      intros x. unfold m_outer. now rewrite E, Eu.
    + intros _ x. unfold m_outer. destruct (m x) eqn:Em; [intros _; apply (Sh Hi); congruence|].
      destruct (meaning p x) eqn:Ep; [|congruence]. intros _. apply Sp. congruence.
  - (* inner_with *)
    assert (ids = false) as Hi by (unfold cmd_ok in Hc; destruct ids; [destruct Hc|reflexivity]).
    unfold cmd_ok in Hc. rewrite Hi in Hc. cbn in Hc.
    apply (step_set2 w a i p (fun u t => t_inner_combine_with dbg (st_read S (w_st w)) detached_read t u
      (combiner_with (st_read S (w_st w)) detached_read h)) (fun m => m_inner h m (meaning p))); auto.
    intros u gu t g m U Eu G E Sh. split.
    + eapply yields_ext; [|exact (y_inner_with dbg ids _ t g G Hi false detached_read det_detached u gu U h)].
      intros x. unfold m_inner. now rewrite E, Eu.
    + intros _. eapply short_sub; [|exact (Sh Hi)]. intros x. unfold m_inner. destruct (m x); congruence.
  - (* left_with *)
    assert (ids = false) as Hi by (unfold cmd_ok in Hc; destruct ids; [destruct Hc|reflexivity]).
    unfold cmd_ok in Hc. rewrite Hi in Hc. cbn in Hc.
    apply (step_set2 w a i p (fun u t => t_left_combine_with dbg (st_read S (w_st w)) detached_read t u
      (combiner_with (st_read S (w_st w)) detached_read h)) (fun m => m_left h m (meaning p))); auto.
    intros u gu t g m U Eu G E Sh. split.
    + eapply yields_ext; [|exact (y_left_with dbg ids _ t g G Hi (fun h0 => False_ind _ (Hd0 h0 Logic.I)) false detached_read det_detached u gu U h)].
      intros x. unfold m_left. now rewrite E, Eu.
    + intros _. eapply short_sub; [|exact (Sh Hi)]. intros x. unfold m_left. destruct (m x); congruence.
  - (* remove_prefix_with *)
    assert (ids = false) as Hi by (unfold cmd_ok in Hc; destruct ids; [destruct Hc|reflexivity]).
    unfold cmd_ok in Hc. rewrite Hi in Hc. cbn in Hc.
    apply (step_set2 w a i p (fun u t => t_remove_prefix_with dbg (st_read S (w_st w)) detached_read t u (selector detached_read s))
      (fun m => m_remove_prefix_with s m (meaning p))); auto.
    intros u gu t g m U Eu G E Sh. split.
    + eapply yields_ext; [|exact (y_remove_prefix_with dbg ids _ t g G Hi (fun h0 => False_ind _ (Hd0 h0 Logic.I)) false detached_read det_detached u gu U
        (selector detached_read s) s (selector_ok _ s))].
      intros x. unfold m_remove_prefix_with. now rewrite E, (below_selected_ext s _ _ x Eu).
    + intros _. eapply short_sub; [|exact (Sh Hi)]. intros x. unfold m_remove_prefix_with. destruct below_selected; congruence.
  - (* retain_prefix_with *)
    assert (ids = false) as Hi by (unfold cmd_ok in Hc; destruct ids; [destruct Hc|reflexivity]).
    unfold cmd_ok in Hc. rewrite Hi in Hc. destruct Hc as [A Hd].
    apply (step_set2 w a i p (fun u t => t_retain_prefix_with dbg (st_read S (w_st w)) detached_read t u (selector detached_read s))
      (fun m => m_retain_prefix_with s m (meaning p))); auto.
    intros u gu t g m U Eu G E Sh. split.
    + eapply yields_ext; [|eapply (y_retain_prefix_with dbg ids _ t g G Hi (fun h0 => False_ind _ (Hd0 h0 Logic.I)) false detached_read det_detached u gu U
        (selector detached_read s) s (selector_ok _ s))].
      * intros x. unfold m_retain_prefix_with. now rewrite E, (below_selected_ext s _ _ x Eu).
      * intros q r x y. rewrite !Eu. apply Hd.
    + intros _. eapply short_sub; [|exact (Sh Hi)]. intros x. unfold m_retain_prefix_with. destruct below_selected; congruence.
Qed.

Lemma exec_ok h : forall w a, wok w a -> Forall cmd_ok h -> Forall (fun c => dbg = true -> ~ release_only c) h ->
  exists oks w', exec dbg S w h ⇓ Ok (oks, w') /\ wok w' (model a h oks) /\ length oks = length h /\
    (In false oks -> may_refuse S inv).
Proof.
  induction h as [|c h IH]; intros w a W F Fr; cbn [exec model].
  - exists [], w. split; [apply conv_const; discriminate|]. cbn. tauto.
  - inversion F; inversion Fr; subst. destruct (exec1_ok w a c W H1 H5) as (ok & w1 & C1 & W1 & M1).
    destruct (IH w1 _ W1 H2 H6) as (oks & w2 & C2 & W2 & Hl & M2).
    exists (ok :: oks), w2. split; [|split; [exact W2|split; [cbn; lia|]]].
    + eapply (conv_bind (exec1 dbg S w c) (fun x n => y <- exec dbg S (snd x) h n ;; Ok (fst x :: fst y, snd y))); [exact C1|].
      eapply (conv_bind (exec dbg S w1 h) (fun y _ => Ok (ok :: fst y, snd y))); [exact C2|].
      apply conv_const. discriminate.
    + intros [E|E]; auto.
Qed.
End World.

(** The main theorem about histories. *)
Theorem strict_history dbg (S : store) inv (L : strict S inv) (s : st S) h : inv s -> history_ok dbg h ->
  exists oks w, exec dbg S (start s) h ⇓ Ok (oks, w) /\ length oks = length h /\
    (In false oks -> may_refuse S inv) /\
    exists ids, wok S inv ids w (model no_maps h oks).
Proof.
  intros I H.
  assert (forall ids, Forall (cmd_ok ids) h -> Forall (fun c => dbg = true -> ~ release_only c) h ->
    exists oks w, exec dbg S (start s) h ⇓ Ok (oks, w) /\ length oks = length h /\
    (In false oks -> may_refuse S inv) /\ exists ids, wok S inv ids w (model no_maps h oks)) as A.
  { intros ids F Fr. destruct (exec_ok dbg S inv L ids h (start s) no_maps) as (oks & w & C & W & Hl & M).
    - split; [exact I|]. split; constructor.
    - exact F.
    - exact Fr.
    - exists oks, w. eauto. }
  destruct H as [H|H].
  - apply (A true); [exact H|]. eapply Forall_impl; [|exact H]. intros c Hc _. destruct c; cbn in *; tauto.
  - apply (A false); (eapply Forall_impl; [|exact H]); intros c Hc; apply Hc.
Qed.
