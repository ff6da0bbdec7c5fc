(** The lemmas behind the theorems about attached trees. *)
From Verif Require Import Base BaseLemmas Header Node Combine Iter Api Tree Rep JoinBase JoinProofs
  WithProofs PrefixProofs PredProofs FindProofs Entries IterProofs Canon ScanProofs Sim Spec Client Top TopOps
  MemLemmas Store StoreSpec StoreProofs World WorldProofs Logged.

(** [f] terminates with a result satisfying [P], or it panics. *)

Lemma conv_mono_panic {A} (f : nat -> res A) n : mono f -> f n = Panic -> f ⇓ Panic.
Proof.
  intros M E. split; [discriminate|]. exists n. intros m Hm.
  destruct (M n m Hm) as [H|[[H _]|H]]; congruence.
Qed.
Lemma okp_or_panic {A} (f : nat -> res A) n (P : A -> Prop) : mono f -> okp True (f n) P -> ok_or_panic f P.
Proof.
  intros M [(x & E & H)|[E _]].
  - left. exists x. split; [|exact H]. eapply conv_mono; eauto.
  - right. eapply conv_mono_panic; eauto.
Qed.
Lemma okp_True {A} (r : res A) P : okp False r P -> okp True r P.
Proof. intros [H|[_ []]]. now left. Qed.

Section Store.
Context (dbg : bool) (S : store) (inv : st S -> Prop) (L : lawful S inv).

Lemma attached_inv (P : list cmd -> Prop) s t m : (forall h, P h -> history_ok dbg h) -> attached_by P dbg S inv s t m ->
  inv s /\ exists ids, tok S ids s t m.
Proof.
  intros HP (s0 & h & oks & w & i & I0 & H & C & <- & Ht & Hm).
  destruct (history dbg S inv L s0 h I0 (HP _ H)) as (oks' & w' & C' & _ & _ & ids & W).
  pose proof (conv_unique _ _ _ C C') as E. injection E as <- <-. destruct W as (I & T & _).
  split; [exact I|]. exists ids. pose proof (Forall2_nth _ _ _ i T) as N. now rewrite Ht, Hm in N.
Qed.
Lemma attached_good s t m : attached dbg S inv s t m ->
  inv s /\ exists ids g, good ids (st_read S s) t g /\ same (lookup g) m.
Proof.
  intros H. destruct (attached_inv _ _ _ _ (fun _ x => x) H) as (I & ids & g & G & E & _). eauto 6.
Qed.
Lemma attached_holds s t m : attached dbg S inv s t m -> holds (st_read S s) t m.
Proof.
  intros H. destruct (attached_good _ _ _ H) as (_ & ids & g & (R & C & _) & E).
  eapply holds_ext; [exact E|]. eapply good_holds; eauto.
Qed.

(** Short keys: the whole history is of the second kind. *)
Lemma short_attached_good s t m : attached_by (short_history dbg) dbg S inv s t m ->
  inv s /\ exists g, good false (st_read S s) t g /\ same (lookup g) m.
Proof.
  intros (s0 & h & oks & w & i & I0 & H & C & <- & Ht & Hm).
  destruct (exec_short dbg S inv L s0 h I0 H) as (oks' & w' & C' & W).
  pose proof (conv_unique _ _ _ C C') as E. injection E as <- <-. destruct W as (I & T & _).
  split; [exact I|]. pose proof (Forall2_nth _ _ _ i T) as N. rewrite Ht, Hm in N.
  destruct N as (g & G & E & _). eauto.
Qed.

Lemma saved_load s id m : saved dbg S inv s id m ->
  exists t, t_load S s (Some id) = Ok t /\ holds (st_read S s) t m.
Proof.
  intros (s0 & h & oks & w & i & I0 & H & C & <- & Ht & Hm).
  destruct (history dbg S inv L s0 h I0 H) as (oks' & w' & C' & _ & _ & ids & W).
  pose proof (conv_unique _ _ _ C C') as E. injection E as <- <-. destruct W as (I & _ & T).
  pose proof (Forall2_nth _ _ _ i T) as N. rewrite Ht, Hm in N.
  destruct N as (t & El & g & (R & Cg & _) & E & _). exists t. split; [exact El|].
  eapply holds_ext; [exact E|]. eapply good_holds; eauto.
Qed.

Lemma history_holds s h : inv s -> history_ok dbg h ->
  exists oks w, exec dbg S (start s) h ⇓ Ok (oks, w) /\ length oks = length h /\
    (In false oks -> may_refuse S inv) /\ inv (w_st w) /\
    Forall2 (holds (st_read S (w_st w))) (w_trees w) (m_trees (model no_maps h oks)) /\
    Forall2 (fun id m => exists t, t_load S (w_st w) (Some id) = Ok t /\ holds (st_read S (w_st w)) t m)
      (w_ids w) (m_saved (model no_maps h oks)).
Proof.
  intros I H. destruct (history dbg S inv L s h I H) as (oks & w & C & Hl & Hr & ids & I' & T & J).
  exists oks, w. split; [exact C|]. split; [exact Hl|]. split; [exact Hr|]. split; [exact I'|].
  assert (forall t m, tok S ids (w_st w) t m -> holds (st_read S (w_st w)) t m) as A.
  { intros t m (g & (R & Cg & _) & E & _). eapply holds_ext; [exact E|]. eapply good_holds; eauto. }
  split; (eapply Forall2_imp; [|eassumption]); [exact A|].
  intros id m (t & E & Ht). eauto.
Qed.

(** Attaching an in-memory tree, and detaching it again. *)
Lemma detach_good ids rd t g : good ids rd t g ->
  exists u, t_detached rd t ⇓ Ok u /\ DRep u g.
Proof.
  intros (R & C & E).
  destruct (conv_ok (t_detached rd t) (Datatypes.S (size g)) (fun u => DRep u g /\ blob_is_id (n_prefix u) = false)) as (u & Cu & Ru & _).
  - intros a b Hl. apply r_detached_sim; auto using rsim_refl.
  - apply (r_detached_True ids rd); [|lia]. now apply Rep_NRep.
  - eauto.
Qed.

Lemma attach_detach s t m : inv s -> reachable dbg t -> holds mem t m ->
  (exists t' s' u, t_attached S t s = (Ok t', s') /\ inv s' /\ holds (st_read S s') t' m /\
     t_detached (st_read S s') t' ⇓ Ok u /\ holds mem u m /\ shape_of u = shape_of t) \/
  (exists s', t_attached S t s = (Err, s') /\ inv s' /\ may_refuse S inv).
Proof.
  intros I Hr Hm. destruct (reachable_good dbg t Hr) as (g & G).
  pose proof (good_attach (logged S) true _ _ (s, []) G) as (R & C & E).
  pose proof (attached_ok (logged S) (linv S inv) (logged_strict S inv L) true g t (s, []) (linv_start S inv s I) R (or_introl eq_refl)) as W.
  assert (same (lookup g) m) as Em.
  { intros k. symmetry. revert k. destruct G as (Rg & _). exact (holds_lookup false detached_read t g m Rg C Hm). }
  destruct (wpost_logged S inv L _ (t_attached S t) s (fun t' s' => Rep true (st_read S s') t' g /\ is_empty t' = tnil g)
    (fwd_attached S inv L t)) as [(t' & s' & Ew & I' & R' & E')|W']; [|left|right; exact W'].
  { eapply wpost_imp; [exact W|]. cbv beta. intros t' s' _ _ [R' E'] I'. split; [|exact E'].
    eapply Rep_mono; [|intros X; exact X|exact R']. intros id x. now apply (linv_more S inv L). }
  assert (good true (st_read S s') t' g) as G' by (repeat split; auto).
  destruct (detach_good _ _ _ _ G') as (u & Cu & Du). exists t', s', u.
  split; [exact Ew|]. split; [exact I'|]. split; [|split; [exact Cu|split]].
  - eapply holds_ext; [exact Em|]. eapply good_holds; eauto.
  - eapply holds_ext; [exact Em|]. eapply good_holds; eauto.
  - destruct G as (Rg & _). now rewrite (DRep_shape _ _ Du), (DRep_shape _ _ Rg).
Qed.

(** Reattaching: the id can be loaded at once; a failed call tells so. *)
End Store.

(* ------------------------------------------------------------------ *)
(** Calls that may panic on attached trees: what they return is right. *)

Section Panicky.
Context (dbg : bool) (idsA idsB : bool) (rd rdB : reader).
Context (t u : node) (g gu : tree) (G : good idsA rd t g) (U : good idsB rdB u gu).

Notation gives f M := (ok_or_panic f (fun x => holds detached_read x M)).

Lemma good_sound (f : nat -> res node) n M : mono f ->
  okp True (f n) (fun x => exists g', good false detached_read x g' /\ same (lookup g') M) -> gives f M.
Proof.
  intros Hm H. eapply okp_or_panic; [exact Hm|]. eapply okp_imp; [exact H|].
  intros x (g' & (R & C & _) & E). eapply holds_ext; [exact E|]. eapply good_holds; eauto.
Qed.

Lemma p_outer h : gives (t_outer_combine dbg rd rdB t u (combiner rd rdB h)) (m_outer h (lookup g) (lookup gu)).
Proof.
  eapply good_sound with (n := size g + size gu + 3).
  { intros a b L. apply outer_combine_sim; auto using rsim_refl, sim_refl. }
  unfold t_outer_combine.
  eapply okp_imp; [eapply use_recok with (ta := g) (tb := gu); [eapply (outer_combine_ok dbg idsA idsB rd rdB True (or_intror I) (or_intror I) _ h)|..]|].
  - intros. apply okp_True. now apply combiner_ok.
  - now apply good_NRep.
  - now apply good_NRep.
  - apply G.
  - apply U.
  - lia.
  - intros n (t' & R2 & E2 & C2 & L2). exists t'. split; [repeat split; auto|].
    intros x. rewrite L2. unfold m_outer, m_inner, m_left. destruct (lookup g x), (lookup gu x); reflexivity.
Qed.

Lemma p_inner h : gives (t_inner_combine dbg rd rdB t u (combiner rd rdB h)) (m_inner h (lookup g) (lookup gu)).
Proof.
  eapply good_sound with (n := size g + size gu + 3).
  { intros a b L. apply inner_combine_sim; auto using rsim_refl, sim_refl. }
  unfold t_inner_combine.
  eapply okp_imp; [eapply use_recok with (ta := g) (tb := gu); [eapply (inner_combine_ok dbg idsA idsB rd rdB True (or_intror I) (or_intror I) _ h)|..]|].
  - intros. apply okp_True. now apply combiner_ok.
  - now apply good_NRep.
  - now apply good_NRep.
  - apply G.
  - apply U.
  - lia.
  - intros n (t' & R2 & E2 & C2 & L2). exists t'. split; [repeat split; auto|].
    intros x. rewrite L2. unfold m_outer, m_inner, m_left. destruct (lookup g x), (lookup gu x); reflexivity.
Qed.

Lemma p_left h : gives (t_left_combine dbg rd rdB t u (combiner rd rdB h)) (m_left h (lookup g) (lookup gu)).
Proof.
  eapply good_sound with (n := size g + size gu + 3).
  { intros a b L. apply left_combine_sim; auto using rsim_refl, sim_refl. }
  unfold t_left_combine.
  eapply okp_imp; [eapply use_recok with (ta := g) (tb := gu); [eapply (left_combine_ok dbg idsA idsB rd rdB True (or_intror I) (or_intror I) _ h)|..]|].
  - intros. apply okp_True. now apply combiner_ok.
  - now apply good_NRep.
  - now apply good_NRep.
  - apply G.
  - apply U.
  - lia.
  - intros n (t' & R2 & E2 & C2 & L2). exists t'. split; [repeat split; auto|].
    intros x. rewrite L2. unfold m_outer, m_inner, m_left. destruct (lookup g x), (lookup gu x); reflexivity.
Qed.

Lemma p_inner_pred p : ok_or_panic (t_inner_combine_pred rd rdB t u (predicate rd rdB p)) (fun b =>
  b = true <-> exists k x y, lookup g k = Some x /\ lookup gu k = Some y /\ p x y = true).
Proof.
  eapply okp_or_panic with (n := size g + size gu + 3).
  { intros a b L. apply inner_combine_pred_sim; auto using rsim_refl, sim_refl. }
  unfold t_inner_combine_pred.
  eapply okp_imp; [eapply (inner_combine_pred_ok idsA idsB rd rdB True (or_intror I) (or_intror I) _ p)
    with (ta := g) (tb := gu)|].
  - intros. apply okp_True. now apply predicate_ok.
  - now apply good_NRep.
  - now apply good_NRep.
  - apply G.
  - apply U.
  - lia.
  - cbv beta. intros b Hb. unfold PJ, pwI in Hb. rewrite Hb. split.
    + intros [k Hk]. exists k. destruct (lookup g k) as [x|], (lookup gu k) as [y|]; try discriminate. eauto.
    + intros (k & x & y & E1 & E2 & Hp). exists k. now rewrite E1, E2.
Qed.

Lemma p_left_pred p : ok_or_panic (t_left_combine_pred rd rdB t u (predicate rd rdB p)) (fun b =>
  b = true <-> exists k x, lookup g k = Some x /\
     match lookup gu k with Some y => p x y = true | None => True end).
Proof.
  eapply okp_or_panic with (n := size g + size gu + 3).
  { intros a b L. apply left_combine_pred_sim; auto using rsim_refl, sim_refl. }
  unfold t_left_combine_pred.
  eapply okp_imp; [eapply (left_combine_pred_ok idsA idsB rd rdB True (or_intror I) (or_intror I) _ p)
    with (ta := g) (tb := gu)|].
  - intros. apply okp_True. now apply predicate_ok.
  - now apply good_NRep.
  - now apply good_NRep.
  - apply G.
  - apply U.
  - lia.
  - cbv beta. intros b Hb. unfold PJ, pwL in Hb. rewrite Hb. split.
    + intros [k Hk]. exists k. destruct (lookup g k) as [x|], (lookup gu k) as [y|]; try discriminate; eauto.
    + intros (k & x & E1 & Hp). exists k. rewrite E1. destruct (lookup gu k); auto.
Qed.
End Panicky.

(** Removing in a debug build. *)
Section PanickyRemove.
Context (dbg : bool) (rd : reader) (t : node) (g : tree) (G : good false rd t g).
Notation gives f M := (ok_or_panic f (fun x => holds rd x M)).

Lemma p_remove k : gives (t_remove dbg rd t k) (m_remove (lookup g) k).
Proof.
  eapply okp_or_panic with (n := size g + 3); [apply mono_remove|].
  destruct G as (R & C & E). unfold t_remove.
  pose proof (good_single false detached_read k []) as (R' & C' & E').
  eapply okp_imp; [eapply use_recw with (ta := g) (tb := T k (Some []) []); [eapply (left_combine_with_ok dbg false false rd detached_read True (or_introl det_detached)
    (fun _ _ => Ok bnone) (fun _ _ => None))|..]|].
  - intros av bv x y _ Hb. left. exists bnone. split; reflexivity.
  - reflexivity.
  - right. exact I.
  - exact R.
  - now apply Rep_NRep.
  - exact C.
  - exact C'.
  - exact I.
  - rewrite size_T. cbn. lia.
  - intros n (t' & R2 & E2 & C2 & L2). eapply holds_ext; [|eapply good_holds; eauto].
    intros x. rewrite L2, lookup_single. unfold m_remove. destruct (beq x k), (lookup g x); reflexivity.
Qed.

Lemma p_remove_prefix k : gives (t_remove_prefix dbg rd t k) (m_remove_prefix (lookup g) k).
Proof.
  eapply okp_or_panic with (n := size g + 4).
  { intros a b L. apply remove_prefix_with_sim; auto using rsim_refl, sim_refl. }
  destruct G as (R & C & E). unfold t_remove_prefix, t_remove_prefix_with.
  pose proof (good_single false detached_read k []) as (R' & C' & E').
  eapply okp_imp; [eapply use_recw with (ta := g) (tb := T k (Some []) []); [eapply (remove_prefix_with_ok dbg false false rd detached_read True
     (or_introl det_detached) eq_refl (fun _ => or_intror I) (fun _ => Ok true) (fun _ => true))|..]|].
  - intros bv y Hb. left. eauto.
  - exact R.
  - now apply Rep_NRep.
  - exact C.
  - exact C'.
  - exact I.
  - rewrite size_T. cbn. lia.
  - intros n (t' & R2 & E2 & C2 & L2). eapply holds_ext; [|eapply good_holds; eauto].
    intros x. rewrite L2, cov_below. unfold gRm, m_remove_prefix.
    match goal with |- (if ?c then _ else _) = _ => assert (c = starts_with k x) as -> end; [|reflexivity].
    apply eq_true_iff_eq. rewrite below_selected_spec, starts_with_spec. split.
    + intros (q & r & y & -> & Ek & _). rewrite lookup_single in Ek. destruct (beq_spec q k) as [->|]; [eauto|discriminate].
    + intros [z ->]. exists k, z, []. rewrite lookup_single, beq_refl. auto.
Qed.
End PanickyRemove.
