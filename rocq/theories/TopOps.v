(** The mutating and combining calls of the API. *)
From Verif Require Import Base BaseLemmas Header Node Combine Iter Api Tree Rep JoinBase JoinProofs
  WithProofs PrefixProofs PredProofs FindProofs Entries IterProofs Canon ScanProofs Sim Spec Client Top.

(** The call terminates with a tree that has contents [M]. *)
Definition yields (ids : bool) (rd : reader) (f : nat -> res node) (M : kmap) : Prop :=
  exists t' g', f ⇓ Ok t' /\ good ids rd t' g' /\ same (lookup g') M.

Lemma yields_ext ids rd f M M' : same M M' -> yields ids rd f M -> yields ids rd f M'.
Proof. intros E (t & g & A & B & D). exists t, g. split; [exact A|]. split; [exact B|]. intros k. now rewrite D. Qed.

Lemma yields_holds ids rd f M : yields ids rd f M -> exists t, f ⇓ Ok t /\ holds rd t M.
Proof.
  intros (t & g & A & (R & C & _) & D). exists t. split; [exact A|].
  eapply holds_ext; [exact D|]. eapply good_holds; eauto.
Qed.

Lemma yields_ok ids rd f n M : mono f ->
  okp False (f n) (fun t => exists g, good ids rd t g /\ same (lookup g) M) -> yields ids rd f M.
Proof.
  intros Hm [(t & E & g & G & S)|[_ []]]. exists t, g. split; [|auto]. eapply conv_mono; eauto.
Qed.

Lemma good_single ids rd k v : good ids rd (n_single k v) (T k (Some v) []).
Proof.
  split; [|split].
  - eapply Rep_mk with (ns := []); cbn; eauto; [now left|]. right; left; auto.
  - right. cbn. split; [left; discriminate|]. split; constructor.
  - reflexivity.
Qed.
Lemma lookup_single k v x : lookup (T k (Some v) []) x = if beq x k then Some v else None.
Proof.
  rewrite lookup_raw. unfold rawlook. destruct (strip k x) as [[|c r]|] eqn:E.
  - apply strip_spec in E. rewrite app_nil_r in E. subst. now rewrite beq_refl.
  - apply strip_spec in E. rewrite beq_neq; [reflexivity|]. subst. intros E.
    apply (f_equal (@length _)) in E. rewrite app_length in E. cbn in E. lia.
  - destruct (beq_spec x k) as [->|]; [|reflexivity].
    pose proof (strip_app k []) as A. rewrite app_nil_r in A. congruence.
Qed.
Lemma good_empty ids rd : good ids rd n_empty tempty.
Proof.
  split; [|split].
  - eapply Rep_mk with (ns := []); cbn; eauto; [now left|]. right; left; auto.
  - now left.
  - reflexivity.
Qed.

Lemma good_NRep ids rd al t g : good ids rd t g -> NRep ids rd al (ROwned t) g.
Proof. intros (R & _). now apply Rep_NRep. Qed.

Lemma okp_imp {A} (al : Prop) (r : res A) (P Q : A -> Prop) : okp al r P -> (forall a, P a -> Q a) -> okp al r Q.
Proof. intros H H'. eapply okp_weaken; eauto. Qed.

Lemma use_recw {idsA idsB rdA rdB al} {B : Type} {ob : tree -> bytes -> B} {gf Q rec M} ta tb na rb :
  recw idsA idsB rdA rdB al ob gf Q rec M ->
  Rep idsA rdA na ta -> NRep idsB rdB al rb tb -> croot ta -> croot tb -> Q tb -> size ta + size tb <= M ->
  okp al (rec na rb) (postw idsA rdA ob gf ta tb).
Proof. intros H. exact (H na rb ta tb). Qed.

Lemma use_recok {idsA idsB rdA rdB al gf rec M} ta tb ra rb :
  recok idsA idsB rdA rdB al gf rec M ->
  NRep idsA rdA al ra ta -> NRep idsB rdB al rb tb -> croot ta -> croot tb -> size ta + size tb <= M ->
  okp al (rec ra rb) (post gf ta tb).
Proof. intros H. exact (H ra rb ta tb). Qed.

Section Ops.
Context (dbg : bool) (ids : bool) (rd : reader).
Context (t : node) (g : tree) (G : good ids rd t g).

Lemma mono_insert k v : mono (t_insert dbg rd t k v).
Proof.
  intros a b L. unfold t_insert. apply outer_combine_with_sim; auto using rsim_refl, sim_refl.
Qed.

Lemma y_insert k v : yields ids rd (t_insert dbg rd t k v) (m_insert (lookup g) k v).
Proof.
  eapply yields_ok with (n := size g + 3); [apply mono_insert|].
  destruct G as (R & C & E). unfold t_insert.
  pose proof (good_single false detached_read k v) as (R' & C' & E').
  eapply okp_imp; [eapply use_recw with (ta := g) (tb := T k (Some v) []); [eapply (outer_combine_with_ok dbg ids false rd detached_read False (or_introl det_detached)
    downcast_converter (fun _ r => Ok r) (fun _ y => Some y))|..]|].
  - intros av bv x y _ Hb. left. exists bv. split; [reflexivity|].
    destruct (downcast_value rd False bv y Hb) as [(w & Ew & Hw)|[_ []]]. injection Ew as <-. exact Hw.
  - intros _ x y. discriminate.
  - intros. eapply downcast_node; eauto.
  - intros. eapply downcast_short; eauto.
  - intros. eapply downcast_value; eauto.
  - exact R.
  - now apply Rep_NRep.
  - exact C.
  - exact C'.
  - exact I.
  - rewrite size_T. cbn. lia.
  - intros n (t' & R2 & E2 & C2 & L2). exists t'. split; [repeat split; auto|].
    intros x. rewrite L2, lookup_single. unfold m_insert. destruct (beq x k), (lookup g x); reflexivity.
Qed.

Section NoIds.
Context (Hids : ids = false) (Hdbg : dbg = true -> det rd).

Let Hdbg' : dbg = true -> det rd \/ False := fun h => or_introl (Hdbg h).

Lemma mono_remove k : mono (t_remove dbg rd t k).
Proof.
  intros a b L. unfold t_remove. apply left_combine_with_sim; auto using rsim_refl, sim_refl.
Qed.

Lemma y_remove k : yields ids rd (t_remove dbg rd t k) (m_remove (lookup g) k).
Proof.
  eapply yields_ok with (n := size g + 3); [apply mono_remove|].
  destruct G as (R & C & E). unfold t_remove.
  pose proof (good_single false detached_read k []) as (R' & C' & E').
  eapply okp_imp; [eapply use_recw with (ta := g) (tb := T k (Some []) []); [eapply (left_combine_with_ok dbg ids false rd detached_read False (or_introl det_detached)
    (fun _ _ => Ok bnone) (fun _ _ => None))|..]|].
  - intros av bv x y _ Hb. left. exists bnone. split; reflexivity.
  - exact Hids.
  - exact Hdbg'.
  - exact R.
  - now apply Rep_NRep.
  - exact C.
  - exact C'.
  - exact I.
  - rewrite size_T. cbn. lia.
  - intros n (t' & R2 & E2 & C2 & L2). exists t'. split; [repeat split; auto|].
    intros x. rewrite L2, lookup_single. unfold m_remove. destruct (beq x k), (lookup g x); reflexivity.
Qed.

(** Operations with a second tree. *)
Context (idsB : bool) (rdB : reader) (HdB : det rdB).
Context (u : node) (gu : tree) (U : good idsB rdB u gu).

Lemma mono_remove_prefix_with f : mono (t_remove_prefix_with dbg rd rdB t u f).
Proof. intros a b L. apply remove_prefix_with_sim; auto using rsim_refl, sim_refl. Qed.
Lemma mono_retain_prefix_with f : mono (t_retain_prefix_with dbg rd rdB t u f).
Proof. intros a b L. apply retain_prefix_with_sim; auto using rsim_refl, sim_refl. Qed.

Lemma y_remove_prefix_with f s :
  (forall bv y, RepV rdB bv (Some y) -> f bv = Ok (s y)) ->
  yields ids rd (t_remove_prefix_with dbg rd rdB t u f) (m_remove_prefix_with s (lookup g) (lookup gu)).
Proof.
  intros Hf. eapply yields_ok with (n := size g + size gu + 3); [apply mono_remove_prefix_with|].
  destruct G as (R & C & E), U as (R' & C' & E'). unfold t_remove_prefix_with.
  eapply okp_imp; [eapply use_recw with (ta := g) (tb := gu); [eapply (remove_prefix_with_ok dbg ids idsB rd rdB False (or_introl HdB) Hids Hdbg' f s)|..]|].
  - intros bv y Hb. left. eauto.
  - exact R.
  - now apply Rep_NRep.
  - exact C.
  - exact C'.
  - exact I.
  - lia.
  - intros n (t' & R2 & E2 & C2 & L2). exists t'. split; [repeat split; auto|].
    intros x. rewrite L2, cov_below. unfold m_remove_prefix_with, gRm. reflexivity.
Qed.

Lemma y_retain_prefix_with f s :
  (forall bv y, RepV rdB bv (Some y) -> f bv = Ok (s y)) -> downward_rejected s (lookup gu) ->
  yields ids rd (t_retain_prefix_with dbg rd rdB t u f) (m_retain_prefix_with s (lookup g) (lookup gu)).
Proof.
  intros Hf Hd. eapply yields_ok with (n := size g + size gu + 3); [apply mono_retain_prefix_with|].
  destruct G as (R & C & E), U as (R' & C' & E'). unfold t_retain_prefix_with.
  eapply okp_imp; [eapply use_recw with (ta := g) (tb := gu); [eapply (retain_prefix_with_ok dbg ids idsB rd rdB False (or_introl HdB) Hids Hdbg' f s)|..]|].
  - intros bv y Hb. left. eauto.
  - exact R.
  - now apply Rep_NRep.
  - exact C.
  - exact C'.
  - exact Hd.
  - lia.
  - intros n (t' & R2 & E2 & C2 & L2). exists t'. split; [repeat split; auto|].
    intros x. rewrite L2, cov_below. unfold m_retain_prefix_with, gRt. reflexivity.
Qed.

Lemma combiner_with_ok h av bv x y : RepV rd av (Some x) -> RepV rdB bv (Some y) ->
  okp False (combiner_with rd rdB h av bv) (fun r => RepV rd r (h x y)).
Proof.
  intros Ha Hb. unfold combiner_with. rewrite (RepV_value_load _ _ _ Ha), (RepV_value_load _ _ _ Hb).
  cbn. left. eexists. split; [reflexivity|]. destruct (h x y); [now left|reflexivity].
Qed.

Lemma y_inner_with h :
  yields ids rd (t_inner_combine_with dbg rd rdB t u (combiner_with rd rdB h)) (m_inner h (lookup g) (lookup gu)).
Proof.
  eapply yields_ok with (n := size g + size gu + 3).
  { intros a b L. apply inner_combine_with_sim; auto using rsim_refl, sim_refl. }
  destruct G as (R & C & E), U as (R' & C' & E'). unfold t_inner_combine_with.
  eapply okp_imp; [eapply use_recw with (ta := g) (tb := gu); [eapply (inner_combine_with_ok dbg ids idsB rd rdB False (or_introl HdB) _ h)|..]|].
  - apply combiner_with_ok.
  - exact Hids.
  - exact R.
  - now apply Rep_NRep.
  - exact C.
  - exact C'.
  - exact I.
  - lia.
  - intros n (t' & R2 & E2 & C2 & L2). exists t'. split; [repeat split; auto|].
    intros x. rewrite L2. unfold m_outer, m_inner, m_left. destruct (lookup g x), (lookup gu x); reflexivity.
Qed.

Lemma y_left_with h :
  yields ids rd (t_left_combine_with dbg rd rdB t u (combiner_with rd rdB h)) (m_left h (lookup g) (lookup gu)).
Proof.
  eapply yields_ok with (n := size g + size gu + 3).
  { intros a b L. apply left_combine_with_sim; auto using rsim_refl, sim_refl. }
  destruct G as (R & C & E), U as (R' & C' & E'). unfold t_left_combine_with.
  eapply okp_imp; [eapply use_recw with (ta := g) (tb := gu); [eapply (left_combine_with_ok dbg ids idsB rd rdB False (or_introl HdB) _ h)|..]|].
  - apply combiner_with_ok.
  - exact Hids.
  - exact Hdbg'.
  - exact R.
  - now apply Rep_NRep.
  - exact C.
  - exact C'.
  - exact I.
  - lia.
  - intros n (t' & R2 & E2 & C2 & L2). exists t'. split; [repeat split; auto|].
    intros x. rewrite L2. unfold m_outer, m_inner, m_left. destruct (lookup g x), (lookup gu x); reflexivity.
Qed.

Lemma y_outer_with h :
  yields ids rd (t_outer_combine_with dbg rd rdB (detach_converter rdB) t u (combiner_with rd rdB h))
    (m_outer h (lookup g) (lookup gu)).
Proof.
  eapply yields_ok with (n := size g + size gu + 3).
  { intros a b L. apply outer_combine_with_sim; auto using rsim_refl, sim_refl.
    - intros. apply r_detached_sim; auto using rsim_refl.
    - intros. apply detach_conv_sim; auto using rsim_refl. }
  destruct G as (R & C & E), U as (R' & C' & E'). unfold t_outer_combine_with.
  eapply okp_imp; [eapply use_recw with (ta := g) (tb := gu); [eapply (outer_combine_with_ok dbg ids idsB rd rdB False (or_introl HdB)
    (detach_converter rdB) _ h)|..]|].
  - apply combiner_with_ok.
  - rewrite Hids. discriminate.
  - intros. eapply detach_node; eauto.
  - intros. eapply detach_short; eauto.
  - intros. eapply detach_value; eauto.
  - exact R.
  - now apply Rep_NRep.
  - exact C.
  - exact C'.
  - exact I.
  - lia.
  - intros n (t' & R2 & E2 & C2 & L2). exists t'. split; [repeat split; auto|].
    intros x. rewrite L2. unfold m_outer, m_inner, m_left. destruct (lookup g x), (lookup gu x); reflexivity.
Qed.
End NoIds.

(** Combining into a new in-memory tree. *)
Section New.
Context (HdA : det rd) (idsB : bool) (rdB : reader) (HdB : det rdB).
Context (u : node) (gu : tree) (U : good idsB rdB u gu).

Lemma combiner_ok h av bv x y : RepV rd av (Some x) -> RepV rdB bv (Some y) ->
  okp False (combiner rd rdB h av bv) (fun r => option_map blob_slice r = h x y).
Proof.
  intros Ha Hb. unfold combiner. rewrite (RepV_value_load _ _ _ Ha), (RepV_value_load _ _ _ Hb).
  cbn. left. eexists. split; [reflexivity|]. destruct (h x y); reflexivity.
Qed.

Lemma y_outer h : yields false detached_read (t_outer_combine dbg rd rdB t u (combiner rd rdB h))
    (m_outer h (lookup g) (lookup gu)).
Proof.
  eapply yields_ok with (n := size g + size gu + 3).
  { intros a b L. apply outer_combine_sim; auto using rsim_refl, sim_refl. }
  unfold t_outer_combine.
  eapply okp_imp; [eapply use_recok with (ta := g) (tb := gu); [eapply (outer_combine_ok dbg ids idsB rd rdB False (or_introl HdA) (or_introl HdB) _ h
    (combiner_ok h))|..]|].
  - now apply good_NRep.
  - now apply good_NRep.
  - apply G.
  - apply U.
  - lia.
  - intros n (t' & R2 & E2 & C2 & L2). exists t'. split; [repeat split; auto|].
    intros x. rewrite L2. unfold m_outer, m_inner, m_left. destruct (lookup g x), (lookup gu x); reflexivity.
Qed.

Lemma y_inner h : yields false detached_read (t_inner_combine dbg rd rdB t u (combiner rd rdB h))
    (m_inner h (lookup g) (lookup gu)).
Proof.
  eapply yields_ok with (n := size g + size gu + 3).
  { intros a b L. apply inner_combine_sim; auto using rsim_refl, sim_refl. }
  unfold t_inner_combine.
  eapply okp_imp; [eapply use_recok with (ta := g) (tb := gu); [eapply (inner_combine_ok dbg ids idsB rd rdB False (or_introl HdA) (or_introl HdB) _ h
    (combiner_ok h))|..]|].
  - now apply good_NRep.
  - now apply good_NRep.
  - apply G.
  - apply U.
  - lia.
  - intros n (t' & R2 & E2 & C2 & L2). exists t'. split; [repeat split; auto|].
    intros x. rewrite L2. unfold m_outer, m_inner, m_left. destruct (lookup g x), (lookup gu x); reflexivity.
Qed.

Lemma y_left h : yields false detached_read (t_left_combine dbg rd rdB t u (combiner rd rdB h))
    (m_left h (lookup g) (lookup gu)).
Proof.
  eapply yields_ok with (n := size g + size gu + 3).
  { intros a b L. apply left_combine_sim; auto using rsim_refl, sim_refl. }
  unfold t_left_combine.
  eapply okp_imp; [eapply use_recok with (ta := g) (tb := gu); [eapply (left_combine_ok dbg ids idsB rd rdB False (or_introl HdA) (or_introl HdB) _ h
    (combiner_ok h))|..]|].
  - now apply good_NRep.
  - now apply good_NRep.
  - apply G.
  - apply U.
  - lia.
  - intros n (t' & R2 & E2 & C2 & L2). exists t'. split; [repeat split; auto|].
    intros x. rewrite L2. unfold m_outer, m_inner, m_left. destruct (lookup g x), (lookup gu x); reflexivity.
Qed.

Lemma predicate_ok p av bv x y : RepV rd av (Some x) -> RepV rdB bv (Some y) ->
  okp False (predicate rd rdB p av bv) (fun r => r = p x y).
Proof.
  intros Ha Hb. unfold predicate. rewrite (RepV_value_load _ _ _ Ha), (RepV_value_load _ _ _ Hb).
  cbn. left. eexists. split; reflexivity.
Qed.

Lemma g_inner_pred p : exists b, t_inner_combine_pred rd rdB t u (predicate rd rdB p) ⇓ Ok b /\
  (b = true <-> exists k x y, lookup g k = Some x /\ lookup gu k = Some y /\ p x y = true).
Proof.
  apply conv_ok with (n := size g + size gu + 3).
  { intros a b L. apply inner_combine_pred_sim; auto using rsim_refl, sim_refl. }
  unfold t_inner_combine_pred.
  destruct (inner_combine_pred_ok ids idsB rd rdB False (or_introl HdA) (or_introl HdB) _ p
    (predicate_ok p) (size g + size gu + 3) (ROwned t) (ROwned u) g gu) as [(b & E & Hb)|[_ []]].
  - now apply good_NRep.
  - now apply good_NRep.
  - apply G.
  - apply U.
  - lia.
  - exists b. split; [exact E|]. unfold PJ, pwI in Hb. rewrite Hb. split.
    + intros [k Hk]. exists k. destruct (lookup g k) as [x|], (lookup gu k) as [y|]; try discriminate. eauto.
    + intros (k & x & y & E1 & E2 & Hp). exists k. now rewrite E1, E2.
Qed.

Lemma g_left_pred p : exists b, t_left_combine_pred rd rdB t u (predicate rd rdB p) ⇓ Ok b /\
  (b = true <-> exists k x, lookup g k = Some x /\
     match lookup gu k with Some y => p x y = true | None => True end).
Proof.
  apply conv_ok with (n := size g + size gu + 3).
  { intros a b L. apply left_combine_pred_sim; auto using rsim_refl, sim_refl. }
  unfold t_left_combine_pred.
  destruct (left_combine_pred_ok ids idsB rd rdB False (or_introl HdA) (or_introl HdB) _ p
    (predicate_ok p) (size g + size gu + 3) (ROwned t) (ROwned u) g gu) as [(b & E & Hb)|[_ []]].
  - now apply good_NRep.
  - now apply good_NRep.
  - apply G.
  - apply U.
  - lia.
  - exists b. split; [exact E|]. unfold PJ, pwL in Hb. rewrite Hb. split.
    + intros [k Hk]. exists k. destruct (lookup g k) as [x|], (lookup gu k) as [y|]; try discriminate; eauto.
    + intros (k & x & E1 & Hp). exists k. rewrite E1. destruct (lookup gu k); auto.
Qed.
End New.
End Ops.

(** [remove_prefix]: a one-key second tree. *)
Lemma y_remove_prefix dbg ids rd t g k : good ids rd t g -> ids = false -> (dbg = true -> det rd) ->
  yields ids rd (t_remove_prefix dbg rd t k) (m_remove_prefix (lookup g) k).
Proof.
  intros G Hi Hd. unfold t_remove_prefix.
  eapply yields_ext; [|apply (y_remove_prefix_with dbg ids rd t g G Hi Hd false detached_read det_detached
    (n_single k []) _ (good_single _ _ _ _) _ (fun _ => true)); reflexivity].
  intros x. unfold m_remove_prefix_with, m_remove_prefix.
  match goal with |- (if ?c then _ else _) = _ => assert (c = starts_with k x) as -> end; [|reflexivity].
  apply eq_true_iff_eq. rewrite below_selected_spec, starts_with_spec. split.
  - intros (q & r & y & -> & E & _). rewrite lookup_single in E. destruct (beq_spec q k) as [->|]; [eauto|discriminate].
  - intros [z ->]. exists k, z, []. rewrite lookup_single, beq_refl. auto.
Qed.

Lemma y_from_pairs dbg ids rd l : forall t g, good ids rd t g ->
  yields ids rd (t_from_pairs dbg rd t l) (fold_left (fun m e => m_insert m (fst e) (snd e)) l (lookup g)).
Proof.
  induction l as [|[k v] l IH]; intros t g G; cbn [t_from_pairs fold_left].
  - exists t, g. split; [apply conv_const; discriminate|]. split; [exact G|]. intros x; reflexivity.
  - destruct (y_insert dbg ids rd t g G k v) as (t' & g' & Ct & G' & S').
    destruct (IH t' g' G') as (t2 & g2 & C2 & G2 & S2). exists t2, g2.
    split; [|split; [exact G2|]].
    + cbn [t_from_pairs]. eapply conv_bind; eauto.
    + intros x. rewrite S2. clear -S'. cbn [fst snd]. revert S'.
      generalize (lookup g') as a, (m_insert (lookup g) k v) as b. revert x.
      induction l as [|[k' v'] l IH]; intros x a b S; cbn; [apply S|].
      apply IH. intros y. unfold m_insert. cbn. destruct (beq y k'); auto.
Qed.

(* ------------------------------------------------------------------ *)
(** Programs. *)

Lemma same_refl m : same m m. Proof. intros k; reflexivity. Qed.

Lemma selector_ok rdB s bv y : RepV rdB bv (Some y) -> selector rdB s bv = Ok (s y).
Proof. intros H. unfold selector. now rewrite (RepV_value_load _ _ _ H). Qed.

Lemma yields_bind ids rd f (k : node -> nat -> res node) M M' : yields ids rd f M ->
  (forall t g, good ids rd t g -> same (lookup g) M -> yields ids rd (k t) M') ->
  yields ids rd (fun n => x <- f n ;; k x n) M'.
Proof.
  intros (t & g & C & G & S) H. destruct (H t g G S) as (t' & g' & C' & G' & S').
  exists t', g'. split; [|auto]. eapply conv_bind; eauto.
Qed.

Lemma run_ok dbg p : allowed p -> yields false detached_read (run dbg p) (meaning p).
Proof.
  pose proof det_detached as D.
  assert (dbg = true -> det detached_read) as Hd by auto.
  induction p; cbn [allowed run meaning]; intros A.
  - exists n_empty, tempty. split; [apply conv_const; discriminate|]. split; [apply good_empty|].
    intros k. apply tempty_lookup.
  - exists (n_leaf v), (T [] (Some v) []). split; [apply conv_const; discriminate|].
    split; [apply good_single|]. intros k. rewrite lookup_single. reflexivity.
  - exists (n_single k v), (T k (Some v) []). split; [apply conv_const; discriminate|].
    split; [apply good_single|]. intros x. rewrite lookup_single. reflexivity.
  - eapply yields_ext; [|apply y_from_pairs, good_empty]. unfold m_of_list.
    assert (same (lookup tempty) m_empty) as S by (intros k; apply tempty_lookup).
    revert S. generalize (lookup tempty) as a, m_empty as b.
    induction l as [|[k v] l IH]; intros a b S; cbn; [exact S|].
    apply IH. intros y. unfold m_insert. cbn. destruct (beq y k); auto.
  - eapply yields_bind; [apply IHp, A|]. intros t g G S. eapply yields_ext; [|exact (y_insert dbg _ _ t g G k v)].
    intros x. unfold m_insert. now rewrite S.
  - eapply yields_bind; [apply IHp, A|]. intros t g G S. eapply yields_ext; [|exact (y_remove dbg _ _ t g G eq_refl Hd k)].
    intros x. unfold m_remove. now rewrite S.
  - eapply yields_bind; [apply IHp, A|]. intros t g G S. eapply yields_ext; [|exact (y_remove_prefix dbg _ _ t g k G eq_refl Hd)].
    intros x. unfold m_remove_prefix. now rewrite S.
  - destruct A as [A Hk]. eapply yields_bind; [apply IHp, A|]. intros t g (R & C & E) S.
    assert (holds detached_read t (meaning p)) as Hh.
    { eapply holds_ext; [exact S|]. eapply good_holds; eauto. }
    destruct (g_filter_prefix false detached_read t g (meaning p) R C Hh k s Hk E) as (t' & g' & Ct & G' & H').
    exists t', g'. split; [exact Ct|]. split; [exact G'|].
    destruct G' as (R' & C' & _). intros x. symmetry. revert x. eapply holds_lookup; eauto.
  - destruct A as [A1 A2]. eapply yields_bind; [apply IHp1, A1|]. intros t g G S.
    eapply yields_bind; [apply IHp2, A2|]. intros u gu U S'. eapply yields_ext; [|eapply y_outer; eauto].
    intros x. unfold m_outer. now rewrite S, S'.
  - destruct A as [A1 A2]. eapply yields_bind; [apply IHp1, A1|]. intros t g G S.
    eapply yields_bind; [apply IHp2, A2|]. intros u gu U S'. eapply yields_ext; [|eapply y_inner; eauto].
    intros x. unfold m_inner. now rewrite S, S'.
  - destruct A as [A1 A2]. eapply yields_bind; [apply IHp1, A1|]. intros t g G S.
    eapply yields_bind; [apply IHp2, A2|]. intros u gu U S'. eapply yields_ext; [|eapply y_left; eauto].
    intros x. unfold m_left. now rewrite S, S'.
  - destruct A as [A1 A2]. eapply yields_bind; [apply IHp1, A1|]. intros t g G S.
    eapply yields_bind; [apply IHp2, A2|]. intros u gu U S'. eapply yields_ext; [|eapply y_outer_with; eauto].
    intros x. unfold m_outer. now rewrite S, S'.
  - destruct A as [A1 A2]. eapply yields_bind; [apply IHp1, A1|]. intros t g G S.
    eapply yields_bind; [apply IHp2, A2|]. intros u gu U S'. eapply yields_ext; [|eapply y_inner_with; eauto].
    intros x. unfold m_inner. now rewrite S, S'.
  - destruct A as [A1 A2]. eapply yields_bind; [apply IHp1, A1|]. intros t g G S.
    eapply yields_bind; [apply IHp2, A2|]. intros u gu U S'. eapply yields_ext; [|eapply y_left_with; eauto].
    intros x. unfold m_left. now rewrite S, S'.
  - destruct A as [A1 A2]. eapply yields_bind; [apply IHp1, A1|]. intros t g G S.
    eapply yields_bind; [apply IHp2, A2|]. intros u gu U S'.
    eapply yields_ext; [|eapply (y_remove_prefix_with dbg false detached_read t g G eq_refl Hd); eauto using selector_ok].
    intros x. unfold m_remove_prefix_with. now rewrite S, (below_selected_ext s _ _ x S').
  - destruct A as (A1 & A2 & Hs). eapply yields_bind; [apply IHp1, A1|]. intros t g G S.
    eapply yields_bind; [apply IHp2, A2|]. intros u gu U S'.
    eapply yields_ext; [|eapply (y_retain_prefix_with dbg false detached_read t g G eq_refl Hd); eauto using selector_ok].
    + intros x. unfold m_retain_prefix_with. now rewrite S, (below_selected_ext s _ _ x S').
    + intros q r x y. rewrite !S'. apply Hs.
Qed.

Lemma reachable_good dbg t : reachable dbg t -> exists g, good false detached_read t g.
Proof.
  intros (p & A & C). destruct (run_ok dbg p A) as (t' & g & C' & G & _).
  pose proof (conv_unique _ _ _ C C') as E. injection E as ->. eauto.
Qed.

(** Reachable trees hold some contents. *)
Lemma reachable_holds dbg t : reachable dbg t -> exists m, holds detached_read t m.
Proof. intros H. destruct (reachable_good dbg t H) as (g & R & C & _). eauto using good_holds. Qed.

Lemma mono_bind {A B} (f : nat -> res A) (k : A -> nat -> res B) : mono f -> (forall x, mono (k x)) ->
  mono (fun n => x <- f n ;; k x n).
Proof. intros Hf Hk a b L. apply sim_bind; [now apply Hf|]. intros x. now apply Hk. Qed.
Lemma mono_const {A} (r : res A) : mono (fun _ => r).
Proof. intros a b L. apply sim_refl. Qed.

Lemma mono_from_pairs dbg rd l : forall t, mono (t_from_pairs dbg rd t l).
Proof.
  induction l as [|[k v] l IH]; intros t; cbn [t_from_pairs]; [apply mono_const|].
  apply mono_bind; [apply mono_insert|]. exact IH.
Qed.

Lemma run_mono dbg p : mono (run dbg p).
Proof.
  induction p; cbn [run]; try apply mono_const; try apply mono_from_pairs;
    (apply mono_bind; [assumption|]; intros t).
  1: apply mono_insert.
  1: intros a b L; apply left_combine_with_sim; auto using rsim_refl, sim_refl.
  1: intros a b L; apply remove_prefix_with_sim; auto using rsim_refl, sim_refl.
  1: intros a b L; apply filter_prefix_sim; auto using rsim_refl.
  all: apply mono_bind; [assumption|]; intros u a b L.
  - apply outer_combine_sim; auto using rsim_refl, sim_refl.
  - apply inner_combine_sim; auto using rsim_refl, sim_refl.
  - apply left_combine_sim; auto using rsim_refl, sim_refl.
  - apply outer_combine_with_sim; auto using rsim_refl, sim_refl.
    + intros. apply r_detached_sim; auto using rsim_refl.
    + intros. apply detach_conv_sim; auto using rsim_refl.
  - apply inner_combine_with_sim; auto using rsim_refl, sim_refl.
  - apply left_combine_with_sim; auto using rsim_refl, sim_refl.
  - apply remove_prefix_with_sim; auto using rsim_refl, sim_refl.
  - apply retain_prefix_with_sim; auto using rsim_refl, sim_refl.
Qed.

(** Concrete programs can be evaluated. *)
Lemma run_eval dbg p n t : run dbg p n = Ok t -> run dbg p ⇓ Ok t.
Proof. intros E. eapply conv_mono; [apply run_mono|exact E]. Qed.
Lemma reachable_eval dbg p n t : allowed p -> run dbg p n = Ok t -> reachable dbg t.
Proof. intros A E. exists p. split; [exact A|]. eapply run_eval; eauto. Qed.
Lemma holds_eval dbg p n t : allowed p -> run dbg p n = Ok t -> holds detached_read t (meaning p).
Proof.
  intros A E. destruct (yields_holds _ _ _ _ (run_ok dbg p A)) as (t' & C & H).
  pose proof (conv_unique _ _ _ C (run_eval _ _ _ _ E)) as E'. injection E' as ->. exact H.
Qed.
