(** Combining trees that live in different places. *)
From Verif Require Import Base BaseLemmas Header Node Combine Iter Api Tree Rep JoinBase JoinProofs WithProofs PrefixProofs Sim Spec Client Top
  TopOps MemLemmas Store StoreSpec World StoreLemmas StoreTop InPlace InPlaceSpec InPlaceTop FailSpec.

Section Mix.
Context (dbg : bool) (rd rdB : reader) (t u : node) (g gu : tree) (G : good false rd t g) (U : good false rdB u gu).
Notation gives f M := (ok_or_panic f (fun x => holds rd x M)).

Lemma settle (f : nat -> res node) n M : mono f ->
  okp True (f n) (fun x => exists g', good false rd x g' /\ same (lookup g') M) -> gives f M.
Proof.
  intros Hm H. eapply okp_or_panic; [exact Hm|]. eapply okp_imp; [exact H|].
  intros x (g' & (R & C & _) & E). eapply holds_ext; [exact E|]. eapply good_holds; eauto.
Qed.

Lemma pw_outer h : gives (t_outer_combine_with dbg rd rdB (detach_converter rdB) t u (combiner_with rd rdB h)) (m_outer h (lookup g) (lookup gu)).
Proof.
  eapply settle with (n := size g + size gu + 3).
  { intros a b L. apply outer_combine_with_sim; auto using rsim_refl, sim_refl.
    - intros. apply r_detached_sim; auto using rsim_refl.
    - intros. apply detach_conv_sim; auto using rsim_refl. }
  destruct G as (R & C & E), U as (R' & C' & E'). unfold t_outer_combine_with.
  eapply okp_imp; [eapply use_recw with (ta := g) (tb := gu); [eapply (outer_combine_with_ok dbg false false rd rdB True (or_intror I)
    (detach_converter rdB) _ h)|..]|].
  - intros. apply okp_True. now apply combiner_with_ok.
  - discriminate.
  - intros. eapply detach_node; eauto.
  - intros. eapply detach_short; eauto.
  - intros. eapply detach_value; eauto.
  - exact R.
  - now apply Rep_NRep.
  - exact C.
  - exact C'.
  - exact I.
  - lia.
  - intros n (t' & R2 & E2 & C2 & L2). exists t'. split; [repeat split; auto|].
    intros x. rewrite L2. unfold m_outer, m_inner, m_left. destruct (lookup g x), (lookup gu x); reflexivity.
Qed.
Lemma pw_inner h : gives (t_inner_combine_with dbg rd rdB t u (combiner_with rd rdB h)) (m_inner h (lookup g) (lookup gu)).
Proof.
  eapply settle with (n := size g + size gu + 3).
  { intros a b L. apply inner_combine_with_sim; auto using rsim_refl, sim_refl. }
  destruct G as (R & C & E), U as (R' & C' & E'). unfold t_inner_combine_with.
  eapply okp_imp; [eapply use_recw with (ta := g) (tb := gu); [eapply (inner_combine_with_ok dbg false false rd rdB True (or_intror I) _ h)|..]|].
  - intros. apply okp_True. now apply combiner_with_ok.
  - reflexivity.
  - exact R.
  - now apply Rep_NRep.
  - exact C.
  - exact C'.
  - exact I.
  - lia.
  - intros n (t' & R2 & E2 & C2 & L2). exists t'. split; [repeat split; auto|].
    intros x. rewrite L2. unfold m_outer, m_inner, m_left. destruct (lookup g x), (lookup gu x); reflexivity.
Qed.
Lemma pw_left h : gives (t_left_combine_with dbg rd rdB t u (combiner_with rd rdB h)) (m_left h (lookup g) (lookup gu)).
Proof.
  eapply settle with (n := size g + size gu + 3).
  { intros a b L. apply left_combine_with_sim; auto using rsim_refl, sim_refl. }
  destruct G as (R & C & E), U as (R' & C' & E'). unfold t_left_combine_with.
  eapply okp_imp; [eapply use_recw with (ta := g) (tb := gu); [eapply (left_combine_with_ok dbg false false rd rdB True (or_intror I) _ h)|..]|].
  - intros. apply okp_True. now apply combiner_with_ok.
  - reflexivity.
  - intros _. right. exact I.
  - exact R.
  - now apply Rep_NRep.
  - exact C.
  - exact C'.
  - exact I.
  - lia.
  - intros n (t' & R2 & E2 & C2 & L2). exists t'. split; [repeat split; auto|].
    intros x. rewrite L2. unfold m_outer, m_inner, m_left. destruct (lookup g x), (lookup gu x); reflexivity.
Qed.
Lemma pw_remove_prefix s : gives (t_remove_prefix_with dbg rd rdB t u (selector rdB s)) (m_remove_prefix_with s (lookup g) (lookup gu)).
Proof.
  eapply settle with (n := size g + size gu + 3); [apply mono_remove_prefix_with|].
  destruct G as (R & C & E), U as (R' & C' & E'). unfold t_remove_prefix_with.
  eapply okp_imp; [eapply use_recw with (ta := g) (tb := gu); [eapply (remove_prefix_with_ok dbg false false rd rdB True (or_intror I) eq_refl
    (fun _ => or_intror I) (selector rdB s) s)|..]|].
  - intros bv y Hb. left. exists (s y). split; [now apply selector_ok|reflexivity].
  - exact R.
  - now apply Rep_NRep.
  - exact C.
  - exact C'.
  - exact I.
  - lia.
  - intros n (t' & R2 & E2 & C2 & L2). exists t'. split; [repeat split; auto|].
    intros x. rewrite L2, cov_below. unfold m_remove_prefix_with, gRm. reflexivity.
Qed.
Lemma pw_retain_prefix s : downward_rejected s (lookup gu) ->
  gives (t_retain_prefix_with dbg rd rdB t u (selector rdB s)) (m_retain_prefix_with s (lookup g) (lookup gu)).
Proof.
  intros Hd. eapply settle with (n := size g + size gu + 3); [apply mono_retain_prefix_with|].
  destruct G as (R & C & E), U as (R' & C' & E'). unfold t_retain_prefix_with.
  eapply okp_imp; [eapply use_recw with (ta := g) (tb := gu); [eapply (retain_prefix_with_ok dbg false false rd rdB True (or_intror I) eq_refl
    (fun _ => or_intror I) (selector rdB s) s)|..]|].
  - intros bv y Hb. left. exists (s y). split; [now apply selector_ok|reflexivity].
  - exact R.
  - now apply Rep_NRep.
  - exact C.
  - exact C'.
  - exact Hd.
  - lia.
  - intros n (t' & R2 & E2 & C2 & L2). exists t'. split; [repeat split; auto|].
    intros x. rewrite L2, cov_below. unfold m_retain_prefix_with, gRt. reflexivity.
Qed.
End Mix.
