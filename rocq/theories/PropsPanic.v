(** When removing from attached trees (C29, C30) and combining them (C31) does not
    panic.  [strays m k] and the [.._fits] conditions speak about keys only, see PanicSpec.v. *)
From Verif Require Import MemExamples StoreExamples PanicExamples Base Header Node Combine Iter Api Spec Client Top TopOps MemLemmas
  Store StoreSpec World MemStore MemStoreProofs GroupSpec PanicSpec PanicTop AlignTop.

(** C29: in a debug build, remove works for every key that does not leave the tree in the middle of an edge, in particular for every key or prefix that is there (keys shorter than 128 bytes).  Missing: the other keys, which panic, and longer keys, see the refutations. *)
Theorem C29_remove_no_stray_partial :
  forall S inv s t m k, lawful S inv -> attached_by (short_history true) true S inv s t m -> ~ strays m k ->
  exists t', t_remove true (st_read S s) t k ⇓ Ok t' /\ holds (st_read S s) t' (m_remove m k).
Proof. exact remove_debug. Qed.
Print Assumptions C29_remove_no_stray_partial.
Example C29_remove_no_stray_partial_example : lawful mem_store mem_inv /\
  attached_by (short_history true) true mem_store mem_inv abc_s abc_t (meaning p_abc) /\
  ~ strays (meaning p_abc) (B"ab") /\ ~ strays (meaning p_abc) (B"ad").
Proof. split; [exact mem_lawful|]; split; [exact (abc_attached true)|]; split; [exact abc_ab_stays|exact abc_ad_stays]. Qed.

(** C29: on a tree just read back, it panics in a debug build exactly for the other keys. *)
Theorem C29_remove_panics_partial :
  forall S inv s t m k, lawful S inv -> attached_by (short_history true) true S inv s t m -> just_read t ->
  (t_remove true (st_read S s) t k ⇓ Panic <-> strays m k).
Proof. exact remove_debug_exact. Qed.
Print Assumptions C29_remove_panics_partial.
Example C29_remove_panics_partial_example : lawful mem_store mem_inv /\
  attached_by (short_history true) true mem_store mem_inv abc_s abc_t (meaning p_abc) /\ just_read abc_t /\
  strays (meaning p_abc) (B"b") /\ ~ strays (meaning p_abc) (B"ab").
Proof.
  split; [exact mem_lawful|]; split; [exact (abc_attached true)|]; split; [exact abc_just_read|].
  split; [exact abc_b_strays|exact abc_ab_stays].
Qed.

(** C30: in a debug build, remove_prefix works for every key that does not leave the tree in the middle of an edge, in particular for every key or prefix that is there (keys shorter than 128 bytes).  Missing: the other keys, which panic, and longer keys, see the refutations. *)
Theorem C30_remove_prefix_no_stray_partial :
  forall S inv s t m k, lawful S inv -> attached_by (short_history true) true S inv s t m -> ~ strays m k ->
  exists t', t_remove_prefix true (st_read S s) t k ⇓ Ok t' /\ holds (st_read S s) t' (m_remove_prefix m k).
Proof. exact remove_prefix_debug. Qed.
Print Assumptions C30_remove_prefix_no_stray_partial.
Example C30_remove_prefix_no_stray_partial_example : lawful mem_store mem_inv /\
  attached_by (short_history true) true mem_store mem_inv abc_s abc_t (meaning p_abc) /\
  ~ strays (meaning p_abc) (B"ab") /\ ~ strays (meaning p_abc) (B"ad").
Proof. split; [exact mem_lawful|]; split; [exact (abc_attached true)|]; split; [exact abc_ab_stays|exact abc_ad_stays]. Qed.

(** C30: on a tree just read back, it panics in a debug build exactly for the other keys. *)
Theorem C30_remove_prefix_panics_partial :
  forall S inv s t m k, lawful S inv -> attached_by (short_history true) true S inv s t m -> just_read t ->
  (t_remove_prefix true (st_read S s) t k ⇓ Panic <-> strays m k).
Proof. exact remove_prefix_debug_exact. Qed.
Print Assumptions C30_remove_prefix_panics_partial.
Example C30_remove_prefix_panics_partial_example : lawful mem_store mem_inv /\
  attached_by (short_history true) true mem_store mem_inv abc_s abc_t (meaning p_abc) /\ just_read abc_t /\
  strays (meaning p_abc) (B"b") /\ ~ strays (meaning p_abc) (B"ab").
Proof.
  split; [exact mem_lawful|]; split; [exact (abc_attached true)|]; split; [exact abc_just_read|].
  split; [exact abc_b_strays|exact abc_ab_stays].
Qed.

(** C29, C30: keys that are there, and prefixes of such keys, do not stray. *)
Theorem C29_present_partial : forall m k z, m (k ++ z) <> None -> ~ strays m k.
Proof. exact present_not_strays. Qed.
Print Assumptions C29_present_partial.
Example C29_present_partial_example : meaning p_abc (B"a" ++ B"b") <> None.
Proof. vm_compute. discriminate. Qed.

(** C31: outer_combine of attached trees whose keys line up returns, with the right contents.  Missing: other pairs, see the refutations. *)
Theorem C31_outer_fits_partial :
  forall dbg S S' inv inv' s s' t u m mu, lawful S inv -> lawful S' inv' ->
  attached dbg S inv s t m -> attached dbg S' inv' s' u mu -> outer_fits m mu ->
  forall h, exists x, t_outer_combine dbg (st_read S s) (st_read S' s') t u (combiner (st_read S s) (st_read S' s') h) ⇓ Ok x /\ holds mem x (m_outer h m mu).
Proof. exact (fun dbg S S' inv inv' s s' t u m mu L L' A U F h => fit_outer dbg S S' inv inv' L L' s s' t u m mu A U h F). Qed.
Print Assumptions C31_outer_fits_partial.
Example C31_outer_fits_partial_example : lawful mem_store mem_inv /\ attached false mem_store mem_inv abc_s abc_t (meaning p_abc) /\ outer_fits (meaning p_abc) (meaning p_abc).
Proof. split; [exact mem_lawful|]; split; [exact (abc_attached' false)|exact abc_self_fit]. Qed.

(** C31: inner_combine of attached trees whose keys line up returns, with the right contents.  Missing: other pairs, see the refutations. *)
Theorem C31_inner_fits_partial :
  forall dbg S S' inv inv' s s' t u m mu, lawful S inv -> lawful S' inv' ->
  attached dbg S inv s t m -> attached dbg S' inv' s' u mu -> inner_fits m mu ->
  forall h, exists x, t_inner_combine dbg (st_read S s) (st_read S' s') t u (combiner (st_read S s) (st_read S' s') h) ⇓ Ok x /\ holds mem x (m_inner h m mu).
Proof. exact (fun dbg S S' inv inv' s s' t u m mu L L' A U F h => fit_inner dbg S S' inv inv' L L' s s' t u m mu A U h F). Qed.
Print Assumptions C31_inner_fits_partial.
Example C31_inner_fits_partial_example : lawful mem_store mem_inv /\ attached false mem_store mem_inv abc_s abc_t (meaning p_abc) /\
  attached false mem_store mem_inv acx_s acx_t (meaning p_acx) /\ inner_fits (meaning p_abc) (meaning p_acx).
Proof. split; [exact mem_lawful|]; split; [exact (abc_attached' false)|]; split; [exact acx_attached|exact (proj2 abc_acx_fit)]. Qed.

(** C31: left_combine of attached trees whose keys line up returns, with the right contents.  Missing: other pairs, see the refutations. *)
Theorem C31_left_fits_partial :
  forall dbg S S' inv inv' s s' t u m mu, lawful S inv -> lawful S' inv' ->
  attached dbg S inv s t m -> attached dbg S' inv' s' u mu -> left_fits m mu ->
  forall h, exists x, t_left_combine dbg (st_read S s) (st_read S' s') t u (combiner (st_read S s) (st_read S' s') h) ⇓ Ok x /\ holds mem x (m_left h m mu).
Proof. exact (fun dbg S S' inv inv' s s' t u m mu L L' A U F h => fit_left dbg S S' inv inv' L L' s s' t u m mu A U h F). Qed.
Print Assumptions C31_left_fits_partial.
Example C31_left_fits_partial_example : lawful mem_store mem_inv /\ attached false mem_store mem_inv abc_s abc_t (meaning p_abc) /\
  attached false mem_store mem_inv acx_s acx_t (meaning p_acx) /\ left_fits (meaning p_abc) (meaning p_acx).
Proof. split; [exact mem_lawful|]; split; [exact (abc_attached' false)|]; split; [exact acx_attached|exact (proj1 abc_acx_fit)]. Qed.

(** C31: likewise inner_combine_pred. *)
Theorem C31_inner_pred_fits_partial :
  forall dbg S S' inv inv' s s' t u m mu, lawful S inv -> lawful S' inv' ->
  attached dbg S inv s t m -> attached dbg S' inv' s' u mu -> inner_fits m mu ->
  forall p, exists b, t_inner_combine_pred (st_read S s) (st_read S' s') t u (predicate (st_read S s) (st_read S' s') p) ⇓ Ok b /\
    (b = true <-> exists k x y, m k = Some x /\ mu k = Some y /\ p x y = true).
Proof. exact (fun dbg S S' inv inv' s s' t u m mu L L' A U F p => fit_inner_pred dbg S S' inv inv' L L' s s' t u m mu A U p F). Qed.
Print Assumptions C31_inner_pred_fits_partial.
Example C31_inner_pred_fits_partial_example : lawful mem_store mem_inv /\ attached false mem_store mem_inv abc_s abc_t (meaning p_abc) /\
  attached false mem_store mem_inv acx_s acx_t (meaning p_acx) /\ inner_fits (meaning p_abc) (meaning p_acx).
Proof. split; [exact mem_lawful|]; split; [exact (abc_attached' false)|]; split; [exact acx_attached|exact (proj2 abc_acx_fit)]. Qed.

(** C31: likewise left_combine_pred. *)
Theorem C31_left_pred_fits_partial :
  forall dbg S S' inv inv' s s' t u m mu, lawful S inv -> lawful S' inv' ->
  attached dbg S inv s t m -> attached dbg S' inv' s' u mu -> inner_fits m mu ->
  forall p, exists b, t_left_combine_pred (st_read S s) (st_read S' s') t u (predicate (st_read S s) (st_read S' s') p) ⇓ Ok b /\
    (b = true <-> exists k x, m k = Some x /\ match mu k with Some y => p x y = true | None => True end).
Proof. exact (fun dbg S S' inv inv' s s' t u m mu L L' A U F p => fit_left_pred dbg S S' inv inv' L L' s s' t u m mu A U p F). Qed.
Print Assumptions C31_left_pred_fits_partial.
Example C31_left_pred_fits_partial_example : lawful mem_store mem_inv /\ attached false mem_store mem_inv abc_s abc_t (meaning p_abc) /\
  attached false mem_store mem_inv acx_s acx_t (meaning p_acx) /\ inner_fits (meaning p_abc) (meaning p_acx).
Proof. split; [exact mem_lawful|]; split; [exact (abc_attached' false)|]; split; [exact acx_attached|exact (proj2 abc_acx_fit)]. Qed.

(** C31: trees with the same keys meet all these conditions. *)
Theorem C31_same_keys_partial : forall m mu, (forall k, m k <> None <-> mu k <> None) ->
  outer_fits m mu /\ left_fits m mu /\ inner_fits m mu.
Proof. exact same_keys_fit. Qed.
Print Assumptions C31_same_keys_partial.
Example C31_same_keys_partial_example : let m := m_insert m_empty (B"a") (B"1") in let mu := m_insert m_empty (B"a") (B"2") in
  m (B"a") <> mu (B"a") /\ forall k, m k <> None <-> mu k <> None.
Proof. split; [vm_compute; discriminate|]. intros k. unfold m_insert. destruct (beq k (B"a")); split; auto; discriminate. Qed.
