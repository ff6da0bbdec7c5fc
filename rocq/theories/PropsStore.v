(** The properties of trees attached to a blob store (C25-C35).

    [lawful S inv]: the store [S] keeps the contract of StoreSpec.v in the states
    [inv].  [attached dbg S inv s t m]: after some history of calls in a debug or
    release build the store is in state [s], and a tree [t] is held whose contents
    should be [m].  See StoreSpec.v, World.v, Format.v and FailSpec.v. *)
From Verif Require Import MemExamples StoreExamples Base Header Node Combine Iter Api Spec Client Top TopOps MemLemmas
  Store StoreSpec World U64 MemStore MemStoreProofs StoreLemmas Format FormatProofs DecodeProofs FailSpec FailProofs StoreTop.

(** C25: attaching and detaching keeps the contents (and the shape).  An error is returned only when the store refuses a write. *)
Theorem C25_attach_detach :
  forall dbg S inv s t m, lawful S inv -> inv s -> reachable dbg t -> holds mem t m ->
  (exists t' s' u, t_attached S t s = (Ok t', s') /\ inv s' /\ holds (st_read S s') t' m /\
     t_detached (st_read S s') t' ⇓ Ok u /\ holds mem u m /\ shape_of u = shape_of t) \/
  (exists s', t_attached S t s = (Err, s') /\ inv s' /\ may_refuse S inv).
Proof. exact (fun dbg S inv s t m L => attach_detach dbg S inv L s t m). Qed.
Print Assumptions C25_attach_detach.
Example C25_attach_detach_example : lawful mem_store mem_inv /\ mem_inv ex_s /\ reachable true ex_t /\ holds mem ex_t ex_m /\
  match t_attached mem_store ex_t ex_s with
  | (Ok t', s') => t' <> ex_t /\ ex_run (t_detached (mem_read s') t') = ex_run (fun _ => Ok ex_t)
  | _ => False
  end.
Proof. split; [exact mem_lawful|]; split; [exact ex_inv|]; split; [exact ex_reachable|]; split; [exact ex_holds|]; vm_compute; split; [discriminate|reflexivity]. Qed.

(** C25: detaching gives an in-memory tree with the same contents, whatever happened to the attached tree. *)
Theorem C25_detached :
  forall dbg S inv s t m, lawful S inv -> attached dbg S inv s t m ->
  exists u, t_detached (st_read S s) t ⇓ Ok u /\ holds mem u m.
Proof. exact (fun dbg S inv s t m L A => at_detached dbg S inv L s t m A). Qed.
Print Assumptions C25_detached.
Example C25_detached_example : lawful mem_store mem_inv /\ attached true mem_store mem_inv ex_s ex_a ex_am /\
  match ex_run (t_detached (mem_read ex_s) ex_a) with Ok l => map (fun e => length (fst e)) l = [2; 3; 3; 3; 1; 151] | _ => False end.
Proof. split; [exact mem_lawful|]; split; [exact ex_attached|]; vm_compute; reflexivity. Qed.

(** C26: a saved id can be loaded at any later time, with the contents at the time it was saved. *)
Theorem C26_load :
  forall dbg S inv s id m, lawful S inv -> saved dbg S inv s id m ->
  exists t, t_load S s (Some id) = Ok t /\ holds (st_read S s) t m.
Proof. exact (fun dbg S inv s id m L => saved_load dbg S inv L s id m). Qed.
Print Assumptions C26_load.
Example C26_load_example : lawful mem_store mem_inv /\ saved true mem_store mem_inv ex_s ex_saved_id ex_saved_map /\
  (t <- t_load mem_store ex_s (Some ex_saved_id) ;; l <- iter_bytes (mem_read ex_s) t 400 ;; Ok (map fst l)) =
    Ok [B"ab"; B"abc"; B"abd"; B"abx"; B"b"].
Proof. split; [exact mem_lawful|]; split; [exact ex_saved_ok|]; vm_compute; reflexivity. Qed.

(** C26: without an id, the tree that is loaded is empty, and can be used as every other tree. *)
Theorem C26_load_nothing :
  forall dbg S inv s, lawful S inv -> inv s ->
  exists t, t_load S s None = Ok t /\ holds (st_read S s) t m_empty /\
    forall k v, exists t', t_insert dbg (st_read S s) t k v ⇓ Ok t' /\ holds (st_read S s) t' (m_insert m_empty k v).
Proof. exact (fun dbg S inv s L Hi => load_nothing dbg S inv s L Hi). Qed.
Print Assumptions C26_load_nothing.
Example C26_load_nothing_example : lawful mem_store mem_inv /\ mem_inv ex_s /\
  (t <- t_load mem_store ex_s None ;; t' <- t_insert true (mem_read ex_s) t (B"k") (B"v") 10 ;; iter_bytes (mem_read ex_s) t' 10) = Ok [(B"k", B"v")].
Proof. split; [exact mem_lawful|]; split; [exact ex_inv|]; vm_compute; reflexivity. Qed.

(** C26: at the end of a history every tree (reattached or not) has its contents and every saved id loads.  [oks] tells which calls succeeded; a call fails only when the store refuses a write, and then changes nothing. *)
Theorem C26_history :
  forall dbg S inv s h, lawful S inv -> inv s -> history_ok dbg h ->
  exists oks w, exec dbg S (start s) h ⇓ Ok (oks, w) /\ length oks = length h /\
    (In false oks -> may_refuse S inv) /\ inv (w_st w) /\
    Forall2 (holds (st_read S (w_st w))) (w_trees w) (m_trees (model no_maps h oks)) /\
    Forall2 (fun id m => exists t, t_load S (w_st w) (Some id) = Ok t /\ holds (st_read S (w_st w)) t m)
      (w_ids w) (m_saved (model no_maps h oks)).
Proof. exact (fun dbg S inv s h L => history_holds dbg S inv L s h). Qed.
Print Assumptions C26_history.
Example C26_history_example : lawful mem_store mem_inv /\ mem_inv ex_s /\ history_ok true ex_hist /\
  fst (ex_exec true ex_hist) = repeat true 10 /\ length (w_trees (snd (ex_exec true ex_hist))) = 3 /\
  length (w_ids (snd (ex_exec true ex_hist))) = 3.
Proof. split; [exact mem_lawful|]; split; [exact ex_inv|]; split; [exact (ex_hist_ok true)|]; vm_compute; auto. Qed.

(** C27: get on an attached tree. *)
Theorem C27_get :
  forall dbg S inv s t m, lawful S inv -> attached dbg S inv s t m ->
  holds (st_read S s) t m.
Proof. exact (fun dbg S inv s t m L => attached_holds dbg S inv L s t m). Qed.
Print Assumptions C27_get.
Example C27_get_example : lawful mem_store mem_inv /\ attached true mem_store mem_inv ex_s ex_a ex_am /\
  map (fun k => get_bytes (mem_read ex_s) ex_a k 400) [B"abc"; B"ab"; B"zz"] = [Ok (Some (B"2")); Ok (Some (B"1")); Ok None].
Proof. split; [exact mem_lawful|]; split; [exact ex_attached|]; vm_compute; reflexivity. Qed.

(** C27: contains_key. *)
Theorem C27_contains_key :
  forall dbg S inv s t m, lawful S inv -> attached dbg S inv s t m ->
  forall k, exists b, t_contains_key (st_read S s) t k ⇓ Ok b /\ (b = true <-> m k <> None).
Proof. exact (fun dbg S inv s t m L A k => at_contains dbg S inv L s t m A k). Qed.
Print Assumptions C27_contains_key.
Example C27_contains_key_example : lawful mem_store mem_inv /\ attached true mem_store mem_inv ex_s ex_a ex_am /\
  map (fun k => t_contains_key (mem_read ex_s) ex_a k 400) [B"k" ++ long 150 x02; B"k"] = [Ok true; Ok false].
Proof. split; [exact mem_lawful|]; split; [exact ex_attached|]; vm_compute; reflexivity. Qed.

(** C27: has_prefix, with the exception stated at C04. *)
Theorem C27_has_prefix :
  forall dbg S inv s t m, lawful S inv -> attached dbg S inv s t m ->
  forall p, (p <> [] \/ exists k, m k <> None) ->
  exists b, t_has_prefix (st_read S s) t p ⇓ Ok b /\ (b = true <-> exists k, m k <> None /\ starts_with p k = true).
Proof. exact (fun dbg S inv s t m L A => at_has_prefix dbg S inv L s t m A). Qed.
Print Assumptions C27_has_prefix.
Example C27_has_prefix_example : lawful mem_store mem_inv /\ attached true mem_store mem_inv ex_s ex_a ex_am /\
  map (fun k => t_has_prefix (mem_read ex_s) ex_a k 400) [B"k"; B"abd"; B"kk"] = [Ok true; Ok true; Ok false].
Proof. split; [exact mem_lawful|]; split; [exact ex_attached|]; vm_compute; reflexivity. Qed.

(** C27: iter. *)
Theorem C27_iter :
  forall dbg S inv s t m, lawful S inv -> attached dbg S inv s t m ->
  exists l, iter_bytes (st_read S s) t ⇓ Ok l /\ lists l m.
Proof. exact (fun dbg S inv s t m L A => at_iter dbg S inv L s t m A). Qed.
Print Assumptions C27_iter.
Example C27_iter_example : lawful mem_store mem_inv /\ attached true mem_store mem_inv ex_s ex_a ex_am /\
  match iter_bytes (mem_read ex_s) ex_a 400 with Ok l => map (fun e => length (snd e)) l = [1; 1; 1; 200; 0; 1] | _ => False end.
Proof. split; [exact mem_lawful|]; split; [exact ex_attached|]; vm_compute; reflexivity. Qed.

(** C27: values. *)
Theorem C27_values :
  forall dbg S inv s t m, lawful S inv -> attached dbg S inv s t m ->
  exists l, lists l m /\ values_bytes (st_read S s) t ⇓ Ok (map snd l).
Proof. exact (fun dbg S inv s t m L A => at_values dbg S inv L s t m A). Qed.
Print Assumptions C27_values.
Example C27_values_example : lawful mem_store mem_inv /\ attached true mem_store mem_inv ex_s ex_a ex_am /\
  match values_bytes (mem_read ex_s) ex_a 400 with Ok l => map (@length byte) l = [1; 1; 1; 200; 0; 1] | _ => False end.
Proof. split; [exact mem_lawful|]; split; [exact ex_attached|]; vm_compute; reflexivity. Qed.

(** C27: first and last entry and value. *)
Theorem C27_first_last :
  forall dbg S inv s t m, lawful S inv -> attached dbg S inv s t m ->
  forall p, exists l, lists l m /\
    first_entry_bytes (st_read S s) t p ⇓ Ok (option_map (fun e => (p ++ fst e, snd e)) (first_of l)) /\
    last_entry_bytes (st_read S s) t p ⇓ Ok (option_map (fun e => (p ++ fst e, snd e)) (last_of l)) /\
    first_value_bytes (st_read S s) t ⇓ Ok (option_map snd (first_of l)) /\
    last_value_bytes (st_read S s) t ⇓ Ok (option_map snd (last_of l)).
Proof. exact (fun dbg S inv s t m L A => at_first_last dbg S inv L s t m A). Qed.
Print Assumptions C27_first_last.
Example C27_first_last_example : lawful mem_store mem_inv /\ attached true mem_store mem_inv ex_s ex_a ex_am /\
  first_entry_bytes (mem_read ex_s) ex_a (B"p/") 400 = Ok (Some (B"p/ab", B"1")).
Proof. split; [exact mem_lawful|]; split; [exact ex_attached|]; vm_compute; reflexivity. Qed.

(** C27: scan_prefix, for the prefixes for which it is right in memory (C08). *)
Theorem C27_scan_prefix :
  forall dbg S inv s t m, lawful S inv -> attached dbg S inv s t m ->
  forall p, (p = [] \/ (m p = None /\ forall c1 c2 z1 z2,
     m (p ++ c1 :: z1) <> None -> m (p ++ c2 :: z2) <> None -> c1 = c2)) ->
  exists l, scan_bytes (st_read S s) t p ⇓ Ok l /\ lists_where (fun k => starts_with p k = true) l m.
Proof. exact (fun dbg S inv s t m L A => at_scan dbg S inv L s t m A). Qed.
Print Assumptions C27_scan_prefix.
Example C27_scan_prefix_example : lawful mem_store mem_inv /\ attached true mem_store mem_inv ex_s ex_a ex_am /\
  (l <- scan_bytes (mem_read ex_s) ex_a [] 400 ;; Ok (length l)) = Ok 6.
Proof. split; [exact mem_lawful|]; split; [exact ex_attached|]; vm_compute; reflexivity. Qed.

(** C27: group_by. *)
Theorem C27_group_by :
  forall dbg S inv s t m, lawful S inv -> attached dbg S inv s t m ->
  forall descend, (forall path r, exists b, descend path r = Ok b) ->
  exists ts ls, t_group_by (st_read S s) t descend ⇓ Ok ts /\
    Forall2 (fun u l => exists mu, holds (st_read S s) u mu /\ lists l mu) ts ls /\ lists (concat ls) m.
Proof. exact (fun dbg S inv s t m L A => at_group_by dbg S inv L s t m A). Qed.
Print Assumptions C27_group_by.
Example C27_group_by_example : lawful mem_store mem_inv /\ attached true mem_store mem_inv ex_s ex_a ex_am /\
  (ts <- t_group_by (mem_read ex_s) ex_a (fun path _ => Ok (length path <=? 1)) 400 ;; Ok (length ts)) = Ok 3.
Proof. split; [exact mem_lawful|]; split; [exact ex_attached|]; vm_compute; reflexivity. Qed.

(** C27: filter_prefix, with the exception stated at C09. *)
Theorem C27_filter_prefix :
  forall dbg S inv s t m, lawful S inv -> attached dbg S inv s t m ->
  forall p s', (p <> [] \/ s' = [] \/ exists k, m k <> None) ->
  exists t', t_filter_prefix (st_read S s) t p s' ⇓ Ok t' /\ holds (st_read S s) t' (m_filter_prefix m p s').
Proof. exact (fun dbg S inv s t m L A => at_filter dbg S inv L s t m A). Qed.
Print Assumptions C27_filter_prefix.
Example C27_filter_prefix_example : lawful mem_store mem_inv /\ attached true mem_store mem_inv ex_s ex_a ex_am /\
  (t <- t_filter_prefix (mem_read ex_s) ex_a (B"ab") (B"q") 400 ;; l <- iter_bytes (mem_read ex_s) t 400 ;; Ok (map fst l)) =
    Ok [B"q"; B"qc"; B"qd"; B"qx"].
Proof. split; [exact mem_lawful|]; split; [exact ex_attached|]; vm_compute; reflexivity. Qed.

(** C28: insert into an attached tree.  Arbitrary histories of inserts, reattaches and reads: C26_history, in debug and release builds, keys and values of any length. *)
Theorem C28_insert :
  forall dbg S inv s t m, lawful S inv -> attached dbg S inv s t m ->
  forall k v, exists t', t_insert dbg (st_read S s) t k v ⇓ Ok t' /\ holds (st_read S s) t' (m_insert m k v).
Proof. exact (fun dbg S inv s t m L A => at_insert dbg S inv L s t m A). Qed.
Print Assumptions C28_insert.
Example C28_insert_example : lawful mem_store mem_inv /\ attached true mem_store mem_inv ex_s ex_a ex_am /\
  (t <- t_insert true (mem_read ex_s) ex_a (B"abq") (B"new") 400 ;; get_bytes (mem_read ex_s) t (B"abq") 400) = Ok (Some (B"new")).
Proof. split; [exact mem_lawful|]; split; [exact ex_attached|]; vm_compute; reflexivity. Qed.

(** C28: histories of inserts, merges, reattaches and loads behave like plain maps; no call panics. *)
Theorem C28_history :
  forall dbg S inv s h, lawful S inv -> inv s -> Forall extending h ->
  exists oks w, exec dbg S (start s) h ⇓ Ok (oks, w) /\ (In false oks -> may_refuse S inv) /\
    Forall2 (holds (st_read S (w_st w))) (w_trees w) (m_trees (model no_maps h oks)).
Proof. exact (fun dbg S inv s h L => extending_holds dbg S inv L s h). Qed.
Print Assumptions C28_history.
Example C28_history_example : lawful mem_store mem_inv /\ mem_inv ex_s /\ Forall extending ex_hist.
Proof. split; [exact mem_lawful|]; split; [exact ex_inv|]; exact ex_hist_extending. Qed.

(** C29: remove on an attached tree, in a release build, when all keys are shorter than 128 bytes.  Missing: debug builds and longer keys, see the refutations. *)
Theorem C29_remove_partial :
  forall S inv s t m k, lawful S inv -> attached_by (short_history false) false S inv s t m ->
  exists t', t_remove false (st_read S s) t k ⇓ Ok t' /\ holds (st_read S s) t' (m_remove m k).
Proof. exact (fun S inv s t m k L => at_remove S inv L s t m k). Qed.
Print Assumptions C29_remove_partial.
Example C29_remove_partial_example : lawful mem_store mem_inv /\ attached_by (short_history false) false mem_store mem_inv abc_s abc_t (meaning p_abc) /\
  (t <- t_remove false (mem_read abc_s) abc_t (B"ab") 60 ;; iter_bytes (mem_read abc_s) t 60) = Ok [(B"a", B"1"); (B"ac", B"2")].
Proof. split; [exact mem_lawful|]; split; [exact (abc_attached false)|]; vm_compute; reflexivity. Qed.

(** C29: in debug builds remove may panic, but never gives a wrong result (keys shorter than 128 bytes). *)
Theorem C29_remove_debug_partial :
  forall dbg S inv s t m k, lawful S inv -> attached_by (short_history dbg) dbg S inv s t m ->
  ok_or_panic (t_remove dbg (st_read S s) t k) (fun t' => holds (st_read S s) t' (m_remove m k)).
Proof. exact (fun dbg S inv s t m k L => at_remove_any S inv L dbg s t m k). Qed.
Print Assumptions C29_remove_debug_partial.
Example C29_remove_debug_partial_example : lawful mem_store mem_inv /\ attached_by (short_history true) true mem_store mem_inv abc_s abc_t (meaning p_abc).
Proof. split; [exact mem_lawful|]; exact (abc_attached true). Qed.

(** C29: in a debug build, removing a key that is not there panics: {"a", "ab", "ac"} attached, remove("b"). *)
Theorem C29_remove_debug_refuted :
  exists s t m k, attached true mem_store mem_inv s t m /\ m k = None /\ t_remove true (mem_read s) t k ⇓ Panic.
Proof. exact (remove_debug_bad). Qed.
Print Assumptions C29_remove_debug_refuted.

(** C29: in a release build, removing "y" changes the other keys, when they are longer than 127 bytes. *)
Theorem C29_remove_release_refuted :
  exists s t m k t', attached false mem_store mem_inv s t m /\
  t_remove false (mem_read s) t k ⇓ Ok t' /\ ~ holds (mem_read s) t' (m_remove m k).
Proof. exact (remove_release_bad). Qed.
Print Assumptions C29_remove_release_refuted.

(** C30: remove_prefix on an attached tree, in a release build, when all keys are shorter than 128 bytes.  Missing: debug builds and longer keys, see the refutations. *)
Theorem C30_remove_prefix_partial :
  forall S inv s t m p, lawful S inv -> attached_by (short_history false) false S inv s t m ->
  exists t', t_remove_prefix false (st_read S s) t p ⇓ Ok t' /\ holds (st_read S s) t' (m_remove_prefix m p).
Proof. exact (fun S inv s t m p L => at_remove_prefix S inv L s t m p). Qed.
Print Assumptions C30_remove_prefix_partial.
Example C30_remove_prefix_partial_example : lawful mem_store mem_inv /\ attached_by (short_history false) false mem_store mem_inv abc_s abc_t (meaning p_abc) /\
  (t <- t_remove_prefix false (mem_read abc_s) abc_t (B"ab") 60 ;; iter_bytes (mem_read abc_s) t 60) = Ok [(B"a", B"1"); (B"ac", B"2")].
Proof. split; [exact mem_lawful|]; split; [exact (abc_attached false)|]; vm_compute; reflexivity. Qed.

(** C30: in debug builds remove_prefix may panic, but never gives a wrong result (keys shorter than 128 bytes). *)
Theorem C30_remove_prefix_debug_partial :
  forall dbg S inv s t m p, lawful S inv -> attached_by (short_history dbg) dbg S inv s t m ->
  ok_or_panic (t_remove_prefix dbg (st_read S s) t p) (fun t' => holds (st_read S s) t' (m_remove_prefix m p)).
Proof. exact (fun dbg S inv s t m p L => at_remove_prefix_any S inv L dbg s t m p). Qed.
Print Assumptions C30_remove_prefix_debug_partial.
Example C30_remove_prefix_debug_partial_example : lawful mem_store mem_inv /\ attached_by (short_history true) true mem_store mem_inv abc_s abc_t (meaning p_abc).
Proof. split; [exact mem_lawful|]; exact (abc_attached true). Qed.

(** C30: in a debug build, remove_prefix of a prefix that is not there panics. *)
Theorem C30_remove_prefix_debug_refuted :
  exists s t m p, attached true mem_store mem_inv s t m /\ t_remove_prefix true (mem_read s) t p ⇓ Panic.
Proof. exact (remove_prefix_debug_bad). Qed.
Print Assumptions C30_remove_prefix_debug_refuted.

(** C30: in a release build, remove_prefix("y") changes other keys, when they are longer than 127 bytes. *)
Theorem C30_remove_prefix_release_refuted :
  exists s t m p t', attached false mem_store mem_inv s t m /\
  t_remove_prefix false (mem_read s) t p ⇓ Ok t' /\ ~ holds (mem_read s) t' (m_remove_prefix m p).
Proof. exact (remove_prefix_release_bad). Qed.
Print Assumptions C30_remove_prefix_release_refuted.

(** C31: outer_combine of attached trees panics or gives the right in-memory tree.  Missing: that it does not panic, see the refutation. *)
Theorem C31_outer_combine_partial :
  forall dbg S S' inv inv' s s' t u m mu, lawful S inv -> lawful S' inv' ->
  attached dbg S inv s t m -> attached dbg S' inv' s' u mu ->
  forall h, ok_or_panic (t_outer_combine dbg (st_read S s) (st_read S' s') t u (combiner (st_read S s) (st_read S' s') h))
    (fun x => holds mem x (m_outer h m mu)).
Proof. exact (fun dbg S S' inv inv' s s' t u m mu L L' A U => at_outer dbg S S' inv inv' L L' s s' t u m mu A U). Qed.
Print Assumptions C31_outer_combine_partial.
Example C31_outer_combine_partial_example : lawful mem_store mem_inv /\ attached false mem_store mem_inv abc_s abc_t (meaning p_abc) /\
  attached false mem_store mem_inv acx_s acx_t (meaning p_acx).
Proof. split; [exact mem_lawful|]; split; [exact (abc_attached' false)|]; exact acx_attached. Qed.

(** C31: inner_combine of attached trees panics or gives the right in-memory tree.  Missing: that it does not panic, see the refutation. *)
Theorem C31_inner_combine_partial :
  forall dbg S S' inv inv' s s' t u m mu, lawful S inv -> lawful S' inv' ->
  attached dbg S inv s t m -> attached dbg S' inv' s' u mu ->
  forall h, ok_or_panic (t_inner_combine dbg (st_read S s) (st_read S' s') t u (combiner (st_read S s) (st_read S' s') h))
    (fun x => holds mem x (m_inner h m mu)).
Proof. exact (fun dbg S S' inv inv' s s' t u m mu L L' A U => at_inner dbg S S' inv inv' L L' s s' t u m mu A U). Qed.
Print Assumptions C31_inner_combine_partial.
Example C31_inner_combine_partial_example : lawful mem_store mem_inv /\ attached false mem_store mem_inv abc_s abc_t (meaning p_abc) /\
  attached false mem_store mem_inv acx_s acx_t (meaning p_acx).
Proof. split; [exact mem_lawful|]; split; [exact (abc_attached' false)|]; exact acx_attached. Qed.

(** C31: left_combine of attached trees panics or gives the right in-memory tree.  Missing: that it does not panic, see the refutation. *)
Theorem C31_left_combine_partial :
  forall dbg S S' inv inv' s s' t u m mu, lawful S inv -> lawful S' inv' ->
  attached dbg S inv s t m -> attached dbg S' inv' s' u mu ->
  forall h, ok_or_panic (t_left_combine dbg (st_read S s) (st_read S' s') t u (combiner (st_read S s) (st_read S' s') h))
    (fun x => holds mem x (m_left h m mu)).
Proof. exact (fun dbg S S' inv inv' s s' t u m mu L L' A U => at_left dbg S S' inv inv' L L' s s' t u m mu A U). Qed.
Print Assumptions C31_left_combine_partial.
Example C31_left_combine_partial_example : lawful mem_store mem_inv /\ attached false mem_store mem_inv abc_s abc_t (meaning p_abc) /\
  attached false mem_store mem_inv acx_s acx_t (meaning p_acx).
Proof. split; [exact mem_lawful|]; split; [exact (abc_attached' false)|]; exact acx_attached. Qed.

(** C31: likewise inner_combine_pred. *)
Theorem C31_inner_combine_pred_partial :
  forall dbg S S' inv inv' s s' t u m mu, lawful S inv -> lawful S' inv' ->
  attached dbg S inv s t m -> attached dbg S' inv' s' u mu ->
  forall p, ok_or_panic (t_inner_combine_pred (st_read S s) (st_read S' s') t u (predicate (st_read S s) (st_read S' s') p))
    (fun b => b = true <-> exists k x y, m k = Some x /\ mu k = Some y /\ p x y = true).
Proof. exact (fun dbg S S' inv inv' s s' t u m mu L L' A U => at_inner_pred dbg S S' inv inv' L L' s s' t u m mu A U). Qed.
Print Assumptions C31_inner_combine_pred_partial.
Example C31_inner_combine_pred_partial_example : lawful mem_store mem_inv /\ attached false mem_store mem_inv abc_s abc_t (meaning p_abc) /\
  attached false mem_store mem_inv acx_s acx_t (meaning p_acx).
Proof. split; [exact mem_lawful|]; split; [exact (abc_attached' false)|]; exact acx_attached. Qed.

(** C31: likewise left_combine_pred. *)
Theorem C31_left_combine_pred_partial :
  forall dbg S S' inv inv' s s' t u m mu, lawful S inv -> lawful S' inv' ->
  attached dbg S inv s t m -> attached dbg S' inv' s' u mu ->
  forall p, ok_or_panic (t_left_combine_pred (st_read S s) (st_read S' s') t u (predicate (st_read S s) (st_read S' s') p))
    (fun b => b = true <-> exists k x, m k = Some x /\ match mu k with Some y => p x y = true | None => True end).
Proof. exact (fun dbg S S' inv inv' s s' t u m mu L L' A U => at_left_pred dbg S S' inv inv' L L' s s' t u m mu A U). Qed.
Print Assumptions C31_left_combine_pred_partial.
Example C31_left_combine_pred_partial_example : lawful mem_store mem_inv /\ attached false mem_store mem_inv abc_s abc_t (meaning p_abc) /\
  attached false mem_store mem_inv acx_s acx_t (meaning p_acx).
Proof. split; [exact mem_lawful|]; split; [exact (abc_attached' false)|]; exact acx_attached. Qed.

(** C31: outer_combine and left_combine of an attached and an in-memory tree panic. *)
Theorem C31_outer_left_refuted :
  exists s t m u mu, attached false mem_store mem_inv s t m /\ reachable false u /\ holds mem u mu /\
  t_outer_combine false (mem_read s) mem t u (combiner (mem_read s) mem (fun x _ => Some x)) ⇓ Panic /\
  t_left_combine false (mem_read s) mem t u (combiner (mem_read s) mem (fun x _ => Some x)) ⇓ Panic.
Proof. exact (combine_bad). Qed.
Print Assumptions C31_outer_left_refuted.

(** C31: inner_combine and inner_combine_pred likewise. *)
Theorem C31_inner_refuted :
  exists s t m u mu, attached false mem_store mem_inv s t m /\ reachable false u /\ holds mem u mu /\
  t_inner_combine false (mem_read s) mem t u (combiner (mem_read s) mem (fun x _ => Some x)) ⇓ Panic /\
  t_inner_combine_pred (mem_read s) mem t u (predicate (mem_read s) mem (fun _ _ => false)) ⇓ Panic.
Proof. exact (inner_bad). Qed.
Print Assumptions C31_inner_refuted.

(** C31: left_combine_pred likewise. *)
Theorem C31_left_pred_refuted :
  exists s t m u mu, attached false mem_store mem_inv s t m /\ reachable false u /\ holds mem u mu /\
  t_left_combine_pred (mem_read s) mem t u (predicate (mem_read s) mem (fun _ _ => false)) ⇓ Panic.
Proof. exact (left_pred_bad). Qed.
Print Assumptions C31_left_pred_refuted.

(** C32: serializing an in-memory tree produces the format of Format.v. *)
Theorem C32_format :
  forall dbg S inv s t, lawful S inv -> inv s -> reachable dbg t ->
  (exists bs s', serialize S t s = (Ok bs, s') /\ inv s' /\
     encodes (fun id d => st_read S s' id = Ok d) (shape_of t) bs) \/
  (exists s', serialize S t s = (Err, s') /\ inv s' /\ may_refuse S inv).
Proof. exact (fun dbg S inv s t L => at_encodes dbg S inv L s t). Qed.
Print Assumptions C32_format.
Example C32_format_example : lawful mem_store mem_inv /\ mem_inv [] /\ reachable true ex_t /\
  serialize mem_store ex_t [] = (Ok [x00; x80; x89; x00; x00; x00; x00; x00; x00; x00; x00; x02],
    [(1%N, [x01; x63; x01; x32; x80; x01; x64; x01; x33; x80]);
     (2%N, [x02; x61; x62; x01; x31; x89; x05; x00; x00; x00; x00; x00; x00; x00; x01; x01; x62; x00; x80])]).
Proof. split; [exact mem_lawful|]; split; [exact mem_inv_empty|]; split; [exact ex_reachable|]; vm_compute; reflexivity. Qed.

(** C32: bytes encode at most one tree, also when other data follow. *)
Theorem C32_unambiguous :
  forall blob : bytes -> bytes -> Prop, (forall i d d', blob i d -> blob i d' -> d = d') ->
  forall s s' b b' r r', encodes blob s b -> encodes blob s' b' -> b ++ r = b' ++ r' -> s = s' /\ b = b' /\ r = r'.
Proof. exact (fun blob H s => encodes_unique blob H s). Qed.
Print Assumptions C32_unambiguous.
Example C32_unambiguous_example : encodes (fun _ _ => False) (Shape (B"ab") (Some (B"x")) []) [x02; x61; x62; x01; x78; x80].
Proof. exact (enc_leaf _ (B"ab") (Some (B"x")) _ _ (pf_inline _ (B"ab") (le_n_S _ _ (Nat.le_add_r 2 125))) (vf_inline _ (B"x") (le_n_S _ _ (Nat.le_add_r 1 126)))). Qed.

(** C32: one node, with its children given by an id: decoding the bytes gives the fields back, a field of 128 bytes or more as an id under which the store has the data. *)
Theorem C32_node_round_trip :
  forall S inv s p v c, lawful S inv -> inv s ->
  (blob_is_id p = true -> length (blob_slice p) < 128) -> (blob_is_id v = true -> length (blob_slice v) < 128) ->
  length c < 128 ->
  (exists bs s' p' v', serialize S (Node p v (KId c)) s = (Ok bs, s') /\ inv s' /\
    deserialize bs = Ok (Node p' v' (KId c)) /\ field_back S s' 1 p p' /\ field_back S s' 0 v v') \/
  (exists s', serialize S (Node p v (KId c)) s = (Err, s') /\ inv s' /\ may_refuse S inv).
Proof. exact (fun S inv s p v c L => at_node_back S inv L p v c s). Qed.
Print Assumptions C32_node_round_trip.
Example C32_node_round_trip_example : lawful mem_store mem_inv /\ mem_inv [] /\ length (long 9 x05) < 128 /\
  match serialize mem_store (Node (Data (long 200 x07)) (Data (B"v")) (KId (long 9 x05))) [] with
  | (Ok bs, s') => deserialize bs = Ok (Node (Id (x07 :: to_be 8 1)) (Data (B"v")) (KId (long 9 x05)))
  | _ => False
  end.
Proof. split; [exact mem_lawful|]; split; [exact mem_inv_empty|]; split; [cbn; repeat constructor|]; vm_compute; reflexivity. Qed.

(** C33: what loading arbitrary bytes does.  It panics exactly when the bytes are three fields of which the last is not an id.  Missing: those panics, see the refutation. *)
Theorem C33_decode_partial :
  forall S (s : st S) id data, st_read S s id = Ok data ->
  (three_fields true data -> exists t, t_load S s (Some id) = Ok t) /\
  (three_fields false data -> t_load S s (Some id) = Panic) /\
  (~ three_fields true data -> ~ three_fields false data -> t_load S s (Some id) = Err).
Proof. exact (load_any). Qed.
Print Assumptions C33_decode_partial.
Example C33_decode_partial_example : mem_read [(1%N, B"xyz")] (to_be 8 1) = Ok (B"xyz") /\ t_load mem_store [(1%N, B"xyz")] (Some (to_be 8 1)) = Err.
Proof. split; vm_compute; reflexivity. Qed.

(** C33: loading the bytes 00 80 00 panics. *)
Theorem C33_decode_refuted :
  exists s id data, mem_inv s /\ mem_read s id = Ok data /\ t_load mem_store s (Some id) = Panic.
Proof. exact (load_bad). Qed.
Print Assumptions C33_decode_refuted.

(** C33: loading the bytes 80 80 80 succeeds, but every lookup in the tree panics. *)
Theorem C33_later_refuted :
  exists s id t, mem_inv s /\ t_load mem_store s (Some id) = Ok t /\
  forall k, t_get (mem_read s) t k ⇓ Panic.
Proof. exact (load_bad_later). Qed.
Print Assumptions C33_later_refuted.

(** C34: reads on any tree, when some store reads fail: the same answer or an error. *)
Theorem C34_reads :
  forall rd' rd t, flaky rd' rd ->
  (forall k, same_or_error (get_bytes rd' t k) (get_bytes rd t k)) /\
  (forall k, same_or_error (t_contains_key rd' t k) (t_contains_key rd t k)) /\
  (forall p, same_or_error (t_has_prefix rd' t p) (t_has_prefix rd t p)) /\
  same_or_error (iter_bytes rd' t) (iter_bytes rd t) /\
  same_or_error (values_bytes rd' t) (values_bytes rd t) /\
  (forall p, same_or_error (scan_bytes rd' t p) (scan_bytes rd t p)) /\
  (forall p, same_or_error (first_entry_bytes rd' t p) (first_entry_bytes rd t p)) /\
  (forall p, same_or_error (last_entry_bytes rd' t p) (last_entry_bytes rd t p)) /\
  same_or_error (first_value_bytes rd' t) (first_value_bytes rd t) /\
  same_or_error (last_value_bytes rd' t) (last_value_bytes rd t) /\
  (forall d, same_or_error (t_group_by rd' t d) (t_group_by rd t d)) /\
  (forall p s, same_or_error (t_filter_prefix rd' t p s) (t_filter_prefix rd t p s)) /\
  same_or_error (t_detached rd' t) (t_detached rd t).
Proof. exact (fails_reads). Qed.
Print Assumptions C34_reads.
Example C34_reads_example : flaky (fun _ => Err) (mem_read abc_s) /\ (get_bytes (mem_read abc_s) abc_t (B"ab") 60) = Ok (Some (B"1")) /\
  get_bytes (fun _ => Err) abc_t (B"ab") 60 = Err.
Proof. split; [intros id; left; reflexivity|]; split; vm_compute; reflexivity. Qed.

(** C34: insert and removal. *)
Theorem C34_mutations :
  forall dbg rd' rd t, flaky rd' rd ->
  (forall k v, same_or_error (t_insert dbg rd' t k v) (t_insert dbg rd t k v)) /\
  (forall k, same_or_error (t_remove dbg rd' t k) (t_remove dbg rd t k)) /\
  (forall p, same_or_error (t_remove_prefix dbg rd' t p) (t_remove_prefix dbg rd t p)).
Proof. exact (fails_mutations). Qed.
Print Assumptions C34_mutations.
Example C34_mutations_example : flaky (fun _ => Err) (mem_read abc_s) /\ t_insert true (fun _ => Err) abc_t (B"abc") [] 60 = Err.
Proof. split; [intros id; left; reflexivity|]; vm_compute; reflexivity. Qed.

(** C34: combining two trees, with failing reads on both sides. *)
Theorem C34_combines :
  forall dbg rdA' rdA rdB' rdB t u, flaky rdA' rdA -> flaky rdB' rdB ->
  (forall h, same_or_error (t_outer_combine dbg rdA' rdB' t u (combiner rdA' rdB' h)) (t_outer_combine dbg rdA rdB t u (combiner rdA rdB h))) /\
  (forall h, same_or_error (t_inner_combine dbg rdA' rdB' t u (combiner rdA' rdB' h)) (t_inner_combine dbg rdA rdB t u (combiner rdA rdB h))) /\
  (forall h, same_or_error (t_left_combine dbg rdA' rdB' t u (combiner rdA' rdB' h)) (t_left_combine dbg rdA rdB t u (combiner rdA rdB h))) /\
  (forall p, same_or_error (t_inner_combine_pred rdA' rdB' t u (predicate rdA' rdB' p)) (t_inner_combine_pred rdA rdB t u (predicate rdA rdB p))) /\
  (forall p, same_or_error (t_left_combine_pred rdA' rdB' t u (predicate rdA' rdB' p)) (t_left_combine_pred rdA rdB t u (predicate rdA rdB p))) /\
  (forall h, same_or_error (t_outer_combine_with dbg rdA' rdB' (detach_converter rdB') t u (combiner_with rdA' rdB' h))
     (t_outer_combine_with dbg rdA rdB (detach_converter rdB) t u (combiner_with rdA rdB h))) /\
  (forall h, same_or_error (t_inner_combine_with dbg rdA' rdB' t u (combiner_with rdA' rdB' h)) (t_inner_combine_with dbg rdA rdB t u (combiner_with rdA rdB h))) /\
  (forall h, same_or_error (t_left_combine_with dbg rdA' rdB' t u (combiner_with rdA' rdB' h)) (t_left_combine_with dbg rdA rdB t u (combiner_with rdA rdB h))) /\
  (forall s, same_or_error (t_retain_prefix_with dbg rdA' rdB' t u (selector rdB' s)) (t_retain_prefix_with dbg rdA rdB t u (selector rdB s))) /\
  (forall s, same_or_error (t_remove_prefix_with dbg rdA' rdB' t u (selector rdB' s)) (t_remove_prefix_with dbg rdA rdB t u (selector rdB s))).
Proof. exact (fails_combines). Qed.
Print Assumptions C34_combines.
Example C34_combines_example : flaky (fun _ => Err) (mem_read abc_s) /\
  t_outer_combine_with true (fun _ => Err) (fun _ => Err) (detach_converter (fun _ => Err)) abc_t ex_a
    (combiner_with (fun _ => Err) (fun _ => Err) ex_h) 60 = Err.
Proof. split; [intros id; left; reflexivity|]; vm_compute; reflexivity. Qed.

(** C34: iterators, call by call.  [n] calls of next on the iterators over entries, values and groups in any state: the same items, or the same items up to one error after which nothing comes. *)
Theorem C34_iterators :
  forall rd' rd, flaky rd' rd ->
  (forall s n ys, pulls (kv_next rd) n s ⇓ Ok ys -> exists ys', pulls (kv_next rd') n s ⇓ Ok ys' /\ cut_by_error ys' ys) /\
  (forall s n ys, pulls (vi_next rd) n s ⇓ Ok ys -> exists ys', pulls (vi_next rd') n s ⇓ Ok ys' /\ cut_by_error ys' ys) /\
  (forall d s n ys, pulls (gb_next rd d) n s ⇓ Ok ys -> exists ys', pulls (gb_next rd' d) n s ⇓ Ok ys' /\ cut_by_error ys' ys).
Proof. exact (fails_iterators). Qed.
Print Assumptions C34_iterators.
Example C34_iterators_example : flaky (fun _ => Err) (mem_read abc_s) /\
  pulls (kv_next (mem_read abc_s)) 3 (kv_new abc_t) 60 =
    Ok [YItem (B"a", Data (B"1")); YItem (B"ab", Data (B"1")); YItem (B"ac", Data (B"2"))] /\
  pulls (kv_next (fun _ => Err)) 3 (kv_new abc_t) 60 = Ok [YError; YDone; YDone].
Proof. split; [intros id; left; reflexivity|]; split; vm_compute; reflexivity. Qed.

(** C35: any sequence of writes to a MemStore.  [top m] is the largest id in use; the hypothesis says that the 64 bit counter does not overflow. *)
Theorem C35_mem_store :
  forall dbg ds m, mem_inv m -> (top m + N.of_nat (length ds) < u64_max)%N ->
  exists ids m', mem_writes dbg m ds = (Ok ids, m') /\ mem_inv m' /\ NoDup ids /\
    (forall id x, mem_read m id = Ok x -> mem_read m' id = Ok x /\ ~ In id ids) /\
    Forall2 (fun id d => mem_read m' id = Ok d) ids ds /\
    (forall id, mem_read m id = Err -> ~ In id ids -> mem_read m' id = Err).
Proof. exact (mem_writes_ok). Qed.
Print Assumptions C35_mem_store.
Example C35_mem_store_example : mem_inv abc_s /\ (top abc_s + 3 < u64_max)%N /\
  fst (mem_writes true abc_s [B"x"; []; B"x"]) = Ok [to_be 8 2; to_be 8 3; to_be 8 4].
Proof. split; [exact abc_inv|]; split; vm_compute; reflexivity. Qed.

(** C35: MemStore keeps the contract of a blob store. *)
Theorem C35_mem_lawful :
  lawful mem_store mem_inv.
Proof. exact (mem_lawful). Qed.
Print Assumptions C35_mem_lawful.
Example C35_mem_lawful_example : mem_inv ex_s.
Proof. exact ex_inv. Qed.
