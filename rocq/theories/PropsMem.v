(** The properties of in-memory trees (C01-C24, C51-C54).

    [reachable dbg t]: [t] was built by some program of API calls in a debug or
    release build.  [holds mem t m]: [get] answers on [t] like the plain map [m].
    [f ⇓ Ok r]: the call terminates, does not panic and returns [r].
    See Spec.v and Client.v. *)
From Verif Require Import MemExamples Base Header Node Combine Iter Api Spec Client Top TopOps MemLemmas.

(** C01: insert is a point update. *)
Theorem C01_insert :
  forall dbg t m k v, reachable dbg t -> holds mem t m ->
  exists t', t_insert dbg mem t k v ⇓ Ok t' /\ reachable dbg t' /\ holds mem t' (m_insert m k v).
Proof. exact (fun dbg t m k v R H => mem_insert dbg t m R H k v). Qed.
Print Assumptions C01_insert.
Example C01_insert_example : reachable true ex_t /\ holds mem ex_t ex_m /\
  ex_run (t_insert true mem ex_t (B"abca") (B"4")) =
    Ok [(B"ab", B"1"); (B"abc", B"2"); (B"abca", B"4"); (B"abd", B"3"); (B"b", B"")].
Proof. split; [exact ex_reachable|]; split; [exact ex_holds|]; vm_compute; reflexivity. Qed.

(** C02: remove is a point deletion. *)
Theorem C02_remove :
  forall dbg t m k, reachable dbg t -> holds mem t m ->
  exists t', t_remove dbg mem t k ⇓ Ok t' /\ reachable dbg t' /\ holds mem t' (m_remove m k).
Proof. exact (fun dbg t m k R H => mem_remove dbg t m R H k). Qed.
Print Assumptions C02_remove.
Example C02_remove_example : reachable true ex_t /\ holds mem ex_t ex_m /\
  ex_run (t_remove true mem ex_t (B"ab")) =
    Ok [(B"abc", B"2"); (B"abd", B"3"); (B"b", B"")].
Proof. split; [exact ex_reachable|]; split; [exact ex_holds|]; vm_compute; reflexivity. Qed.

(** C03: contains_key agrees with get. *)
Theorem C03_contains_key :
  forall dbg t m k, reachable dbg t -> holds mem t m ->
  exists b, t_contains_key mem t k ⇓ Ok b /\ (b = true <-> m k <> None).
Proof. exact (fun dbg t m k R H => mem_contains_key dbg t m R H k). Qed.
Print Assumptions C03_contains_key.
Example C03_contains_key_example : reachable true ex_t /\ holds mem ex_t ex_m /\
  map (fun k => t_contains_key mem ex_t k 60) [B"b"; B"ab"; B""; B"a"; B"abcd"] = [Ok true; Ok true; Ok false; Ok false; Ok false].
Proof. split; [exact ex_reachable|]; split; [exact ex_holds|]; vm_compute; reflexivity. Qed.

(** C04: has_prefix is exact.  Missing: the empty prefix on the empty tree, see the refutation. *)
Theorem C04_has_prefix_partial :
  forall dbg t m p, reachable dbg t -> holds mem t m ->
  (p <> [] \/ exists k, m k <> None) ->
  exists b, t_has_prefix mem t p ⇓ Ok b /\ (b = true <-> exists k, m k <> None /\ starts_with p k = true).
Proof. exact (fun dbg t m p R H Hp => mem_has_prefix dbg t m R H p Hp). Qed.
Print Assumptions C04_has_prefix_partial.
Example C04_has_prefix_partial_example : reachable true ex_t /\ holds mem ex_t ex_m /\ B"a" <> [] /\
  map (fun k => t_has_prefix mem ex_t k 60) [B""; B"a"; B"abd"; B"ac"; B"abde"] = [Ok true; Ok true; Ok true; Ok false; Ok false].
Proof. split; [exact ex_reachable|]; split; [exact ex_holds|]; split; [discriminate|]; vm_compute; reflexivity. Qed.

(** C04: [has_prefix("")] is true on the empty tree. *)
Theorem C04_has_prefix_refuted :
  exists t m p, reachable true t /\ holds mem t m /\
  t_has_prefix mem t p ⇓ Ok true /\ ~ exists k, m k <> None /\ starts_with p k = true.
Proof. exact has_prefix_bad. Qed.
Print Assumptions C04_has_prefix_refuted.

(** C04: [filter_prefix("", p)] on the empty tree gives a tree without keys for which [has_prefix(p)] is true. *)
Theorem C04_has_prefix_after_filter_refuted :
  exists t m p t', reachable true t /\ holds mem t m /\ p <> [] /\
  t_filter_prefix mem t [] p ⇓ Ok t' /\ holds mem t' m_empty /\ t_has_prefix mem t' p ⇓ Ok true.
Proof. exact filter_then_has_prefix_bad. Qed.
Print Assumptions C04_has_prefix_after_filter_refuted.

(** C05: remove_prefix deletes exactly the keys with that prefix. *)
Theorem C05_remove_prefix :
  forall dbg t m p, reachable dbg t -> holds mem t m ->
  exists t', t_remove_prefix dbg mem t p ⇓ Ok t' /\ reachable dbg t' /\ holds mem t' (m_remove_prefix m p).
Proof. exact (fun dbg t m p R H => mem_remove_prefix dbg t m R H p). Qed.
Print Assumptions C05_remove_prefix.
Example C05_remove_prefix_example : reachable true ex_t /\ holds mem ex_t ex_m /\
  ex_run (t_remove_prefix true mem ex_t (B"abc")) =
    Ok [(B"ab", B"1"); (B"abd", B"3"); (B"b", B"")].
Proof. split; [exact ex_reachable|]; split; [exact ex_holds|]; vm_compute; reflexivity. Qed.

(** C06: iter yields every entry once in ascending key order. *)
Theorem C06_iter :
  forall dbg t m, reachable dbg t -> holds mem t m ->
  exists l, iter_bytes mem t ⇓ Ok l /\ lists l m.
Proof. exact mem_iter. Qed.
Print Assumptions C06_iter.
Example C06_iter_example : reachable true ex_t /\ holds mem ex_t ex_m /\
  iter_bytes mem ex_t 60 =
    Ok [(B"ab", B"1"); (B"abc", B"2"); (B"abd", B"3"); (B"b", B"")].
Proof. split; [exact ex_reachable|]; split; [exact ex_holds|]; vm_compute; reflexivity. Qed.

(** C07: values yields the values in key order. *)
Theorem C07_values :
  forall dbg t m, reachable dbg t -> holds mem t m ->
  exists l, iter_bytes mem t ⇓ Ok l /\ values_bytes mem t ⇓ Ok (map snd l).
Proof. exact mem_values. Qed.
Print Assumptions C07_values.
Example C07_values_example : reachable true ex_t /\ holds mem ex_t ex_m /\
  values_bytes mem ex_t 60 = Ok [B"1"; B"2"; B"3"; B""].
Proof. split; [exact ex_reachable|]; split; [exact ex_holds|]; vm_compute; reflexivity. Qed.

(** C08: scan_prefix lists the entries below the prefix, when the prefix is empty or ends inside an edge.
    Missing: prefixes that end at a node, see the refutation. *)
Theorem C08_scan_prefix_partial :
  forall dbg t m p, reachable dbg t -> holds mem t m ->
  (p = [] \/ (m p = None /\ forall c1 c2 z1 z2,
     m (p ++ c1 :: z1) <> None -> m (p ++ c2 :: z2) <> None -> c1 = c2)) ->
  exists l, scan_bytes mem t p ⇓ Ok l /\ lists_where (fun k => starts_with p k = true) l m.
Proof. exact (fun dbg t m p R H Hp => mem_scan dbg t m R H p Hp). Qed.
Print Assumptions C08_scan_prefix_partial.
Example C08_scan_prefix_partial_example : reachable true ex_t /\ holds mem ex_t ex_m /\ ex_m (B"a") = None /\
  (forall c1 c2 z1 z2, ex_m (B"a" ++ c1 :: z1) <> None -> ex_m (B"a" ++ c2 :: z2) <> None -> c1 = c2) /\
  scan_bytes mem ex_t (B"a") 60 =
    Ok [(B"ab", B"1"); (B"abc", B"2"); (B"abd", B"3")].
Proof. split; [exact ex_reachable|]; split; [exact ex_holds|]; split; [reflexivity|]; split; [exact ex_scan_hyp|]; vm_compute; reflexivity. Qed.

(** C08: for every prefix, scan_prefix yields the right values in the right order; the keys differ from the
    right ones at most by one repeated edge [e]. *)
Theorem C08_scan_prefix_values_partial :
  forall dbg t m p, reachable dbg t -> holds mem t m ->
  exists l l' e, scan_bytes mem t p ⇓ Ok l' /\
    lists_where (fun k => starts_with p k = true) l m /\
    Forall2 (fun a b => snd a = snd b /\ exists z, fst a = p ++ z /\ fst b = p ++ e ++ z) l l'.
Proof. exact (fun dbg t m p R H => mem_scan_values dbg t m R H p). Qed.
Print Assumptions C08_scan_prefix_values_partial.
Example C08_scan_prefix_values_partial_example : reachable true ex_t /\ holds mem ex_t ex_m /\
  scan_bytes mem ex_t (B"abc") 60 = Ok [(B"abcc", B"2")].
Proof. split; [exact ex_reachable|]; split; [exact ex_holds|]; vm_compute; reflexivity. Qed.

(** C08: [scan_prefix("abc")] of {"abc"} yields the key "abcabc". *)
Theorem C08_scan_prefix_refuted :
  exists t m p l, reachable true t /\ holds mem t m /\
  scan_bytes mem t p ⇓ Ok l /\ ~ lists_where (fun k => starts_with p k = true) l m.
Proof. exact scan_bad. Qed.
Print Assumptions C08_scan_prefix_refuted.

(** C09: filter_prefix selects and renames a subtree. *)
Theorem C09_filter_prefix :
  forall dbg t m p s, reachable dbg t -> holds mem t m ->
  exists t', t_filter_prefix mem t p s ⇓ Ok t' /\ holds mem t' (m_filter_prefix m p s).
Proof. exact mem_filter_prefix_any. Qed.
Print Assumptions C09_filter_prefix.
Example C09_filter_prefix_example : reachable true ex_t /\ holds mem ex_t ex_m /\
  ex_run (t_filter_prefix mem ex_t (B"ab") (B"zz")) =
    Ok [(B"zz", B"1"); (B"zzc", B"2"); (B"zzd", B"3")].
Proof. split; [exact ex_reachable|]; split; [exact ex_holds|]; vm_compute; reflexivity. Qed.

(** C09: except for [filter_prefix("", s)] on an empty tree, the result is a tree all other properties apply to. *)
Theorem C09_filter_prefix_reachable :
  forall dbg t m p s, reachable dbg t -> holds mem t m ->
  (p <> [] \/ s = [] \/ exists k, m k <> None) ->
  exists t', t_filter_prefix mem t p s ⇓ Ok t' /\ reachable dbg t' /\ holds mem t' (m_filter_prefix m p s).
Proof. exact (fun dbg t m p s R H Hp => mem_filter_prefix dbg t m R H p s Hp). Qed.
Print Assumptions C09_filter_prefix_reachable.
Example C09_filter_prefix_reachable_example : reachable true ex_t /\ holds mem ex_t ex_m /\ B"ab" <> [].
Proof. split; [exact ex_reachable|]; split; [exact ex_holds|]; discriminate. Qed.

(** C10: first and last entry and value are the extremes. *)
Theorem C10_first_last :
  forall dbg t m p, reachable dbg t -> holds mem t m ->
  exists l, lists l m /\
    first_entry_bytes mem t p ⇓ Ok (option_map (fun e => (p ++ fst e, snd e)) (first_of l)) /\
    last_entry_bytes mem t p ⇓ Ok (option_map (fun e => (p ++ fst e, snd e)) (last_of l)) /\
    first_value_bytes mem t ⇓ Ok (option_map snd (first_of l)) /\
    last_value_bytes mem t ⇓ Ok (option_map snd (last_of l)).
Proof. exact (fun dbg t m p R H => mem_first_last dbg t m R H p). Qed.
Print Assumptions C10_first_last.
Example C10_first_last_example : reachable true ex_t /\ holds mem ex_t ex_m /\
  first_entry_bytes mem ex_t (B"p/") 60 = Ok (Some (B"p/ab", B"1")) /\ last_entry_bytes mem ex_t (B"p/") 60 = Ok (Some (B"p/b", B"")).
Proof. split; [exact ex_reachable|]; split; [exact ex_holds|]; split; vm_compute; reflexivity. Qed.

(** C10: after [filter_prefix("", "s")] on the empty tree and inserting "t", the tree has one entry but
    [first_value] and [first_entry] find none. *)
Theorem C10_first_after_filter_refuted :
  exists s t k v t',
  t_filter_prefix mem n_empty [] s ⇓ Ok t /\ t_insert true mem t k v ⇓ Ok t' /\
  get_bytes mem t' k ⇓ Ok (Some v) /\ iter_bytes mem t' ⇓ Ok [(k, v)] /\
  first_value_bytes mem t' ⇓ Ok None /\ first_entry_bytes mem t' [] ⇓ Ok None.
Proof. exact first_after_filter_bad. Qed.
Print Assumptions C10_first_after_filter_refuted.

(** C11: group_by partitions the tree. *)
Theorem C11_group_by :
  forall dbg t m descend, reachable dbg t -> holds mem t m ->
  (forall path r, exists b, descend path r = Ok b) ->
  exists ts ls, t_group_by mem t descend ⇓ Ok ts /\
    Forall2 (fun u l => exists mu, holds mem u mu /\ lists l mu) ts ls /\ lists (concat ls) m.
Proof. exact (fun dbg t m d R H Hd => mem_group_by dbg t m R H d Hd). Qed.
Print Assumptions C11_group_by.
Example C11_group_by_example : reachable true ex_t /\ holds mem ex_t ex_m /\
  (ts <- t_group_by mem ex_t (fun path _ => Ok (length path <=? 1)) 60 ;; Ok (map (fun u => iter_bytes mem u 60) ts)) =
    Ok [Ok [(B"ab", B"1"); (B"abc", B"2"); (B"abd", B"3")]; Ok [(B"b", B"")]].
Proof. split; [exact ex_reachable|]; split; [exact ex_holds|]; vm_compute; reflexivity. Qed.

(** C12: outer_combine is the pointwise outer join. *)
Theorem C12_outer_combine :
  forall dbg t u m mu h, reachable dbg t -> reachable dbg u -> holds mem t m -> holds mem u mu ->
  exists t', t_outer_combine dbg mem mem t u (combiner mem mem h) ⇓ Ok t' /\
    reachable dbg t' /\ holds mem t' (m_outer h m mu).
Proof. exact (fun dbg t u m mu h R R' H H' => mem_outer dbg t m R H u mu R' H' h). Qed.
Print Assumptions C12_outer_combine.
Example C12_outer_combine_example : reachable true ex_t /\ holds mem ex_t ex_m /\ reachable true ex_u /\ holds mem ex_u ex_mu /\
  ex_run (t_outer_combine true mem mem ex_t ex_u (combiner mem mem ex_h)) =
    Ok [(B"ab", B"1"); (B"abc", B"25"); (B"abd", B"3"); (B"c", B"9")].
Proof. split; [exact ex_reachable|]; split; [exact ex_holds|]; split; [exact ex_reachable_u|]; split; [exact ex_holds_u|]; vm_compute; reflexivity. Qed.

(** C13: inner_combine is the pointwise inner join. *)
Theorem C13_inner_combine :
  forall dbg t u m mu h, reachable dbg t -> reachable dbg u -> holds mem t m -> holds mem u mu ->
  exists t', t_inner_combine dbg mem mem t u (combiner mem mem h) ⇓ Ok t' /\
    reachable dbg t' /\ holds mem t' (m_inner h m mu).
Proof. exact (fun dbg t u m mu h R R' H H' => mem_inner dbg t m R H u mu R' H' h). Qed.
Print Assumptions C13_inner_combine.
Example C13_inner_combine_example : reachable true ex_t /\ holds mem ex_t ex_m /\ reachable true ex_u /\ holds mem ex_u ex_mu /\
  ex_run (t_inner_combine true mem mem ex_t ex_u (combiner mem mem ex_h)) =
    Ok [(B"abc", B"25")].
Proof. split; [exact ex_reachable|]; split; [exact ex_holds|]; split; [exact ex_reachable_u|]; split; [exact ex_holds_u|]; vm_compute; reflexivity. Qed.

(** C14: left_combine is the pointwise left join. *)
Theorem C14_left_combine :
  forall dbg t u m mu h, reachable dbg t -> reachable dbg u -> holds mem t m -> holds mem u mu ->
  exists t', t_left_combine dbg mem mem t u (combiner mem mem h) ⇓ Ok t' /\
    reachable dbg t' /\ holds mem t' (m_left h m mu).
Proof. exact (fun dbg t u m mu h R R' H H' => mem_left dbg t m R H u mu R' H' h). Qed.
Print Assumptions C14_left_combine.
Example C14_left_combine_example : reachable true ex_t /\ holds mem ex_t ex_m /\ reachable true ex_u /\ holds mem ex_u ex_mu /\
  ex_run (t_left_combine true mem mem ex_t ex_u (combiner mem mem ex_h)) =
    Ok [(B"ab", B"1"); (B"abc", B"25"); (B"abd", B"3")].
Proof. split; [exact ex_reachable|]; split; [exact ex_holds|]; split; [exact ex_reachable_u|]; split; [exact ex_holds_u|]; vm_compute; reflexivity. Qed.

(** C15: inner_combine_pred decides existence over common keys. *)
Theorem C15_inner_combine_pred :
  forall dbg t u m mu p, reachable dbg t -> reachable dbg u -> holds mem t m -> holds mem u mu ->
  exists b, t_inner_combine_pred mem mem t u (predicate mem mem p) ⇓ Ok b /\
    (b = true <-> exists k x y, m k = Some x /\ mu k = Some y /\ p x y = true).
Proof. exact (fun dbg t u m mu p R R' H H' => mem_inner_pred dbg t m R H u mu R' H' p). Qed.
Print Assumptions C15_inner_combine_pred.
Example C15_inner_combine_pred_example : reachable true ex_t /\ holds mem ex_t ex_m /\ reachable true ex_u /\ holds mem ex_u ex_mu /\
  map (fun p => t_inner_combine_pred mem mem ex_t ex_u (predicate mem mem p) 60) [beq; fun x y => beq y (B"5")] = [Ok false; Ok true].
Proof. split; [exact ex_reachable|]; split; [exact ex_holds|]; split; [exact ex_reachable_u|]; split; [exact ex_holds_u|]; vm_compute; reflexivity. Qed.

(** C16: left_combine_pred decides existence over the left tree; with [fun _ _ => false] it is the negation of
    'key subset'. *)
Theorem C16_left_combine_pred :
  forall dbg t u m mu p, reachable dbg t -> reachable dbg u -> holds mem t m -> holds mem u mu ->
  exists b, t_left_combine_pred mem mem t u (predicate mem mem p) ⇓ Ok b /\
    (b = true <-> exists k x, m k = Some x /\ match mu k with Some y => p x y = true | None => True end).
Proof. exact (fun dbg t u m mu p R R' H H' => mem_left_pred dbg t m R H u mu R' H' p). Qed.
Print Assumptions C16_left_combine_pred.
Example C16_left_combine_pred_example : reachable true ex_t /\ holds mem ex_t ex_m /\ reachable true ex_u /\ holds mem ex_u ex_mu /\
  map (fun t => t_left_combine_pred mem mem t ex_u (predicate mem mem (fun _ _ => false)) 60) [ex_t; ex_u] = [Ok true; Ok false].
Proof. split; [exact ex_reachable|]; split; [exact ex_holds|]; split; [exact ex_reachable_u|]; split; [exact ex_holds_u|]; vm_compute; reflexivity. Qed.

(** C17: outer_combine_with is the in-place outer join. *)
Theorem C17_outer_combine_with :
  forall dbg t u m mu h, reachable dbg t -> reachable dbg u -> holds mem t m -> holds mem u mu ->
  exists t', t_outer_combine_with dbg mem mem (detach_converter mem) t u (combiner_with mem mem h) ⇓ Ok t' /\
    reachable dbg t' /\ holds mem t' (m_outer h m mu).
Proof. exact (fun dbg t u m mu h R R' H H' => mem_outer_with dbg t m R H u mu R' H' h). Qed.
Print Assumptions C17_outer_combine_with.
Example C17_outer_combine_with_example : reachable true ex_t /\ holds mem ex_t ex_m /\ reachable true ex_u /\ holds mem ex_u ex_mu /\
  ex_run (t_outer_combine_with true mem mem (detach_converter mem) ex_t ex_u (combiner_with mem mem ex_h)) =
    Ok [(B"ab", B"1"); (B"abc", B"25"); (B"abd", B"3"); (B"c", B"9")].
Proof. split; [exact ex_reachable|]; split; [exact ex_holds|]; split; [exact ex_reachable_u|]; split; [exact ex_holds_u|]; vm_compute; reflexivity. Qed.

(** C18: inner_combine_with is the in-place inner join. *)
Theorem C18_inner_combine_with :
  forall dbg t u m mu h, reachable dbg t -> reachable dbg u -> holds mem t m -> holds mem u mu ->
  exists t', t_inner_combine_with dbg mem mem t u (combiner_with mem mem h) ⇓ Ok t' /\
    reachable dbg t' /\ holds mem t' (m_inner h m mu).
Proof. exact (fun dbg t u m mu h R R' H H' => mem_inner_with dbg t m R H u mu R' H' h). Qed.
Print Assumptions C18_inner_combine_with.
Example C18_inner_combine_with_example : reachable true ex_t /\ holds mem ex_t ex_m /\ reachable true ex_u /\ holds mem ex_u ex_mu /\
  ex_run (t_inner_combine_with true mem mem ex_t ex_u (combiner_with mem mem ex_h)) =
    Ok [(B"abc", B"25")].
Proof. split; [exact ex_reachable|]; split; [exact ex_holds|]; split; [exact ex_reachable_u|]; split; [exact ex_holds_u|]; vm_compute; reflexivity. Qed.

(** C19: left_combine_with is the in-place left join. *)
Theorem C19_left_combine_with :
  forall dbg t u m mu h, reachable dbg t -> reachable dbg u -> holds mem t m -> holds mem u mu ->
  exists t', t_left_combine_with dbg mem mem t u (combiner_with mem mem h) ⇓ Ok t' /\
    reachable dbg t' /\ holds mem t' (m_left h m mu).
Proof. exact (fun dbg t u m mu h R R' H H' => mem_left_with dbg t m R H u mu R' H' h). Qed.
Print Assumptions C19_left_combine_with.
Example C19_left_combine_with_example : reachable true ex_t /\ holds mem ex_t ex_m /\ reachable true ex_u /\ holds mem ex_u ex_mu /\
  ex_run (t_left_combine_with true mem mem ex_t ex_u (combiner_with mem mem ex_h)) =
    Ok [(B"ab", B"1"); (B"abc", B"25"); (B"abd", B"3")].
Proof. split; [exact ex_reachable|]; split; [exact ex_holds|]; split; [exact ex_reachable_u|]; split; [exact ex_holds_u|]; vm_compute; reflexivity. Qed.

(** C20: retain_prefix_with keeps exactly the keys below selected prefixes, when no selected prefix is below a
    rejected one (for instance when every value is selected).  Missing: the other cases, see the refutation. *)
Theorem C20_retain_prefix_with_partial :
  forall dbg t u m mu s, reachable dbg t -> reachable dbg u -> holds mem t m -> holds mem u mu ->
  downward_rejected s mu ->
  exists t', t_retain_prefix_with dbg mem mem t u (selector mem s) ⇓ Ok t' /\
    reachable dbg t' /\ holds mem t' (m_retain_prefix_with s m mu).
Proof. exact (fun dbg t u m mu s R R' H H' Hs => mem_retain_prefix_with dbg t m R H u mu R' H' s Hs). Qed.
Print Assumptions C20_retain_prefix_with_partial.
Example C20_retain_prefix_with_partial_example : reachable true ex_t /\ holds mem ex_t ex_m /\ reachable true ex_u /\ holds mem ex_u ex_mu /\ downward_rejected (fun v => beq v (B"5")) ex_mu /\
  ex_run (t_retain_prefix_with true mem mem ex_t ex_u (selector mem (fun v => beq v (B"5")))) =
    Ok [(B"abc", B"2")].
Proof. split; [exact ex_reachable|]; split; [exact ex_holds|]; split; [exact ex_reachable_u|]; split; [exact ex_holds_u|]; split; [exact ex_downward|]; vm_compute; reflexivity. Qed.

(** C20: a={"ab"}, b={"a" rejected, "ab" selected} drops "ab". *)
Theorem C20_retain_prefix_with_refuted :
  exists t u m mu s t', reachable true t /\ reachable true u /\ holds mem t m /\ holds mem u mu /\
  t_retain_prefix_with true mem mem t u (selector mem s) ⇓ Ok t' /\
  ~ holds mem t' (m_retain_prefix_with s m mu).
Proof. exact retain_bad. Qed.
Print Assumptions C20_retain_prefix_with_refuted.

(** C21: remove_prefix_with drops exactly the keys below selected prefixes. *)
Theorem C21_remove_prefix_with :
  forall dbg t u m mu s, reachable dbg t -> reachable dbg u -> holds mem t m -> holds mem u mu ->
  exists t', t_remove_prefix_with dbg mem mem t u (selector mem s) ⇓ Ok t' /\
    reachable dbg t' /\ holds mem t' (m_remove_prefix_with s m mu).
Proof. exact (fun dbg t u m mu s R R' H H' => mem_remove_prefix_with dbg t m R H u mu R' H' s). Qed.
Print Assumptions C21_remove_prefix_with.
Example C21_remove_prefix_with_example : reachable true ex_t /\ holds mem ex_t ex_m /\ reachable true ex_u /\ holds mem ex_u ex_mu /\
  ex_run (t_remove_prefix_with true mem mem ex_t ex_u (selector mem (fun v => beq v (B"5")))) =
    Ok [(B"ab", B"1"); (B"abd", B"3"); (B"b", B"")].
Proof. split; [exact ex_reachable|]; split; [exact ex_holds|]; split; [exact ex_reachable_u|]; split; [exact ex_holds_u|]; vm_compute; reflexivity. Qed.

(** C22: any history of calls behaves like an ordered map and never panics. *)
Theorem C22_history :
  forall dbg p, allowed p -> exists t, run dbg p ⇓ Ok t /\ holds mem t (meaning p).
Proof. exact mem_history. Qed.
Print Assumptions C22_history.
Example C22_history_example : allowed (POuter ex_h (PRemovePrefixWith (fun _ => true) ex_p ex_q) (PInnerWith ex_h ex_p ex_q)) /\
  ex_run (run true (POuter ex_h (PRemovePrefixWith (fun _ => true) ex_p ex_q) (PInnerWith ex_h ex_p ex_q))) =
    Ok [(B"ab", B"1"); (B"abc", B"25"); (B"abd", B"3")].
Proof. split; [cbn; tauto|]; vm_compute; reflexivity. Qed.

(** C23: the tree shape is determined by the contents, across histories and builds. *)
Theorem C23_shape :
  forall dbg dbg' t u m, reachable dbg t -> reachable dbg' u -> holds mem t m -> holds mem u m ->
  shape_of t = shape_of u /\ is_empty t = is_empty u.
Proof. exact mem_shape. Qed.
Print Assumptions C23_shape.
Example C23_shape_example : reachable true (n_single (B"a") (B"1")) /\ reachable true twice_t /\ n_single (B"a") (B"1") <> twice_t /\
  holds mem (n_single (B"a") (B"1")) (m_insert m_empty (B"a") (B"1")) /\ holds mem twice_t (m_insert m_empty (B"a") (B"1")).
Proof. split; [apply reach_single|]; split; [exact reach_twice|]; split; [discriminate|]; split; [apply holds_single|]; exact holds_twice. Qed.

(** C24: equal trees have equal contents, when no value is empty.  Missing: empty values and the converse, see the
    refutations. *)
Theorem C24_equality_partial :
  forall dbg t u m mu, reachable dbg t -> reachable dbg u -> holds mem t m -> holds mem u mu ->
  (forall k, m k <> Some [] /\ mu k <> Some []) -> n_eq t u = true -> same m mu.
Proof. exact mem_eq. Qed.
Print Assumptions C24_equality_partial.
Example C24_equality_partial_example : reachable true (n_single (B"a") (B"1")) /\ holds mem (n_single (B"a") (B"1")) (m_insert m_empty (B"a") (B"1")) /\
  (forall k, m_insert m_empty (B"a") (B"1") k <> Some []) /\ n_eq (n_single (B"a") (B"1")) (n_single (B"a") (B"1")) = true.
Proof. split; [apply reach_single|]; split; [apply holds_single|]; split; [exact ex_nonempty|]; reflexivity. Qed.

(** C24: the empty tree == {"" => ""}. *)
Theorem C24_equality_true_refuted :
  exists t u m mu, reachable true t /\ reachable true u /\ holds mem t m /\ holds mem u mu /\
  n_eq t u = true /\ ~ same m mu.
Proof. exact eq_bad_true. Qed.
Print Assumptions C24_equality_true_refuted.

(** C24: inserting the same pair twice gives a tree that is != the tree with one insert. *)
Theorem C24_equality_false_refuted :
  exists t u m, reachable true t /\ reachable true u /\ holds mem t m /\ holds mem u m /\ n_eq t u = false.
Proof. exact eq_bad_false. Qed.
Print Assumptions C24_equality_false_refuted.

(** C51: is_empty is exact. *)
Theorem C51_is_empty :
  forall dbg t m, reachable dbg t -> holds mem t m -> (is_empty t = true <-> forall k, m k = None).
Proof. exact mem_is_empty. Qed.
Print Assumptions C51_is_empty.
Example C51_is_empty_example : reachable true ex_t /\ holds mem ex_t ex_m /\ is_empty ex_t = false /\ ex_run (run true (PRemovePrefix ex_p [])) = Ok [].
Proof. split; [exact ex_reachable|]; split; [exact ex_holds|]; split; vm_compute; reflexivity. Qed.

(** C52: a tree that says it is a leaf holds at most one key.  Missing: the converse, see the refutation. *)
Theorem C52_is_leaf_partial :
  forall dbg t m, reachable dbg t -> holds mem t m ->
  is_leaf t = true -> forall k k', m k <> None -> m k' <> None -> k = k'.
Proof. exact mem_is_leaf. Qed.
Print Assumptions C52_is_leaf_partial.
Example C52_is_leaf_partial_example : reachable true (n_single (B"a") (B"1")) /\ is_leaf (n_single (B"a") (B"1")) = true.
Proof. split; [apply reach_single|]; reflexivity. Qed.

(** C52: inserting a key twice into an empty tree gives a tree with one key that is not a leaf. *)
Theorem C52_is_leaf_refuted :
  exists t m, reachable true t /\ holds mem t m /\ is_leaf t = false /\
  forall k k', m k <> None -> m k' <> None -> k = k'.
Proof. exact is_leaf_bad. Qed.
Print Assumptions C52_is_leaf_refuted.

(** C53: the root prefix is the longest common prefix. *)
Theorem C53_prefix :
  forall dbg t m, reachable dbg t -> holds mem t m -> (exists k, m k <> None) ->
  exists q, t_prefix t = Data q /\ common_prefix_of m q /\
    (forall q', common_prefix_of m q' -> starts_with q' q = true) /\ load_opt mem (t_value t) = Ok (m q).
Proof. exact mem_prefix. Qed.
Print Assumptions C53_prefix.
Example C53_prefix_example : reachable true twice_t /\ (exists k, m_insert m_empty (B"a") (B"1") k <> None) /\ t_prefix twice_t = Data (B"a") /\ t_prefix ex_t = Data [].
Proof. split; [exact reach_twice|]; split; [exists (B"a"); vm_compute; discriminate|]; split; reflexivity. Qed.

(** C54: collecting pairs, the last one wins. *)
Theorem C54_collect :
  forall dbg l, exists t, t_from_pairs dbg mem n_empty l ⇓ Ok t /\ reachable dbg t /\
  holds mem t (fun k => option_map snd (last_of (filter (fun e => beq (fst e) k) l))).
Proof. exact mem_collect. Qed.
Print Assumptions C54_collect.
Example C54_collect_example : ex_run (t_from_pairs true mem n_empty [(B"a", B"1"); (B"b", B"2"); (B"a", B"3")]) = Ok [(B"a", B"3"); (B"b", B"2")].
Proof. vm_compute; reflexivity. Qed.

