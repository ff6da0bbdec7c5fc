(** C81: trees keep working through operations that fail.  Definitions: SurviveSpec.v. *)
From Verif Require Import MemExamples StoreExamples InPlaceExamples SurviveExamples Base Header Node Combine Iter Api Spec Client
  Store StoreSpec World MemStore MemStoreProofs FailSpec InPlace InPlaceSpec SurviveSpec Survive SurviveMore.

(** C81: a tree that went through any sequence of operations in place, whether they succeeded or failed,
    can be read, and every further operation on it, again with a store and closures that may fail, ends:
    with the right contents; or, only if something did fail, with an error and every key having its old
    or its new value (or lost, as far as the operation may lose keys); or with a panic, only where the
    operation is not safe. *)
Theorem C81_keeps_working :
  forall keep dbg rd t m, used keep dbg rd t m -> readable rd t m /\
  forall f m' lost safe calm, attempt keep dbg rd t m f m' lost safe calm ->
  exists t' r, leaves f t' r /\ comes_to rd m f m' lost safe calm t' r.
Proof. exact used_ok. Qed.
Print Assumptions C81_keeps_working.
Example C81_keeps_working_example :
  (exists now, used true true (mem_read io_s) (io_after true) now) /\
  (exists now, used true true detached_read su_t2 now) /\
  fst (remove_in true true detached_read su_t2 (B "b") 60) = n_empty /\
  iter_bytes detached_read (fst (insert_in true true detached_read su_t2 (B "bb") (B "1") 60)) 60 = Ok [(B "bb", B "1")].
Proof. split; [exact io_used|]. split; [exact su_used2|]. split; vm_compute; reflexivity. Qed.

(** C81: the other queries on such a tree, as far as they are right. *)
Theorem C81_queries_partial :
  forall keep dbg rd t m, used keep dbg rd t m ->
  (forall k, exists b, t_contains_key rd t k ⇓ Ok b /\ (b = true <-> m k <> None)) /\
  (forall p, exists b, t_has_prefix rd t p ⇓ Ok b /\ ((exists k, m k <> None /\ starts_with p k = true) -> b = true)) /\
  (exists l, lists l m /\ values_bytes rd t ⇓ Ok (map snd l)) /\
  (forall p, exists l l' e, scan_bytes rd t p ⇓ Ok l' /\ lists_where (fun k => starts_with p k = true) l m /\
     Forall2 (fun a b => snd a = snd b /\ exists z, fst a = p ++ z /\ fst b = p ++ e ++ z) l l') /\
  (forall p x, exists t', t_filter_prefix rd t p x ⇓ Ok t' /\ readable rd t' (m_filter_prefix m p x)).
Proof. exact used_reads. Qed.
Print Assumptions C81_queries_partial.
Example C81_queries_partial_example :
  (exists now, used true true detached_read su_t1 now) /\
  t_contains_key detached_read su_t1 (B "ab") 60 = Ok false /\ t_contains_key detached_read su_t1 (B "b") 60 = Ok true /\
  values_bytes detached_read su_t1 60 = Ok [B "2"].
Proof. split; [exact su_used1|]. split; [|split]; vm_compute; reflexivity. Qed.

(** C81: grouping such a tree gives trees that can be used in the same way and that together hold its contents, in order. *)
Theorem C81_groups :
  forall keep dbg rd t m d, used keep dbg rd t m -> (forall path r, exists b, d path r = Ok b) ->
  exists ts ls, t_group_by rd t d ⇓ Ok ts /\
    Forall2 (fun u l => exists mu, used keep dbg rd u mu /\ readable rd u mu /\ lists l mu) ts ls /\ lists (concat ls) m.
Proof. exact used_groups. Qed.
Print Assumptions C81_groups.
Example C81_groups_example :
  (exists now, used true true detached_read su_t1 now) /\
  (ts <- t_group_by detached_read su_t1 (fun p _ => Ok (length p <? 1)) 60 ;;
   Ok (length ts, map (fun t => iter_bytes detached_read t 60) ts)) =
  Ok (2, [Ok []; Ok [(B "b", B "2")]]).
Proof. split; [exact su_used1|vm_compute; reflexivity]. Qed.

(** C81: two such trees can be combined into a new one, which can be used in the same way.  With stores and a
    closure that may fail this ends with the right contents; or, only if a read failed or the closure fails for
    the values of a common key, with an error; or with a panic, only if one of the trees is stored. *)
Theorem C81_joins :
  forall keep dbg rd t m rdB u mu, used keep dbg rd t m -> used keep dbg rdB u mu ->
  forall rd' rdB' f' h F m', flaky rd' rd -> flaky rdB' rdB -> flaky2 f' (combiner rd rdB h) ->
  joins dbg rd' rdB' t u m mu f' h F m' ->
  (exists w, F ⇓ Ok w /\ used keep dbg detached_read w m' /\ readable detached_read w m') \/
  (F ⇓ Err /\ ~ (rd' = rd /\ rdB' = rdB /\ forall k, ~ hit rd rdB f' m mu k)) \/
  (F ⇓ Panic /\ ~ (unstored rd /\ unstored rdB)).
Proof. exact used_joins. Qed.
Print Assumptions C81_joins.
Example C81_joins_example :
  (exists now, used true true detached_read su_t1 now) /\ used true true detached_read su_u2 (meaning su_p2) /\
  flaky2 su_pick (combiner detached_read detached_read (fun x y => Some (x ++ y)%list)) /\
  (w <- t_outer_combine true detached_read detached_read su_t1 su_u2
     (combiner detached_read detached_read (fun x y => Some (x ++ y)%list)) 60 ;; iter_bytes detached_read w 60) = Ok [(B "b", B "2y")].
Proof.
  split; [exact su_used1|]. split; [exact (used_fresh true true _ _ _ su_tree2)|]. split; [exact su_pick_flaky|vm_compute; reflexivity].
Qed.

(** C81: combining two such trees in memory fails if the closure fails for the values of some common key. *)
Theorem C81_join_fails :
  forall keep dbg t m u mu, used keep dbg detached_read t m -> used keep dbg detached_read u mu ->
  forall f' h F m', flaky2 f' (combiner detached_read detached_read h) ->
  joins dbg detached_read detached_read t u m mu f' h F m' ->
  forall k x y, m k = Some x -> mu k = Some y -> f' (Data x) (Data y) = Err -> F ⇓ Err.
Proof. exact used_join_fails. Qed.
Print Assumptions C81_join_fails.
Example C81_join_fails_example :
  (exists now, used true true detached_read su_t1 now /\ now (B "b") = Some (B "2")) /\
  used true true detached_read su_u2 (meaning su_p2) /\ meaning su_p2 (B "b") = Some (B "y") /\
  su_pick (Data (B "2")) (Data (B "y")) = Err /\
  map (fun F => F 60) [t_outer_combine true detached_read detached_read su_t1 su_u2 su_pick;
    t_inner_combine true detached_read detached_read su_t1 su_u2 su_pick;
    t_left_combine true detached_read detached_read su_t1 su_u2 su_pick] = [Err; Err; Err].
Proof.
  split; [destruct su_used1 as [now U]; exists now; split; [exact U|exact (su_b now U)]|].
  split; [exact (used_fresh true true _ _ _ su_tree2)|]. split; [|split]; vm_compute; reflexivity.
Qed.

(** C81: the predicate over the common keys is right for such trees in memory; the one over the keys of the left tree
    says yes when it should. *)
Theorem C81_preds_partial :
  forall keep dbg rd t m rdB u mu, used keep dbg rd t m -> used keep dbg rdB u mu ->
  unstored rd -> unstored rdB -> forall p,
  (exists b, t_inner_combine_pred rd rdB t u (predicate rd rdB p) ⇓ Ok b /\
     (b = true <-> exists k x y, m k = Some x /\ mu k = Some y /\ p x y = true)) /\
  (exists b, t_left_combine_pred rd rdB t u (predicate rd rdB p) ⇓ Ok b /\
     ((exists k x, m k = Some x /\ (mu k = None \/ exists y, mu k = Some y /\ p x y = true)) -> b = true)).
Proof. exact used_preds. Qed.
Print Assumptions C81_preds_partial.
Example C81_preds_partial_example :
  (exists now, used true true detached_read su_t1 now) /\ used true true detached_read su_u2 (meaning su_p2) /\
  unstored detached_read /\
  map (fun p => t_inner_combine_pred detached_read detached_read su_t1 su_u2 (predicate detached_read detached_read p) 60)
    [fun x _ => beq x (B "2"); fun x y => beq x y] = [Ok true; Ok false].
Proof.
  split; [exact su_used1|]. split; [exact (used_fresh true true _ _ _ su_tree2)|].
  split; [intros id x; discriminate|vm_compute; reflexivity].
Qed.

(** C81: after failed operations a tree without entries can claim to have an entry that another tree lacks. *)
Theorem C81_subset_refuted :
  exists t m u mu, used true true detached_read t m /\ used true true detached_read u mu /\ same m m_empty /\
  t_left_combine_pred detached_read detached_read t u (predicate detached_read detached_read (fun _ _ => false)) ⇓ Ok true.
Proof. exact subset_wrong. Qed.
Print Assumptions C81_subset_refuted.

(** C81: such a tree can be detached; and such a tree in memory can be saved to any store and read back from
    there with its contents, unless the store refuses to write. *)
Theorem C81_saved :
  forall keep dbg t m, used keep dbg detached_read t m -> forall S inv s, lawful S inv -> inv s ->
  ((exists t' s', t_attached S t s = (Ok t', s') /\ inv s' /\ readable (st_read S s') t' m /\
     exists u, t_detached (st_read S s') t' ⇓ Ok u /\ readable detached_read u m) \/
   (exists s', t_attached S t s = (Err, s') /\ inv s' /\ may_refuse S inv)) /\
  ((exists id t' s', t_reattach S t s = (Ok (id, t'), s') /\ inv s' /\ t_load S s' (Some id) = Ok t' /\
     readable (st_read S s') t' m) \/
   (exists s', t_reattach S t s = (Err, s') /\ inv s' /\ may_refuse S inv)).
Proof. exact used_saved. Qed.
Print Assumptions C81_saved.
Example C81_saved_example : lawful mem_store mem_inv /\ mem_inv [] /\ (exists now, used true true detached_read su_t1 now) /\
  (let '(r, s) := t_attached mem_store su_t1 [] in
   (t <- r ;; iter_bytes (mem_read s) t 60) = Ok [(B "b", B "2")]).
Proof. split; [exact mem_lawful|]. split; [exact mem_inv_empty|]. split; [exact su_used1|vm_compute; reflexivity]. Qed.
Theorem C81_detached :
  forall keep dbg rd t m, used keep dbg rd t m ->
  exists u, t_detached rd t ⇓ Ok u /\ used keep dbg detached_read u m.
Proof. exact used_detach. Qed.
Print Assumptions C81_detached.
Example C81_detached_example : (exists now, used true true (mem_read io_s) (io_after true) now) /\
  (u <- t_detached (mem_read io_s) (io_after true) 60 ;; iter_bytes detached_read u 60) =
  iter_bytes (mem_read io_s) (io_after true) 60.
Proof. split; [exact io_used|vm_compute; reflexivity]. Qed.

(** C81: after a failed operation the first value and the first entry can be missing although there are entries. *)
Theorem C81_first_refuted :
  exists t m k, used true true detached_read t m /\ m k <> None /\
  first_value_bytes detached_read t ⇓ Ok None /\ first_entry_bytes detached_read t [] ⇓ Ok None.
Proof. exact first_wrong. Qed.
Print Assumptions C81_first_refuted.

(** C81: after failed operations a tree without entries can claim to have keys with a prefix. *)
Theorem C81_has_prefix_refuted :
  exists t m, used true true detached_read t m /\ same m m_empty /\
  t_has_prefix detached_read t (B "b") ⇓ Ok true.
Proof. exact empty_wrong. Qed.
Print Assumptions C81_has_prefix_refuted.
