(** Concrete trees that have been through failing operations. *)
From Verif Require Import MemExamples Base BaseLemmas Header Node Combine Iter Api Tree Rep Sim Spec Client Top TopOps MemLemmas
  Store StoreSpec StoreProofs World WorldProofs U64 MemStore MemStoreProofs StoreLemmas StoreExamples FailSpec
  InPlace InPlaceSpec InPlaceMono InPlaceTop InPlaceExamples SurviveSpec Survive.

(** The stored tree after the failed insertion of [a]. *)
Lemma io_used : exists now, used true true (mem_read io_s) (io_after true) now.
Proof.
  pose proof (used_fresh true true _ _ _ (io_tree true)) as U.
  pose proof (try_insert true true (mem_read io_s) io_rd io_t (meaning p_io) (B"a") (B"9") io_flaky) as A.
  destruct (proj2 (used_ok _ _ _ _ _ U) _ _ _ _ _ A) as (t' & r & L & H).
  destruct (leaves_fun _ _ _ _ _ L (io_fails true)) as [-> ->].
  destruct H as [[H _]|[(_ & _ & now & Rd & _)|[H _]]]; try discriminate.
  exists now. eapply used_again; [exact U|exact A|exact L|now right|exact Rd].
Qed.

(** A tree with two entries for whose values the closure [fussy] fails. *)
Definition su_p : prog := PCollect [(B"ab", B"2"); (B"b", B"2")].
Definition su_p1 : prog := PCollect [(B"ab", B"y")].
Definition su_p2 : prog := PCollect [(B"b", B"y")].
Definition su_t : node := Eval vm_compute in match run true su_p 60 with Ok t => t | _ => n_empty end.
Definition su_u1 : node := Eval vm_compute in match run true su_p1 60 with Ok t => t | _ => n_empty end.
Definition su_u2 : node := Eval vm_compute in match run true su_p2 60 with Ok t => t | _ => n_empty end.
Lemma prog_tree p t : allowed p -> run true p 60 = Ok t -> tree_of true detached_read t (meaning p).
Proof.
  intros A E. assert (run true p ⇓ Ok t) as C by (apply (conv_mono _ 60); [apply run_mono|exact E]).
  apply in_memory; [exists p; split; [exact A|exact C]|].
  destruct (yields_holds _ _ _ _ (run_ok true p A)) as (t' & C' & H). pose proof (conv_unique _ _ _ C C') as E'.
  injection E' as ->. exact H.
Qed.
Lemma su_tree : tree_of true detached_read su_t (meaning su_p).
Proof. apply prog_tree; [exact Logic.I|vm_compute; reflexivity]. Qed.
Lemma su_tree1 : tree_of true detached_read su_u1 (meaning su_p1).
Proof. apply prog_tree; [exact Logic.I|vm_compute; reflexivity]. Qed.
Lemma su_tree2 : tree_of true detached_read su_u2 (meaning su_p2).
Proof. apply prog_tree; [exact Logic.I|vm_compute; reflexivity]. Qed.

(** Both entries are lost, one after the other. *)
Definition su_t1 : node := Eval vm_compute in fst (left_with_in true true detached_read detached_read su_t su_u1 fussy 60).
Definition su_t2 : node := Eval vm_compute in fst (left_with_in true true detached_read detached_read su_t1 su_u2 fussy 60).
Lemma self_flaky rd : flaky rd rd.
Proof. intros id. now right. Qed.
Lemma left_leaves t u t' : left_with_in true true detached_read detached_read t u fussy 60 = (t', Err) ->
  leaves (left_with_in true true detached_read detached_read t u fussy) t' Err.
Proof. intros E. apply (leaves_eval _ 60); [intros; now apply fle_left|exact E|discriminate]. Qed.
Lemma left_used t u t' m mu : used true true detached_read t m -> tree_of true detached_read u mu ->
  left_with_in true true detached_read detached_read t u fussy 60 = (t', Err) ->
  exists now, used true true detached_read t' now.
Proof.
  intros U T E.
  pose proof (try_left true true detached_read detached_read t m detached_read detached_read u mu fussy _ (self_flaky _) (self_flaky _)
    (used_fresh true true _ _ _ T) fussy_flaky) as A.
  destruct (proj2 (used_ok _ _ _ _ _ U) _ _ _ _ _ A) as (t2 & r & L & H).
  destruct (leaves_fun _ _ _ _ _ L (left_leaves _ _ _ E)) as [-> ->].
  destruct H as [[H _]|[(_ & _ & now & Rd & _)|[H _]]]; try discriminate.
  exists now. eapply used_again; [exact U|exact A|exact L|now right|exact Rd].
Qed.
Lemma su_used1 : exists now, used true true detached_read su_t1 now.
Proof.
  eapply left_used; [exact (used_fresh true true _ _ _ su_tree)|exact su_tree1|vm_compute; reflexivity].
Qed.
Lemma su_used2 : exists now, used true true detached_read su_t2 now.
Proof.
  destruct su_used1 as (m & U). eapply left_used; [exact U|exact su_tree2|vm_compute; reflexivity].
Qed.
Lemma mono_first_value rd t : mono (first_value_bytes rd t).
Proof.
  intros a b L. unfold first_value_bytes, t_first_value. apply sim_bind; [apply first_value_sim; auto using rsim_refl|].
  intros. apply sim_refl.
Qed.
Lemma mono_first_entry rd t p : mono (first_entry_bytes rd t p).
Proof.
  intros a b L. unfold first_entry_bytes, t_first_entry. apply sim_bind; [apply first_entry_sim; auto using rsim_refl|].
  intros. apply sim_refl.
Qed.
Lemma mono_has_prefix rd t p : mono (t_has_prefix rd t p).
Proof.
  intros a b L. unfold t_has_prefix, has_prefix. apply sim_bind; [apply find_sim; auto using rsim_refl|].
  intros. apply sim_refl.
Qed.

(** The first entry is [None] although there is an entry. *)
Lemma first_wrong : exists t m k, used true true detached_read t m /\ m k <> None /\
  first_value_bytes detached_read t ⇓ Ok None /\ first_entry_bytes detached_read t [] ⇓ Ok None.
Proof.
  destruct su_used1 as (m & U). exists su_t1, m, (B"b"). split; [exact U|]. split; [|split].
  - pose proof (proj1 (proj1 (used_ok _ _ _ _ _ U)) (B"b")) as C.
    assert (get_bytes detached_read su_t1 (B"b") ⇓ Ok (Some (B"2"))) as C'.
    { apply (conv_mono _ 60); [apply mono_get_bytes|vm_compute; reflexivity]. }
    pose proof (conv_unique _ _ _ C C') as E. congruence.
  - apply (conv_mono _ 60); [apply mono_first_value|vm_compute; reflexivity].
  - apply (conv_mono _ 60); [apply mono_first_entry|vm_compute; reflexivity].
Qed.
(** A tree without entries that claims to have keys with a prefix. *)
Lemma empty_wrong : exists t m, used true true detached_read t m /\ same m m_empty /\
  t_has_prefix detached_read t (B"b") ⇓ Ok true.
Proof.
  destruct su_used2 as (m & U). exists su_t2, m. split; [exact U|]. split.
  - destruct (used_ok _ _ _ _ _ U) as [[_ (l & C & _ & S)] _].
    assert (iter_bytes detached_read su_t2 ⇓ Ok []) as C'.
    { apply (conv_mono _ 60); [|vm_compute; reflexivity]. intros a b L. unfold iter_bytes. apply sim_bind; [|intros; apply sim_refl].
      apply mono_collect; auto. intros. apply kv_next_sim; auto using rsim_refl. }
    pose proof (conv_unique _ _ _ C C') as E. injection E as ->.
    intros k. unfold m_empty. destruct (m k) as [v|] eqn:Em; [|reflexivity]. exfalso. apply (S k v). auto.
  - apply (conv_mono _ 60); [apply mono_has_prefix|vm_compute; reflexivity].
Qed.
(** A tree without entries that claims to have one that another tree lacks. *)
Lemma subset_wrong : exists t m u mu, used true true detached_read t m /\ used true true detached_read u mu /\
  same m m_empty /\
  t_left_combine_pred detached_read detached_read t u (predicate detached_read detached_read (fun _ _ => false)) ⇓ Ok true.
Proof.
  destruct su_used2 as (m & U). exists su_t2, m, su_u2, (meaning su_p2). split; [exact U|].
  split; [exact (used_fresh true true _ _ _ su_tree2)|]. split.
  - destruct (used_ok _ _ _ _ _ U) as [[_ (l & C & _ & S)] _].
    assert (iter_bytes detached_read su_t2 ⇓ Ok []) as C'.
    { apply (conv_mono _ 60); [|vm_compute; reflexivity]. intros a b L. unfold iter_bytes. apply sim_bind; [|intros; apply sim_refl].
      apply mono_collect; auto. intros. apply kv_next_sim; auto using rsim_refl. }
    pose proof (conv_unique _ _ _ C C') as E. injection E as ->.
    intros k. unfold m_empty. destruct (m k) as [v|] eqn:Em; [|reflexivity]. exfalso. apply (S k v). auto.
  - apply (conv_mono _ 60); [|vm_compute; reflexivity].
    intros n1 n2 L. apply left_combine_pred_sim; auto using rsim_refl, sim_refl.
Qed.
(** Combining the damaged tree with another one, with a closure that fails for the value [2]. *)
Definition su_pick (a b : blob) : res (option blob) :=
  x <- value_load detached_read a ;;
  if beq x (B"2") then Err else combiner detached_read detached_read (fun x y => Some (x ++ y)) a b.
Lemma su_pick_flaky : flaky2 su_pick (combiner detached_read detached_read (fun x y => Some (x ++ y))).
Proof.
  intros a b. unfold su_pick, combiner. destruct (value_load detached_read a); cbn; auto.
  destruct (beq _ _); auto.
Qed.
Lemma su_b m : used true true detached_read su_t1 m -> m (B"b") = Some (B"2").
Proof.
  intros U. pose proof (proj1 (proj1 (used_ok _ _ _ _ _ U)) (B"b")) as C.
  assert (get_bytes detached_read su_t1 (B"b") ⇓ Ok (Some (B"2"))) as C'.
  { apply (conv_mono _ 60); [apply mono_get_bytes|vm_compute; reflexivity]. }
  pose proof (conv_unique _ _ _ C C') as E. congruence.
Qed.
