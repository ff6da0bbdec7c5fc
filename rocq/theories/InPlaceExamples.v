(** Concrete failing operations. *)
From Verif Require Import MemExamples Base BaseLemmas Header Node Combine Iter Api Tree Rep Sim Spec Client Top TopOps MemLemmas
  Store StoreSpec StoreProofs World WorldProofs U64 MemStore MemStoreProofs StoreLemmas StoreExamples FailSpec
  InPlace InPlaceSpec InPlaceMono InPlaceTop.

Lemma leaves_eval (f : nat -> left_in node) n t r : (forall n m, n <= m -> fle (f n) (f m)) -> f n = (t, r) -> r <> Fuel ->
  leaves f t r.
Proof.
  intros M E N. split; [exact N|]. exists n. intros k Hk. destruct (M n k Hk) as [F|F]; rewrite E in F; [cbn in F; congruence|auto].
Qed.
Lemma insert_mono keep dbg rd t k v n m : n <= m -> fle (insert_in keep dbg rd t k v n) (insert_in keep dbg rd t k v m).
Proof. intros. apply fle_outer; auto; intros; apply sim_refl. Qed.
Lemma mono_get_bytes rd t k : mono (get_bytes rd t k).
Proof.
  intros a b L. unfold get_bytes, t_get. apply sim_bind; [apply get_sim; auto using rsim_refl|]. intros. apply sim_refl.
Qed.

(** A stored tree with two levels of children. *)
Definition p_io : prog := PCollect [(B"a", B"1"); (B"ab", B"2"); (B"ac", B"3"); (B"b", B"4")].
Lemma p_io_short : short_keys (meaning p_io).
Proof.
  intros k. cbn. unfold m_of_list. cbn [fold_left fst snd]. unfold m_insert, m_empty, short.
  repeat match goal with |- context [beq k ?x] => destruct (beq_spec k x); [subst; cbn; intros _; lia|] end. congruence.
Qed.
Definition io_s : mem_st := Eval vm_compute in ex_state true [CAttach p_io].
Definition io_t : node := Eval vm_compute in ex_tree true [CAttach p_io] 0.
Lemma io_short dbg : attached_by (short_history dbg) dbg mem_store mem_inv io_s io_t (meaning p_io).
Proof.
  pose proof (ex_attach1 (short_history dbg) dbg p_io (short_attach dbg p_io Logic.I p_io_short)) as H.
  destruct dbg; apply H; vm_compute; reflexivity.
Qed.
Lemma io_attached dbg : attached dbg mem_store mem_inv io_s io_t (meaning p_io).
Proof.
  destruct (io_short dbg) as (s0 & h & oks & w & i & H & P & R). exists s0, h, oks, w, i.
  split; [exact H|]. split; [now apply short_ok|exact R].
Qed.
Lemma io_tree dbg : tree_of dbg (mem_read io_s) io_t (meaning p_io).
Proof. exact (in_store dbg mem_store mem_inv io_s io_t (meaning p_io) mem_lawful (io_short dbg)). Qed.

(** The blob with the children of [a] cannot be read. *)
Definition io_rd : reader := fun id => if beq id [x00;x00;x00;x00;x00;x00;x00;x01] then Err else mem_read io_s id.
Lemma io_flaky : flaky io_rd (mem_read io_s).
Proof. intros id. unfold io_rd. destruct (beq _ _); auto. Qed.

(** A failed insertion of [a]. *)
Definition io_after (keep : bool) : node := Eval vm_compute in fst (insert_in keep true io_rd io_t (B"a") (B"9") 60).
Lemma io_fails keep : leaves (insert_in keep true io_rd io_t (B"a") (B"9")) (io_after keep) Err.
Proof.
  apply (leaves_eval _ 60); [intros; now apply insert_mono| |discriminate]. destruct keep; vm_compute; reflexivity.
Qed.
(** The error is returned although the value has been replaced. *)
Lemma insert_not_atomic : exists s t m rd' k v t', attached true mem_store mem_inv s t m /\ flaky rd' (mem_read s) /\
  leaves (insert_in true true rd' t k v) t' Err /\ m k <> Some v /\ get_bytes (mem_read s) t' k ⇓ Ok (Some v).
Proof.
  exists io_s, io_t, (meaning p_io), io_rd, (B"a"), (B"9"), (io_after true).
  split; [apply io_attached|]. split; [exact io_flaky|]. split; [apply io_fails|]. split; [vm_compute; discriminate|].
  apply (conv_mono _ 60); [apply mono_get_bytes|vm_compute; reflexivity].
Qed.
(** If the vector builder drops what it has not processed, other keys are lost. *)
Lemma insert_loses : exists s t m rd' k v t' k', attached true mem_store mem_inv s t m /\ flaky rd' (mem_read s) /\
  leaves (insert_in false true rd' t k v) t' Err /\ k' <> k /\ m k' <> None /\ get_bytes (mem_read s) t' k' ⇓ Ok None.
Proof.
  exists io_s, io_t, (meaning p_io), io_rd, (B"a"), (B"9"), (io_after false), (B"b").
  split; [apply io_attached|]. split; [exact io_flaky|]. split; [apply io_fails|]. split; [discriminate|].
  split; [vm_compute; discriminate|].
  apply (conv_mono _ 60); [apply mono_get_bytes|vm_compute; reflexivity].
Qed.

(** A closure that fails for some values. *)
Definition fussy : blob -> blob -> res blob := fun a b =>
  x <- value_load detached_read a ;; if beq x (B"2") then Err else combiner_with detached_read detached_read (fun x y => Some (x ++ y)) a b.
Lemma fussy_flaky : flaky2 fussy (combiner_with detached_read detached_read (fun x y => Some (x ++ y))).
Proof.
  intros a b. unfold fussy, combiner_with. destruct (value_load detached_read a); cbn; auto.
  destruct (beq _ _); auto.
Qed.
Definition m1_t : node := Eval vm_compute in match run true p_io 60 with Ok t => t | _ => n_empty end.
Definition m2_t : node := Eval vm_compute in match run true (PCollect [(B"a", B"x"); (B"ab", B"y"); (B"c", B"z")]) 60 with Ok t => t | _ => n_empty end.
Lemma m1_tree : tree_of true detached_read m1_t (meaning p_io).
Proof.
  assert (run true p_io ⇓ Ok m1_t) as C by (apply (conv_mono _ 60); [apply run_mono|vm_compute; reflexivity]).
  apply in_memory; [exists p_io; split; [exact Logic.I|exact C]|].
  destruct (yields_holds _ _ _ _ (run_ok true p_io Logic.I)) as (t & C' & H). pose proof (conv_unique _ _ _ C C') as E.
  injection E as ->. exact H.
Qed.
Definition p_m2 : prog := PCollect [(B"a", B"x"); (B"ab", B"y"); (B"c", B"z")].
Lemma m2_tree : tree_of true detached_read m2_t (meaning p_m2).
Proof.
  assert (run true p_m2 ⇓ Ok m2_t) as C by (apply (conv_mono _ 60); [apply run_mono|vm_compute; reflexivity]).
  apply in_memory; [exists p_m2; split; [exact Logic.I|exact C]|].
  destruct (yields_holds _ _ _ _ (run_ok true p_m2 Logic.I)) as (t & C' & H). pose proof (conv_unique _ _ _ C C') as E.
  injection E as ->. exact H.
Qed.
Definition fussy_after (keep : bool) : node :=
  Eval vm_compute in fst (outer_with_in keep true detached_read detached_read downcast_converter m1_t m2_t fussy 60).
Lemma fussy_fails keep : leaves (outer_with_in keep true detached_read detached_read downcast_converter m1_t m2_t fussy) (fussy_after keep) Err.
Proof.
  apply (leaves_eval _ 60); [|destruct keep; vm_compute; reflexivity|discriminate].
  intros. apply fle_outer; auto; intros; apply sim_refl.
Qed.
(** The value the closure was called with is lost even if the builder keeps everything. *)
Lemma combine_loses : exists t u m mu h f' t' k, tree_of true detached_read t m /\ tree_of true detached_read u mu /\
  flaky2 f' (combiner_with detached_read detached_read h) /\
  leaves (outer_with_in true true detached_read detached_read downcast_converter t u f') t' Err /\
  m k <> None /\ m_outer h m mu k <> None /\ get_bytes detached_read t' k ⇓ Ok None.
Proof.
  exists m1_t, m2_t, (meaning p_io), (meaning p_m2), (fun x y => Some (x ++ y)), fussy, (fussy_after true), (B"ab").
  split; [exact m1_tree|]. split; [exact m2_tree|]. split; [exact fussy_flaky|]. split; [exact (fussy_fails true)|].
  split; [vm_compute; discriminate|]. split; [vm_compute; discriminate|].
  apply (conv_mono _ 60); [apply mono_get_bytes|vm_compute; reflexivity].
Qed.
Lemma io_remove_fails : t_remove true io_rd io_t (B"ab") ⇓ Err.
Proof.
  split; [discriminate|]. exists 60. intros n Hn.
  destruct (mono_remove true io_rd io_t (B"ab") 60 n Hn) as [H|[[H _]|H]];
    assert (t_remove true io_rd io_t (B"ab") 60 = Err) as E by (vm_compute; reflexivity); congruence.
Qed.
(** A closure that fails for the value [z]. *)
Definition picky : blob -> res bool := fun b =>
  y <- value_load detached_read b ;; if beq y (B"z") then Err else selector detached_read (fun _ => true) b.
Definition p_m3 : prog := PCollect [(B"ab", B"y"); (B"b", B"z")].
Definition m3_t : node := Eval vm_compute in match run true p_m3 60 with Ok t => t | _ => n_empty end.
Lemma m3_tree : tree_of true detached_read m3_t (meaning p_m3).
Proof.
  assert (run true p_m3 ⇓ Ok m3_t) as C by (apply (conv_mono _ 60); [apply run_mono|vm_compute; reflexivity]).
  apply in_memory; [exists p_m3; split; [exact Logic.I|exact C]|].
  destruct (yields_holds _ _ _ _ (run_ok true p_m3 Logic.I)) as (t & C' & H). pose proof (conv_unique _ _ _ C C') as E.
  injection E as ->. exact H.
Qed.
Lemma picky_example :
  tree_of true detached_read m1_t (meaning p_io) /\ tree_of true detached_read m3_t (meaning p_m3) /\
  flaky1 picky (selector detached_read (fun _ => true)) /\
  exists t', leaves (remove_prefix_with_in true true detached_read detached_read m1_t m3_t picky) t' Err /\
  iter_bytes detached_read t' 60 = Ok [(B"a", B"1"); (B"ac", B"3"); (B"b", B"4")].
Proof.
  split; [exact m1_tree|]. split; [exact m3_tree|]. split.
  - intros b. unfold picky, selector. destruct (value_load detached_read b); cbn; auto. destruct (beq _ _); auto.
  - set (t' := fst (remove_prefix_with_in true true detached_read detached_read m1_t m3_t picky 60)). vm_compute in t'.
    exists t'. split; [|vm_compute; reflexivity].
    apply (leaves_eval _ 60); [|vm_compute; reflexivity|discriminate]. intros. now apply fle_remove_prefix.
Qed.
