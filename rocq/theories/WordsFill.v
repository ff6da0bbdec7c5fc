(** The tree of examples/large_tree.rs has one entry for each number. *)
From Coq Require Import ZArith.
From Verif Require Import Base BaseLemmas Header Node Combine Iter Api Spec Client Top Store StoreSpec BulkProofs Words WordsProofs Fill FillProofs.

Lemma m_of_list_in l k v : NoDup (map fst l) -> (m_of_list l k = Some v <-> In (k, v) l).
Proof.
  induction l as [|[k0 v0] l IH] using rev_ind; intros N.
  - cbn. split; [discriminate|intros []].
  - rewrite map_app in N. apply NoDup_remove in N as [N H]. rewrite app_nil_r in N, H. specialize (IH N).
    unfold m_of_list in *. rewrite fold_left_app. cbn [fold_left fst snd]. unfold m_insert at 1. rewrite in_app_iff. cbn [In].
    destruct (beq_spec k k0) as [->|E].
    + split; [intros [= <-]; auto|]. intros [X|[[= ->]|[]]]; [|reflexivity]. exfalso. apply H. exact (in_map fst _ _ X).
    + rewrite IH. split; [auto|]. intros [X|[X|[]]]; [exact X|congruence].
Qed.

Lemma named_keys (val : Z -> bytes) : forall is es, Forall2 (fun i (e : bytes * bytes) => number_to_words i = Ok (fst e) /\ snd e = val i) is es ->
  Forall (fun i => (Z.abs i < 1000000000000)%Z) is -> NoDup is -> NoDup (map fst es).
Proof.
  induction 1 as [|i e is es [E V] F IH]; intros A N; [constructor|]. inversion A as [|? ? Ai A']; subst. inversion N as [|? ? Ni N']; subst.
  cbn [map]. constructor; [|auto]. intros X. apply in_map_iff in X as (e' & Ee & X). apply Ni.
  clear - F X Ee E Ai A'. induction F as [|j x is es [Ej _] F IH]; [destruct X|]. inversion A' as [|? ? Aj A'']; subst.
  destruct X as [->|X]; [|right; auto]. left. rewrite Ee in Ej. exact (eq_sym (words_apart _ _ _ Ai Aj E Ej)).
Qed.
Lemma named_in (val : Z -> bytes) : forall is es, Forall2 (fun i (e : bytes * bytes) => number_to_words i = Ok (fst e) /\ snd e = val i) is es ->
  forall k v, In (k, v) es <-> exists i, In i is /\ number_to_words i = Ok k /\ v = val i.
Proof.
  induction 1 as [|i [k0 v0] is es [E V] F IH]; intros k v; cbn [In]; [split; [intros []|intros (i & [] & _)]|].
  cbn [fst snd] in E, V. rewrite IH. split.
  - intros [[= <- <-]|(j & I & X)]; [exists i; auto|exists j; auto].
  - intros (j & [<-|I] & X & Y); [left; congruence|right; eauto].
Qed.

Lemma fill_named dbg S inv s l is (val : Z -> bytes) t id s' : lawful S inv -> inv s ->
  Forall2 (fun i (e : bytes * bytes) => number_to_words i = Ok (fst e) /\ snd e = val i) is (puts l) ->
  Forall (fun i => (Z.abs i < 1000000000000)%Z) is -> NoDup is ->
  (exists N, forall n, N <= n -> fill_all dbg S l n s = (Ok (t, id), s')) ->
  (forall i k, In i is -> number_to_words i = Ok k -> get_bytes (st_read S s') t k ⇓ Ok (Some (val i))) /\
  (exists es, iter_bytes (st_read S s') t ⇓ Ok es /\ length es = length is /\
     forall k v, In (k, v) es <-> exists i, In i is /\ number_to_words i = Ok k /\ v = val i).
Proof.
  intros L I F A N [N1 C1]. pose proof (named_keys val _ _ F A N) as D.
  destruct (fill_holds dbg S inv s l L I) as [(t' & id' & s1 & [N0 C] & _ & H & (es & Hi & Hs) & _)|[[N0 C] _]].
  - specialize (C (max N0 N1) ltac:(lia)). rewrite C1 in C by lia. injection C as <- _ <-. split.
    + intros i k X E. specialize (H k). assert (m_of_list (puts l) k = Some (val i)) as M; [|rewrite M in H; exact H].
      apply m_of_list_in; [exact D|]. apply (named_in val _ _ F). eauto.
    + exists es. split; [exact Hi|]. pose proof (lists_nodup _ _ Hs) as D2. destruct Hs as [Srt Hs].
      assert (forall k v, In (k, v) es <-> In (k, v) (puts l)) as Q.
      { intros k v. rewrite <- (m_of_list_in (puts l)) by exact D. rewrite Hs. split; [now intros []|auto]. }
      split; [|intros k v; rewrite Q; apply (named_in val _ _ F)].
      transitivity (length (puts l)); [|symmetry; clear - F; induction F; cbn; congruence].
      apply Nat.le_antisymm; (apply NoDup_incl_length; [|intros [k v]; apply Q]).
      * apply (NoDup_map_inv fst). exact D2.
      * apply (NoDup_map_inv fst). exact D.
  - destruct (C (max N0 N1) ltac:(lia)) as [s2 E]. rewrite C1 in E by lia. discriminate.
Qed.
