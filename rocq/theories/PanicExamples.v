(** Concrete cases for PropsPanic.v. *)
From Verif Require Import MemExamples StoreExamples Base BaseLemmas Header Node Combine Iter Api Spec Client Top TopOps MemLemmas
  Store StoreSpec World MemStore MemStoreProofs GroupSpec PanicSpec PanicTop AlignTop.

Lemma collect_keys l k : meaning (PCollect l) k <> None <-> In k (map fst l).
Proof.
  cbn [meaning]. unfold m_of_list.
  assert (forall m l', fold_left (fun m e => m_insert m (fst e) (snd e)) l' m k <> None <-> m k <> None \/ In k (map fst l')) as H.
  { intros m l'. revert m. induction l' as [|[a v] l' IH]; intros m; cbn [fold_left map In fst snd]; [tauto|]. rewrite IH. unfold m_insert.
    destruct (beq_spec k a) as [->|N]; [intuition discriminate|]. intuition congruence. }
  rewrite H. unfold m_empty. tauto.
Qed.

Lemma abc_keys k : meaning p_abc k <> None <-> k = B"a" \/ k = B"ab" \/ k = B"ac".
Proof. unfold p_abc. rewrite collect_keys. cbn. intuition. Qed.
Lemma acx_keys k : meaning p_acx k <> None <-> k = B"a" \/ k = B"ab" \/ k = B"ac" \/ k = B"acxyz" \/ k = B"acxyw".
Proof. unfold p_acx. rewrite collect_keys. cbn. intuition. Qed.

Lemma abc_below p : below (meaning p_abc) p -> p = [] \/ p = B"a" \/ p = B"ab" \/ p = B"ac".
Proof.
  intros (z & H). apply abc_keys in H. destruct p as [|x [|y [|w p]]]; [now left|..]; cbn in H.
  - destruct H as [H|[H|H]]; injection H; intros; subst; auto.
  - destruct H as [H|[H|H]]; try discriminate H; injection H; intros; subst; auto.
  - destruct H as [H|[H|H]]; discriminate.
Qed.

Lemma abc_forks : meaning p_abc (B"a") <> None /\ meaning p_abc (B"ab") <> None /\ meaning p_abc (B"ac") <> None.
Proof. repeat split; vm_compute; discriminate. Qed.
Lemma no_fork_root m : (forall k, m k <> None -> exists w, k = B"a" ++ w) -> ~ forks m [].
Proof.
  intros H [X|(c1 & c2 & z1 & z2 & N & X & Y)]; [destruct (H _ X); discriminate|]. cbn in X, Y.
  destruct (H _ X) as (w1 & E1). destruct (H _ Y) as (w2 & E2). injection E1 as -> _. injection E2 as -> _. congruence.
Qed.
Lemma abc_root : ~ forks (meaning p_abc) [].
Proof.
  apply no_fork_root. intros k H. apply abc_keys in H. destruct H as [->|[->| ->]]; [exists []|exists (B"b")|exists (B"c")]; reflexivity.
Qed.
Lemma acx_root : ~ forks (meaning p_acx) [].
Proof.
  apply no_fork_root. intros k H. apply acx_keys in H.
  destruct H as [->|[->|[->|[->| ->]]]]; [exists []|exists (B"b")|exists (B"c")|exists (B"cxyz")|exists (B"cxyw")]; reflexivity.
Qed.

Lemma abc_acx_fit : left_fits (meaning p_abc) (meaning p_acx) /\ inner_fits (meaning p_abc) (meaning p_acx).
Proof.
  assert (lined_up (meaning p_abc) (meaning p_acx)) as Lu.
  { intros p H _. apply abc_below in H as [->|[->|[->| ->]]].
    - split; intros X; [now destruct abc_root|now destruct acx_root].
    - split; intros _; left; vm_compute; discriminate.
    - split; intros _; left; vm_compute; discriminate.
    - split; intros _; left; vm_compute; discriminate. }
  split; [|exact Lu]. split; [exact Lu|]. split.
  - intros p _ _. split.
    + rewrite abc_keys, acx_keys. tauto.
    + intros (c & z & H). exists c, z. rewrite abc_keys in H. rewrite acx_keys. tauto.
  - intros _. exists (B"a"). vm_compute. discriminate.
Qed.

Lemma abc_self_fit : outer_fits (meaning p_abc) (meaning p_abc).
Proof. apply same_keys_fit. tauto. Qed.

(** "b" strays from the edge "a" of {"a", "ab", "ac"}; keys that are there do not stray. *)
Lemma abc_b_strays : strays (meaning p_abc) (B"b").
Proof.
  exists [], x62, [], (B"a"), (B"ab"). split; [reflexivity|]. split.
  - intros z. destruct (meaning p_abc ([] ++ x62 :: z)) eqn:E; [|reflexivity].
    assert (meaning p_abc ([] ++ x62 :: z) <> None) as H by congruence. apply abc_keys in H as [H|[H|H]]; discriminate.
  - split; [exact abc_root|]. split; [discriminate|]. split; vm_compute; discriminate.
Qed.
Lemma abc_ab_stays : ~ strays (meaning p_abc) (B"ab").
Proof. apply present_not_strays with (z := []). vm_compute. discriminate. Qed.
(** So do absent keys that leave the tree at a fork. *)
Lemma abc_ad_stays : ~ strays (meaning p_abc) (B"ad").
Proof.
  intros (q & c & w & x & y & E & H1 & H2 & N & H3 & H4). destruct q as [|b [|b' q]]; cbn in E.
  - injection E as <- <-. specialize (H1 []). cbn in H1. vm_compute in H1. discriminate.
  - injection E as <- <- <-. apply H2. left. vm_compute. discriminate.
  - injection E as <- <- E. now destruct q.
Qed.

Lemma abc_just_read : just_read abc_t.
Proof.
  exists (match run true p_abc 60 with Ok t => match fst (serialize mem_store t []) with Ok d => d | _ => [] end | _ => [] end).
  vm_compute. reflexivity.
Qed.
