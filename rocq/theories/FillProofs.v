(** The loop of Fill.v is a history of World.v. *)
From Verif Require Import Base BaseLemmas Header Node Combine Iter Api Spec Client Store StoreSpec World StoreLemmas StoreTop Fill.

Definition cmd_of (x : step) : cmd := match x with Put k v => CInsert 0 k v | Flush => CReattach 0 end.

Section Run.
Context (dbg : bool) (S : store).

Lemma fill_exec fuel : forall l s t ids oks w, exec dbg S (World s [t] ids) (map cmd_of l) fuel = Ok (oks, w) ->
  (In false oks -> exists s', fill dbg S l t (last_of ids) fuel s = (Err, s')) /\
  (~ In false oks -> oks = repeat true (length l) /\
     exists t', w_trees w = [t'] /\ fill dbg S l t (last_of ids) fuel s = (Ok (t', last_of (w_ids w)), w_st w)).
Proof.
  induction l as [|[k v|] l IH]; intros s t ids oks w; cbn [map exec cmd_of].
  - intros [= <- <-]. split; [intros []|]. intros _. split; [reflexivity|]. exists t. auto.
  - cbn [exec1 w_st]. unfold with_tree. cbn [w_trees nth_error fill].
    destruct (t_insert dbg (st_read S s) t k v fuel) as [t'| | |]; cbn [bind]; try discriminate.
    cbn [snd fst set_tree w_st w_trees w_ids replace]. unfold set_tree. cbn [w_st w_trees w_ids replace].
    destruct (exec dbg S (World s [t'] ids) (map cmd_of l) fuel) as [[oks' w']| | |] eqn:E; cbn [bind]; try discriminate.
    intros [= <- <-]. destruct (IH _ _ _ _ _ E) as [A B]. cbn [fst snd]. split.
    + intros [X|X]; [discriminate|auto].
    + intros X. destruct B as [-> B]; [intros Y; apply X; now right|]. split; [reflexivity|exact B].
  - cbn [exec1 w_st]. unfold with_tree. cbn [w_trees nth_error fill]. unfold on_write.
    destruct (t_reattach S t s) as [[[id t']| | |] s'] eqn:Er; cbn [bind]; try discriminate.
    + cbn [snd fst w_trees w_ids replace].
      destruct (exec dbg S (World s' [t'] (ids ++ [id])) (map cmd_of l) fuel) as [[oks' w']| | |] eqn:E; cbn [bind]; try discriminate.
      intros [= <- <-]. destruct (IH _ _ _ _ _ E) as [A B].
      assert (last_of (ids ++ [id]) = Some id) as El by (unfold last_of; now rewrite rev_app_distr).
      rewrite El in A, B. cbn [fst snd]. split.
      * intros [X|X]; [discriminate|auto].
      * intros X. destruct B as [-> B]; [intros Y; apply X; now right|]. split; [reflexivity|exact B].
    + cbn [snd fst w_trees w_ids].
      destruct (exec dbg S (World s' [t] ids) (map cmd_of l) fuel) as [[oks' w']| | |]; cbn [bind]; try discriminate.
      intros [= <- <-]. cbn [fst snd]. split; [eauto|]. intros X. exfalso. apply X. now left.
Qed.
End Run.

Lemma model_fill : forall l m sv, exists m' sv', model (Maps [m] sv) (map cmd_of l) (repeat true (length l)) = Maps [m'] sv' /\
  m' = fold_left (fun m e => m_insert m (fst e) (snd e)) (puts l) m.
Proof.
  induction l as [|[k v|] l IH]; intros m sv; cbn [map cmd_of length repeat model puts fold_left fst snd].
  - exists m, sv. auto.
  - unfold model1, on_map, set_map. cbn [negb m_trees m_saved nth_error replace]. apply IH.
  - unfold model1, on_map, set_map. cbn [negb m_trees m_saved nth_error replace]. apply IH.
Qed.
Lemma model_app : forall h1 h2 o1 o2 a, length o1 = length h1 -> model a (h1 ++ h2) (o1 ++ o2) = model (model a h1 o1) h2 o2.
Proof. induction h1 as [|c h1 IH]; intros h2 [|o o1] o2 a E; try discriminate; [reflexivity|]. cbn. apply IH. now injection E. Qed.

Lemma fill_holds dbg S inv s l : lawful S inv -> inv s ->
  (exists t id s', (exists N, forall n, N <= n -> fill_all dbg S l n s = (Ok (t, Some id), s')) /\ inv s' /\
     holds (st_read S s') t (m_of_list (puts l)) /\
     (exists es, iter_bytes (st_read S s') t ⇓ Ok es /\ lists es (m_of_list (puts l))) /\
     exists u, t_load S s' (Some id) = Ok u /\ holds (st_read S s') u (m_of_list (puts l))) \/
  ((exists N, forall n, N <= n -> exists s', fill_all dbg S l n s = (Err, s')) /\ may_refuse S inv).
Proof.
  intros L I. set (h := CEmpty :: map cmd_of (l ++ [Flush])).
  assert (history_ok dbg h) as Hh.
  { left. constructor; [exact Logic.I|]. rewrite Forall_map. apply Forall_forall. intros [k v|] _; exact Logic.I. }
  destruct (history_holds dbg S inv L s h I Hh) as (oks & w & Cv & Hl & Hr & Iw & T & J).
  pose proof Cv as (_ & N & C).
  assert (forall n, N <= n -> exists oks', oks = true :: oks' /\ exec dbg S (World s [n_empty] []) (map cmd_of (l ++ [Flush])) n = Ok (oks', w)) as C'.
  { intros n Hn. specialize (C n Hn). unfold h in C. cbn [exec exec1 bind snd fst] in C. unfold add_tree, start in C. cbn [w_st w_trees w_ids app] in C.
    destruct (exec dbg S (World s [n_empty] []) (map cmd_of (l ++ [Flush])) n) as [[o w']| | |]; cbn [bind] in C; try discriminate.
    injection C as <- <-. eauto. }
  destruct (C' N (le_n N)) as (oks' & -> & _).
  assert (forall n, N <= n -> exec dbg S (World s [n_empty] []) (map cmd_of (l ++ [Flush])) n = Ok (oks', w)) as C2.
  { intros n Hn. destruct (C' n Hn) as (o & [= <-] & E). exact E. }
  destruct (in_dec Bool.bool_dec false oks') as [Hf|Hf].
  - right. split; [|apply Hr; now right]. exists N. intros n Hn.
    exact (proj1 (fill_exec dbg S n _ _ _ _ _ _ (C2 n Hn)) Hf).
  - left. destruct (proj2 (fill_exec dbg S N _ _ _ _ _ _ (C2 N (le_n N))) Hf) as (Eo & t & Et & _).
    assert (model no_maps h (true :: oks') = model (Maps [m_empty] []) (map cmd_of (l ++ [Flush])) oks') as Em by reflexivity.
    assert (iter_ok : exists es, iter_bytes (st_read S (w_st w)) t ⇓ Ok es /\ lists es (m_of_list (puts l))).
    { apply (at_iter dbg S inv L (w_st w)).
      exists s, h, (true :: oks'), w, 0. split; [exact I|]. split; [exact Hh|]. split; [exact Cv|]. split; [reflexivity|].
      split; [now rewrite Et|]. rewrite Em, Eo, map_app, app_length, repeat_app, model_app by (now rewrite repeat_length, map_length).
      destruct (model_fill l m_empty []) as (m' & sv & E & Em'). rewrite E, Em'. reflexivity. }
    rewrite Em, Eo, map_app, app_length, repeat_app, model_app in T, J by (now rewrite repeat_length, map_length).
    destruct (model_fill l m_empty []) as (m' & sv & E & Em'). rewrite E in T, J. cbn in T, J.
    unfold on_map in T, J. cbn in T, J. rewrite Et in T. inversion T as [|? ? ? ? Ht _]; subst.
    apply Forall2_app_inv_r in J as (a & b & _ & Jb & Ew). inversion Jb as [|id ? ? ? Hid Jn]; subst. inversion Jn; subst.
    exists t, id, (w_st w). split; [|split; [exact Iw|]].
    + exists N. intros n Hn. destruct (proj2 (fill_exec dbg S n _ _ _ _ _ _ (C2 n Hn)) Hf) as (_ & t2 & Et2 & F).
      rewrite Et in Et2. injection Et2 as <-. unfold fill_all. cbn [last_of] in F. unfold last_of at 1 in F. cbn in F. rewrite F, Ew.
      unfold last_of. now rewrite rev_app_distr.
    + split; [exact Ht|]. split; [exact iter_ok|exact Hid].
Qed.

Lemma fill_same dbg S1 S2 inv1 inv2 s1 s2 l1 l2 t1 t2 id1 id2 s1' s2' : lawful S1 inv1 -> lawful S2 inv2 -> inv1 s1 -> inv2 s2 ->
  puts l1 = puts l2 ->
  (exists N, forall n, N <= n -> fill_all dbg S1 l1 n s1 = (Ok (t1, id1), s1')) ->
  (exists N, forall n, N <= n -> fill_all dbg S2 l2 n s2 = (Ok (t2, id2), s2')) ->
  forall k, exists r, get_bytes (st_read S1 s1') t1 k ⇓ Ok r /\ get_bytes (st_read S2 s2') t2 k ⇓ Ok r.
Proof.
  intros L1 L2 I1 I2 Ep [N1 C1] [N2 C2] k. exists (m_of_list (puts l1) k). split.
  - destruct (fill_holds dbg S1 inv1 s1 l1 L1 I1) as [(t & id & s' & [N C] & _ & H & _)|[[N C] _]].
    + specialize (C (max N N1) ltac:(lia)). rewrite C1 in C by lia. injection C as <- _ <-. apply H.
    + destruct (C (max N N1) ltac:(lia)) as [s' E]. rewrite C1 in E by lia. discriminate.
  - rewrite Ep. destruct (fill_holds dbg S2 inv2 s2 l2 L2 I2) as [(t & id & s' & [N C] & _ & H & _)|[[N C] _]].
    + specialize (C (max N N2) ltac:(lia)). rewrite C2 in C by lia. injection C as <- _ <-. apply H.
    + destruct (C (max N N2) ltac:(lia)) as [s' E]. rewrite C2 in E by lia. discriminate.
Qed.
