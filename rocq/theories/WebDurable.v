(** Trees on a file in the browser cache: proof of durability. *)
From Verif Require Import Base BaseLemmas Header Node Combine Iter Api Tree Rep Spec Client Top Store StoreSpec World WorldProofs
  U64 File Chunk ChunkProofs WebFile WebProofs WebPlans PagedStoreProofs WebSpec WebTop WebStore WebAppend.
Local Open Scope N_scope.

Lemma web_read_later s0 d id s1 ds cs rs f2 : web_inv s0 -> st_write web_store s0 d = (Ok id, s1) ->
  Forall append_only cs -> WebSpec.run cs (fst (after web_store s1 ds)) = (rs, f2) ->
  st_read web_store (f2, []) id = Ok d.
Proof.
  intros HI E A R. pose proof (web_write_inv _ _ _ _ HI E) as HI'.
  destruct (web_write _ _ _ _ HI E) as (_ & _ & [F|(o & Eo & Ho & Hd & f1 & b1 & L1 & H1 & H2 & St)]); [discriminate|].
  assert (id = to_be 8 o) as -> by congruence. destruct (web_after s1 ds HI') as [HI2 St2].
  destruct (web_inv_lin _ HI2) as [(b & L) _]. set (s2 := after web_store s1 ds) in *.
  destruct (run_lin _ _ _ _ _ L A R) as [L2 St3].
  pose proof (stays_trans _ _ _ (stays_trans _ _ _ St St2) St3 _ H1) as [G1 G2]. rewrite H2 in G2.
  cbn [st_read web_store fst]. rewrite to_be_length. cbn [Nat.eqb].
  rewrite of_to_be by (rewrite u64_pow; assert (quota < u64_max) by reflexivity; lia).
  rewrite (load_lp (b ++ appended cs rs) (with_faults [] f2) o d); auto.
  apply (lin_same _ f2); [now split|exact L2].
Qed.

Theorem web_durable dbg s h : web_inv s -> history_ok dbg h ->
  exists oks w, exec dbg web_store (start (S:=web_store) s) h ⇓ Ok (oks, w) /\ length oks = length h /\
    Forall2 (holds (st_read web_store (w_st w))) (w_trees w) (m_trees (model no_maps h oks)) /\
    forall cs rs f2, Forall append_only cs -> WebSpec.run cs (fst (w_st w)) = (rs, f2) ->
    Forall2 (fun id m => exists t, t_load web_store (f2, []) (Some id) = Ok t /\
                                   holds (st_read web_store (f2, [])) t m)
      (w_ids w) (m_saved (model no_maps h oks)).
Proof.
  intros I H. destruct (history_elsewhere dbg _ _ web_lawful s h I H) as (oks & w & C & Hl & _ & I' & K).
  exists oks, w. split; [exact C|]. split; [exact Hl|]. split.
  - apply K. intros s0 d id s1 ds I0 Ew <-. exact (law_read _ _ web_lawful s0 d id s1 ds I0 Ew).
  - intros cs rs f2 Hc E.
    assert (knows web_store web_inv (w_st w) (st_read web_store (f2, []))) as Kn.
    { intros s0 d id s1 ds I0 Ew Ea. apply (web_read_later s0 d id s1 ds cs rs f2); auto. now rewrite Ea. }
    eapply Forall2_imp; [|exact (proj2 (K _ Kn))].
    cbv beta. intros id m (data & t & A & B & D). exists t. split; [|exact D].
    unfold t_load. rewrite A. exact B.
Qed.
