(** Trees on a file of the browser file system: proof of durability. *)
From Verif Require Import Base BaseLemmas Header Node Combine Iter Api Tree Rep Spec Client Top Store StoreSpec World WorldProofs
  U64 File Chunk WebFile PagedStoreProofs WebFs WebFsSpec WebFsSim WebFsProofs WebFsBlob WebFsBlobProofs.
Local Open Scope N_scope.

Theorem fs_durable dbg d f s h : fs_inv d f s -> history_ok dbg h ->
  exists oks w, exec dbg (fs_store d f) (start (S:=fs_store d f) s) h ⇓ Ok (oks, w) /\ length oks = length h /\
    Forall2 (holds (st_read (fs_store d f) (w_st w))) (w_trees w) (m_trees (model no_maps h oks)) /\
    forall l rs s2, Forall (beside d f) l -> fs_run l (fst (w_st w)) = (rs, s2) ->
    Forall2 (fun id m => exists t, t_load (fs_store d f) (s2, []) (Some id) = Ok t /\
                                   holds (st_read (fs_store d f) (s2, [])) t m)
      (w_ids w) (m_saved (model no_maps h oks)).
Proof.
  intros I H. destruct (history_elsewhere dbg _ _ (fs_lawful d f) s h I H) as (oks & w & C & Hl & _ & I' & K).
  exists oks, w. split; [exact C|]. split; [exact Hl|]. split.
  - apply K. intros s0 b id s1 ds I0 Ew <-. exact (law_read _ _ (fs_lawful d f) s0 b id s1 ds I0 Ew).
  - intros l rs s2 Hc E.
    assert (knows (fs_store d f) (fs_inv d f) (w_st w) (st_read (fs_store d f) (s2, []))) as Kn.
    { intros s0 b id s1 ds I0 Ew Ea. apply (fs_read_later d f s0 b id s1 ds l rs s2); auto. now rewrite Ea. }
    eapply Forall2_imp; [|exact (proj2 (K _ Kn))].
    cbv beta. intros id m (data & t & A & B & D). exists t. split; [|exact D].
    unfold t_load. rewrite A. exact B.
Qed.
