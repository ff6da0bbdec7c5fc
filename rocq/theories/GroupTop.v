(** C11 and C27: the groups, for in-memory and for attached trees. *)
From Verif Require Import Base Header Node Combine Iter Api Tree Rep Sim Spec Client Top TopOps MemLemmas
  Store StoreSpec World StoreTop GroupSpec GroupProofs.

Lemma mem_groups dbg t m d : reachable dbg t -> holds mem t m ->
  exists ts ls, t_group_by mem t (by_path mem d) ⇓ Ok ts /\
    Forall2 (fun u l => exists mu, holds mem u mu /\ lists l mu) ts ls /\ lists (concat ls) m /\
    Forall (group_of d m) ls.
Proof.
  intros R H. destruct (reachable_good dbg t R) as (g & Rg & C & _). exact (g_groups d false mem t g m Rg C H).
Qed.

Lemma at_groups dbg S inv s t m d : lawful S inv -> attached dbg S inv s t m ->
  exists ts ls, t_group_by (st_read S s) t (by_path (st_read S s) d) ⇓ Ok ts /\
    Forall2 (fun u l => exists mu, holds (st_read S s) u mu /\ lists l mu) ts ls /\ lists (concat ls) m /\
    Forall (group_of d m) ls.
Proof.
  intros L A. destruct (at_good dbg S inv L s t m A) as (ids & g & (R & C & _) & H).
  exact (g_groups d ids (st_read S s) t g m R C H).
Qed.
