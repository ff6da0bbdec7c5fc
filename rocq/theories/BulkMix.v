(** The union in one call and one by one, wherever the first tree lives. *)
From Verif Require Import Base BaseLemmas Header Node Combine Iter Api Tree Rep Spec Client Store StoreSpec MemLemmas Top TopOps
  InPlaceSpec InPlaceTop MixTop Bulk BulkProofs.

Lemma fold_inserts : forall l (m : kmap), NoDup (map fst l) ->
  (forall k v, In (k, v) l -> fold_left (fun m e => m_insert m (fst e) (snd e)) l m k = Some v) /\
  (forall k, ~ In k (map fst l) -> fold_left (fun m e => m_insert m (fst e) (snd e)) l m k = m k).
Proof.
  induction l as [|[k v] l IH]; intros m Nd; cbn [fold_left map fst snd].
  - split; [intros ? ? []|auto].
  - inversion Nd as [|? ? Nk Nd']; subst. destruct (IH (m_insert m k v) Nd') as [A B]. split.
    + intros k' v' [[= -> ->]|Hin]; [|now apply A]. rewrite (B k' Nk). unfold m_insert. now destruct (beq_spec k' k').
    + intros k' Hk. cbn in Hk. rewrite B by tauto. unfold m_insert. destruct (beq_spec k' k) as [->|]; tauto.
Qed.

Lemma union_by_one dbg rdA t u m mu : tree_of dbg rdA t m -> reachable dbg u -> holds mem u mu ->
  exists l x y, iter_bytes mem u ⇓ Ok l /\
    t_outer_combine_with dbg rdA mem (detach_converter mem) t u (combiner_with rdA mem (fun _ v => Some v)) ⇓ Ok x /\
    t_from_pairs dbg rdA t l ⇓ Ok y /\
    (forall k, exists v, get_bytes rdA x k ⇓ Ok v /\ get_bytes rdA y k ⇓ Ok v) /\
    holds rdA x (fun k => match mu k with Some v => Some v | None => m k end).
Proof.
  intros T R H. destruct (proj1 (mixed_total dbg rdA t u m mu T R H) (fun _ v => Some v)) as (x & Cx & Hx).
  destruct (mem_iter dbg u mu R H) as (l & Cl & L).
  destruct (tree_of_good _ _ _ _ T) as (g & G & E).
  destruct (yields_holds _ _ _ _ (y_from_pairs dbg false rdA l t g G)) as (y & Cy & Hy).
  destruct (fold_inserts l (lookup g) (lists_nodup _ _ L)) as [A B].
  assert (forall k, m_outer (fun _ v => Some v) m mu k = match mu k with Some v => Some v | None => m k end) as Eo.
  { intros k. unfold m_outer. destruct (m k), (mu k); reflexivity. }
  exists l, x, y. split; [exact Cl|]. split; [exact Cx|]. split; [exact Cy|]. split.
  - intros k. exists (m_outer (fun _ v => Some v) m mu k). split; [apply Hx|].
    specialize (Hy k). rewrite (Eo k).
    rewrite (pass_lists l (lookup g) _ (fun _ _ v => Some v) mu L (fun k v => A k v) B k) in Hy.
    now rewrite E in Hy.
  - eapply holds_ext; [|exact Hx]. exact Eo.
Qed.
