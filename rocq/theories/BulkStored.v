(** The loops of Bulk.v on a tree that may be in a store. *)
From Verif Require Import Base BaseLemmas Header Node Combine Iter Api Tree Rep Spec Client Store StoreSpec MemLemmas Top TopOps
  InPlaceSpec InPlaceTop MixTop Bulk BulkProofs BulkMix.

Section Stored.
Context (dbg : bool) (rd : reader) (f : bytes -> bytes -> bytes) (missing : bool).

Definition outcome (o : option bytes) (v : bytes) : option bytes :=
  match o with Some x => Some (f x v) | None => if missing then Some v else None end.

Lemma merge_step t g k v : good false rd t g ->
  exists t' g', good false rd t' g' /\ same (lookup g') (fun x => if beq x k then outcome (lookup g k) v else lookup g x) /\
    exists N, forall l n, N <= n -> loop_merge dbg rd f missing t ((k, v) :: l) n = loop_merge dbg rd f missing t' l n.
Proof.
  intros G. destruct (good_holds false rd t g (proj1 G) (proj1 (proj2 G)) k) as (_ & N1 & E1).
  destruct (y_insert dbg false rd t g G k (match lookup g k with Some x => f x v | None => v end)) as (t' & g' & (_ & N2 & E2) & G' & S').
  unfold outcome. destruct (lookup g k) as [x|] eqn:E.
  - exists t', g'. split; [exact G'|]. split; [exact S'|]. exists (N1 + N2). intros l n Hn. cbn [loop_merge].
    rewrite E1 by lia. cbn [bind]. rewrite E2 by lia. reflexivity.
  - destruct missing.
    + exists t', g'. split; [exact G'|]. split; [exact S'|]. exists (N1 + N2). intros l n Hn. cbn [loop_merge].
      rewrite E1 by lia. cbn [bind]. rewrite E2 by lia. reflexivity.
    + exists t, g. split; [exact G|]. split; [intros x; destruct (beq_spec x k) as [->|]; [exact E|reflexivity]|].
      exists N1. intros l n Hn. cbn [loop_merge]. rewrite E1 by lia. reflexivity.
Qed.

Lemma merge_pass : forall l t g, good false rd t g -> NoDup (map fst l) ->
  exists t' g', loop_merge dbg rd f missing t l ⇓ Ok t' /\ good false rd t' g' /\
    (forall k v, In (k, v) l -> lookup g' k = outcome (lookup g k) v) /\
    (forall k, ~ In k (map fst l) -> lookup g' k = lookup g k).
Proof.
  induction l as [|[k v] l IH]; intros t g G Nd.
  - exists t, g. split; [split; [discriminate|exists 0; reflexivity]|]. split; [exact G|]. split; [intros ? ? []|auto].
  - cbn in Nd. inversion Nd as [|? ? Nk Nd']; subst. destruct (merge_step t g k v G) as (t1 & g1 & G1 & S1 & N & E).
    destruct (IH t1 g1 G1 Nd') as (t' & g' & (_ & N' & C) & G' & A & B).
    exists t', g'. split; [split; [discriminate|]; exists (N + N'); intros n Hn; rewrite E by lia; apply C; lia|].
    split; [exact G'|]. split.
    + intros k' v' [[= -> ->]|Hin].
      * rewrite (B k' Nk), S1. now destruct (beq_spec k' k').
      * rewrite (A _ _ Hin), S1. destruct (beq_spec k' k) as [->|]; [|reflexivity].
        exfalso. apply Nk. now apply (in_map fst) in Hin.
    + intros k' Hk. cbn in Hk. rewrite (B k'), S1; [|tauto]. destruct (beq_spec k' k) as [->|]; tauto.
Qed.
End Stored.

Lemma merged dbg rdA f missing t u m mu : tree_of dbg rdA t m -> reachable dbg u -> holds mem u mu ->
  exists l y, iter_bytes mem u ⇓ Ok l /\ loop_merge dbg rdA f missing t l ⇓ Ok y /\
    holds rdA y (fun k => match mu k with Some v => outcome f missing (m k) v | None => m k end).
Proof.
  intros T R H. destruct (mem_iter dbg u mu R H) as (l & Cl & L). destruct (tree_of_good _ _ _ _ T) as (g & G & E).
  destruct (merge_pass dbg rdA f missing l t g G (lists_nodup _ _ L)) as (y & gy & Cy & (Ry & Cg & _) & A & B).
  exists l, y. split; [exact Cl|]. split; [exact Cy|].
  eapply holds_ext; [|exact (good_holds false rdA y gy Ry Cg)]. intros k.
  rewrite (pass_lists l (lookup g) (lookup gy) (fun o _ v => outcome f missing o v) mu L A B k). now rewrite E.
Qed.

Lemma outer_stored dbg rdA f t u m mu : tree_of dbg rdA t m -> reachable dbg u -> holds mem u mu ->
  exists l x y, iter_bytes mem u ⇓ Ok l /\
    t_outer_combine_with dbg rdA mem (detach_converter mem) t u (combiner_with rdA mem (fun a b => Some (f a b))) ⇓ Ok x /\
    loop_merge dbg rdA f true t l ⇓ Ok y /\
    (forall k, exists v, get_bytes rdA x k ⇓ Ok v /\ get_bytes rdA y k ⇓ Ok v).
Proof.
  intros T R H. destruct (proj1 (mixed_total dbg rdA t u m mu T R H) (fun a b => Some (f a b))) as (x & Cx & Hx).
  destruct (merged dbg rdA f true t u m mu T R H) as (l & y & Cl & Cy & Hy).
  exists l, x, y. split; [exact Cl|]. split; [exact Cx|]. split; [exact Cy|]. intros k. eexists. split; [apply Hx|].
  specialize (Hy k). cbn beta in Hy. unfold m_outer, outcome in *. now destruct (m k), (mu k).
Qed.

Lemma left_stored dbg rdA f t u m mu : tree_of dbg rdA t m -> reachable dbg u -> holds mem u mu -> dbg = false ->
  exists l x y, iter_bytes mem u ⇓ Ok l /\
    t_left_combine_with dbg rdA mem t u (combiner_with rdA mem (fun a b => Some (f a b))) ⇓ Ok x /\
    loop_merge dbg rdA f false t l ⇓ Ok y /\
    (forall k, exists v, get_bytes rdA x k ⇓ Ok v /\ get_bytes rdA y k ⇓ Ok v).
Proof.
  intros T R H D. destruct (proj1 (proj2 (proj2 (mixed_total dbg rdA t u m mu T R H)) (or_introl D)) (fun a b => Some (f a b))) as (x & Cx & Hx).
  destruct (merged dbg rdA f false t u m mu T R H) as (l & y & Cl & Cy & Hy).
  exists l, x, y. split; [exact Cl|]. split; [exact Cx|]. split; [exact Cy|]. intros k. eexists. split; [apply Hx|].
  specialize (Hy k). cbn beta in Hy. unfold m_left, outcome in *. now destruct (m k), (mu k).
Qed.
