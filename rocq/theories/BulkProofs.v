(** The loops of Bulk.v make the trees that the in-place joins make. *)
From Coq Require Import Sorting.Sorted.
From Verif Require Import Base BaseLemmas Header Node Combine Iter Api Spec Client Store MemLemmas Top ShapeProofs MergeSpec MergeProofs Bulk.

Lemma same_alike dbg t u m mu : reachable dbg t -> reachable dbg u -> holds mem t m -> holds mem u mu -> same m mu -> alike t u.
Proof.
  intros Rt Ru Ht Hu E. assert (holds mem t mu) as Ht' by (eapply holds_ext; [exact E|exact Ht]).
  split; [|split].
  - intros k. exists (mu k). split; [apply Ht'|apply Hu].
  - destruct (mem_iter dbg t _ Rt Ht') as (l & Cl & Sl). destruct (mem_iter dbg u _ Ru Hu) as (l' & Cl' & Sl').
    pose proof (lists_where_unique _ _ _ _ Sl Sl') as <-. exists l. auto.
  - intros S s. exact (save_contents S dbg dbg t u _ Rt Ru Ht' Hu s).
Qed.

Section Loops.
Context (dbg : bool) (h : bytes -> bytes -> option bytes).

Definition m_put (m : kmap) (k : bytes) (o : option bytes) : kmap := fun x => if beq x k then o else m x.
Lemma put_ok t m k o : reachable dbg t -> holds mem t m ->
  exists t', put dbg t k o ⇓ Ok t' /\ reachable dbg t' /\ holds mem t' (m_put m k o).
Proof.
  intros R H. destruct o as [v|]; cbn [put]; [apply (mem_insert dbg t m R H k v)|apply (mem_remove dbg t m R H k)].
Qed.

(** One pass over entries with different keys. *)
Section Pass.
Context (loop : node -> list (bytes * bytes) -> nat -> res node) (new : option bytes -> bytes -> bytes -> option bytes).
Context (Hnil : forall t n, loop t [] n = Ok t).
Context (Hcons : forall t m k v l, reachable dbg t -> holds mem t m ->
  exists t', reachable dbg t' /\ holds mem t' (m_put m k (new (m k) k v)) /\
    exists N, forall n, N <= n -> loop t ((k, v) :: l) n = loop t' l n).

Lemma pass : forall l t m, reachable dbg t -> holds mem t m -> NoDup (map fst l) ->
  exists t', loop t l ⇓ Ok t' /\ reachable dbg t' /\ exists m', holds mem t' m' /\
    (forall k v, In (k, v) l -> m' k = new (m k) k v) /\ (forall k, ~ In k (map fst l) -> m' k = m k).
Proof.
  induction l as [|[k v] l IH]; intros t m R H Nd.
  - exists t. split; [split; [discriminate|exists 0; intros n _; apply Hnil]|]. split; [exact R|].
    exists m. split; [exact H|]. split; [intros ? ? []|auto].
  - cbn in Nd. inversion Nd as [|? ? Nk Nd']; subst. destruct (Hcons t m k v l R H) as (t1 & R1 & H1 & N & E).
    destruct (IH t1 _ R1 H1 Nd') as (t' & (_ & N' & C) & R' & m' & H' & A & B).
    exists t'. split; [split; [discriminate|]; exists (N + N'); intros n Hn; rewrite E by lia; apply C; lia|].
    split; [exact R'|]. exists m'. split; [exact H'|]. split.
    + intros k' v' [[= -> ->]|Hin].
      * rewrite (B k' Nk). unfold m_put. now destruct (beq_spec k' k').
      * rewrite (A _ _ Hin). unfold m_put. destruct (beq_spec k' k) as [->|]; [|reflexivity].
        exfalso. apply Nk. apply in_map_iff. exists (k, v'). auto.
    + intros k' Hk. cbn in Hk. rewrite (B k'); [|tauto]. unfold m_put. destruct (beq_spec k' k) as [->|]; tauto.
Qed.
End Pass.

Lemma lists_nodup l m : lists l m -> NoDup (map fst l).
Proof.
  intros [S _]. induction S as [|e l S IH F]; [constructor|]. cbn. constructor; [|exact IH].
  intros X. apply in_map_iff in X as (e' & E & Hin). rewrite Forall_forall in F. specialize (F e' Hin).
  rewrite E in F. now apply lex_lt_irrefl in F.
Qed.
Lemma lists_keys l m k : lists l m -> (In k (map fst l) <-> m k <> None).
Proof.
  intros [_ I]. split.
  - intros X. apply in_map_iff in X as ([k' v] & <- & Hin). cbn. apply I in Hin as [E _]. congruence.
  - destruct (m k) as [v|] eqn:E; [|congruence]. intros _. apply in_map_iff. exists (k, v). split; [reflexivity|]. now apply I.
Qed.

(** A pass changes the keys of the list and no others. *)
Lemma pass_lists l (m m' : kmap) (new : option bytes -> bytes -> bytes -> option bytes) mu : lists l mu -> (forall k v, In (k, v) l -> m' k = new (m k) k v) ->
  (forall k, ~ In k (map fst l) -> m' k = m k) ->
  forall k, m' k = match mu k with Some v => new (m k) k v | None => m k end.
Proof.
  intros L A B k. destruct (mu k) as [v|] eqn:E; [apply A; now apply (proj2 L)|].
  apply B. rewrite (lists_keys _ _ _ L). congruence.
Qed.

Context (t u : node) (m mu : kmap) (R : reachable dbg t) (R' : reachable dbg u) (H : holds mem t m) (H' : holds mem u mu).

Lemma outer_by_one : exists x y,
  t_outer_combine_with dbg mem mem (detach_converter mem) t u (combiner_with mem mem h) ⇓ Ok x /\
  by_one_outer dbg h t u ⇓ Ok y /\ alike x y.
Proof.
  destruct (mem_outer_with dbg t m R H u mu R' H' h) as (x & Cx & Rx & Hx).
  destruct (mem_iter dbg u mu R' H') as (l & Cl & L).
  destruct (pass (loop_outer dbg h) (fun o _ v => match o with Some a => h a v | None => Some v end)) with (l := l) (t := t) (m := m)
    as (y & Cy & Ry & my & Hy & A & B); auto.
  - intros t0 m0 k v l0 R0 H0. destruct (H0 k) as (_ & N1 & G).
    assert (exists t', (fun n => match m0 k with Some a => put dbg t0 k (h a v) n | None => t_insert dbg mem t0 k v n end) ⇓ Ok t' /\
      reachable dbg t' /\ holds mem t' (m_put m0 k (match m0 k with Some a => h a v | None => Some v end))) as (t' & (_ & N2 & P) & R1 & H1).
    { destruct (m0 k) as [a|]; [apply put_ok; auto|exact (mem_insert dbg t0 m0 R0 H0 k v)]. }
    exists t'. split; [exact R1|]. split; [exact H1|]. exists (N1 + N2). intros n Hn. cbn [loop_outer].
    rewrite G by lia. cbn [bind]. specialize (P n ltac:(lia)). now rewrite P.
  - now apply lists_nodup with (m := mu).
  - exists x, y. split; [exact Cx|]. split; [exact (conv_bind _ (fun l => loop_outer dbg h t l) _ _ Cl Cy)|].
    eapply same_alike; [exact Rx|exact Ry|exact Hx|exact Hy|]. intros k.
    rewrite (pass_lists l m my (fun o _ v => match o with Some a => h a v | None => Some v end) mu L A B k). unfold m_outer. destruct (m k), (mu k); reflexivity.
Qed.

Lemma left_by_one : exists x y,
  t_left_combine_with dbg mem mem t u (combiner_with mem mem h) ⇓ Ok x /\ by_one_left dbg h t u ⇓ Ok y /\ alike x y.
Proof.
  destruct (mem_left_with dbg t m R H u mu R' H' h) as (x & Cx & Rx & Hx).
  destruct (mem_iter dbg u mu R' H') as (l & Cl & L).
  destruct (pass (loop_left dbg h) (fun o _ v => match o with Some a => h a v | None => None end)) with (l := l) (t := t) (m := m)
    as (y & Cy & Ry & my & Hy & A & B); auto.
  - intros t0 m0 k v l0 R0 H0. destruct (H0 k) as (_ & N1 & G).
    assert (exists t', (fun n => match m0 k with Some a => put dbg t0 k (h a v) n | None => Ok t0 end) ⇓ Ok t' /\
      reachable dbg t' /\ holds mem t' (m_put m0 k (match m0 k with Some a => h a v | None => None end))) as (t' & (_ & N2 & P) & R1 & H1).
    { destruct (m0 k) as [a|] eqn:E; [apply put_ok; auto|]. exists t0. split; [apply conv_const; discriminate|]. split; [exact R0|].
      eapply holds_ext; [|exact H0]. intros x0. unfold m_put. destruct (beq_spec x0 k) as [->|]; auto. }
    exists t'. split; [exact R1|]. split; [exact H1|]. exists (N1 + N2). intros n Hn. cbn [loop_left].
    rewrite G by lia. cbn [bind]. specialize (P n ltac:(lia)). now rewrite P.
  - now apply lists_nodup with (m := mu).
  - exists x, y. split; [exact Cx|]. split; [exact (conv_bind _ (fun l => loop_left dbg h t l) _ _ Cl Cy)|].
    eapply same_alike; [exact Rx|exact Ry|exact Hx|exact Hy|]. intros k.
    rewrite (pass_lists l m my (fun o _ v => match o with Some a => h a v | None => None end) mu L A B k). unfold m_left. destruct (m k), (mu k); reflexivity.
Qed.

Lemma inner_by_one : exists x y,
  t_inner_combine_with dbg mem mem t u (combiner_with mem mem h) ⇓ Ok x /\ by_one_inner dbg h t u ⇓ Ok y /\ alike x y.
Proof.
  destruct (mem_inner_with dbg t m R H u mu R' H' h) as (x & Cx & Rx & Hx).
  destruct (mem_iter dbg t m R H) as (l & Cl & L).
  destruct (pass (loop_inner dbg h u) (fun _ k a => match mu k with Some v => h a v | None => None end)) with (l := l) (t := t) (m := m)
    as (y & Cy & Ry & my & Hy & A & B); auto.
  - intros t0 m0 k a l0 R0 H0. destruct (H' k) as (_ & N1 & G).
    destruct (put_ok t0 m0 k (match mu k with Some v => h a v | None => None end) R0 H0) as (t' & (_ & N2 & P) & R1 & H1).
    exists t'. split; [exact R1|]. split; [exact H1|]. exists (N1 + N2). intros n Hn. cbn [loop_inner].
    rewrite G by lia. cbn [bind]. specialize (P n ltac:(lia)). now rewrite P.
  - now apply lists_nodup with (m := m).
  - exists x, y. split; [exact Cx|]. split; [exact (conv_bind _ (fun l => loop_inner dbg h u t l) _ _ Cl Cy)|].
    eapply same_alike; [exact Rx|exact Ry|exact Hx|exact Hy|]. intros k.
    rewrite (pass_lists l m my (fun _ k a => match mu k with Some v => h a v | None => None end) m L A B k). unfold m_inner. destruct (m k), (mu k); reflexivity.
Qed.
End Loops.
