(** [retain_prefix_with] with any selector: lemmas for the property theorems. *)
From Verif Require Import Base BaseLemmas Header Node Combine Iter Api Tree Rep JoinBase JoinProofs WithProofs PrefixProofs Sim Spec Client Top
  TopOps MemLemmas Store StoreSpec World StoreLemmas StoreTop InPlace InPlaceSpec InPlaceTop FailSpec MixProofs RetainSpec PrefixExact.

Lemma fork_same a a' q : same a a' -> fork a q -> fork a' q.
Proof. intros E. apply fork_ext. intros. apply E. Qed.
Lemma kept_same s a a' b b' k : same a a' -> same b b' -> kept s a b k -> kept s a' b' k.
Proof.
  intros E F (p & r & x & H1 & H2 & H3 & H4). exists p, r, x. split; [exact H1|]. split; [now rewrite <- F|]. split; [exact H3|].
  intros q u y A B C D. eapply fork_same; [exact E|]. eapply H4; eauto. now rewrite F.
Qed.
Lemma retained_same s a a' b b' r : same a a' -> same b b' -> retained s a b r -> retained s a' b' r.
Proof.
  intros E F H k x. rewrite (H k x), (E k). split; intros [A K]; (split; [exact A|]); (eapply kept_same; [| |exact K]);
    auto; intros z; symmetry; auto.
Qed.

Lemma mem_retain_any dbg t u m mu s : reachable dbg t -> reachable dbg u -> holds detached_read t m -> holds detached_read u mu ->
  exists t' m', t_retain_prefix_with dbg detached_read detached_read t u (selector detached_read s) ⇓ Ok t' /\
    holds detached_read t' m' /\ retained s m mu m'.
Proof.
  intros R R' H H'. destruct (reachable_good dbg t R) as (g & G). destruct (reachable_good dbg u R') as (gu & U).
  destruct G as (Rg & C & E), U as (Ru & Cu & Eu).
  pose proof (holds_lookup _ _ _ _ _ Rg C H) as Em. pose proof (holds_lookup _ _ _ _ _ Ru Cu H') as Em'.
  destruct (retain_prefix_exact dbg false false detached_read detached_read False (or_introl det_detached) eq_refl
    (fun _ => or_introl det_detached) (selector detached_read s) s
    (fun bv y Hb => or_introl (ex_intro _ (s y) (conj (selector_ok detached_read s bv y Hb) eq_refl)))
    (size g + size gu + 3) t (ROwned u) g gu Rg) as [(t' & Et & g' & R2 & E2 & C2 & L2)|[_ []]]; auto.
  - now apply Rep_NRep.
  - lia.
  - exists t', (lookup g'). split; [|split].
    + eapply conv_mono; [apply mono_retain_prefix_with|exact Et].
    + eapply good_holds; eauto.
    + eapply retained_same; [| |exact L2]; intros k; symmetry; auto.
Qed.

Lemma mixed_retain_any dbg rdA rdB t u m mu s : tree_of dbg rdA t m -> tree_of dbg rdB u mu ->
  ok_or_panic (t_retain_prefix_with dbg rdA rdB t u (selector rdB s))
    (fun x => exists m', holds rdA x m' /\ retained s m mu m').
Proof.
  intros A Bt. destruct (tree_of_good _ _ _ _ A) as (g & G & Em), (tree_of_good _ _ _ _ Bt) as (gu & U & Em').
  destruct G as (Rg & C & E), U as (Ru & Cu & Eu).
  eapply okp_or_panic with (n := size g + size gu + 3); [apply mono_retain_prefix_with|].
  eapply okp_imp; [eapply (retain_prefix_exact dbg false false rdA rdB True (or_intror Logic.I) eq_refl
    (fun _ => or_intror Logic.I) (selector rdB s) s
    (fun bv y Hb => or_introl (ex_intro _ (s y) (conj (selector_ok rdB s bv y Hb) eq_refl)))
    (size g + size gu + 3) t _ g gu Rg); auto|].
  - now apply Rep_NRep.
  - lia.
  - intros x (g' & R2 & E2 & C2 & L2). exists (lookup g'). split; [eapply good_holds; eauto|].
    eapply retained_same; [exact Em|exact Em'|exact L2].
Qed.
