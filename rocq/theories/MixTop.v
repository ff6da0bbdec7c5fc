(** Combining trees that live in different places: lemmas for the property theorems. *)
From Verif Require Import Base BaseLemmas Header Node Combine Iter Api Tree Rep JoinBase Sim Spec Client Top
  TopOps MemLemmas Store StoreSpec World StoreLemmas InPlaceSpec InPlaceTop MixProofs.

Lemma oop_imp {A} (f : nat -> res A) (P Q : A -> Prop) : (forall x, P x -> Q x) -> ok_or_panic f P -> ok_or_panic f Q.
Proof. intros H [(x & E & p)|E]; [left; eauto|now right]. Qed.
Lemma m_outer_same h a a' b b' : same a a' -> same b b' -> same (m_outer h a b) (m_outer h a' b').
Proof. intros E F k. unfold m_outer. now rewrite E, F. Qed.
Lemma m_inner_same h a a' b b' : same a a' -> same b b' -> same (m_inner h a b) (m_inner h a' b').
Proof. intros E F k. unfold m_inner. now rewrite E, F. Qed.
Lemma m_left_same h a a' b b' : same a a' -> same b b' -> same (m_left h a b) (m_left h a' b').
Proof. intros E F k. unfold m_left. now rewrite E, F. Qed.
Lemma m_remove_prefix_same s a a' b b' : same a a' -> same b b' -> same (m_remove_prefix_with s a b) (m_remove_prefix_with s a' b').
Proof. intros E F k. unfold m_remove_prefix_with. now rewrite E, (below_selected_ext s _ _ k F). Qed.
Lemma m_retain_prefix_same s a a' b b' : same a a' -> same b b' -> same (m_retain_prefix_with s a b) (m_retain_prefix_with s a' b').
Proof. intros E F k. unfold m_retain_prefix_with. now rewrite E, (below_selected_ext s _ _ k F). Qed.
Lemma downward_same s b b' : same b b' -> downward_rejected s b -> downward_rejected s b'.
Proof. intros E D q r x y Hq Hr. apply (D q r x y); now rewrite E. Qed.

Section Mixed.
Context (dbg : bool) (rdA rdB : reader) (t u : node) (m mu : kmap) (A : tree_of dbg rdA t m) (Bt : tree_of dbg rdB u mu).

Ltac go L E := eapply oop_imp; [|apply L; solve [eassumption | auto]]; let H := fresh in intros ? H; eapply holds_ext; [|exact H]; apply E; assumption.

Lemma mixed_in_place :
  (forall h, ok_or_panic (t_outer_combine_with dbg rdA rdB (detach_converter rdB) t u (combiner_with rdA rdB h))
     (fun x => holds rdA x (m_outer h m mu))) /\
  (forall h, ok_or_panic (t_inner_combine_with dbg rdA rdB t u (combiner_with rdA rdB h)) (fun x => holds rdA x (m_inner h m mu))) /\
  (forall h, ok_or_panic (t_left_combine_with dbg rdA rdB t u (combiner_with rdA rdB h)) (fun x => holds rdA x (m_left h m mu))) /\
  (forall s, ok_or_panic (t_remove_prefix_with dbg rdA rdB t u (selector rdB s)) (fun x => holds rdA x (m_remove_prefix_with s m mu))) /\
  (forall s, downward_rejected s mu ->
     ok_or_panic (t_retain_prefix_with dbg rdA rdB t u (selector rdB s)) (fun x => holds rdA x (m_retain_prefix_with s m mu))).
Proof.
  destruct (tree_of_good _ _ _ _ A) as (g & G & E), (tree_of_good _ _ _ _ Bt) as (gu & Gu & Eu).
  split; [|split; [|split; [|split]]].
  - intros h. go (pw_outer dbg rdA rdB t u g gu) m_outer_same.
  - intros h. go (pw_inner dbg rdA rdB t u g gu) m_inner_same.
  - intros h. go (pw_left dbg rdA rdB t u g gu) m_left_same.
  - intros s. go (pw_remove_prefix dbg rdA rdB t u g gu) m_remove_prefix_same.
  - intros s D. assert (downward_rejected s (lookup gu)) as D'
      by (eapply downward_same; [intros k; symmetry; apply Eu|exact D]).
    go (pw_retain_prefix dbg rdA rdB t u g gu) m_retain_prefix_same.
Qed.

Lemma mixed_new :
  (forall h, ok_or_panic (t_outer_combine dbg rdA rdB t u (combiner rdA rdB h)) (fun x => holds detached_read x (m_outer h m mu))) /\
  (forall h, ok_or_panic (t_inner_combine dbg rdA rdB t u (combiner rdA rdB h)) (fun x => holds detached_read x (m_inner h m mu))) /\
  (forall h, ok_or_panic (t_left_combine dbg rdA rdB t u (combiner rdA rdB h)) (fun x => holds detached_read x (m_left h m mu))) /\
  (forall p, ok_or_panic (t_inner_combine_pred rdA rdB t u (predicate rdA rdB p)) (fun b =>
     b = true <-> exists k x y, m k = Some x /\ mu k = Some y /\ p x y = true)) /\
  (forall p, ok_or_panic (t_left_combine_pred rdA rdB t u (predicate rdA rdB p)) (fun b =>
     b = true <-> exists k x, m k = Some x /\ match mu k with Some y => p x y = true | None => True end)).
Proof.
  destruct (tree_of_good _ _ _ _ A) as (g & G & E), (tree_of_good _ _ _ _ Bt) as (gu & Gu & Eu).
  split; [|split; [|split; [|split]]].
  - intros h. go (p_outer dbg false false rdA rdB t u g gu) m_outer_same.
  - intros h. go (p_inner dbg false false rdA rdB t u g gu) m_inner_same.
  - intros h. go (p_left dbg false false rdA rdB t u g gu) m_left_same.
  - intros p. eapply oop_imp; [|apply (p_inner_pred false false rdA rdB t u g gu); eassumption].
    intros b H. rewrite H. split; intros (k & x & y & Hx & Hy & Hp); exists k, x, y; rewrite ?E, ?Eu in *; auto.
  - intros p. eapply oop_imp; [|apply (p_left_pred false false rdA rdB t u g gu); eassumption].
    intros b H. rewrite H. split; intros (k & x & Hx & Hp); exists k, x; rewrite ?E, ?Eu in *; auto.
Qed.
End Mixed.

Section Total.
Context (dbg : bool) (rdA : reader) (t u : node) (m mu : kmap) (A : tree_of dbg rdA t m).
Context (Ru : reachable dbg u) (Hu : holds detached_read u mu).

Lemma det_mem : det detached_read. Proof. exact det_detached. Qed.
Lemma yields_returns f M M' : yields false rdA f M -> same M M' -> exists x, f ⇓ Ok x /\ holds rdA x M'.
Proof.
  intros (x & g & E & (R & C & _) & L) S. exists x. split; [exact E|]. eapply holds_ext; [exact S|].
  eapply holds_ext; [exact L|]. eapply good_holds; eauto.
Qed.

Lemma mixed_total :
  (forall h, exists x, t_outer_combine_with dbg rdA detached_read (detach_converter detached_read) t u (combiner_with rdA detached_read h) ⇓ Ok x /\
     holds rdA x (m_outer h m mu)) /\
  (forall h, exists x, t_inner_combine_with dbg rdA detached_read t u (combiner_with rdA detached_read h) ⇓ Ok x /\ holds rdA x (m_inner h m mu)) /\
  (dbg = false \/ rdA = detached_read ->
   (forall h, exists x, t_left_combine_with dbg rdA detached_read t u (combiner_with rdA detached_read h) ⇓ Ok x /\ holds rdA x (m_left h m mu)) /\
   (forall s, exists x, t_remove_prefix_with dbg rdA detached_read t u (selector detached_read s) ⇓ Ok x /\
      holds rdA x (m_remove_prefix_with s m mu)) /\
   (forall s, downward_rejected s mu -> exists x, t_retain_prefix_with dbg rdA detached_read t u (selector detached_read s) ⇓ Ok x /\
      holds rdA x (m_retain_prefix_with s m mu))).
Proof.
  destruct (tree_of_good _ _ _ _ A) as (g & G & E), (tree_of_good _ _ _ _ (in_memory dbg u mu Ru Hu)) as (gu & Gu & Eu).
  split; [|split].
  - intros h. eapply yields_returns; [eapply y_outer_with; eauto using det_mem|now apply m_outer_same].
  - intros h. eapply yields_returns; [eapply y_inner_with; eauto using det_mem|now apply m_inner_same].
  - intros Hd. assert (dbg = true -> det rdA) as D by (intros ->; destruct Hd as [Hd|Hd]; [discriminate|rewrite Hd; exact det_mem]).
    split; [|split].
    + intros h. eapply yields_returns; [eapply y_left_with; eauto using det_mem|now apply m_left_same].
    + intros s. eapply yields_returns; [eapply y_remove_prefix_with; eauto using det_mem|now apply m_remove_prefix_same].
      intros. now apply selector_ok.
    + intros s Dr. eapply yields_returns; [eapply y_retain_prefix_with; eauto using det_mem|now apply m_retain_prefix_same].
      * intros. now apply selector_ok.
      * eapply downward_same; [intros k; symmetry; apply Eu|exact Dr].
Qed.
End Total.
