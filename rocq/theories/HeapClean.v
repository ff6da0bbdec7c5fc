(** Nodes without superfluous parts: every node has a value or children.  On such trees,
    combining in place forgets no vector (see [forgets]). *)
From Verif Require Import Base BaseLemmas Header Node Combine Store HeapSpec HeapMerge.

Inductive clean : node -> Prop :=
| clean_leaf p v : blob_opt v <> None -> clean (Node p v (KId []))
| clean_arc p v l : blob_opt v <> None \/ l <> [] -> Forall clean l -> clean (Node p v (KArc l)).
Definition clean0 (n : node) : Prop := n = n_empty \/ clean n.

Lemma clean_prefix p q v k : clean (Node p v k) -> clean (Node q v k).
Proof. inversion 1; subst; constructor; auto. Qed.
Lemma clean_nonempty r : clean r -> is_empty r = false.
Proof.
  destruct 1 as [p v Hv|p v l Hv Hl]; unfold is_empty, has_value, is_leaf; cbn [n_value n_kids].
  - now destruct (blob_opt v).
  - now rewrite andb_false_r.
Qed.
Lemma clean_kids n ns : clean0 n -> load_children_mut mem n = Ok ns -> Forall clean ns.
Proof.
  intros [->|H] E.
  - cbn in E. assert (ns = []) as -> by congruence. constructor.
  - inversion H as [p v Hv|p v l Hv Hl]; subst; cbn in E.
    + assert (ns = []) as -> by congruence. constructor.
    + now assert (ns = l) as -> by congruence.
Qed.
Definition ocl (cl : node -> Prop) (po : option iter) : Prop :=
  match po with Some (IOwned ms) => Forall cl ms | _ => True end.
Lemma clean_iter m po : clean0 m -> load_children mem m = Ok po -> ocl clean po.
Proof.
  intros [->|H] E.
  - cbn in E. now assert (po = None) as -> by congruence.
  - inversion H as [p v Hv|p v l Hv Hl]; subst; cbn in E.
    + now assert (po = None) as -> by congruence.
    + destruct l; [now assert (po = None) as -> by congruence|]. now assert (po = Some (IOwned (n :: l))) as -> by congruence.
Qed.
Lemma canon_clean dbg p v l r : Forall clean l -> blob_opt v <> None \/ l <> [] ->
  canonicalize dbg (Node p v (KArc l)) = Ok r -> forgets (Node p v (KArc l)) = 0 /\ clean r.
Proof.
  intros Hl Hv E. unfold canonicalize in E. cbn [n_kids] in E. rewrite andb_false_r in E. cbn [n_value n_kids n_prefix] in E.
  destruct (blob_opt v) as [b|] eqn:Ev.
  - cbn [bind] in E. unfold has_value in E. cbn [n_value] in E. rewrite Ev in E. cbn in E.
    assert (r = Node p v (KArc l)) as -> by congruence. split; [unfold forgets; cbn [n_value n_kids]; rewrite Ev; cbn [n_value n_kids]; now rewrite Ev|]. constructor; [left; congruence|exact Hl].
  - destruct Hv as [Hv|Hv]; [congruence|]. destruct l as [|x [|y l]]; [congruence| |].
    + apply Forall_inv in Hl. destruct (dbg && (blob_is_id p || blob_is_id (n_prefix x))); [discriminate E|]. cbn [bind] in E.
      inversion Hl as [q w Hw|q w l Hw Hl2]; subst; cbn [n_value n_kids n_prefix] in *.
      * destruct (blob_opt w) eqn:Ew; [|congruence]. split; [unfold forgets; cbn [n_value n_kids]; rewrite Ev; cbn [n_value n_kids]; now rewrite Ew|]. unfold has_value in E. cbn [n_value] in E. rewrite Ew in E. cbn in E.
        match type of E with Ok ?a = _ => assert (r = a) as -> by congruence end. constructor. congruence.
      * unfold has_value, child_count in E. cbn [n_value n_kids] in E.
        assert (negb match blob_opt w with Some _ => true | None => false end && (length l =? 0) = false) as F.
        { destruct (blob_opt w); [reflexivity|]. destruct l; [|reflexivity]. destruct Hw; congruence. }
        rewrite F in E. match type of E with Ok ?a = _ => assert (r = a) as -> by congruence end. split; [|now constructor].
        unfold forgets; cbn [n_value n_kids]; rewrite Ev; cbn [n_value n_kids]. destruct (blob_opt w); [reflexivity|]. destruct l; [|reflexivity]. destruct Hw; congruence.
    + cbn [bind] in E. unfold child_count in E. cbn [n_kids length] in E. rewrite andb_false_r in E.
      assert (r = Node p v (KArc (x :: y :: l))) as -> by congruence. split; [unfold forgets; cbn [n_value n_kids]; rewrite Ev; cbn [n_value n_kids]; now rewrite Ev|]. constructor; [right; discriminate|exact Hl].
Qed.

Definition conv_clean (c : converter) : Prop :=
  (forall fuel m r, clean m -> conv_node c fuel (ROwned m) = Ok r -> clean r) /\
  (forall fuel k m r, clean m -> conv_node_shortened c fuel (ROwned m) k = Ok r -> clean r).
Lemma shortened_clean m k r : clean m -> clone_shortened mem m k = Ok r -> clean r.
Proof.
  intros H E. unfold clone_shortened in E. destruct (load_prefix mem (n_prefix m)); try discriminate E. cbn [bind] in E.
  destruct (slice_from k a); try discriminate E. cbn [bind] in E. unfold set_prefix_slice in E.
  assert (r = Node (Data a0) (n_value m) (n_kids m)) as -> by congruence. destruct m as [p v ks]. apply (clean_prefix p _ _ _ H).
Qed.
Lemma downcast_clean : conv_clean downcast_converter.
Proof.
  split; intros.
  - cbn in H0. congruence.
  - cbn in H0. apply (shortened_clean _ _ _ H H0).
Qed.
Lemma detach_loop_clean pf : (forall m r, clean m -> pf (ROwned m) = Ok r -> clean r) ->
  forall fuel ms rs, Forall clean ms -> detach_loop pf fuel (IOwned ms) = Ok rs -> Forall clean rs /\ (ms <> [] -> rs <> []).
Proof.
  intros Hp. induction fuel as [|fuel IH]; intros ms rs H E; [discriminate E|]. cbn [detach_loop] in E.
  destruct ms as [|m ms]; cbn [it_next] in E.
  - assert (rs = []) as -> by congruence. split; [constructor|congruence].
  - destruct (pf (ROwned m)) as [x| | |] eqn:Ex; try discriminate E. cbn [bind] in E.
    destruct (detach_loop pf fuel (IOwned ms)) as [xs| | |] eqn:Exs; try discriminate E. cbn [bind] in E.
    assert (rs = x :: xs) as -> by congruence. inversion H; subst. split; [|discriminate].
    constructor; [eauto|]. now apply (IH ms xs).
Qed.
Lemma detached_clean : forall fuel m r, clean m -> r_detached mem fuel (ROwned m) = Ok r -> clean r.
Proof.
  induction fuel as [|fuel IH]; intros m r H E; [discriminate E|]. cbn [r_detached r_to_owned bind] in E.
  destruct (load_prefix mem (n_prefix m)) as [p| | |]; try discriminate E. cbn [bind] in E.
  destruct (load_value mem (n_value m)) as [v| | |] eqn:Ev; try discriminate E. cbn [bind] in E.
  destruct (load_children mem m) as [po| | |] eqn:Eo; try discriminate E. cbn [bind] in E.
  pose proof (clean_iter _ _ (or_intror H) Eo) as Hpo.
  assert (blob_opt (n_value m) <> None -> blob_opt (opt_value (option_map Data v)) <> None) as Hv.
  { destruct (n_value m) as [d|[|]]; cbn in *; try congruence. intros _. now assert (v = Some d) as -> by congruence. }
  assert (po = None -> blob_opt (n_value m) <> None) as Hn.
  { intros ->. inversion H as [q w Hw|q w l Hw Hl]; subst; [exact Hw|]. cbn in Eo. destruct l; [|discriminate Eo]. destruct Hw; [assumption|congruence]. }
  destruct po as [[ms|d]|].
  - destruct (detach_loop (r_detached mem fuel) fuel (IOwned ms)) as [xs| | |] eqn:Exs; try discriminate E. cbn [bind] in E.
    match type of E with Ok ?a = _ => assert (r = a) as -> by congruence end.
    destruct (detach_loop_clean _ IH _ _ _ Hpo Exs) as [H1 H2]. constructor; [|exact H1]. right. apply H2. intros ->.
    unfold load_children in Eo. destruct (n_kids m) as [[|]|[|]]; discriminate Eo.
  - unfold load_children in Eo. destruct (n_kids m) as [[|]|[|]]; discriminate Eo.
  - match type of E with Ok ?a = _ => assert (r = a) as -> by congruence end. constructor. auto.
Qed.
Lemma detach_clean : conv_clean (detach_converter mem).
Proof.
  split.
  - intros fuel m r H E. apply (detached_clean _ _ _ H E).
  - intros fuel k m r H E. cbn [conv_node_shortened detach_converter r_clone_shortened] in E.
    destruct (clone_shortened mem m k) as [m'| | |] eqn:Em; try discriminate E. cbn [bind] in E.
    apply (detached_clean _ _ _ (shortened_clean _ _ _ H Em) E).
Qed.

(** ** Lists of children *)
Section Kids.
Context (c : converter) (Hc : conv_clean c) (rec : node -> noderef -> res node).
Context (Hrec : forall x y r, clean x -> clean y -> rec x (ROwned y) = Ok r -> clean r).
Lemma convert_clean : forall fuel ms rs, Forall clean ms -> convert_loop c fuel (IOwned ms) = Ok rs ->
  Forall clean rs /\ (ms <> [] -> rs <> []).
Proof.
  induction fuel as [|fuel IH]; intros ms rs H E; [discriminate E|]. cbn [convert_loop] in E.
  destruct ms as [|m ms]; cbn [it_next] in E.
  - assert (rs = []) as -> by congruence. split; [constructor|congruence].
  - destruct (conv_node c fuel (ROwned m)) as [x| | |] eqn:Ex; try discriminate E. cbn [bind] in E.
    destruct (convert_loop c fuel (IOwned ms)) as [xs| | |] eqn:Exs; try discriminate E. cbn [bind] in E.
    assert (rs = x :: xs) as -> by congruence. inversion H; subst. split; [|discriminate].
    constructor; [apply (proj1 Hc fuel m); auto|]. now apply (IH ms xs).
Qed.
Lemma merge_clean : forall fuel ns ms rs, Forall clean ns -> Forall clean ms ->
  pmerge true (Some c) rec fuel ns (IOwned ms) = Ok rs -> Forall clean rs /\ (ns <> [] \/ ms <> [] -> rs <> []).
Proof.
  induction fuel as [|fuel IH]; intros ns ms rs Hn Hm E; [discriminate E|]. cbn [pmerge] in E.
  destruct (cmp_with ns (IOwned ms)) as [[| |]|] eqn:Ecmp.
  - destruct ns as [|x ns]; [discriminate E|]. destruct ms as [|y ms]; [discriminate E|]. cbn [it_next] in E.
    destruct (rec x (ROwned y)) as [r| | |] eqn:Er; try discriminate E. cbn [bind] in E.
    destruct (pmerge true (Some c) rec fuel ns (IOwned ms)) as [rs'| | |] eqn:Ers; try discriminate E. cbn [bind] in E.
    inversion Hn; inversion Hm; subst. assert (clean r) as Cr by eauto. rewrite (clean_nonempty _ Cr) in E.
    assert (rs = r :: rs') as -> by congruence. split; [|discriminate]. constructor; [exact Cr|]. now apply (IH ns ms).
  - destruct ns as [|x ns]; [discriminate E|].
    destruct (pmerge true (Some c) rec fuel ns (IOwned ms)) as [rs'| | |] eqn:Ers; try discriminate E. cbn [bind] in E.
    inversion Hn; subst. assert (rs = x :: rs') as -> by congruence. split; [|discriminate]. constructor; [assumption|]. now apply (IH ns ms).
  - destruct ms as [|y ms]; [discriminate E|]. cbn [it_next] in E.
    destruct (conv_node c fuel (ROwned y)) as [x| | |] eqn:Ex; try discriminate E. cbn [bind] in E.
    destruct (pmerge true (Some c) rec fuel ns (IOwned ms)) as [rs'| | |] eqn:Ers; try discriminate E. cbn [bind] in E.
    inversion Hm; subst. assert (rs = x :: rs') as -> by congruence. split; [|discriminate].
    constructor; [apply (proj1 Hc fuel y); auto|]. now apply (IH ns ms).
  - assert (rs = []) as -> by congruence. unfold cmp_with in Ecmp. destruct ns; [|destruct (it_first _); discriminate Ecmp].
    destruct ms; [|discriminate Ecmp]. split; [constructor|]. intros [H|H]; congruence.
Qed.
Lemma kids_clean fuel ns po rs : Forall clean ns -> ocl clean po -> (forall ms, po = Some ms -> exists l, ms = IOwned l /\ l <> []) ->
  outer_children_with c rec fuel ns po = Ok rs -> Forall clean rs /\ (ns <> [] \/ po <> None -> rs <> []).
Proof.
  intros Hn Hp Ho E. unfold outer_children_with in E. destruct po as [it|].
  - destruct (Ho it eq_refl) as (l & -> & Hl). cbn [ocl] in Hp. destruct ns as [|x ns].
    + destruct (convert_clean _ _ _ Hp E) as [H1 H2]. split; auto.
    + rewrite outer_merge in E. destruct (merge_clean _ _ _ _ Hn Hp E) as [H1 H2]. split; [exact H1|]. intros _. apply H2. left. discriminate.
  - assert (rs = ns) as -> by congruence. split; [exact Hn|]. intros [H|H]; congruence.
Qed.
End Kids.
