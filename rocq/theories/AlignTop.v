(** C31: attached trees whose keys line up are combined without a panic. *)
From Verif Require Import Base BaseLemmas Header Node Combine Iter Api Tree Rep Sim Spec Client Top TopOps MemLemmas
  Entries Canon Store StoreSpec World StoreLemmas StoreTop GroupSpec GroupProofs PanicSpec PanicProofs AlignProofs.

Lemma forks_ext m m' p : same m m' -> forks m p -> forks m' p.
Proof. intros E [H|(c1 & c2 & z1 & z2 & H)]; [left|right; exists c1, c2, z1, z2]; rewrite <- !E; auto. Qed.
Lemma forks_iff m m' p : same m m' -> forks m p <-> forks m' p.
Proof. intros E. split; apply forks_ext; [exact E|]. intros k. symmetry. apply E. Qed.

Lemma below_ext m m' p : same m m' -> below m p <-> below m' p.
Proof. intros E. unfold below. split; intros (z & H); exists z; [rewrite <- E|rewrite E]; auto. Qed.
Lemma longer_ext m m' p : same m m' -> longer m p <-> longer m' p.
Proof. intros E. unfold longer. split; intros (c & z & H); exists c, z; [rewrite <- E|rewrite E]; auto. Qed.

Lemma lined_up_ext m m' mu mu' : same m m' -> same mu mu' -> lined_up m mu -> lined_up m' mu'.
Proof.
  intros E F H p B B'. rewrite <- (forks_iff m m'), <- (forks_iff mu mu') by auto.
  apply H; [apply (below_ext m m')|apply (below_ext mu mu')]; auto.
Qed.
Lemma covered_ext m m' mu mu' : same m m' -> same mu mu' -> covered m mu -> covered m' mu'.
Proof.
  intros E F H p B B'. rewrite <- (longer_ext m m'), <- (longer_ext mu mu'), <- E, <- F by auto.
  apply H; [apply (forks_iff m m')|apply (forks_iff mu mu')]; auto.
Qed.
Lemma no_split_ext m m' mu mu' : same m m' -> same mu mu' -> no_split m mu -> no_split m' mu'.
Proof.
  intros E F H p c1 c2 z1 z2 N. rewrite <- E, <- F. intros A B. apply (forks_ext m m'); auto. exact (H p c1 c2 z1 z2 N A B).
Qed.

Lemma empty_dec g : g = tempty \/ g <> tempty.
Proof. destruct g as [[|? ?] [?|] [|? ?]]; try (right; discriminate). now left. Qed.

Lemma inhabited_tree g m : same (lookup g) m -> croot g -> (inhabited m <-> g <> tempty).
Proof.
  intros E C. split.
  - intros (k & H) ->. rewrite <- E in H. destruct H. apply tempty_lookup.
  - intros N. destruct (croot_has_key g C N) as (k & H). exists k. now rewrite <- E.
Qed.

Lemma okw_settles {X} (P : X -> Prop) (Q : X -> Prop) (f : nat -> res X) :
  (forall n, okw P (f n)) -> ok_or_panic f Q -> exists x, f ⇓ Ok x /\ Q x.
Proof. intros H [X1|(_ & n & X1)]; [exact X1|]. specialize (H n). rewrite (X1 n (le_n n)) in H. destruct H. Qed.

Lemma okp_okw {X} (P : X -> Prop) r : okp False r P -> okw any r.
Proof. intros [(x & -> & _)|[_ []]]. exact Logic.I. Qed.

Section Two.
Context (dbg : bool) (S S' : store) (inv : st S -> Prop) (inv' : st S' -> Prop) (L : lawful S inv) (L' : lawful S' inv').
Context (s : st S) (s' : st S') (t u : node) (m mu : kmap).
Context (A : attached dbg S inv s t m) (U : attached dbg S' inv' s' u mu).
Notation rd := (st_read S s).
Notation rd' := (st_read S' s').

Lemma fits_trees b c g g' : same (lookup g) m -> same (lookup g') mu -> lined_up m mu -> (b = true -> covered m mu) ->
  (c = true -> covered mu m /\ no_split m mu) -> fits b c (lookup g) (lookup g').
Proof.
  intros E E' H1 H2 H3. assert (same m (lookup g)) as F by (intros k; symmetry; apply E).
  assert (same mu (lookup g')) as F' by (intros k; symmetry; apply E'). split; [|split].
  - eapply lined_up_ext; eauto.
  - intros X. eapply covered_ext; eauto.
  - intros X. destruct (H3 X). split; [eapply covered_ext|eapply no_split_ext]; eauto.
Qed.

Lemma fit_outer h : outer_fits m mu ->
  exists x, t_outer_combine dbg rd rd' t u (combiner rd rd' h) ⇓ Ok x /\ holds mem x (m_outer h m mu).
Proof.
  intros (F1 & F2 & F3 & F4 & F5).
  eapply okw_settles; [|exact (at_outer dbg S S' inv inv' L L' s s' t u m mu A U h)].
  destruct (attached_good dbg S inv L s t m A) as (_ & ids & g & (R & C & _) & E).
  destruct (attached_good dbg S' inv' L' s' u mu U) as (_ & ids' & g' & (R' & C' & _) & E').
  intros n. unfold t_outer_combine. eapply (outer_okw dbg ids ids'); auto using Rep_NRep, C, C'; eauto using Rep_NRep.
  - intros av bv x y Ha Hb. eapply okp_okw. eapply combiner_ok; eauto.
  - rewrite (inhabited_tree g m), (inhabited_tree g' mu) in F5 by auto.
    destruct (empty_dec g) as [->|N].
    + destruct (empty_dec g') as [->|N']; [|now destruct F5 as [_ F5]; destruct (F5 N')].
      apply Al_eq; [split; congruence|split; congruence|intros ? ? ? []].
    + apply fits_Al; auto; [tauto|]. apply fits_trees; auto.
Qed.

Lemma fit_left h : left_fits m mu ->
  exists x, t_left_combine dbg rd rd' t u (combiner rd rd' h) ⇓ Ok x /\ holds mem x (m_left h m mu).
Proof.
  intros (F1 & F2 & F5).
  eapply okw_settles; [|exact (at_left dbg S S' inv inv' L L' s s' t u m mu A U h)].
  destruct (attached_good dbg S inv L s t m A) as (_ & ids & g & (R & C & _) & E).
  destruct (attached_good dbg S' inv' L' s' u mu U) as (_ & ids' & g' & (R' & C' & _) & E').
  rewrite (inhabited_tree g m), (inhabited_tree g' mu) in F5 by auto.
  intros n. unfold t_left_combine. destruct (empty_dec g) as [->|N].
  - exact (left_empty_l dbg ids ids' rd rd' _ n t u g' R R').
  - eapply (left_okw dbg ids ids' rd rd'); eauto using Rep_NRep.
    + intros av bv x y Ha Hb. eapply okp_okw. eapply combiner_ok; eauto.
    + apply fits_Al with (O := false); auto. apply fits_trees; auto; discriminate.
Qed.

Lemma fit_inner h : inner_fits m mu ->
  exists x, t_inner_combine dbg rd rd' t u (combiner rd rd' h) ⇓ Ok x /\ holds mem x (m_inner h m mu).
Proof.
  intros F1. eapply okw_settles; [|exact (at_inner dbg S S' inv inv' L L' s s' t u m mu A U h)].
  destruct (attached_good dbg S inv L s t m A) as (_ & ids & g & (R & C & _) & E).
  destruct (attached_good dbg S' inv' L' s' u mu U) as (_ & ids' & g' & (R' & C' & _) & E').
  intros n. unfold t_inner_combine. destruct (empty_dec g) as [->|N].
  { exact (inner_empty_l dbg ids ids' rd rd' _ n t u g' R R'). }
  destruct (empty_dec g') as [->|N'].
  { exact (inner_empty_r dbg ids ids' rd rd' _ n t u g R R'). }
  eapply (inner_okw dbg ids ids' rd rd'); eauto using Rep_NRep.
  - intros av bv x y Ha Hb. eapply okp_okw. eapply combiner_ok; eauto.
  - apply fits_Al with (L := false) (O := false); auto. apply fits_trees; auto; discriminate.
Qed.

Lemma fit_inner_pred p : inner_fits m mu ->
  exists b, t_inner_combine_pred rd rd' t u (predicate rd rd' p) ⇓ Ok b /\
    (b = true <-> exists k x y, m k = Some x /\ mu k = Some y /\ p x y = true).
Proof.
  intros F1. eapply okw_settles; [|exact (at_inner_pred dbg S S' inv inv' L L' s s' t u m mu A U p)].
  destruct (attached_good dbg S inv L s t m A) as (_ & ids & g & (R & C & _) & E).
  destruct (attached_good dbg S' inv' L' s' u mu U) as (_ & ids' & g' & (R' & C' & _) & E').
  intros n. unfold t_inner_combine_pred. destruct (empty_dec g) as [->|N].
  { exact (proj1 (preds_empty_l ids ids' rd rd' _ n t u g' R R')). }
  destruct (empty_dec g') as [->|N'].
  { exact (proj1 (preds_empty_r ids ids' rd rd' _ n t u g R R')). }
  eapply (inner_pred_okw ids ids' rd rd'); eauto using Rep_NRep.
  - intros av bv x y Ha Hb. eapply okp_okw. eapply predicate_ok; eauto.
  - apply fits_Al with (L := false) (O := false); auto. apply fits_trees; auto; discriminate.
Qed.

Lemma fit_left_pred p : inner_fits m mu ->
  exists b, t_left_combine_pred rd rd' t u (predicate rd rd' p) ⇓ Ok b /\
    (b = true <-> exists k x, m k = Some x /\ match mu k with Some y => p x y = true | None => True end).
Proof.
  intros F1. eapply okw_settles; [|exact (at_left_pred dbg S S' inv inv' L L' s s' t u m mu A U p)].
  destruct (attached_good dbg S inv L s t m A) as (_ & ids & g & (R & C & _) & E).
  destruct (attached_good dbg S' inv' L' s' u mu U) as (_ & ids' & g' & (R' & C' & _) & E').
  intros n. unfold t_left_combine_pred. destruct (empty_dec g) as [->|N].
  { exact (proj2 (preds_empty_l ids ids' rd rd' _ n t u g' R R')). }
  destruct (empty_dec g') as [->|N'].
  { exact (proj2 (preds_empty_r ids ids' rd rd' _ n t u g R R')). }
  eapply (left_pred_okw ids ids' rd rd'); eauto using Rep_NRep.
  - intros av bv x y Ha Hb. eapply okp_okw. eapply predicate_ok; eauto.
  - apply fits_Al with (L := false) (O := false); auto. apply fits_trees; auto; discriminate.
Qed.
End Two.

(** Trees with the same keys fit. *)
Lemma same_keys_fit m mu : (forall k, m k <> None <-> mu k <> None) -> outer_fits m mu /\ left_fits m mu /\ inner_fits m mu.
Proof.
  intros H.
  assert (forall a b : kmap, (forall k, a k <> None <-> b k <> None) -> forall p, forks a p -> forks b p) as F.
  { intros a b K p [X|(c1 & c2 & z1 & z2 & N & X & Y)]; [left; now apply K|right; exists c1, c2, z1, z2; repeat split; auto; now apply K]. }
  assert (forall a b : kmap, (forall k, a k <> None <-> b k <> None) -> covered a b) as Cv.
  { intros a b K p _ _. split; [apply K|]. intros (c & z & X). exists c, z. now apply K. }
  assert (lined_up m mu) as Lu by (intros p _ _; split; apply F; firstorder).
  assert (inhabited m <-> inhabited mu) as Ih by (split; intros (k & X); exists k; now apply H).
  assert (no_split m mu) as Ns.
  { intros p c1 c2 z1 z2 N X Y. right. exists c1, c2, z1, z2. repeat split; auto. now apply H. }
  assert (covered mu m) as Cm by (apply Cv; intros k; symmetry; apply H).
  exact (conj (conj Lu (conj (Cv _ _ H) (conj Cm (conj Ns Ih)))) (conj (conj Lu (conj (Cv _ _ H) (proj1 Ih))) Lu)).
Qed.
