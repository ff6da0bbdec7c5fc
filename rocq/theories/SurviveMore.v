(** New trees from, and predicates on, trees that have been through operations that failed. *)
From Verif Require Import Base BaseLemmas Header Node Combine Iter Api Tree Rep JoinBase JoinProofs PredProofs Sim Spec Client Top
  TopOps MemLemmas FailSpec WeakFind WeakNew WeakPred InPlaceSpec SurviveSpec Survive.
From Verif Require FailProofs.

Theorem used_joins keep dbg rd t m rdB u mu : used keep dbg rd t m -> used keep dbg rdB u mu ->
  forall rd' rdB' f' h F m', flaky rd' rd -> flaky rdB' rdB -> flaky2 f' (combiner rd rdB h) ->
  joins dbg rd' rdB' t u m mu f' h F m' ->
  (exists w, F ⇓ Ok w /\ used keep dbg detached_read w m' /\ readable detached_read w m') \/
  (F ⇓ Err /\ ~ (rd' = rd /\ rdB' = rdB /\ forall k, ~ hit rd rdB f' m mu k)) \/
  (F ⇓ Panic /\ ~ (unstored rd /\ unstored rdB)).
Proof.
  intros A B rd' rdB' f' h F m' FA FB Ff J. destruct (used_attempt_inv keep dbg) as [H1 _].
  destruct (go_join rd rdB rd' rdB' FA FB t u m mu (H1 _ _ _ A) (H1 _ _ _ B) f' h Ff dbg F m' J) as [(w & C & I)|H]; [left|now right].
  exists w. split; [exact C|]. split; [exact (used_joined keep dbg rd rd' t m rdB rdB' u mu f' h F m' w A B FA FB Ff J C)|now apply winv_readable].
Qed.

(** A closure that fails for the values of a common key makes the combine fail. *)
Definition masked (f' : blob -> blob -> res (option blob)) (h : bytes -> bytes -> option bytes) (r : option bytes)
    (x y : bytes) : option bytes :=
  match f' (Data x) (Data y) with Err => r | _ => h x y end.
Lemma masked_flaky f' h r : flaky2 f' (combiner detached_read detached_read h) ->
  flaky2 f' (combiner detached_read detached_read (masked f' h r)).
Proof.
  intros F a b. destruct (F a b) as [E|E]; [now left|].
  destruct a as [x|x]; [|right; exact E]. destruct b as [y|y]; [|right; exact E].
  unfold combiner, masked in *. cbn in *. destruct (f' (Data x) (Data y)) eqn:Ef; auto; now right.
Qed.
Lemma joins_h dbg rd rdB t u m mu f h F m' h2 : joins dbg rd rdB t u m mu f h F m' ->
  exists m2, joins dbg rd rdB t u m mu f h2 F m2 /\ forall k x y, m k = Some x -> mu k = Some y -> m2 k = h2 x y.
Proof.
  destruct 1; eexists; (split; [constructor|]); intros k x y Hx Hy; unfold m_outer, m_inner, m_left; now rewrite Hx, Hy.
Qed.
Theorem used_join_fails keep dbg t m u mu : used keep dbg detached_read t m -> used keep dbg detached_read u mu ->
  forall f' h F m', flaky2 f' (combiner detached_read detached_read h) ->
  joins dbg detached_read detached_read t u m mu f' h F m' ->
  forall k x y, m k = Some x -> mu k = Some y -> f' (Data x) (Data y) = Err -> F ⇓ Err.
Proof.
  intros A B f' h F m' Ff J k x y Hx Hy Hf.
  assert (unstored detached_read) as Un by (intros id z; discriminate).
  assert (forall r, F ⇓ Err \/ exists w m2, F ⇓ Ok w /\ readable detached_read w m2 /\ m2 k = r) as Hr.
  { intros r. destruct (joins_h _ _ _ _ _ _ _ _ _ _ _ (masked f' h r) J) as (m2 & J2 & Hm).
    destruct (used_joins keep dbg _ _ _ _ _ _ A B _ _ f' _ F m2 (FailProofs.flaky_refl _) (FailProofs.flaky_refl _) (masked_flaky _ _ r Ff) J2)
      as [(w & C & _ & R)|[[C _]|[_ C]]].
    - right. exists w, m2. split; [exact C|]. split; [exact R|]. rewrite (Hm k x y Hx Hy). unfold masked. now rewrite Hf.
    - now left.
    - destruct C. auto. }
  destruct (Hr None) as [H|(w1 & m1 & C1 & R1 & E1)]; [exact H|].
  destruct (Hr (Some [])) as [H|(w2 & m2 & C2 & R2 & E2)]; [exact H|].
  pose proof (conv_fun _ _ _ C1 C2) as E. injection E as ->.
  pose proof (readable_same _ _ _ _ R1 R2 k) as E. congruence.
Qed.

(** The predicates. *)
Theorem used_preds keep dbg rd t m rdB u mu : used keep dbg rd t m -> used keep dbg rdB u mu ->
  unstored rd -> unstored rdB -> forall p,
  (exists b, t_inner_combine_pred rd rdB t u (predicate rd rdB p) ⇓ Ok b /\
     (b = true <-> exists k x y, m k = Some x /\ mu k = Some y /\ p x y = true)) /\
  (exists b, t_left_combine_pred rd rdB t u (predicate rd rdB p) ⇓ Ok b /\
     ((exists k x, m k = Some x /\ (mu k = None \/ exists y, mu k = Some y /\ p x y = true)) -> b = true)).
Proof.
  intros A B Sa Sb p. destruct (used_attempt_inv keep dbg) as [H1 _].
  destruct (H1 _ _ _ A) as (g & R & W & E), (H1 _ _ _ B) as (gu & Ru & Wu & Eu).
  assert (forall av bv x y, RepV rd av (Some x) -> RepV rdB bv (Some y) ->
    okp False (predicate rd rdB p av bv) (fun r => r = p x y)) as Hp by (intros; now apply predicate_ok).
  pose (N := size g + size gu + 2). split.
  - apply (conv_ok (t_inner_combine_pred rd rdB t u (predicate rd rdB p)) N).
    + intros n1 n2 L. apply inner_combine_pred_sim; auto using rsim_refl, sim_refl.
    + destruct (w_inner_pred_ok false false rd rdB False (or_introl Sa) (or_introl Sb) _ p Hp N (ROwned t) (ROwned u) g gu)
        as [(b & Eb & H)|[_ []]]; auto using Rep_NRep; [unfold N; lia|].
      exists b. split; [exact Eb|]. unfold PJ in H. rewrite H. unfold pwI. split.
      * intros (k & Hk). rewrite E, Eu in Hk. destruct (m k) eqn:Em; [|discriminate].
        destruct (mu k) eqn:Emu; [|discriminate]. eauto 6.
      * intros (k & x & y & Hx & Hy & Hk). exists k. now rewrite E, Eu, Hx, Hy.
  - apply (conv_ok (t_left_combine_pred rd rdB t u (predicate rd rdB p)) N).
    + intros n1 n2 L. apply left_combine_pred_sim; auto using rsim_refl, sim_refl.
    + destruct (w_left_pred_ok false false rd rdB False (or_introl Sa) (or_introl Sb) _ p Hp N (ROwned t) (ROwned u) g gu)
        as [(b & Eb & H)|[_ []]]; auto using Rep_NRep; [unfold N; lia|].
      exists b. split; [exact Eb|]. intros (k & x & Hx & Hy). apply H. exists k. unfold pwL. rewrite E, Eu, Hx.
      destruct Hy as [->|(y & -> & Hy)]; auto.
Qed.
