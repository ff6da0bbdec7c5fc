(** Closures that panic, on trees in memory without the heap: when the operation fails and what it leaves. *)
From Verif Require Import Base BaseLemmas Header Node Combine Iter Api Tree Rep Spec Client Top Store FailSpec InPlace InPlaceSpec InPlaceAgree SurviveSpec Survive
  Heap HeapSpec HeapTree HeapTreeSpec HeapFail HeapFailOps HeapFailNew HeapFailSpec Blame.

Lemma mem_unstored : unstored mem.
Proof. intros id x. discriminate. Qed.
Lemma mem_flaky : flaky mem mem.
Proof. intros id. now right. Qed.

(** The closure on plain values; [d] is what it would give where it panics. *)
Definition padded (d : option bytes) (panics : bytes -> bytes -> bool) (g : bytes -> bytes -> option bytes) (x y : bytes) : option bytes :=
  if panics x y then d else g x y.
Lemma shaky_flaky d panics g : flaky2 (shaky panics g) (combiner_with mem mem (padded d panics g)).
Proof.
  intros a b. unfold shaky, combiner_with, padded. destruct (value_load mem a) as [x| | |]; cbn [bind]; auto.
  destruct (value_load mem b) as [y| | |]; cbn [bind]; auto. destruct (panics x y); auto.
Qed.
Lemma shaky_hit panics g m mu k : hit mem mem (shaky panics g) m mu k -> panics_at panics m mu k.
Proof.
  intros (x & y & Hx & Hy & (a & b & Ea & Eb & E)). exists x, y. split; [exact Hx|]. split; [exact Hy|].
  unfold shaky in E. rewrite Ea, Eb in E. cbn [bind] in E. destruct (panics x y); [reflexivity|discriminate E].
Qed.
Lemma load_some b x : RepV mem b (Some x) -> value_load mem b = Ok x.
Proof. intros [->|(c & id & -> & H)]; [reflexivity|discriminate H]. Qed.

(** The operations. *)
Definition fcombine (bk dbg : bool) (c : combining) (f : blob -> blob -> res blob) (n k : node) (fuel : nat) : left_in node :=
  match c with
  | Outer => outer_with_in bk dbg mem mem (detach_converter mem) n k f fuel
  | Inner => inner_with_in bk dbg mem mem n k f fuel
  | Left => left_with_in bk dbg mem mem n k f fuel
  end.
Definition fprefixes (bk dbg : bool) (rt : bool) (f : blob -> res bool) (n k : node) (fuel : nat) : left_in node :=
  if rt then retain_prefix_with_in bk dbg mem mem n k f fuel else remove_prefix_with_in bk dbg mem mem n k f fuel.

Lemma fcombine_goes bk dbg c panics g d n k m mu : winv mem n m -> winv mem k mu ->
  exists n' r, leaves (fcombine bk dbg c (shaky panics g) n k) n' r /\
    ((r = Ok tt /\ winv mem n' (combined c (padded d panics g) m mu)) \/
     (r = Err /\ exists now, winv mem n' now /\ partway (fun x => bk = false \/ panics_at panics m mu x) m (combined c (padded d panics g) m mu) now)).
Proof.
  intros A U. pose proof (shaky_flaky d panics g) as F.
  assert (forall f safe calm, goes mem m f (combined c (padded d panics g) m mu) (fun x => bk = false \/ hit mem mem (shaky panics g) m mu x) safe calm -> safe ->
    exists n' r, leaves f n' r /\ ((r = Ok tt /\ winv mem n' (combined c (padded d panics g) m mu)) \/
     (r = Err /\ exists now, winv mem n' now /\ partway (fun x => bk = false \/ panics_at panics m mu x) m (combined c (padded d panics g) m mu) now))) as W.
  { intros f safe calm (n' & r & L & H) S. exists n', r. split; [exact L|]. destruct H as [H|[(-> & _ & now & Hw & Hp)|[_ H]]]; [now left| |contradiction].
    right. split; [reflexivity|]. exists now. split; [exact Hw|]. intros x. destruct (Hp x) as [H|[H|[H H']]]; [now left|right; now left|].
    right; right. split; [|exact H']. destruct H as [H|H]; [now left|right; apply (shaky_hit _ _ _ _ _ H)]. }
  destruct c; cbn [fcombine combined] in *.
  - eapply W; [apply (go_outer bk dbg mem mem mem mem mem_flaky mem_flaky n k m mu A U _ _ F); now left|exact mem_unstored].
  - eapply W; [apply (go_inner bk dbg mem mem mem mem mem_flaky mem_flaky n k m mu A U _ _ F)|exact mem_unstored].
  - eapply W; [apply (go_left bk dbg mem mem mem mem mem_flaky mem_flaky n k m mu A U _ _ F)|]. split; [|intros _]; exact mem_unstored.
Qed.

Lemma fcombine_blame bk dbg c panics g n k m mu n' : winv mem n m -> winv mem k mu ->
  leaves (fcombine bk dbg c (shaky panics g) n k) n' Err -> exists x, panics_at panics m mu x.
Proof.
  intros (ta & Ra & Wa & Ea) (tb & Rb & Wb & Eb) (_ & N & E). specialize (E N (le_n _)).
  set (P := fun o o' : option bytes => exists x y, o = Some x /\ o' = Some y /\ panics x y = true).
  assert (forall o, ~ P o None) as P0 by (intros o (x & y & _ & H & _); discriminate H).
  assert (forall av bv x y, RepV mem av (Some x) -> RepV mem bv (Some y) -> shaky panics g av bv = Err -> P (Some x) (Some y)) as Hf.
  { intros av bv x y Hx Hy E'. exists x, y. split; [reflexivity|]. split; [reflexivity|]. unfold shaky in E'.
    rewrite (load_some _ _ Hx), (load_some _ _ Hy) in E'. cbn [bind] in E'. destruct (panics x y); [reflexivity|discriminate E']. }
  assert (meet P ta tb) as (x & Hx).
  { assert (NRep false mem False (ROwned k) tb) as NB by (split; [eauto|exists k; split; [reflexivity|exact Rb]]).
    destruct c; cbn [fcombine] in E.
    - apply (outer_blames bk dbg P P0 _ Hf _ ne_detach N n (ROwned k) n' ta tb Ra NB Wa Wb E).
    - apply (inner_blames bk dbg P P0 _ Hf N n (ROwned k) n' ta tb Ra NB Wa Wb E).
    - apply (left_blames bk dbg P P0 _ Hf N n (ROwned k) n' ta tb Ra NB Wa Wb E). }
  exists x. rewrite Ea, Eb in Hx. exact Hx.
Qed.

Lemma combined_at c g m mu k x y : m k = Some x -> mu k = Some y -> combined c g m mu k = g x y.
Proof. intros E1 E2. destruct c; cbn [combined]; unfold m_outer, m_inner, m_left; now rewrite E1, E2. Qed.
Lemma combined_padded c d panics g m mu k : ~ panics_at panics m mu k -> combined c (padded d panics g) m mu k = combined c g m mu k.
Proof.
  intros H. unfold combined, m_outer, m_inner, m_left. destruct c; destruct (m k) as [x|] eqn:E1, (mu k) as [y|] eqn:E2; try reflexivity;
    unfold padded; destruct (panics x y) eqn:E; try reflexivity; destruct H; exists x, y; auto.
Qed.

Lemma fcombine_all bk dbg c panics g n k m mu : winv mem n m -> winv mem k mu ->
  exists N n' ok now, fcombine bk dbg c (shaky panics g) n k N = (n', verdict ok) /\ winv mem n' now /\
    if ok then (forall x, ~ panics_at panics m mu x) /\ now = combined c g m mu
    else (exists x, panics_at panics m mu x) /\ half_combined bk panics m (combined c g m mu) mu now.
Proof.
  intros A U. destruct (fcombine_goes bk dbg c panics g None n k m mu A U) as (n' & r & L & H).
  pose proof L as (_ & N & E). specialize (E N (le_n _)). destruct H as [(-> & Hw)|(-> & now & Hw & Hp)].
  - assert (forall x, ~ panics_at panics m mu x) as Hn.
    { intros x (a & b & Ea & Eb & Ep). destruct (fcombine_goes bk dbg c panics g (Some []) n k m mu A U) as (n2 & r2 & L2 & H2).
      destruct (leaves_fun _ _ _ _ _ L L2) as [<- <-]. destruct H2 as [(_ & Hw2)|(? & _)]; [|discriminate].
      pose proof (readable_same _ _ _ _ (winv_readable _ _ _ Hw) (winv_readable _ _ _ Hw2) x) as S.
      rewrite !(combined_at _ _ _ _ _ _ _ Ea Eb) in S. unfold padded in S. rewrite Ep in S. discriminate S. }
    exists N, n', true, (combined c g m mu). split; [exact E|]. split; [|auto].
    apply (winv_ext _ _ _ _ Hw). intros x. now apply combined_padded.
  - exists N, n', false, now. split; [exact E|]. split; [exact Hw|]. split; [apply (fcombine_blame bk dbg c panics g n k m mu n' A U L)|].
    intros x. destruct (Hp x) as [H|[H|[H H']]]; [now left| |right; right; auto].
    assert (panics_at panics m mu x \/ ~ panics_at panics m mu x) as [Hx|Hx].
    { unfold panics_at. destruct (m x) as [a|]; [|right; intros (? & ? & ? & _); discriminate].
      destruct (mu x) as [b|]; [|right; intros (? & ? & _ & ? & _); discriminate].
      destruct (panics a b) eqn:Ep; [left; eauto|right]. intros (a' & b' & [= <-] & [= <-] & Ep'). congruence. }
    + right; right. split; [|now right]. destruct Hx as (a & b & Ea & Eb & Ep). rewrite H, (combined_at _ _ _ _ _ _ _ Ea Eb). unfold padded. now rewrite Ep.
    + right; left. split; [|exact Hx]. now rewrite H, combined_padded.
Qed.

Lemma shaky1_flaky panics s : flaky1 (shaky1 panics s) (selector mem s).
Proof.
  intros a. unfold shaky1, selector. destruct (value_load mem a) as [x| | |]; cbn [bind]; auto. destruct (panics x); auto.
Qed.
Lemma fprefixes_all bk dbg rt panics s n k m mu : winv mem n m -> winv mem k mu -> (rt = true -> downward_rejected s mu) ->
  exists N n' ok now, fprefixes bk dbg rt (shaky1 panics s) n k N = (n', verdict ok) /\ winv mem n' now /\
    if ok then now = by_prefixes rt s m mu
    else (exists x y, mu x = Some y /\ panics y = true) /\ half_filtered bk m (by_prefixes rt s m mu) now.
Proof.
  intros A U D. pose proof (shaky1_flaky panics s) as F.
  assert (exists n' r, leaves (fprefixes bk dbg rt (shaky1 panics s) n k) n' r /\ ((r = Ok tt /\ winv mem n' (by_prefixes rt s m mu)) \/
    (r = Err /\ exists now, winv mem n' now /\ partway (fun _ => bk = false) m (by_prefixes rt s m mu) now))) as (n' & r & L & H).
  { assert (forall f m' safe calm, goes mem m f m' (fun _ => bk = false) safe calm -> safe ->
      exists n' r, leaves f n' r /\ ((r = Ok tt /\ winv mem n' m') \/ (r = Err /\ exists now, winv mem n' now /\ partway (fun _ => bk = false) m m' now))) as W.
    { intros f m' safe calm (n' & r & L & H) S. exists n', r. split; [exact L|].
      destruct H as [H|[(-> & _ & H)|[_ H]]]; [now left|right; auto|contradiction]. }
    destruct rt; cbn [fprefixes by_prefixes].
    - eapply W; [apply (go_retain_prefix_with bk dbg mem mem mem mem mem_flaky mem_flaky n k m mu A U _ _ F (D eq_refl))|]. split; [|intros _]; exact mem_unstored.
    - eapply W; [apply (go_remove_prefix_with bk dbg mem mem mem mem mem_flaky mem_flaky n k m mu A U _ _ F)|]. split; [|intros _]; exact mem_unstored. }
  destruct L as (_ & N & E). specialize (E N (le_n _)). destruct H as [(-> & Hw)|(-> & now & Hw & Hp)].
  - exists N, n', true, (by_prefixes rt s m mu). auto.
  - exists N, n', false, now. split; [exact E|]. split; [exact Hw|]. split.
    + destruct A as (ta & Ra & Wa & Ea), U as (tb & Rb & Wb & Eb).
      set (P := fun o o' : option bytes => exists y, o' = Some y /\ panics y = true).
      assert (forall o, ~ P o None) as P0 by (intros o (y & H & _); discriminate H).
      assert (forall bv o y, RepV mem bv (Some y) -> shaky1 panics s bv = Err -> P o (Some y)) as Hf.
      { intros bv o y Hy E'. exists y. split; [reflexivity|]. unfold shaky1 in E'. rewrite (load_some _ _ Hy) in E'. cbn [bind] in E'.
        destruct (panics y); [reflexivity|discriminate E']. }
      assert (NRep false mem False (ROwned k) tb) as NB by (split; [eauto|exists k; split; [reflexivity|exact Rb]]).
      assert (meet P ta tb) as (x & y & Hx & Hy).
      { destruct rt; cbn [fprefixes] in E.
        - apply (retain_blames bk dbg P P0 _ Hf N n (ROwned k) n' ta tb Ra NB Wa Wb E).
        - apply (remove_blames bk dbg P P0 _ Hf N n (ROwned k) n' ta tb Ra NB Wa Wb E). }
      exists x, y. rewrite <- Eb. auto.
    + intros x. destruct (Hp x) as [H|[H|[H H']]]; auto.
Qed.

(** ** Combines that make a new tree *)
Definition fnew (dbg : bool) (c : combining) (f : blob -> blob -> res (option blob)) (n k : node) (fuel : nat) : res node :=
  match c with
  | Outer => t_outer_combine dbg mem mem n k f fuel
  | Inner => t_inner_combine dbg mem mem n k f fuel
  | Left => t_left_combine dbg mem mem n k f fuel
  end.
Lemma shaky_new_flaky d panics g : flaky2 (shaky_new panics g) (combiner mem mem (padded d panics g)).
Proof.
  intros a b. unfold shaky_new, combiner, padded. destruct (value_load mem a) as [x| | |]; cbn [bind]; auto.
  destruct (value_load mem b) as [y| | |]; cbn [bind]; auto. destruct (panics x y); auto.
Qed.
Lemma shaky_new_hit panics g m mu k : hit mem mem (shaky_new panics g) m mu k -> panics_at panics m mu k.
Proof.
  intros (x & y & Hx & Hy & (a & b & Ea & Eb & E)). exists x, y. split; [exact Hx|]. split; [exact Hy|].
  unfold shaky_new in E. rewrite Ea, Eb in E. cbn [bind] in E. destruct (panics x y); [reflexivity|discriminate E].
Qed.
Lemma panics_at_dec panics m mu k : panics_at panics m mu k \/ ~ panics_at panics m mu k.
Proof.
  unfold panics_at. destruct (m k) as [a|]; [|right; intros (? & ? & ? & _); discriminate].
  destruct (mu k) as [b|]; [|right; intros (? & ? & _ & ? & _); discriminate].
  destruct (panics a b) eqn:Ep; [left; eauto|right]. intros (a' & b' & [= <-] & [= <-] & Ep'). congruence.
Qed.
(** A tree has finitely many keys, so it can be found out whether the closure panics for one. *)
Lemma panics_found panics n m mu : winv mem n m -> (exists k, panics_at panics m mu k) \/ forall k, ~ panics_at panics m mu k.
Proof.
  intros A. destruct (winv_readable _ _ _ A) as [_ (l & _ & Hl)].
  assert ((exists k, In k (map fst l) /\ panics_at panics m mu k) \/ forall k, In k (map fst l) -> ~ panics_at panics m mu k) as [(k & _ & H)|H].
  { clear. induction (map fst l) as [|k ks IH]; [right; intros ? []|].
    destruct (panics_at_dec panics m mu k) as [H|H]; [left; exists k; cbn; auto|].
    destruct IH as [(x & Hi & Hx)|IH]; [left; exists x; cbn; auto|right]. intros x [<-|Hi]; auto. }
  - left. eauto.
  - right. intros k Hk. apply (H k); [|exact Hk]. destruct Hk as (x & y & Hx & _). destruct Hl as [_ Hl].
    apply in_map_iff. exists (k, x). split; [reflexivity|]. apply Hl. auto.
Qed.
Lemma fnew_goes dbg c panics g d n k m mu : winv mem n m -> winv mem k mu ->
  (exists w, fnew dbg c (shaky_new panics g) n k ⇓ Ok w /\ winv mem w (combined c (padded d panics g) m mu)) \/
  (fnew dbg c (shaky_new panics g) n k ⇓ Err /\ ~ forall x, ~ panics_at panics m mu x).
Proof.
  intros A U.
  assert (joins dbg mem mem n k m mu (shaky_new panics g) (padded d panics g) (fnew dbg c (shaky_new panics g) n k) (combined c (padded d panics g) m mu)) as J
    by (destruct c; constructor).
  destruct (go_join mem mem mem mem mem_flaky mem_flaky n k m mu A U _ _ (shaky_new_flaky d panics g) dbg _ _ J) as [H|[[C H]|[_ H]]].
  - now left.
  - right. split; [exact C|]. intros Hn. apply H. split; [reflexivity|]. split; [reflexivity|]. intros x Hx. apply (Hn x (shaky_new_hit _ _ _ _ _ Hx)).
  - destruct H. split; exact mem_unstored.
Qed.
Lemma fnew_all dbg c panics g n k m mu : winv mem n m -> winv mem k mu ->
  exists N, match fnew dbg c (shaky_new panics g) n k N with
            | Ok w => (forall x, ~ panics_at panics m mu x) /\ winv mem w (combined c g m mu)
            | Err => exists x, panics_at panics m mu x
            | _ => False
            end.
Proof.
  intros A U. destruct (fnew_goes dbg c panics g None n k m mu A U) as [(w & C & Hw)|[C H]].
  - assert (forall x, ~ panics_at panics m mu x) as Hn.
    { intros x (a & b & Ea & Eb & Ep). destruct (fnew_goes dbg c panics g (Some []) n k m mu A U) as [(w2 & C2 & Hw2)|[C2 _]];
        pose proof (converges_det _ _ _ C C2) as E; [injection E as <-|discriminate E].
      pose proof (readable_same _ _ _ _ (winv_readable _ _ _ Hw) (winv_readable _ _ _ Hw2) x) as S.
      rewrite !(combined_at _ _ _ _ _ _ _ Ea Eb) in S. unfold padded in S. rewrite Ep in S. discriminate S. }
    destruct C as (_ & N & E). exists N. rewrite (E N (le_n _)). split; [exact Hn|].
    apply (winv_ext _ _ _ _ Hw). intros x. now apply combined_padded.
  - destruct C as (_ & N & E). exists N. rewrite (E N (le_n _)). destruct (panics_found panics n m mu A) as [Hx|Hx]; [exact Hx|contradiction].
Qed.
