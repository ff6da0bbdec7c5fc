(** The theorems about failed in-place operations, in the form in which they are stated. *)
From Verif Require Import Base BaseLemmas Header Node Combine Iter Api Tree Rep JoinBase JoinProofs WithProofs PrefixProofs
  Entries IterProofs ScanProofs Sim Spec Client Top TopOps MemLemmas Store StoreSpec StoreProofs World WorldProofs
  StoreLemmas StoreTop FailSpec WeakFind WeakIter InPlace InPlaceSpec InPlaceAgree InPlaceProofs InPlaceMono.
From Coq Require Import Sorting.Sorted.
From Verif Require SimErr FailProofs.

(* ------------------------------------------------------------------ *)
(** Reading trees that need not be canonical. *)
Lemma w_lists t : wroot t -> lists (entries [] t) (lookup t).
Proof.
  intros K. split.
  - pose proof (w_entries_sorted t K []) as H. induction H; constructor; auto.
  - intros k v. rewrite (w_entries_in t K). cbn. split.
    + intros (z & -> & L). auto.
    + intros [L _]. eauto.
Qed.
Lemma w_readable ids rd t g : Rep ids rd t g -> wroot g -> readable rd t (lookup g).
Proof.
  intros R C. split.
  - intros k. apply conv_from with (n := S (size g)). intros m Hm.
    destruct (w_get_ok ids rd m t g k R C Hm) as (o & E & H). unfold get_bytes, t_get. rewrite E. cbn.
    apply load_opt_ok. destruct (lookup g k); [|now subst]. destruct H as (b' & -> & H). exact H.
  - destruct (conv_ok (t_iter rd t) (4 * size g + 10)
      (fun l => Forall2 (erel rd) l (entries [] g))) as (l & Cl & Hl).
    + apply mono_collect. intros. apply kv_next_sim; [apply rsim_refl|assumption].
    + apply w_kv_collect_ok with (ids := ids); auto. pose proof (entries_size [] g). lia.
    + exists (entries [] g). split.
      * eapply conv_bind; [exact Cl|]. cbv beta. erewrite load_entries_ok by exact Hl.
        apply conv_const. discriminate.
      * now apply w_lists.
Qed.
Lemma readable_ext rd t m m' : same m m' -> readable rd t m -> readable rd t m'.
Proof.
  intros E [H (l & C & S & I)]. split; [eapply holds_ext; eauto|]. exists l. split; [exact C|].
  split; [exact S|]. intros k v. rewrite (I k v), (E k). tauto.
Qed.

(* ------------------------------------------------------------------ *)
(** Both ways to describe an operation agree. *)
Lemma agrees_of (f : nat -> left_in node) (g : nat -> res node) :
  (forall n, outcome (f n) = g n) -> (forall n m, n <= m -> fle (f n) (f m)) -> agrees f g.
Proof.
  intros O M.
  assert (forall r : res node, g ⇓ r -> exists t u, leaves f t u /\ outcome (t, u) = r) as A.
  { intros r (N & n & E). pose proof (O n) as On. rewrite (E n) in On by lia.
    destruct (f n) as [t u] eqn:Ef. exists t, u. split; [|exact On].
    assert (u <> Fuel) as Nu by (intros ->; cbn in On; congruence).
    split; [exact Nu|]. exists n. intros k Hk. destruct (M n k Hk) as [F|F]; rewrite Ef in F; [cbn in F; congruence|auto]. }
  assert (forall t u, leaves f t u -> g ⇓ outcome (t, u)) as B.
  { intros t u (N & n & E). split; [destruct u; cbn; congruence|]. exists n. intros k Hk. now rewrite <- O, E. }
  split; [|split].
  - intros t. split.
    + intros C. destruct (A _ C) as (t' & u & L & E). destruct u; try discriminate.
      cbn in E. injection E as ->. now destruct a.
    + intros L. exact (B _ _ L).
  - split.
    + intros C. destruct (A _ C) as (t' & u & L & E). destruct u; try discriminate. eauto.
    + intros [t L]. exact (B _ _ L).
  - split.
    + intros C. destruct (A _ C) as (t' & u & L & E). destruct u; try discriminate. eauto.
    + intros [t L]. exact (B _ _ L).
Qed.

Lemma agree_insert keep dbg rd t k v : agrees (insert_in keep dbg rd t k v) (t_insert dbg rd t k v).
Proof.
  apply agrees_of; [intros; apply out_insert|]. intros. apply fle_outer; auto; intros; apply sim_refl.
Qed.
Lemma agree_remove keep dbg rd t k : agrees (remove_in keep dbg rd t k) (t_remove dbg rd t k).
Proof. apply agrees_of; [intros; apply out_remove|]. intros. now apply fle_left. Qed.
Lemma agree_remove_prefix keep dbg rd t k : agrees (remove_prefix_in1 keep dbg rd t k) (t_remove_prefix dbg rd t k).
Proof. apply agrees_of; [intros; apply out_remove_prefix1|]. intros. now apply fle_remove_prefix. Qed.
Lemma agree_outer keep dbg rdA rdB c t u f :
  (c = downcast_converter \/ c = identity_converter rdB \/ c = detach_converter rdB) ->
  agrees (outer_with_in keep dbg rdA rdB c t u f) (t_outer_combine_with dbg rdA rdB c t u f).
Proof.
  intros Hc. apply agrees_of; [intros; apply out_outer|]. intros. apply fle_outer; auto.
  - intros. destruct Hc as [->|[->| ->]]; cbn; try apply sim_refl. apply r_detached_sim; auto using rsim_refl.
  - intros. destruct Hc as [->|[->| ->]]; cbn; try apply sim_refl. apply detach_conv_sim; auto using rsim_refl.
Qed.
Lemma agree_inner keep dbg rdA rdB t u f :
  agrees (inner_with_in keep dbg rdA rdB t u f) (t_inner_combine_with dbg rdA rdB t u f).
Proof. apply agrees_of; [intros; apply out_inner|]. intros. now apply fle_inner. Qed.
Lemma agree_left keep dbg rdA rdB t u f :
  agrees (left_with_in keep dbg rdA rdB t u f) (t_left_combine_with dbg rdA rdB t u f).
Proof. apply agrees_of; [intros; apply out_left|]. intros. now apply fle_left. Qed.
Lemma agree_remove_prefix_with keep dbg rdA rdB t u f :
  agrees (remove_prefix_with_in keep dbg rdA rdB t u f) (t_remove_prefix_with dbg rdA rdB t u f).
Proof. apply agrees_of; [intros; apply out_remove_prefix|]. intros. now apply fle_remove_prefix. Qed.
Lemma agree_retain_prefix_with keep dbg rdA rdB t u f :
  agrees (retain_prefix_with_in keep dbg rdA rdB t u f) (t_retain_prefix_with dbg rdA rdB t u f).
Proof. apply agrees_of; [intros; apply out_retain|]. intros. now apply fle_retain. Qed.

(* ------------------------------------------------------------------ *)
(** From the invariants of InPlaceProofs.v to what a client sees. *)
Lemma tree_of_good dbg rd t m : tree_of dbg rd t m -> exists g, good false rd t g /\ same (lookup g) m.
Proof.
  intros [t' m' R H|S inv s t' m' L A].
  - destruct (reachable_good dbg t' R) as (g & G). exists g. split; [exact G|]. intros k.
    symmetry. apply (holds_lookup false mem t' g m'); auto; apply G.
  - destruct (short_attached_good dbg S inv L s t' m' A) as (_ & g & G & E). eauto.
Qed.

Lemma errs_use {B} keep (idsA idsB : bool) rdA rdB al strict (lossy : option bytes -> B -> Prop) ob gf Q
    (op : nat -> node -> noderef -> left_in node) t u g gu t' :
  (forall fuel, recm idsA idsB rdA rdB al strict lossy ob gf Q (op fuel) (fuel - 2)) ->
  (keep : bool) = keep ->
  good idsA rdA t g -> good idsB rdB u gu -> Q gu ->
  leaves (fun n => op n t (ROwned u)) t' Err ->
  midw idsA rdA strict lossy ob gf g gu t'.
Proof.
  intros H _ (R & C & _) (R' & C' & _) HQ (_ & n & E).
  pose (N := n + size g + size gu + 2).
  destruct (H N t (ROwned u) g gu R (Rep_NRep _ _ al _ _ R') C C' HQ ltac:(unfold N; lia)) as [_ He].
  rewrite E in He by (unfold N; lia). now apply He.
Qed.

Lemma midw_partway {B} idsA rdA strict (lossy : option bytes -> B -> Prop) ob gf g gu t' (lost : bytes -> Prop) m m' :
  midw idsA rdA strict lossy ob gf g gu t' -> same (lookup g) m ->
  (forall k, gf (lookup g k) (ob gu k) = m' k) -> (forall k, lossy (lookup g k) (ob gu k) -> lost k) ->
  exists now, readable rdA t' now /\ partway lost m m' now.
Proof.
  intros (g' & R & W & _ & M & _) E Em L. exists (lookup g'). split; [now apply (w_readable idsA)|].
  intros k. destruct (M k) as [H|[H|[H1 H2]]]; [left|right; left|right; right].
  - now rewrite H, E.
  - now rewrite H, Em.
  - auto.
Qed.

Section Combines.
Context (keep dbg : bool) (rdA rdB rdA' rdB' : reader) (FA : flaky rdA' rdA) (FB : flaky rdB' rdB).
Context (t u : node) (m mu : kmap) (A : tree_of dbg rdA t m) (U : tree_of dbg rdB u mu).
Context (f' : blob -> blob -> res blob) (h : bytes -> bytes -> option bytes).
Context (F : flaky2 f' (combiner_with rdA rdB h)).

Definition lossy0 (o y : option bytes) : Prop :=
  keep = false \/ exists a b, o = Some a /\ y = Some b /\ fails_on rdA rdB f' a b.
Lemma lossy0_keep : keep = false -> forall o y, lossy0 o y.
Proof. intros E o y. now left. Qed.
Lemma lossy0_f a b x y : RepV rdA a (Some x) -> RepV rdB b (Some y) -> f' a b = Err -> lossy0 (Some x) (Some y).
Proof.
  intros Ha Hb E. right. exists x, y. split; [reflexivity|]. split; [reflexivity|]. exists a, b.
  split; [exact (RepV_value_load _ _ _ Ha)|]. split; [exact (RepV_value_load _ _ _ Hb)|exact E].
Qed.
Definition lost0 (k : bytes) : Prop := keep = false \/ hit rdA rdB f' m mu k.
Lemma comb_True (av bv : blob) (x y : bytes) : RepV rdA av (Some x) -> RepV rdB bv (Some y) ->
  okp True (combiner_with rdA rdB h av bv) (fun r => RepV rdA r (h x y)).
Proof. intros Ha Hb. apply okp_True. now apply combiner_with_ok. Qed.
Lemma sim2 a b : SimErr.sim (f' a b) (combiner_with rdA rdB h a b).
Proof. apply F. Qed.

Lemma finish_combine gf g gu t' m' (E : same (lookup g) m) (Eu : same (lookup gu) mu) :
  midw false rdA False lossy0 lookup gf g gu t' -> (forall k, gf (m k) (mu k) = m' k) ->
  exists now, readable rdA t' now /\ partway lost0 m m' now.
Proof.
  intros M Hm. eapply midw_partway; eauto.
  - intros k. now rewrite E, Eu.
  - intros k [L|(a & b & Ha & Hb & L)]; [now left|]. right. exists a, b. rewrite <- E, <- Eu. auto.
Qed.

Lemma left_failed t' : leaves (left_with_in keep dbg rdA' rdB' t u f') t' Err ->
  exists now, readable rdA t' now /\ partway lost0 m (m_left h m mu) now.
Proof.
  intros L. destruct (tree_of_good _ _ _ _ A) as (g & G & E), (tree_of_good _ _ _ _ U) as (gu & Gu & Eu).
  apply (finish_combine (gL h) g gu t' _ E Eu).
  - eapply errs_use with (keep := keep) (Q := anyt); [|reflexivity|exact G|exact Gu|exact Logic.I|exact L].
    eapply (left_combine_mid keep dbg false false rdA rdB rdA' rdB' True (or_intror Logic.I) FA FB False);
      eauto using comb_True, lossy0_keep, sim2, lossy0_f; try tauto.
  - intros k. unfold m_left, gL. destruct (m k), (mu k); reflexivity.
Qed.
Lemma inner_failed t' : leaves (inner_with_in keep dbg rdA' rdB' t u f') t' Err ->
  exists now, readable rdA t' now /\ partway lost0 m (m_inner h m mu) now.
Proof.
  intros L. destruct (tree_of_good _ _ _ _ A) as (g & G & E), (tree_of_good _ _ _ _ U) as (gu & Gu & Eu).
  apply (finish_combine (gI h) g gu t' _ E Eu).
  - eapply errs_use with (keep := keep) (Q := anyt); [|reflexivity|exact G|exact Gu|exact Logic.I|exact L].
    eapply (inner_combine_mid keep dbg false false rdA rdB rdA' rdB' True (or_intror Logic.I) FA FB False);
      eauto using comb_True, lossy0_keep, sim2, lossy0_f; tauto.
  - intros k. unfold m_inner, gI. destruct (m k), (mu k); reflexivity.
Qed.
(** Converters: [detach] for any tree, [downcast] from trees in memory, [identity]
    within one store. *)
Lemma outer_failed c t' :
  (c = detach_converter rdB' \/ (c = downcast_converter /\ rdB = detached_read) \/
   (c = identity_converter rdB' /\ rdB = rdA)) ->
  leaves (outer_with_in keep dbg rdA' rdB' c t u f') t' Err ->
  exists now, readable rdA t' now /\ partway lost0 m (m_outer h m mu) now.
Proof.
  intros Hc L. destruct (tree_of_good _ _ _ _ A) as (g & G & E), (tree_of_good _ _ _ _ U) as (gu & Gu & Eu).
  apply (finish_combine (gO h) g gu t' _ E Eu).
  - eapply errs_use with (keep := keep) (Q := anyt); [|reflexivity|exact G|exact Gu|exact Logic.I|exact L].
    destruct Hc as [->|[[-> Er]|[-> Er]]].
    + eapply (outer_combine_mid keep dbg false false rdA rdB rdA' rdB' True (or_intror Logic.I) FA FB False)
        with (c := detach_converter rdB);
        eauto using comb_True, lossy0_keep, sim2, lossy0_f; try tauto; try discriminate.
      * intros. eapply detach_node; eauto.
      * intros. eapply detach_short; eauto.
      * intros. eapply detach_value; eauto.
      * intros. now apply SimErr.r_detached_sim.
      * intros. now apply SimErr.detach_conv_sim.
      * intros. apply SimErr.sim_refl.
    + eapply (outer_combine_mid keep dbg false false rdA rdB rdA' rdB' True (or_intror Logic.I) FA FB False)
        with (c := downcast_converter);
        eauto using comb_True, lossy0_keep, sim2, lossy0_f; try tauto; try discriminate.
      * intros. rewrite Er in *. eapply downcast_node; eauto.
      * intros. rewrite Er in *. eapply downcast_short; eauto.
      * intros. rewrite Er in *. eapply downcast_value; eauto.
      * intros. apply SimErr.sim_refl.
      * intros. apply SimErr.sim_refl.
      * intros. apply SimErr.sim_refl.
    + eapply (outer_combine_mid keep dbg false false rdA rdB rdA' rdB' True (or_intror Logic.I) FA FB False)
        with (c := identity_converter rdB);
        eauto using comb_True, lossy0_keep, sim2, lossy0_f; try tauto; try discriminate.
      * intros. rewrite Er in *. eapply identity_node; eauto.
      * intros. rewrite Er in *. eapply identity_short; eauto.
      * intros. rewrite Er in *. eapply identity_value; eauto.
      * intros. apply SimErr.sim_refl.
      * intros. cbn. now apply SimErr.r_clone_shortened_sim.
      * intros. apply SimErr.sim_refl.
  - intros k. unfold m_outer, gO. destruct (m k), (mu k); reflexivity.
Qed.
End Combines.

Section Selected.
Context (keep dbg : bool) (rdA rdB rdA' rdB' : reader) (FA : flaky rdA' rdA) (FB : flaky rdB' rdB).
Context (t u : node) (m mu : kmap) (A : tree_of dbg rdA t m) (U : tree_of dbg rdB u mu).
Context (f' : blob -> res bool) (s : bytes -> bool) (F : flaky1 f' (selector rdB s)).

Lemma sel_ok bv y : RepV rdB bv (Some y) -> okp True (selector rdB s bv) (fun b => b = s y).
Proof. intros H. left. exists (s y). split; [|reflexivity]. now apply selector_ok. Qed.

Lemma remove_prefix_with_failed t' : leaves (remove_prefix_with_in keep dbg rdA' rdB' t u f') t' Err ->
  exists now, readable rdA t' now /\ partway (fun _ => keep = false) m (m_remove_prefix_with s m mu) now.
Proof.
  intros L. destruct (tree_of_good _ _ _ _ A) as (g & G & E), (tree_of_good _ _ _ _ U) as (gu & Gu & Eu).
  eapply midw_partway with (lossy := fun _ _ => keep = false); [|exact E| |auto].
  - eapply errs_use with (keep := keep) (Q := anyt); [|reflexivity|exact G|exact Gu|exact Logic.I|exact L].
    eapply (remove_prefix_mid keep dbg false false rdA rdB rdA' rdB' True (or_intror Logic.I) FA FB False);
      eauto using sel_ok; try tauto.
  - intros k. rewrite cov_below. unfold m_remove_prefix_with, gRm. rewrite E.
    match goal with |- (if ?c then _ else _) = (if ?d then _ else _) => assert (c = d) as -> end; [|reflexivity].
    apply eq_true_iff_eq. rewrite !below_selected_spec.
    split; intros (q & r & y & -> & Hq & Hy); exists q, r, y; rewrite ?Eu in *; auto.
Qed.
Lemma retain_prefix_with_failed t' : downward_rejected s mu ->
  leaves (retain_prefix_with_in keep dbg rdA' rdB' t u f') t' Err ->
  exists now, readable rdA t' now /\ partway (fun _ => keep = false) m (m_retain_prefix_with s m mu) now.
Proof.
  intros D L. destruct (tree_of_good _ _ _ _ A) as (g & G & E), (tree_of_good _ _ _ _ U) as (gu & Gu & Eu).
  eapply midw_partway with (lossy := fun _ _ => keep = false); [|exact E| |auto].
  - eapply errs_use with (keep := keep); [|reflexivity|exact G|exact Gu| |exact L].
    + eapply (retain_prefix_mid keep dbg false false rdA rdB rdA' rdB' True (or_intror Logic.I) FA FB False);
        eauto using sel_ok; try tauto.
    + intros q r x y Hq Hr. apply (D q r x y); now rewrite <- Eu.
  - intros k. rewrite cov_below. unfold m_retain_prefix_with, gRt. rewrite E.
    match goal with |- (if ?c then _ else _) = (if ?d then _ else _) => assert (c = d) as -> end; [|reflexivity].
    apply eq_true_iff_eq. rewrite !below_selected_spec.
    split; intros (q & r & y & -> & Hq & Hy); exists q, r, y; rewrite ?Eu in *; auto.
Qed.
End Selected.

(* ------------------------------------------------------------------ *)
(** Removal of a key and of a prefix. *)
Section Removes.
Context (keep dbg : bool) (rd rd' : reader) (FA : flaky rd' rd).
Context (t : node) (m : kmap) (A : tree_of dbg rd t m).

Lemma remove_failed k t' : leaves (remove_in keep dbg rd' t k) t' Err ->
  exists now, readable rd t' now /\ partway (fun _ => keep = false) m (m_remove m k) now.
Proof.
  intros L. destruct (tree_of_good _ _ _ _ A) as (g & G & E).
  pose proof (good_single false detached_read k []) as Gu.
  eapply midw_partway with (lossy := fun _ _ => keep = false); [|exact E| |auto].
  - eapply errs_use with (keep := keep) (Q := anyt); [|reflexivity|exact G|exact Gu|exact Logic.I|exact L].
    eapply (left_combine_mid keep dbg false false rd detached_read rd' detached_read True (or_introl det_detached) FA
      (fun id => or_intror eq_refl) False ltac:(tauto) (fun _ _ => Ok bnone) (fun _ _ => Ok bnone) (fun _ _ => None)); eauto; try tauto.
    + intros. left. exists bnone. split; reflexivity.
    + intros. apply SimErr.sim_refl.
    + discriminate.
  - intros x. rewrite lookup_single, E. unfold m_remove, gL. destruct (beq x k), (m x); reflexivity.
Qed.
Lemma remove_prefix_failed k t' : leaves (remove_prefix_in1 keep dbg rd' t k) t' Err ->
  exists now, readable rd t' now /\ partway (fun _ => keep = false) m (m_remove_prefix m k) now.
Proof.
  intros L. destruct (tree_of_good _ _ _ _ A) as (g & G & E).
  pose proof (good_single false detached_read k []) as Gu.
  eapply midw_partway with (lossy := fun _ _ => keep = false); [|exact E| |auto].
  - eapply errs_use with (keep := keep) (Q := anyt); [|reflexivity|exact G|exact Gu|exact Logic.I|exact L].
    eapply (remove_prefix_mid keep dbg false false rd detached_read rd' detached_read True (or_introl det_detached) FA
      (fun id => or_intror eq_refl) False ltac:(tauto) (fun _ _ => keep = false) ltac:(auto) eq_refl (fun _ => or_intror Logic.I) ltac:(tauto)
      (fun _ => Ok true) (fun _ => Ok true) (fun _ => true)).
    + intros. left. eauto.
    + intros. apply SimErr.sim_refl.
  - intros x. rewrite cov_below. unfold gRm, m_remove_prefix. rewrite E.
    match goal with |- (if ?c then _ else _) = _ => assert (c = starts_with k x) as -> end; [|reflexivity].
    apply eq_true_iff_eq. rewrite below_selected_spec, starts_with_spec. split.
    + intros (q & r & y & -> & Ey & _). rewrite lookup_single in Ey. destruct (beq_spec q k) as [->|]; [eauto|discriminate].
    + intros [z ->]. exists k, z, []. rewrite lookup_single, beq_refl. auto.
Qed.
End Removes.

(* ------------------------------------------------------------------ *)
(** Insertion. *)
Section Insert.
Context (keep dbg ids : bool) (rd rd' : reader) (FA : flaky rd' rd).
Context (t : node) (g : tree) (G : good ids rd t g).

Lemma insert_mid k v t' : leaves (insert_in keep dbg rd' t k v) t' Err ->
  midw ids rd (keep = true) (fun _ _ => keep = false) lookup (gO (fun _ y => Some y)) g (T k (Some v) []) t'.
Proof.
  intros L. pose proof (good_single false detached_read k v) as Gu.
  eapply errs_use with (keep := keep) (Q := anyt); [|reflexivity|exact G|exact Gu|exact Logic.I|exact L].
  eapply (outer_combine_mid keep dbg ids false rd detached_read rd' detached_read False (or_introl det_detached) FA
    (fun id => or_intror eq_refl) (keep = true) ltac:(auto) (fun _ r => Ok r) (fun _ r => Ok r) (fun _ y => Some y))
    with (c := downcast_converter); eauto; try discriminate.
  - intros av bv x y _ Hb. left. exists bv. split; [reflexivity|].
    destruct (downcast_value rd False bv y Hb) as [(w & Ew & Hw)|[_ []]]. injection Ew as <-. exact Hw.
  - intros. apply SimErr.sim_refl.
  - intros. eapply downcast_node; eauto.
  - intros. eapply downcast_short; eauto.
  - intros. eapply downcast_value; eauto.
  - intros. apply SimErr.sim_refl.
  - intros. apply SimErr.sim_refl.
  - intros. apply SimErr.sim_refl.
  - intros. cbn. destruct r; discriminate.
  - intros _ fuel r n. cbn. destruct r as [[p vv kk]|]; [|discriminate]. cbn.
    destruct p as [x|[|c id]]; cbn; try discriminate. unfold slice_from. destruct (n <=? length x); discriminate.
Qed.

Lemma insert_failed k v t' : leaves (insert_in keep dbg rd' t k v) t' Err ->
  exists now, readable rd t' now /\ partway (fun _ => keep = false) (lookup g) (m_insert (lookup g) k v) now.
Proof.
  intros L. eapply midw_partway; [exact (insert_mid _ _ _ L)|intros x; reflexivity| |auto].
  intros x. rewrite lookup_single. unfold m_insert, gO. destruct (beq x k), (lookup g x); reflexivity.
Qed.

Lemma insert_kept k v t' : keep = true -> leaves (insert_in keep dbg rd' t k v) t' Err ->
  exists g', Rep ids rd t' g' /\ croot g' /\
    (same (lookup g') (lookup g) \/ same (lookup g') (m_insert (lookup g) k v)).
Proof.
  intros K L. destruct (insert_mid _ _ _ L) as (g' & R & _ & _ & M & C). exists g'. split; [exact R|].
  split; [apply C; [exact K|split; [reflexivity|discriminate]]|].
  assert (forall x, x <> k -> lookup g' x = lookup g x) as H.
  { intros x N. destruct (M x) as [H|[H|[H _]]]; [exact H| |congruence].
    rewrite H, lookup_single. destruct (beq_spec x k); [congruence|]. unfold gO. now destruct (lookup g x). }
  destruct (M k) as [Hk|[Hk|[Hk _]]]; [left|right|congruence].
  - intros x. destruct (beq_spec x k) as [->|N]; auto.
  - intros x. unfold m_insert. destruct (beq_spec x k) as [->|N]; [|auto].
    rewrite Hk, lookup_single, beq_refl. unfold gO. now destruct (lookup g k).
Qed.
End Insert.

(** Inserting into a tree of which only [Rep] and [croot] are known. *)
Lemma insert_again dbg ids rd t g k v : Rep ids rd t g -> croot g ->
  exists t', t_insert dbg rd t k v ⇓ Ok t' /\ holds rd t' (m_insert (lookup g) k v).
Proof.
  intros R C. apply yields_holds with (ids := ids).
  eapply yields_ok with (n := size g + 3); [apply mono_insert|]. unfold t_insert.
  pose proof (good_single false detached_read k v) as (R' & C' & E').
  eapply okp_imp; [eapply use_recw with (ta := g) (tb := T k (Some v) []); [eapply (outer_combine_with_ok dbg ids false rd detached_read False (or_introl det_detached)
    downcast_converter (fun _ r => Ok r) (fun _ y => Some y))|..]|].
  - intros av bv x y _ Hb. left. exists bv. split; [reflexivity|].
    destruct (downcast_value rd False bv y Hb) as [(w & Ew & Hw)|[_ []]]. injection Ew as <-. exact Hw.
  - intros _ x y. discriminate.
  - intros. eapply downcast_node; eauto.
  - intros. eapply downcast_short; eauto.
  - intros. eapply downcast_value; eauto.
  - exact R.
  - now apply Rep_NRep.
  - exact C.
  - exact C'.
  - exact Logic.I.
  - rewrite size_T. cbn. lia.
  - intros n (t' & R2 & E2 & C2 & L2). exists t'. split; [repeat split; auto|].
    intros x. rewrite L2, lookup_single. unfold m_insert. destruct (beq x k), (lookup g x); reflexivity.
Qed.

Section InsertTop.
Context (dbg : bool) (S : store) (inv : st S -> Prop) (L : lawful S inv).
Context (s : st S) (t : node) (m : kmap) (A : attached dbg S inv s t m) (rd' : reader) (FA : flaky rd' (st_read S s)).
Notation rd := (st_read S s).

Lemma at_insert_failed keep k v t' : leaves (insert_in keep dbg rd' t k v) t' Err ->
  exists now, readable rd t' now /\ partway (fun _ => keep = false) m (m_insert m k v) now.
Proof.
  intros Lv. destruct (attached_good dbg S inv L s t m A) as (_ & ids & g & G & E).
  destruct (insert_failed keep dbg ids rd rd' FA t g G k v t' Lv) as (now & Rd & P). exists now. split; [exact Rd|].
  intros x. destruct (P x) as [H|[H|H]]; [left; now rewrite H, E|right; left|right; now right].
  rewrite H. unfold m_insert. destruct (beq x k); auto.
Qed.
Lemma at_insert_kept k v t' : leaves (insert_in true dbg rd' t k v) t' Err ->
  exists now, (same now m \/ same now (m_insert m k v)) /\ readable rd t' now /\
    (forall k2 v2, exists t2, t_insert dbg rd t' k2 v2 ⇓ Ok t2 /\ holds rd t2 (m_insert now k2 v2)) /\
    (exists t2, t_insert dbg rd t' k v ⇓ Ok t2 /\ holds rd t2 (m_insert m k v)).
Proof.
  intros Lv. destruct (attached_good dbg S inv L s t m A) as (_ & ids & g & G & E).
  destruct (insert_kept true dbg ids rd rd' FA t g G k v t' eq_refl Lv) as (g' & R & C & P). exists (lookup g').
  assert (same (lookup g') m \/ same (lookup g') (m_insert m k v)) as P'.
  { destruct P as [P|P]; [left|right]; intros x; rewrite P; auto. unfold m_insert. destruct (beq x k); auto. }
  split; [exact P'|]. split; [apply (w_readable ids); auto using croot_wroot|]. split.
  - intros k2 v2. eapply insert_again; eauto.
  - destruct (insert_again dbg ids rd t' g' k v R C) as (t2 & C2 & H2). exists t2. split; [exact C2|].
    eapply holds_ext; [|exact H2]. intros x. unfold m_insert in *. destruct (beq x k) eqn:B; [reflexivity|].
    destruct P' as [P'|P']; rewrite P'; [reflexivity|]. now rewrite B.
Qed.
End InsertTop.

(** Together. *)
Lemma agree_all keep dbg rdA rdB t u :
  (forall k v, agrees (insert_in keep dbg rdA t k v) (t_insert dbg rdA t k v)) /\
  (forall k, agrees (remove_in keep dbg rdA t k) (t_remove dbg rdA t k)) /\
  (forall p, agrees (remove_prefix_in1 keep dbg rdA t p) (t_remove_prefix dbg rdA t p)) /\
  (forall f c, c = downcast_converter \/ c = identity_converter rdB \/ c = detach_converter rdB ->
     agrees (outer_with_in keep dbg rdA rdB c t u f) (t_outer_combine_with dbg rdA rdB c t u f)) /\
  (forall f, agrees (inner_with_in keep dbg rdA rdB t u f) (t_inner_combine_with dbg rdA rdB t u f)) /\
  (forall f, agrees (left_with_in keep dbg rdA rdB t u f) (t_left_combine_with dbg rdA rdB t u f)) /\
  (forall f, agrees (remove_prefix_with_in keep dbg rdA rdB t u f) (t_remove_prefix_with dbg rdA rdB t u f)) /\
  (forall f, agrees (retain_prefix_with_in keep dbg rdA rdB t u f) (t_retain_prefix_with dbg rdA rdB t u f)).
Proof.
  split; [intros; apply agree_insert|]. split; [intros; apply agree_remove|]. split; [intros; apply agree_remove_prefix|].
  split; [intros; now apply agree_outer|]. split; [intros; apply agree_inner|]. split; [intros; apply agree_left|].
  split; [intros; apply agree_remove_prefix_with|intros; apply agree_retain_prefix_with].
Qed.
Lemma insert_failed_all keep dbg S inv s t m rd' k v t' : lawful S inv -> attached dbg S inv s t m -> flaky rd' (st_read S s) ->
  leaves (insert_in keep dbg rd' t k v) t' Err ->
  exists now, readable (st_read S s) t' now /\ partway (fun _ => keep = false) m (m_insert m k v) now.
Proof. intros L A F. now apply (at_insert_failed dbg S inv L s t m A rd' F). Qed.
Lemma insert_kept_all dbg S inv s t m rd' k v t' : lawful S inv -> attached dbg S inv s t m -> flaky rd' (st_read S s) ->
  leaves (insert_in true dbg rd' t k v) t' Err ->
  exists now, (same now m \/ same now (m_insert m k v)) /\ readable (st_read S s) t' now /\
    (forall k2 v2, exists t2, t_insert dbg (st_read S s) t' k2 v2 ⇓ Ok t2 /\ holds (st_read S s) t2 (m_insert now k2 v2)) /\
    (exists t2, t_insert dbg (st_read S s) t' k v ⇓ Ok t2 /\ holds (st_read S s) t2 (m_insert m k v)).
Proof. intros L A F. now apply (at_insert_kept dbg S inv L s t m A rd' F). Qed.
Lemma remove_failed_all keep dbg rd rd' t m t' : tree_of dbg rd t m -> flaky rd' rd ->
  (forall k, leaves (remove_in keep dbg rd' t k) t' Err ->
     exists now, readable rd t' now /\ partway (fun _ => keep = false) m (m_remove m k) now) /\
  (forall p, leaves (remove_prefix_in1 keep dbg rd' t p) t' Err ->
     exists now, readable rd t' now /\ partway (fun _ => keep = false) m (m_remove_prefix m p) now).
Proof.
  intros A F. split; intros k.
  - now apply (remove_failed keep dbg rd rd' F t m A).
  - now apply (remove_prefix_failed keep dbg rd rd' F t m A).
Qed.
Lemma combine_failed_all keep dbg rdA rdB rdA' rdB' t u m mu f' h t' :
  flaky rdA' rdA -> flaky rdB' rdB -> tree_of dbg rdA t m -> tree_of dbg rdB u mu ->
  flaky2 f' (combiner_with rdA rdB h) ->
  (forall c, c = detach_converter rdB' \/ (c = downcast_converter /\ rdB = detached_read) \/
     (c = identity_converter rdB' /\ rdB = rdA) ->
   leaves (outer_with_in keep dbg rdA' rdB' c t u f') t' Err ->
     exists now, readable rdA t' now /\
       partway (fun k => keep = false \/ hit rdA rdB f' m mu k) m (m_outer h m mu) now) /\
  (leaves (inner_with_in keep dbg rdA' rdB' t u f') t' Err ->
     exists now, readable rdA t' now /\
       partway (fun k => keep = false \/ hit rdA rdB f' m mu k) m (m_inner h m mu) now) /\
  (leaves (left_with_in keep dbg rdA' rdB' t u f') t' Err ->
     exists now, readable rdA t' now /\
       partway (fun k => keep = false \/ hit rdA rdB f' m mu k) m (m_left h m mu) now).
Proof.
  intros FA FB A U F. split; [|split].
  - intros c Hc Hl. now apply (outer_failed keep dbg rdA rdB rdA' rdB' FA FB t u m mu A U f' h F c).
  - now apply (inner_failed keep dbg rdA rdB rdA' rdB' FA FB t u m mu A U f' h F).
  - now apply (left_failed keep dbg rdA rdB rdA' rdB' FA FB t u m mu A U f' h F).
Qed.
Lemma prefix_failed_all keep dbg rdA rdB rdA' rdB' t u m mu f' s t' :
  flaky rdA' rdA -> flaky rdB' rdB -> tree_of dbg rdA t m -> tree_of dbg rdB u mu -> flaky1 f' (selector rdB s) ->
  (leaves (remove_prefix_with_in keep dbg rdA' rdB' t u f') t' Err ->
     exists now, readable rdA t' now /\ partway (fun _ => keep = false) m (m_remove_prefix_with s m mu) now) /\
  (downward_rejected s mu -> leaves (retain_prefix_with_in keep dbg rdA' rdB' t u f') t' Err ->
     exists now, readable rdA t' now /\ partway (fun _ => keep = false) m (m_retain_prefix_with s m mu) now).
Proof.
  intros FA FB A U F. split.
  - now apply (remove_prefix_with_failed keep dbg rdA rdB rdA' rdB' FA FB t u m mu A U f' s F).
  - now apply (retain_prefix_with_failed keep dbg rdA rdB rdA' rdB' FA FB t u m mu A U f' s F).
Qed.
