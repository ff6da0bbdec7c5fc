(** Trees keep working through operations that fail. *)
From Verif Require Import Base BaseLemmas Header Node Combine Iter Api Tree Rep JoinBase JoinProofs WithProofs PrefixProofs
  Entries IterProofs ScanProofs Sim Spec Client Top TopOps MemLemmas Store StoreSpec StoreProofs World WorldProofs
  StoreLemmas StoreTop FailSpec WeakFind WeakIter InPlace InPlaceSpec InPlaceAgree InPlaceProofs InPlaceMono InPlaceTop
  WeakRead WeakGroup SurviveSpec Logged.
From Verif Require WeakJoin WeakWith WeakMid SimErr.
From Verif Require Import WeakNew.
Import WeakMid.

Definition winv (rd : reader) (t : node) (m : kmap) : Prop :=
  exists g, Rep false rd t g /\ wroot g /\ same (lookup g) m.
Lemma winv_readable rd t m : winv rd t m -> readable rd t m.
Proof.
  intros (g & R & W & E). eapply readable_ext; [exact E|]. now apply (w_readable false).
Qed.
Lemma conv_fun {A} (f : nat -> res A) x y : f ⇓ x -> f ⇓ y -> x = y.
Proof.
  intros (_ & n & H) (_ & n' & H'). rewrite <- (H (n + n')) by lia. apply H'. lia.
Qed.
Lemma readable_same rd t m m' : readable rd t m -> readable rd t m' -> same m m'.
Proof.
  intros [H _] [H' _] k. pose proof (conv_fun _ _ _ (H k) (H' k)) as E. congruence.
Qed.
Lemma same_sym (m m' : kmap) : same m m' -> same m' m.
Proof. intros H k. symmetry. apply H. Qed.
Lemma winv_ext rd t m m' : winv rd t m -> same m m' -> winv rd t m'.
Proof. intros (g & R & W & E) E'. exists g. repeat split; auto; try apply W. intros k. now rewrite E. Qed.

Lemma okp_False {A} al (r : res A) P : okp False r P -> okp al r P.
Proof. intros [H|[_ []]]. now left. Qed.
Lemma not_err {A} al (x : left_in A) r P : outcome x = r -> okp al r P -> snd x <> Err.
Proof.
  intros E [(y & Ey & _)|[Ey _]]; rewrite Ey in E; destruct x as [z [| | |]]; cbn in *; congruence.
Qed.

Lemma winv_filter rd t m p s : winv rd t m ->
  exists t', t_filter_prefix rd t p s ⇓ Ok t' /\ winv rd t' (m_filter_prefix m p s).
Proof.
  intros (g & R & W & Em). apply (conv_ok (t_filter_prefix rd t p s) (S (size g))).
  - intros a b L. apply filter_prefix_sim; [apply rsim_refl|exact L].
  - destruct (w_filter_prefix_ok false rd (S (size g)) t g p s R W ltac:(lia)) as (n' & t' & E & R' & W' & L1 & L2).
    exists n'. split; [exact E|]. exists t'. split; [exact R'|]. split; [exact W'|]. intros x. unfold m_filter_prefix.
    rewrite strip_prefix_strip. destruct (strip s x) as [r|] eqn:Es.
    + apply strip_spec in Es as ->. now rewrite L1, Em.
    + destruct (lookup t' x) eqn:El; [|reflexivity].
      destruct (L2 x) as [z ->]; [congruence|]. now rewrite strip_app in Es.
Qed.

Lemma Forall2_in_l {A B} (P : A -> B -> Prop) l l' : Forall2 P l l' -> forall a, In a l -> exists b, In b l' /\ P a b.
Proof.
  induction 1 as [|x y l l' H _ IH]; intros a Ha; [destruct Ha|]. destruct Ha as [<-|Ha]; [exists y; cbn; auto|].
  destruct (IH a Ha) as (b & Hb & Hp). exists b. cbn. auto.
Qed.
Lemma winv_lists g m : wroot g -> same (lookup g) m -> lists (entries [] g) m.
Proof.
  intros W Em. destruct (w_lists g W) as [S1 S2]. split; [exact S1|]. intros k v. rewrite (S2 k v), (Em k). tauto.
Qed.
Lemma winv_group rd t m d : winv rd t m -> (forall path r, exists b, d path r = Ok b) ->
  exists ts ls, t_group_by rd t d ⇓ Ok ts /\
    Forall2 (fun u l => exists mu, winv rd u mu /\ lists l mu) ts ls /\ lists (concat ls) m.
Proof.
  intros (g & R & W & Em) Hd.
  destruct (conv_ok (t_group_by rd t d) (3 * size g + 7)
    (fun l => exists ess, Forall2 (wgrel false rd) l ess /\ concat ess = entries [] g)) as (ts & Ct & ess & F & Ec).
  - apply mono_collect. intros. apply gb_next_sim; [apply rsim_refl| |assumption].
    intros. apply sim_refl.
  - destruct (w_gb_collect_ok false rd d Hd (3 * size g + 7) t g R W) as (l & ess & E & F & Ec); [lia|]. eauto.
  - exists ts, ess. split; [exact Ct|]. split; [|rewrite Ec; now apply winv_lists].
    clear Ct Ec. induction F as [|u l ts ess (gu & Ru & Cu & <-) _ IH]; constructor; auto.
    exists (lookup gu). split; [|now apply w_lists]. exists gu. split; [exact Ru|]. split; [exact Cu|]. intros k. reflexivity.
Qed.

Lemma Rep_detach ids rd t g : Rep ids rd t g -> exists u, t_detached rd t ⇓ Ok u /\ Rep false detached_read u g.
Proof.
  intros R.
  destruct (conv_ok (t_detached rd t) (Datatypes.S (size g)) (fun u => DRep u g /\ blob_is_id (n_prefix u) = false)) as (u & Cu & Ru & _).
  - intros a b Hl. apply r_detached_sim; auto using rsim_refl.
  - apply (r_detached_True ids rd); [|lia]. now apply Rep_NRep.
  - eauto.
Qed.
Lemma winv_detach rd t m : winv rd t m -> exists u, t_detached rd t ⇓ Ok u /\ winv detached_read u m.
Proof.
  intros (g & R & W & E). destruct (Rep_detach _ _ _ _ R) as (u & C & R'). exists u. split; [exact C|].
  exists g. auto.
Qed.

Definition goes (rd : reader) (m : kmap) (f : nat -> left_in node) (m' : kmap) (lost : bytes -> Prop)
    (safe calm : Prop) : Prop :=
  exists t' r, leaves f t' r /\
    ((r = Ok tt /\ winv rd t' m') \/
     (r = Err /\ ~ calm /\ exists now, winv rd t' now /\ partway lost m m' now) \/
     (r = Panic /\ ~ safe)).

Lemma goes_intro {B} rdA rdB (lossy : option bytes -> B -> Prop) ob gf (Q : tree -> Prop)
    (op : nat -> node -> noderef -> left_in node) (ref : nat -> node -> noderef -> res node) t u g gu m (m' : kmap) (lost : bytes -> Prop) (safe calm : Prop) :
  Rep false rdA t g -> wroot g -> same (lookup g) m -> Rep false rdB u gu -> wroot gu -> Q gu ->
  (forall n k, n <= k -> fle (op n t (ROwned u)) (op k t (ROwned u))) ->
  (forall al : Prop, (safe \/ al) -> forall fuel, wrecm false rdA rdB al lossy ob gf Q (op fuel) (fuel - 2)) ->
  (calm -> forall fuel, (forall a b, outcome (op fuel a b) = ref fuel a b) /\
     WeakWith.wrec false rdA rdB True ob gf Q (ref fuel) (fuel - 2)) ->
  (forall k, gf (lookup g k) (ob gu k) = m' k) -> (forall k, lossy (lookup g k) (ob gu k) -> lost k) ->
  goes rdA m (fun n => op n t (ROwned u)) m' lost safe calm.
Proof.
  intros R W E R' W' HQ Mono H Hc Em L.
  pose (N := size g + size gu + 2).
  destruct (H True (or_intror Logic.I) N t (ROwned u) g gu R (Rep_NRep _ _ _ _ _ R') W W' HQ ltac:(unfold N; lia))
    as [(H1 & H2 & _) H3].
  destruct (op N t (ROwned u)) as [t' r] eqn:EN. cbn in H2. exists t', r.
  split.
  { split; [exact H2|]. exists N. intros n Hn. destruct (Mono N n Hn) as [F|F]; rewrite EN in F; [cbn in F; congruence|auto]. }
  destruct r as [[]| | |].
  - left. split; [reflexivity|]. destruct (H1 t' eq_refl) as (g' & R2 & _ & W2 & L2 & _).
    exists g'. repeat split; auto; try apply W2. intros k. now rewrite L2, Em.
  - right. left. split; [reflexivity|]. split.
    + intros C. destruct (Hc C N) as [O Hr].
      pose proof (Hr t (ROwned u) g gu R (Rep_NRep _ _ _ _ _ R') W W' HQ ltac:(unfold N; lia)) as K.
      eapply not_err in K; [|apply O]. rewrite EN in K. now apply K.
    + destruct (H3 eq_refl) as (g' & R2 & W2 & _ & M). exists (lookup g'). split.
      * exists g'. split; [exact R2|]. split; [exact W2|]. intros k; reflexivity.
      * intros k. destruct (M k) as [Hk|[Hk|[Hk1 Hk2]]]; [left|right; left|right; right].
        -- now rewrite Hk, E.
        -- now rewrite Hk, Em.
        -- auto.
  - right. right. split; [reflexivity|]. intros Sf.
    destruct (H False (or_introl Sf) N t (ROwned u) g gu R (Rep_NRep _ _ _ _ _ R') W W' HQ ltac:(unfold N; lia))
      as [(_ & _ & H4) _]. apply H4. now rewrite EN.
  - now destruct H2.
Qed.

Lemma wroot_single k v : wroot (T k (Some v) []).
Proof. apply croot_wroot. apply (good_single false detached_read k v). Qed.
Lemma Rep_single k v : Rep false detached_read (n_single k v) (T k (Some v) []).
Proof. apply (good_single false detached_read k v). Qed.
Lemma flaky_sim rd' rd : flaky rd' rd -> SimErr.rsim rd' rd.
Proof. intros F. exact F. Qed.

Lemma go_insert keep dbg rd rd' t m k v : flaky rd' rd -> winv rd t m ->
  goes rd m (insert_in keep dbg rd' t k v) (m_insert m k v) (fun _ => keep = false) True (rd' = rd).
Proof.
  intros F (g & R & W & E).
  eapply (goes_intro rd detached_read (fun _ _ => keep = false) lookup (gO (fun _ y => Some y)) anyt
    (fun n => outer_combine_in keep dbg rd' detached_read (fun _ r => Ok r) downcast_converter n)
    (fun n => outer_combine_with dbg rd' detached_read downcast_converter (fun _ r => Ok r) n)
    t (n_single k v) g (T k (Some v) [])); auto using wroot_single, Rep_single.
  - exact Logic.I.
  - intros. apply fle_outer; auto; intros; apply sim_refl.
  - intros al _ fuel.
    eapply (w_outer_combine_mid keep dbg false rd detached_read rd' detached_read al (or_introl det_detached) F
      (fun id => or_intror eq_refl) (fun _ r => Ok r) (fun _ r => Ok r) (fun _ y => Some y)) with (c := downcast_converter);
      auto; try discriminate.
    + intros av bv x y _ Hb. left. exists bv. split; [reflexivity|].
      destruct (downcast_value rd False bv y Hb) as [(w & Ew & Hw)|[_ []]]. injection Ew as <-. exact Hw.
    + intros. apply SimErr.sim_refl.
    + intros. eapply downcast_node; eauto.
    + intros. eapply downcast_short; eauto.
    + intros. eapply downcast_value; eauto.
    + intros. apply SimErr.sim_refl.
    + intros. apply SimErr.sim_refl.
    + intros. apply SimErr.sim_refl.
  - intros -> fuel. split; [intros; apply out_outer|].
    eapply WeakWith.outer_combine_with_ok; auto using det_detached.
    + intros av bv x y _ Hb. left. exists bv. split; [reflexivity|].
      destruct (downcast_value rd False bv y Hb) as [(w & Ew & Hw)|[_ []]]. injection Ew as <-. exact Hw.
    + intros. eapply downcast_node; eauto.
    + intros. eapply downcast_short; eauto.
    + intros. eapply downcast_value; eauto.
  - intros x. rewrite lookup_single, E. unfold m_insert, gO. destruct (beq x k), (m x); reflexivity.
Qed.

Lemma go_remove keep dbg rd rd' t m k : flaky rd' rd -> winv rd t m ->
  goes rd m (remove_in keep dbg rd' t k) (m_remove m k) (fun _ => keep = false) (dbg = true -> unstored rd) (rd' = rd).
Proof.
  intros F (g & R & W & E).
  assert (forall al : Prop, forall av bv x y, RepV rd av (Some x) -> RepV detached_read bv (Some y) ->
    okp al (@Ok blob bnone) (fun r => RepV rd r None)) as HF.
  { intros. left. exists bnone. split; reflexivity. }
  eapply (goes_intro rd detached_read (fun _ _ => keep = false) lookup (gL (fun _ _ => None)) anyt
    (fun n => left_combine_in keep dbg rd' detached_read (fun _ _ => Ok bnone) n)
    (fun n => left_combine_with dbg rd' detached_read (fun _ _ => Ok bnone) n)
    t (n_single k []) g (T k (Some []) [])); auto using wroot_single, Rep_single.
  - exact Logic.I.
  - intros. now apply fle_left.
  - intros al Sf fuel.
    eapply (w_left_combine_mid keep dbg false rd detached_read rd' detached_read al (or_introl det_detached) F
      (fun id => or_intror eq_refl) (fun _ _ => Ok bnone) (fun _ _ => Ok bnone) (fun _ _ => None)); eauto; try discriminate.
    + intros. apply SimErr.sim_refl.
    + intros D. destruct Sf as [Sf|Sf]; [left; now apply Sf|now right].
  - intros -> fuel. split; [intros; apply out_left|].
    eapply WeakWith.left_combine_with_ok; eauto using det_detached.
  - intros x. rewrite lookup_single, E. unfold m_remove, gL. destruct (beq x k), (m x); reflexivity.
Qed.

Lemma go_remove_prefix keep dbg rd rd' t m k : flaky rd' rd -> winv rd t m ->
  goes rd m (remove_prefix_in1 keep dbg rd' t k) (m_remove_prefix m k) (fun _ => keep = false) (dbg = true -> unstored rd) (rd' = rd).
Proof.
  intros F (g & R & W & E).
  assert (forall (al : Prop) bv y, RepV detached_read bv (Some y) -> okp al (Ok true) (fun b => b = (fun _ : bytes => true) y)) as HF.
  { intros. left. eauto. }
  eapply (goes_intro rd detached_read (fun _ _ => keep = false) (cov (fun _ => true)) gRm anyt
    (fun n => remove_prefix_in keep dbg rd' detached_read (fun _ => Ok true) n)
    (fun n => remove_prefix_with dbg rd' detached_read (fun _ => Ok true) n)
    t (n_single k []) g (T k (Some []) [])); auto using wroot_single, Rep_single.
  - exact Logic.I.
  - intros. now apply fle_remove_prefix.
  - intros al Sf fuel.
    eapply (w_remove_prefix_mid keep dbg false rd detached_read rd' detached_read al (or_introl det_detached) F
      (fun id => or_intror eq_refl)) with (f := fun _ => Ok true); eauto.
    + intros D. destruct Sf as [Sf|Sf]; [left; now apply Sf|now right].
    + intros. apply SimErr.sim_refl.
  - intros -> fuel. split; [intros; apply out_remove_prefix|].
    eapply WeakWith.remove_prefix_with_ok; eauto using det_detached.
  - intros x. rewrite cov_below. unfold gRm, m_remove_prefix. rewrite E.
    match goal with |- (if ?c then _ else _) = _ => assert (c = starts_with k x) as -> end; [|reflexivity].
    apply eq_true_iff_eq. rewrite below_selected_spec, starts_with_spec. split.
    + intros (q & r & y & -> & Ey & _). rewrite lookup_single in Ey. destruct (beq_spec q k) as [->|]; [eauto|discriminate].
    + intros [z ->]. exists k, z, []. rewrite lookup_single, beq_refl. auto.
Qed.

Section Combines.
Context (keep dbg : bool) (rd rdB rd' rdB' : reader) (FA : flaky rd' rd) (FB : flaky rdB' rdB).
Context (t u : node) (m mu : kmap) (A : winv rd t m) (U : winv rdB u mu).
Context (f' : blob -> blob -> res blob) (h : bytes -> bytes -> option bytes).
Context (F : flaky2 f' (combiner_with rd rdB h)).
Notation lossy := (lossy0 keep rd rdB f').
Notation calm := (rd' = rd /\ rdB' = rdB /\ f' = combiner_with rd rdB h).
Notation lost := (fun k => keep = false \/ hit rd rdB f' m mu k).

Lemma comb_al (al : Prop) (av bv : blob) (x y : bytes) : RepV rd av (Some x) -> RepV rdB bv (Some y) ->
  okp al (combiner_with rd rdB h av bv) (fun r => RepV rd r (h x y)).
Proof. intros Ha Hb. apply okp_False. now apply combiner_with_ok. Qed.
Lemma lossy_lost g gu k : same (lookup g) m -> same (lookup gu) mu -> lossy (lookup g k) (lookup gu k) -> lost k.
Proof.
  intros E Eu [L|(a & b & Ha & Hb & L)]; [now left|]. right. exists a, b. rewrite <- E, <- Eu. auto.
Qed.

Lemma go_left : goes rd m (left_with_in keep dbg rd' rdB' t u f') (m_left h m mu) lost
  (unstored rdB /\ (dbg = true -> unstored rd)) calm.
Proof.
  destruct A as (g & R & W & E), U as (gu & Ru & Wu & Eu).
  eapply (goes_intro rd rdB lossy lookup (gL h) anyt
    (fun n => left_combine_in keep dbg rd' rdB' f' n)
    (fun n => left_combine_with dbg rd' rdB' f' n) t u g gu); auto.
  - exact Logic.I.
  - intros. now apply fle_left.
  - intros al Sf fuel.
    eapply (w_left_combine_mid keep dbg false rd rdB rd' rdB' al); eauto using comb_al, lossy0_keep, lossy0_f.
    + destruct Sf as [[Sf _]|Sf]; [left; exact Sf|now right].
    + intros D. destruct Sf as [[_ Sf]|Sf]; [left; now apply Sf|now right].
  - intros (-> & -> & ->) fuel. split; [intros; apply out_left|].
    eapply WeakWith.left_combine_with_ok; eauto using comb_al.
  - intros k. unfold m_left, gL. rewrite E, Eu. destruct (m k), (mu k); reflexivity.
  - intros k. now apply lossy_lost.
Qed.
Lemma go_inner : goes rd m (inner_with_in keep dbg rd' rdB' t u f') (m_inner h m mu) lost
  (unstored rdB) calm.
Proof.
  destruct A as (g & R & W & E), U as (gu & Ru & Wu & Eu).
  eapply (goes_intro rd rdB lossy lookup (gI h) anyt
    (fun n => inner_combine_in keep dbg rd' rdB' f' n)
    (fun n => inner_combine_with dbg rd' rdB' f' n) t u g gu); auto.
  - exact Logic.I.
  - intros. now apply fle_inner.
  - intros al Sf fuel.
    eapply (w_inner_combine_mid keep dbg false rd rdB rd' rdB' al); eauto using comb_al, lossy0_keep, lossy0_f.
  - intros (-> & -> & ->) fuel. split; [intros; apply out_inner|].
    eapply WeakWith.inner_combine_with_ok; eauto using comb_al.
  - intros k. unfold m_inner, gI. rewrite E, Eu. destruct (m k), (mu k); reflexivity.
  - intros k. now apply lossy_lost.
Qed.

(** A converter and what it does when nothing fails. *)
Lemma go_outer_conv c c' :
  (forall (al : Prop), (unstored rdB \/ al) -> (forall fuel r tr, NRep false rdB al r tr -> size tr < fuel ->
     okp al (conv_node c fuel r) (fun n => Rep false rd n tr /\ (blob_is_id (r_prefix r) = false -> blob_is_id (n_prefix n) = false))) /\
   (forall fuel r tr k, NRep false rdB al r tr -> k <= length (tp tr) -> size tr < fuel ->
     okp al (conv_node_shortened c fuel r k) (fun n => Rep false rd n (shorten k tr))) /\
   (forall bv y, RepV rdB bv (Some y) -> okp al (conv_value c bv) (fun v => RepV rd v (Some y)))) ->
  (forall fuel fuel' r, fuel = fuel' -> SimErr.sim (conv_node c' fuel r) (conv_node c fuel' r)) ->
  (forall fuel fuel' r n, fuel = fuel' -> SimErr.sim (conv_node_shortened c' fuel r n) (conv_node_shortened c fuel' r n)) ->
  (forall v, SimErr.sim (conv_value c' v) (conv_value c v)) ->
  (forall n k r, n <= k -> sim false (conv_node c' n r) (conv_node c' k r)) ->
  (forall n k r x, n <= k -> sim false (conv_node_shortened c' n r x) (conv_node_shortened c' k r x)) ->
  (rdB' = rdB -> c' = c) ->
  goes rd m (outer_with_in keep dbg rd' rdB' c' t u f') (m_outer h m mu) lost (unstored rdB) calm.
Proof.
  intros Hc S1 S2 S3 M1 M2 Ec.
  destruct A as (g & R & W & E), U as (gu & Ru & Wu & Eu).
  eapply (goes_intro rd rdB lossy lookup (gO h) anyt
    (fun n => outer_combine_in keep dbg rd' rdB' f' c' n)
    (fun n => outer_combine_with dbg rd' rdB' c' f' n) t u g gu); auto.
  - exact Logic.I.
  - intros. now apply fle_outer.
  - intros al Sf fuel. destruct (Hc al Sf) as (H1 & H2 & H3).
    eapply (w_outer_combine_mid keep dbg false rd rdB rd' rdB' al) with (c := c); eauto using comb_al, lossy0_keep, lossy0_f.
  - intros (E1 & E2 & E3) fuel. rewrite (Ec E2), E1, E2, E3. split; [intros; apply out_outer|].
    destruct (Hc True (or_intror Logic.I)) as (H1 & H2 & H3).
    eapply WeakWith.outer_combine_with_ok; eauto using comb_al.
  - intros k. unfold m_outer, gO. rewrite E, Eu. destruct (m k), (mu k); reflexivity.
  - intros k. now apply lossy_lost.
Qed.
Lemma go_outer c :
  (c = detach_converter rdB' \/ (c = downcast_converter /\ rdB = detached_read) \/
   (c = identity_converter rdB' /\ rdB = rd)) ->
  goes rd m (outer_with_in keep dbg rd' rdB' c t u f') (m_outer h m mu) lost (unstored rdB) calm.
Proof.
  intros [->|[[-> Er]|[-> Er]]].
  - apply go_outer_conv with (c := detach_converter rdB).
    + intros al Sf. split; [intros; eapply detach_node; eauto|]. split; [intros; eapply detach_short; eauto|].
      intros; eapply detach_value; eauto.
    + intros. now apply SimErr.r_detached_sim.
    + intros. now apply SimErr.detach_conv_sim.
    + intros. apply SimErr.sim_refl.
    + intros. apply r_detached_sim; auto using rsim_refl.
    + intros. apply detach_conv_sim; auto using rsim_refl.
    + now intros ->.
  - apply go_outer_conv with (c := downcast_converter).
    + intros al Sf. rewrite Er. split; [intros; eapply downcast_node; eauto|]. split; [intros; eapply downcast_short; eauto|].
      intros; eapply downcast_value; eauto.
    + intros. apply SimErr.sim_refl.
    + intros. apply SimErr.sim_refl.
    + intros. apply SimErr.sim_refl.
    + intros. apply sim_refl.
    + intros. apply sim_refl.
    + reflexivity.
  - apply go_outer_conv with (c := identity_converter rdB).
    + intros al Sf. rewrite Er. split; [intros; eapply identity_node; eauto|]. split; [intros; eapply identity_short; eauto|].
      intros; eapply identity_value; eauto.
    + intros. apply SimErr.sim_refl.
    + intros. cbn. now apply SimErr.r_clone_shortened_sim.
    + intros. apply SimErr.sim_refl.
    + intros. apply sim_refl.
    + intros. apply sim_refl.
    + now intros ->.
Qed.
End Combines.

Section Selected.
Context (keep dbg : bool) (rd rdB rd' rdB' : reader) (FA : flaky rd' rd) (FB : flaky rdB' rdB).
Context (t u : node) (m mu : kmap) (A : winv rd t m) (U : winv rdB u mu).
Context (f' : blob -> res bool) (s : bytes -> bool) (F : flaky1 f' (selector rdB s)).
Notation calm := (rd' = rd /\ rdB' = rdB /\ f' = selector rdB s).

Lemma sel_al (al : Prop) bv y : RepV rdB bv (Some y) -> okp al (selector rdB s bv) (fun b => b = s y).
Proof. intros H. left. exists (s y). split; [|reflexivity]. now apply selector_ok. Qed.

Lemma go_remove_prefix_with : goes rd m (remove_prefix_with_in keep dbg rd' rdB' t u f') (m_remove_prefix_with s m mu)
  (fun _ => keep = false) (unstored rdB /\ (dbg = true -> unstored rd)) calm.
Proof.
  destruct A as (g & R & W & E), U as (gu & Ru & Wu & Eu).
  eapply (goes_intro rd rdB (fun _ _ => keep = false) (cov s) gRm anyt
    (fun n => remove_prefix_in keep dbg rd' rdB' f' n)
    (fun n => remove_prefix_with dbg rd' rdB' f' n) t u g gu); auto.
  - exact Logic.I.
  - intros. now apply fle_remove_prefix.
  - intros al Sf fuel.
    eapply (w_remove_prefix_mid keep dbg false rd rdB rd' rdB' al); eauto using sel_al.
    + destruct Sf as [[Sf _]|Sf]; [left; exact Sf|now right].
    + intros D. destruct Sf as [[_ Sf]|Sf]; [left; now apply Sf|now right].
  - intros (-> & -> & ->) fuel. split; [intros; apply out_remove_prefix|].
    eapply WeakWith.remove_prefix_with_ok; eauto using sel_al.
  - intros k. rewrite cov_below. unfold m_remove_prefix_with, gRm. rewrite E.
    match goal with |- (if ?c then _ else _) = (if ?d then _ else _) => assert (c = d) as -> end; [|reflexivity].
    apply eq_true_iff_eq. rewrite !below_selected_spec.
    split; intros (q & r & y & -> & Hq & Hy); exists q, r, y; rewrite ?Eu in *; auto.
Qed.
Lemma go_retain_prefix_with : downward_rejected s mu ->
  goes rd m (retain_prefix_with_in keep dbg rd' rdB' t u f') (m_retain_prefix_with s m mu)
  (fun _ => keep = false) (unstored rdB /\ (dbg = true -> unstored rd)) calm.
Proof.
  intros D. destruct A as (g & R & W & E), U as (gu & Ru & Wu & Eu).
  eapply (goes_intro rd rdB (fun _ _ => keep = false) (cov s) gRt (hered s)
    (fun n => retain_prefix_in keep dbg rd' rdB' f' n)
    (fun n => retain_prefix_with dbg rd' rdB' f' n) t u g gu); auto.
  - intros q r x y Hq Hr. apply (D q r x y); now rewrite <- Eu.
  - intros. now apply fle_retain.
  - intros al Sf fuel.
    eapply (w_retain_prefix_mid keep dbg false rd rdB rd' rdB' al); eauto using sel_al.
    + destruct Sf as [[Sf _]|Sf]; [left; exact Sf|now right].
    + intros Dd. destruct Sf as [[_ Sf]|Sf]; [left; now apply Sf|now right].
  - intros (-> & -> & ->) fuel. split; [intros; apply out_retain|].
    eapply WeakWith.retain_prefix_with_ok; eauto using sel_al.
  - intros k. rewrite cov_below. unfold m_retain_prefix_with, gRt. rewrite E.
    match goal with |- (if ?c then _ else _) = (if ?d then _ else _) => assert (c = d) as -> end; [|reflexivity].
    apply eq_true_iff_eq. rewrite !below_selected_spec.
    split; intros (q & r & y & -> & Hq & Hy); exists q, r, y; rewrite ?Eu in *; auto.
Qed.
End Selected.

Scheme used_mut := Minimality for used Sort Prop with attempt_mut := Minimality for attempt Sort Prop.
Combined Scheme used_attempt from used_mut, attempt_mut.

(** Combining into a new tree. *)
Section Join.
Context (rd rdB rd' rdB' : reader) (FA : flaky rd' rd) (FB : flaky rdB' rdB).
Context (t u : node) (m mu : kmap) (A : winv rd t m) (U : winv rdB u mu).
Context (f' : blob -> blob -> res (option blob)) (h : bytes -> bytes -> option bytes).
Context (F : flaky2 f' (combiner rd rdB h)).

Definition goes_new (G : nat -> res node) (m' : kmap) : Prop :=
  (exists w, G ⇓ Ok w /\ winv detached_read w m') \/
  (G ⇓ Err /\ ~ (rd' = rd /\ rdB' = rdB /\ forall k, ~ hit rd rdB f' m mu k)) \/
  (G ⇓ Panic /\ ~ (unstored rd /\ unstored rdB)).

Lemma goes_new_intro (op : reader -> reader -> (blob -> blob -> res (option blob)) -> nat -> noderef -> noderef -> res node)
    (gf : option bytes -> option bytes -> option bytes) (m' : kmap) :
  (forall r1 r2 f a b, mono (fun n => op r1 r2 f n a b)) ->
  (forall n a b, SimErr.sim (op rd' rdB' f' n a b) (op rd rdB (combiner rd rdB h) n a b)) ->
  (forall (al : Prop) f (P : bytes -> bytes -> Prop), (det rd \/ al) -> (det rdB \/ al) ->
     (forall av bv x y, P x y -> RepV rd av (Some x) -> RepV rdB bv (Some y) ->
        okp al (f av bv) (fun r => option_map blob_slice r = h x y)) ->
     forall fuel, nrec false false rd rdB al P gf (op rd rdB f fuel) (fuel - 2)) ->
  (forall k, gf (m k) (mu k) = m' k) ->
  goes_new (fun n => op rd' rdB' f' n (ROwned t) (ROwned u)) m'.
Proof.
  intros Mono Sm Hok Em. destruct A as (g & R & W & E), U as (gu & Ru & Wu & Eu).
  pose (N := size g + size gu + 2).
  assert (forall (al : Prop) f (P : bytes -> bytes -> Prop), (det rd \/ al) -> (det rdB \/ al) ->
     (forall av bv x y, P x y -> RepV rd av (Some x) -> RepV rdB bv (Some y) ->
        okp al (f av bv) (fun r => option_map blob_slice r = h x y)) -> common P g gu ->
     okp al (op rd rdB f N (ROwned t) (ROwned u)) (npost gf g gu)) as Run.
  { intros al f P H1 H2 H3 H4. eapply (Hok al f P H1 H2 H3 N); auto using Rep_NRep. unfold N. lia. }
  pose proof (Run True (combiner rd rdB h) (fun _ _ => True) (or_intror Logic.I) (or_intror Logic.I)
    (fun av bv x y _ Ha Hb => okp_False _ _ _ (combiner_ok rd rdB h av bv x y Ha Hb)) ltac:(intros k x y _ _; exact Logic.I)) as Ref.
  assert (forall x, x <> Fuel -> op rd' rdB' f' N (ROwned t) (ROwned u) = x ->
    (fun n => op rd' rdB' f' n (ROwned t) (ROwned u)) ⇓ x) as Cv.
  { intros x Hx Ex. split; [exact Hx|]. exists N. intros n Hn.
    destruct (Mono rd' rdB' f' (ROwned t) (ROwned u) N n Hn) as [H|[[H _]|H]]; congruence. }
  assert (op rd' rdB' f' N (ROwned t) (ROwned u) = Err ->
    ~ (rd' = rd /\ rdB' = rdB /\ forall k, ~ hit rd rdB f' m mu k)) as Calm.
  { intros Ex (-> & -> & Nh).
    assert (okp True (op rd rdB f' N (ROwned t) (ROwned u)) (npost gf g gu)) as K.
    { eapply (Run True f' (fun x y => ~ fails_on rd rdB f' x y)); [now right|now right| |].
      - intros av bv x y Hp Ha Hb. destruct (F av bv) as [Ef|Ef].
        + destruct Hp. exists av, bv. split; [now apply RepV_value_load|]. split; [now apply RepV_value_load|exact Ef].
        + rewrite Ef. apply okp_False. now apply combiner_ok.
      - intros k x y Hx Hy Hfl. apply (Nh k). exists x, y. rewrite <- E, <- Eu. auto. }
    destruct K as [(w & K & _)|[K _]]; congruence. }
  destruct (Sm N (ROwned t) (ROwned u)) as [Ex|Ex].
  - right. left. split; [now apply Cv|now apply Calm].
  - destruct Ref as [(w & Er & (g' & Rg & Wg & Lg & _))|[Er _]].
    + left. exists w. split; [apply Cv; [discriminate|congruence]|].
      exists g'. split; [exact Rg|]. split; [exact Wg|]. intros k. now rewrite Lg, E, Eu, Em.
    + right. right. split; [apply Cv; [discriminate|congruence]|]. intros [Sa Sb].
      destruct (Run False (combiner rd rdB h) (fun _ _ => True) (or_introl Sa) (or_introl Sb)
        (fun av bv x y _ Ha Hb => combiner_ok rd rdB h av bv x y Ha Hb) ltac:(intros k x y _ _; exact Logic.I)) as [(w & Ew & _)|[_ []]].
      congruence.
Qed.

Lemma go_join dbg G m' : joins dbg rd' rdB' t u m mu f' h G m' -> goes_new G m'.
Proof.
  assert (forall a b, SimErr.sim (f' a b) (combiner rd rdB h a b)) as Sf by (intros a b; exact (F a b)).
  destruct 1.
  - apply (goes_new_intro (outer_combine dbg) (gO h)).
    + intros r1 r2 f a b n1 n2 L. apply outer_combine_sim; auto using rsim_refl, sim_refl.
    + intros. apply SimErr.outer_combine_sim; auto.
    + intros al f P H1 H2 H3. now apply w_outer_ok.
    + intros k. unfold m_outer, gO. destruct (m k), (mu k); reflexivity.
  - apply (goes_new_intro (inner_combine dbg) (gI h)).
    + intros r1 r2 f a b n1 n2 L. apply inner_combine_sim; auto using rsim_refl, sim_refl.
    + intros. apply SimErr.inner_combine_sim; auto.
    + intros al f P H1 H2 H3. now apply w_inner_ok.
    + intros k. unfold m_inner, gI. destruct (m k), (mu k); reflexivity.
  - apply (goes_new_intro (left_combine dbg) (gL h)).
    + intros r1 r2 f a b n1 n2 L. apply left_combine_sim; auto using rsim_refl, sim_refl.
    + intros. apply SimErr.left_combine_sim; auto.
    + intros al f P H1 H2 H3. now apply w_left_ok.
    + intros k. unfold m_left, gL. destruct (m k), (mu k); reflexivity.
Qed.
End Join.

Lemma leaves_fun f t r t' r' : leaves f t r -> leaves f t' r' -> t = t' /\ r = r'.
Proof.
  intros (_ & n & H) (_ & n' & H'). assert ((t, r) = (t', r')) as E.
  { rewrite <- (H (n + n')) by lia. apply H'. lia. }
  injection E; auto.
Qed.

Lemma used_attempt_inv keep dbg :
  (forall rd t m, used keep dbg rd t m -> winv rd t m) /\
  (forall rd t m f m' lost safe calm, attempt keep dbg rd t m f m' lost safe calm ->
     winv rd t m -> goes rd m f m' lost safe calm).
Proof.
  apply (used_attempt keep dbg winv (fun rd t m f m' lost safe calm => winv rd t m -> goes rd m f m' lost safe calm)).
  - intros rd t m T. destruct (tree_of_good _ _ _ _ T) as (g & (R & C & _) & E). exists g.
    split; [exact R|]. split; [now apply croot_wroot|exact E].
  - intros rd t m f m' lost safe calm t' r now _ I _ G L Hr Rd.
    destruct (G I) as (t2 & r2 & L2 & H). destruct (leaves_fun _ _ _ _ _ L L2) as [-> ->].
    destruct H as [[_ H]|[(_ & _ & now' & H & _)|[H _]]].
    + eapply winv_ext; [exact H|]. eapply readable_same; [apply winv_readable; exact H|exact Rd].
    + eapply winv_ext; [exact H|]. eapply readable_same; [apply winv_readable; exact H|exact Rd].
    + destruct Hr; congruence.
  - intros rd t m p x t' _ I C. destruct (winv_filter rd t m p x I) as (t2 & C2 & I2).
    pose proof (conv_fun _ _ _ C C2) as E. injection E as ->. exact I2.
  - intros rd t m d ts t' now _ I Hd C Hin Rd. destruct (winv_group rd t m d I Hd) as (ts2 & ls & C2 & F & _).
    pose proof (conv_fun _ _ _ C C2) as E. injection E as ->. clear C C2.
    destruct (Forall2_in_l _ _ _ F t' Hin) as (l & _ & mu & Iu & _).
    eapply winv_ext; [exact Iu|]. eapply readable_same; [apply winv_readable; exact Iu|exact Rd].
  - intros rd t m t' _ I C. destruct (winv_detach rd t m I) as (t2 & C2 & I2).
    pose proof (conv_fun _ _ _ C C2) as E. injection E as ->. exact I2.
  - intros rd rd' t m rdB rdB' u mu f' h F m' t' _ A _ U FA FB Ff J C.
    destruct (go_join rd rdB rd' rdB' FA FB t u m mu A U f' h Ff dbg F m' J) as [(w & Cw & I)|[[Cw _]|[Cw _]]];
      pose proof (conv_fun _ _ _ C Cw) as E; try discriminate. injection E as ->. exact I.
  - intros. now apply go_insert.
  - intros. now apply go_remove.
  - intros. now apply go_remove_prefix.
  - intros. now apply go_outer.
  - intros. now apply go_inner.
  - intros. now apply go_left.
  - intros. now apply go_remove_prefix_with.
  - intros. now apply go_retain_prefix_with.
Qed.

Theorem used_ok keep dbg rd t m : used keep dbg rd t m -> readable rd t m /\
  forall f m' lost safe calm, attempt keep dbg rd t m f m' lost safe calm ->
  exists t' r, leaves f t' r /\ comes_to rd m f m' lost safe calm t' r.
Proof.
  intros Hu. destruct (used_attempt_inv keep dbg) as [H1 H2]. pose proof (H1 _ _ _ Hu) as I.
  split; [now apply winv_readable|]. intros f m' lost safe calm Ha.
  destruct (H2 _ _ _ _ _ _ _ _ Ha I) as (t' & r & L & H). exists t', r. split; [exact L|].
  destruct H as [[-> H]|[(-> & Hc & now & H & P)|H]].
  - left. split; [reflexivity|now apply winv_readable].
  - right. left. split; [reflexivity|]. split; [exact Hc|]. exists now. split; [now apply winv_readable|exact P].
  - right. now right.
Qed.

(** The queries. *)
Lemma winv_reads rd t m : winv rd t m ->
  (forall k, exists b, t_contains_key rd t k ⇓ Ok b /\ (b = true <-> m k <> None)) /\
  (forall p, exists b, t_has_prefix rd t p ⇓ Ok b /\ ((exists k, m k <> None /\ starts_with p k = true) -> b = true)) /\
  (exists l, lists l m /\ values_bytes rd t ⇓ Ok (map snd l)) /\
  (forall p, exists l l' e, scan_bytes rd t p ⇓ Ok l' /\ lists_where (fun k => starts_with p k = true) l m /\
     Forall2 (fun a b => snd a = snd b /\ exists z, fst a = p ++ z /\ fst b = p ++ e ++ z) l l') /\
  (forall p x, exists t', t_filter_prefix rd t p x ⇓ Ok t' /\ readable rd t' (m_filter_prefix m p x)).
Proof.
  intros I. pose proof I as (g & R & W & Em). split; [|split; [|split; [|split]]].
  - intros k. exists (match lookup g k with Some _ => true | None => false end). split.
    + apply conv_from with (n := S (size g)). intros n Hn. unfold t_contains_key.
      now apply (w_contains_key_ok false).
    + rewrite <- Em. destruct (lookup g k); split; congruence.
  - intros p. apply (conv_ok (t_has_prefix rd t p) (S (size g))).
    + intros a b L. unfold t_has_prefix. unfold has_prefix. apply sim_bind; [apply find_sim; [apply rsim_refl|exact L]|].
      intros. apply sim_refl.
    + destruct (w_has_prefix_ok false rd (S (size g)) t g p R W ltac:(lia)) as (b & E & H). exists b.
      split; [exact E|]. intros (k & Hk & Hp). apply starts_with_spec in Hp as [z ->]. apply H. exists z. now rewrite Em.
  - destruct (conv_ok (t_values rd t) (4 * size g + 10)
      (fun l => Forall2 (vrel rd) l (vals g))) as (l & Cl & Hl).
    + apply mono_collect. intros. apply vi_next_sim; [apply rsim_refl|assumption].
    + apply vi_collect_ok with (ids := false); auto. pose proof (vals_size g). lia.
    + exists (entries [] g). split.
      * destruct (w_lists g W) as [S1 S2]. split; [exact S1|]. intros k v. rewrite (S2 k v), (Em k). tauto.
      * eapply conv_bind; [exact Cl|]. cbv beta. rewrite (load_values_ok _ _ _ Hl), (vals_entries g []).
        apply conv_const. discriminate.
  - intros k.
    destruct (w_scan_values_ok false rd (4 * size g + 10) t g k R W ltac:(lia)) as (l & e & E & F).
    exists (under k g), (map (fun a => (k ++ e ++ skipn (length k) (fst a), snd a)) (under k g)), e.
    split; [|split].
    + eapply conv_bind; [eapply conv_mono; [apply mono_scan|exact E]|]. cbv beta.
      rewrite (load_entries_ok rd l (map (fun a => (k ++ e ++ skipn (length k) (fst a), snd a)) (under k g))).
      * apply conv_const. discriminate.
      * clear E. induction F as [|a b l l' [(z & Hz & Ha) Hv] _ IH]; cbn; constructor; auto.
        split; cbn [fst snd]; [|exact Hv]. unfold bytes in *. rewrite Ha, Hz, skipn_app, skipn_all, Nat.sub_diag. reflexivity.
    + apply w_lists_under; auto using same_sym.
    + assert (Forall (fun a => exists z, fst a = k ++ z) (under k g)) as A.
      { apply Forall_forall. intros [z x] Hin. apply (w_under_in k g z x W) in Hin as (w & -> & _). cbn; eauto. }
      clear F E. induction A as [|a l' (z & Hz) _ IH]; cbn; constructor; auto. split; auto. exists z. split; auto.
      unfold bytes in *. rewrite Hz, skipn_app, skipn_all, Nat.sub_diag. reflexivity.
  - intros p x. destruct (winv_filter rd t m p x I) as (t' & C & I'). exists t'. split; [exact C|now apply winv_readable].
Qed.
Theorem used_reads keep dbg rd t m : used keep dbg rd t m ->
  (forall k, exists b, t_contains_key rd t k ⇓ Ok b /\ (b = true <-> m k <> None)) /\
  (forall p, exists b, t_has_prefix rd t p ⇓ Ok b /\ ((exists k, m k <> None /\ starts_with p k = true) -> b = true)) /\
  (exists l, lists l m /\ values_bytes rd t ⇓ Ok (map snd l)) /\
  (forall p, exists l l' e, scan_bytes rd t p ⇓ Ok l' /\ lists_where (fun k => starts_with p k = true) l m /\
     Forall2 (fun a b => snd a = snd b /\ exists z, fst a = p ++ z /\ fst b = p ++ e ++ z) l l') /\
  (forall p x, exists t', t_filter_prefix rd t p x ⇓ Ok t' /\ readable rd t' (m_filter_prefix m p x)).
Proof. intros H. apply winv_reads. now apply (used_attempt_inv keep dbg). Qed.

Theorem used_groups keep dbg rd t m d : used keep dbg rd t m -> (forall path r, exists b, d path r = Ok b) ->
  exists ts ls, t_group_by rd t d ⇓ Ok ts /\
    Forall2 (fun u l => exists mu, used keep dbg rd u mu /\ readable rd u mu /\ lists l mu) ts ls /\ lists (concat ls) m.
Proof.
  intros H Hd. destruct (winv_group rd t m d (proj1 (used_attempt_inv keep dbg) _ _ _ H) Hd) as (ts & ls & C & F & L).
  exists ts, ls. split; [exact C|]. split; [|exact L].
  assert (forall u, In u ts -> forall mu, readable rd u mu -> used keep dbg rd u mu) as Hu.
  { intros u Hi mu Hr. eapply used_grouped; eauto. }
  clear C L. induction F as [|u l ts ls (mu & Iu & Lu) F IH]; constructor.
  - apply winv_readable in Iu. exists mu. split; [apply Hu; [now left|exact Iu]|]. split; assumption.
  - apply IH. intros v Hv. apply Hu. now right.
Qed.

(** Detaching and saving. *)
Theorem used_detach keep dbg rd t m : used keep dbg rd t m ->
  exists u, t_detached rd t ⇓ Ok u /\ used keep dbg detached_read u m.
Proof.
  intros H. destruct (winv_detach rd t m) as (u & C & _); [now apply (used_attempt_inv keep dbg)|].
  exists u. split; [exact C|]. now apply used_detached with (rd := rd) (t := t).
Qed.
Section Save.
Context (S : store) (inv : st S -> Prop) (L : lawful S inv) (s : st S) (I : inv s).
Context (t : node) (m : kmap) (Iw : winv detached_read t m).
Lemma winv_attach :
  (exists t' s' u, t_attached S t s = (Ok t', s') /\ inv s' /\ readable (st_read S s') t' m /\
     t_detached (st_read S s') t' ⇓ Ok u /\ winv detached_read u m) \/
  (exists s', t_attached S t s = (Err, s') /\ inv s' /\ may_refuse S inv).
Proof.
  destruct Iw as (g & R & W & Em).
  pose proof (attached_ok (logged S) (linv S inv) (logged_strict S inv L) true g t (s, []) (linv_start S inv s I)
    (Rep_detached _ true _ _ _ R) (or_introl eq_refl)) as P.
  destruct (wpost_logged S inv L _ (t_attached S t) s (fun t' s' => Rep true (st_read S s') t' g)
    (fwd_attached S inv L t)) as [(t' & s' & Ew & I' & R')|W']; [|left|right; exact W'].
  { eapply wpost_imp; [exact P|]. cbv beta. intros t' s' _ _ [R' E'] I'.
    eapply Rep_mono; [|intros X; exact X|exact R']. intros id x. now apply (linv_more S inv L). }
  destruct (Rep_detach _ _ _ _ R') as (u & C & Ru). exists t', s', u.
  split; [exact Ew|]. split; [exact I'|]. split; [|split; [exact C|]].
  - eapply readable_ext; [exact Em|]. now apply (w_readable true).
  - exists g. auto.
Qed.
Lemma winv_reattach :
  (exists id t' s', t_reattach S t s = (Ok (id, t'), s') /\ inv s' /\ t_load S s' (Some id) = Ok t' /\
     readable (st_read S s') t' m) \/
  (exists s', t_reattach S t s = (Err, s') /\ inv s' /\ may_refuse S inv).
Proof.
  destruct Iw as (g & R & W & Em).
  pose proof (reattach_ok (logged S) (linv S inv) (logged_strict S inv L) true g t (s, []) (linv_start S inv s I)
    (Rep_detached _ true _ _ _ R) (or_introl eq_refl)) as P.
  destruct (wpost_logged S inv L _ (t_reattach S t) s (fun x s' => t_load S s' (Some (fst x)) = Ok (snd x) /\ Rep true (st_read S s') (snd x) g)
    (fwd_reattach S inv L t)) as [([id t'] & s' & Ew & I' & El & R')|W']; [|left|right; exact W'].
  { eapply wpost_imp; [exact P|]. cbv beta. intros [id t'] s' _ _ (El & R' & E') I'. cbn [fst snd] in *. split.
    - assert (exists d, st_read (logged S) s' id = Ok d /\ deserialize d = Ok t') as (d & Ed & Ee).
      { unfold t_load in El. destruct (st_read (logged S) s' id) as [d| | |]; try discriminate El. exists d. auto. }
      unfold t_load. rewrite (linv_more S inv L s' id d I' Ed). exact Ee.
    - eapply Rep_mono; [|intros X; exact X|exact R']. intros i x. now apply (linv_more S inv L). }
  exists id, t', s'. cbn [fst snd] in *. split; [exact Ew|]. split; [exact I'|]. split; [exact El|].
  eapply readable_ext; [exact Em|]. now apply (w_readable true).
Qed.
End Save.
Theorem used_saved keep dbg t m : used keep dbg detached_read t m -> forall S inv s, lawful S inv -> inv s ->
  ((exists t' s', t_attached S t s = (Ok t', s') /\ inv s' /\ readable (st_read S s') t' m /\
     exists u, t_detached (st_read S s') t' ⇓ Ok u /\ readable detached_read u m) \/
   (exists s', t_attached S t s = (Err, s') /\ inv s' /\ may_refuse S inv)) /\
  ((exists id t' s', t_reattach S t s = (Ok (id, t'), s') /\ inv s' /\ t_load S s' (Some id) = Ok t' /\
     readable (st_read S s') t' m) \/
   (exists s', t_reattach S t s = (Err, s') /\ inv s' /\ may_refuse S inv)).
Proof.
  intros U S inv s L I. pose proof (proj1 (used_attempt_inv keep dbg) _ _ _ U) as Iw. split.
  - destruct (winv_attach S inv L s I t m Iw) as [(t' & s' & u & A & B & C & D & E)|H]; [left|now right].
    exists t', s'. split; [exact A|]. split; [exact B|]. split; [exact C|]. exists u. split; [exact D|now apply winv_readable].
  - now apply winv_reattach.
Qed.
