(** What is left of a tree when an operation that modifies it in place fails. *)
From Verif Require Import Base BaseLemmas Header Node Combine Tree Rep JoinBase JoinProofs WithProofs PrefixProofs
  InPlace InPlaceAgree WeakFind.
From Verif Require SimErr.

(** [P] holds of what an operation leaves behind when it fails. *)
Definition errs {X} (x : left_in X) (P : X -> Prop) : Prop := snd x = Err -> P (fst x).

Lemma errs_try {X A} (s : X) (r : res A) k (P : X -> Prop) :
  (r = Err -> P s) -> (forall x, r = Ok x -> errs (k x) P) -> errs (try s r k) P.
Proof. intros H1 H2. destruct r; cbn; [now apply H2|intros _; auto|discriminate|discriminate]. Qed.
Lemma errs_pair {X Y} (p : left_in X) (k : X -> res unit -> left_in Y) (P : Y -> Prop) :
  (forall x, p = (x, Err) -> errs (k x Err) P) -> (forall x, p = (x, Ok tt) -> errs (k x (Ok tt)) P) ->
  (forall x, errs (k x Panic) P) -> (forall x, errs (k x Fuel) P) ->
  errs (let (x, r) := p in k x r) P.
Proof. intros H1 H2 H3 H4. destruct p as [x [[]| | |]]; auto. Qed.
Lemma errs_weaken {X} (x : left_in X) (P Q : X -> Prop) : errs x P -> (forall y, P y -> Q y) -> errs x Q.
Proof. unfold errs. auto. Qed.

Lemma canonicalize_noerr dbg n : canonicalize dbg n <> Err.
Proof.
  unfold canonicalize. destruct (dbg && _); [discriminate|].
  destruct (blob_opt (n_value n)) as [|]; [|destruct (n_kids n) as [[|c [|]]|]];
    try (destruct (dbg && _)); cbn; try discriminate; destruct (_ && _); discriminate.
Qed.
Lemma errs_finish dbg a P : errs (finish_in dbg a) P.
Proof.
  unfold finish_in. apply errs_try; [intros E; now apply canonicalize_noerr in E|]. intros x _. discriminate.
Qed.

Definition tleaf (t : tree) : Prop := tc t = [] /\ tv t <> None.

Section Mid.
Context (keep dbg : bool) (idsA idsB : bool) (rdA rdB rdA' rdB' : reader) (al : Prop).
Context (HdB : det rdB \/ al) (FA : SimErr.rsim rdA' rdA) (FB : SimErr.rsim rdB' rdB).
(** [strict]: the tree stays canonical if the other one has a single entry. *)
Context (strict : Prop) (Skeep : strict -> keep = true).

Notation NB := (NRep idsB rdB al).
Notation IB := (IRepT idsB rdB al).
Notation OB := (ORep idsB rdB al).
Notation RA := (Rep idsA rdA).

Section Generic.
(** [lossy]: entries with these values may get lost. *)
Context {B : Type} (lossy : option bytes -> B -> Prop) (Hkeep : keep = false -> forall o y, lossy o y).
Context (d : B) (ob : tree -> bytes -> B) (g : option bytes -> B -> option bytes).
Context (g0 : g None d = None).
Context (obs : forall b k x q, tp b = x :: q -> starts b k = false -> ob b k = d).
Context (Snd : strict -> nondel g).
Context (Q : tree -> Prop).

(** The old entry, the new one, or nothing. *)
Definition mid (o : option bytes) (y : B) (r : option bytes) : Prop :=
  r = o \/ r = g o y \/ (lossy o y /\ r = None).

Record KM (xs ys rs : list tree) : Prop := {
  KM_sorted : ksorted rs;
  KM_wcc : Forall wcc rs;
  KM_above : forall c, above c xs -> above c ys -> above c rs;
  KM_look : forall k, k <> [] -> mid (lkids xs k) (okids d ob ys k) (lkids rs k);
  KM_strict : strict -> Forall tleaf ys -> Forall cc rs /\ length xs <= length rs /\ (xs = [] -> rs = []) }.

Definition midt (ta tb t : tree) : Prop :=
  wroot t /\ (forall x q q', tp ta = x :: q -> tp tb = x :: q' -> exists q'', tp t = x :: q'') /\
  (forall k, mid (lookup ta k) (ob tb k) (lookup t k)) /\ (strict -> tleaf tb -> croot t).
Definition midw (ta tb : tree) (n : node) : Prop := exists t, RA n t /\ midt ta tb t.
Definition kmid (xs ys : list tree) (l : list node) : Prop := exists rs, Forall2 RA l rs /\ KM xs ys rs.

Definition recm (rec : node -> noderef -> left_in node) (M : nat) : Prop :=
  forall na rb ta tb, RA na ta -> NB rb tb -> croot ta -> croot tb -> Q tb -> size ta + size tb <= M ->
    (forall n, rec na rb = (n, Ok tt) -> postw idsA rdA ob g ta tb n) /\ errs (rec na rb) (midw ta tb).

Lemma midt_old ta tb : croot ta -> midt ta tb ta.
Proof.
  intros C. split; [now apply croot_wroot|]. split; [eauto|]. split; [intros k; now left|]. auto.
Qed.
Lemma midw_old ta tb n : RA n ta -> croot ta -> midw ta tb n.
Proof. intros R C. exists ta. split; [exact R|]. now apply midt_old. Qed.

Lemma KM_keep xs ys : ksorted xs -> Forall cc xs -> KM xs ys xs.
Proof. intros S C. split; auto using ccs_wccs. intros k _. now left. Qed.
Lemma KM_none xs ys : (forall o y, lossy o y) -> ~ strict -> KM xs ys [].
Proof. intros L N. split.
  - constructor.
  - constructor.
  - constructor.
  - intros k _. right. now right.
  - tauto.
Qed.

Lemma rest_ok na xs ys : Forall2 RA na xs -> ksorted xs -> Forall cc xs -> kmid xs ys (rest keep na).
Proof.
  intros F S C. unfold rest. destruct (Bool.bool_dec keep true) as [E|E].
  - rewrite E. exists xs. split; [exact F|]. now apply KM_keep.
  - apply Bool.not_true_is_false in E. rewrite E. exists []. split; [constructor|]. apply KM_none; auto.
    intros Hs. apply Skeep in Hs. congruence.
Qed.

Lemma KM_a a x q xs ys rs : cc a -> tp a = x :: q -> above x xs -> above x ys ->
  KM xs ys rs -> KM (a :: xs) ys (a :: rs).
Proof.
  intros Ha E Hx Hy [K1 K2 K3 K4 K5]. split.
  - apply (ksorted_cons _ _ _ _ E). auto.
  - constructor; auto using cc_wcc.
  - intros c Hc Hc'. apply above_cons in Hc as [Hc1 Hc]. apply above_cons. auto.
  - intros [|y k] Hk; [congruence|]. cbn [lkids].
    destruct (starts a (y :: k)) eqn:S; [now left|apply K4; congruence].
  - intros St L. destruct (K5 St L) as (C & Le & _). split; [now constructor|]. split; [cbn; lia|discriminate].
Qed.
Lemma KM_a_drop a x q xs ys rs : (forall o, g o d = None) -> tp a = x :: q -> above x xs -> above x ys ->
  ~ strict -> KM xs ys rs -> KM (a :: xs) ys rs.
Proof.
  intros Hg E Hx Hy NS [K1 K2 K3 K4 K5]. split; auto; try tauto.
  - intros c Hc Hc'. apply above_cons in Hc as [Hc1 Hc]. auto.
  - intros [|y k] Hk; [congruence|]. cbn [lkids].
    destruct (starts a (y :: k)) eqn:S; [|apply K4; congruence].
    unfold starts in S. rewrite E in S. destruct (byte_eqb_spec x y); [subst|congruence].
    right. left. rewrite (okids_above d ob) by assumption. rewrite Hg. now apply lkids_above, K3.
Qed.
Lemma KM_b b x q xs ys rs : (forall k, lookup b k = g None (ob b k)) ->
  (strict -> xs <> []) -> cc b -> tp b = x :: q -> above x xs -> above x ys ->
  KM xs ys rs -> KM xs (b :: ys) (b :: rs).
Proof.
  intros Hg Hne Hb E Hx Hy [K1 K2 K3 K4 K5]. split.
  - apply (ksorted_cons _ _ _ _ E). auto.
  - constructor; auto using cc_wcc.
  - intros c Hc Hc'. apply above_cons in Hc' as [Hc1 Hc']. apply above_cons. auto.
  - intros [|y k] Hk; [congruence|]. cbn [lkids okids].
    destruct (starts b (y :: k)) eqn:S; [|apply K4; congruence].
    unfold starts in S. rewrite E in S. destruct (byte_eqb_spec x y); [subst|congruence].
    right. left. rewrite (lkids_above _ xs) by assumption. apply Hg.
  - intros St L. inversion L; subst. destruct (K5 St) as (C & Le & _); [assumption|]. split; [now constructor|].
    split; [cbn; lia|]. intros Hn. now destruct (Hne St).
Qed.
Lemma KM_b_drop b x q xs ys rs : tp b = x :: q -> above x xs -> above x ys ->
  KM xs ys rs -> KM xs (b :: ys) rs.
Proof.
  intros E Hx Hy [K1 K2 K3 K4 K5]. split; auto.
  - intros c Hc Hc'. apply above_cons in Hc' as [Hc1 Hc']. auto.
  - intros [|y k] Hk; [congruence|]. cbn [okids].
    destruct (starts b (y :: k)) eqn:S; [|apply K4; congruence].
    unfold starts in S. rewrite E in S. destruct (byte_eqb_spec x y); [subst|congruence].
    left. rewrite (lkids_above _ xs) by assumption. now apply lkids_above, K3.
  - intros St L. inversion L; subst. auto.
Qed.
(** A child was processed, a later one failed. *)
Lemma KM_both a b r x q q' xs ys rs :
  croot r -> (forall k, lookup r k = g (lookup a k) (ob b k)) ->
  cc a -> tp a = x :: q -> tp b = x :: q' -> above x xs -> above x ys ->
  KM xs ys rs -> KM (a :: xs) (b :: ys) (if tnil r then rs else r :: rs).
Proof.
  intros Hr Hl Ha Ea Eb Hx Hy [K1 K2 K3 K4 K5].
  assert (forall k, lookup r k <> None -> exists k', k = x :: k') as Hk.
  { intros k Hk. rewrite Hl in Hk. destruct (starts b k) eqn:S.
    - destruct k as [|y k]; [now rewrite starts_nil in S|].
      unfold starts in S. rewrite Eb in S. destruct (byte_eqb_spec x y); [subst; eauto|congruence].
    - assert (starts a k = false) as S'.
      { revert S. unfold starts. now rewrite Ea, Eb. }
      rewrite (lookup_not_starts _ _ _ _ Ea S'), (obs _ _ _ _ Eb S), g0 in Hk. congruence. }
  destruct (tnil r) eqn:En.
  - apply (croot_tnil _ Hr) in En. subst r. split; auto.
    + intros c Hc Hc'. apply above_cons in Hc as [_ Hc], Hc' as [_ Hc']. auto.
    + intros [|y k] Hky; [congruence|]. cbn [lkids okids].
      unfold starts. rewrite Ea, Eb. destruct (byte_eqb_spec x y) as [->|Ny].
      * right. left. rewrite <- Hl, tempty_lookup. apply lkids_above. auto.
      * apply K4. congruence.
    + intros St. exfalso. destruct (cc_has_key _ Ha) as [k Hka].
      specialize (Hl k). rewrite tempty_lookup in Hl.
      destruct (lookup a k) as [v|]; [|congruence]. now destruct (Snd St v (ob b k)).
  - assert (r <> tempty) as Nr by (intros ->; discriminate).
    destruct (croot_first _ _ Hr Nr Hk) as [Hcr [qr Er]]. split.
    + apply (ksorted_cons _ _ _ _ Er). auto.
    + constructor; auto using cc_wcc.
    + intros c Hc Hc'. apply above_cons in Hc as [Hc1 Hc], Hc' as [_ Hc']. apply above_cons.
      split; [|auto]. rewrite Er. now rewrite Ea in Hc1.
    + intros [|y k] Hky; [congruence|]. cbn [lkids okids].
      unfold starts. rewrite Er, Ea, Eb. destruct (byte_eqb_spec x y) as [->|Ny].
      * right. left. apply Hl.
      * apply K4. congruence.
    + intros St L. inversion L; subst. destruct (K5 St) as (C & Le & _); [assumption|]. split; [now constructor|].
      split; [cbn; lia|discriminate].
Qed.
(** A child failed. *)
Lemma KM_fail a b t x q q' xs ys : midt a b t -> tp a = x :: q -> tp b = x :: q' -> above x xs -> above x ys ->
  ksorted xs -> Forall cc xs -> KM (a :: xs) (b :: ys) (t :: xs).
Proof.
  intros (W & Hp & Hl & Hs) Ea Eb Hx Hy So C. destruct (Hp _ _ _ Ea Eb) as [q2 Et]. split.
  - apply (ksorted_cons _ _ _ _ Et). auto.
  - constructor; [|now apply ccs_wccs]. apply wroot_wcc; [exact W|]. rewrite Et. discriminate.
  - intros c Hc Hc'. apply above_cons in Hc as [Hc1 Hc]. apply above_cons. rewrite Et. rewrite Ea in Hc1. auto.
  - intros [|y k] Hky; [congruence|]. cbn [lkids okids]. unfold starts. rewrite Et, Ea, Eb.
    destruct (byte_eqb_spec x y) as [->|Ny]; [apply Hl|now left].
  - intros St L. inversion L; subst. split; [|split; [cbn; lia|discriminate]]. constructor; [|exact C].
    apply croot_cc; [auto|]. rewrite Et. discriminate.
Qed.

Lemma fail_ok n na xs ys a b x q q' : midw a b n -> Forall2 RA na xs -> tp a = x :: q -> tp b = x :: q' ->
  above x xs -> above x ys -> ksorted xs -> Forall cc xs -> kmid (a :: xs) (b :: ys) (rest keep (n :: na)).
Proof.
  intros (t & R & M) F Ea Eb Hx Hy So C. unfold rest. destruct (Bool.bool_dec keep true) as [E|E].
  - rewrite E. exists (t :: xs). split; [now constructor|]. eapply KM_fail; eauto.
  - apply Bool.not_true_is_false in E. rewrite E. exists []. split; [constructor|]. apply KM_none; auto.
    intros Hs. apply Skeep in Hs. congruence.
Qed.

Section Loops.
Context (rec : node -> noderef -> left_in node) (M : nat) (Hrec : recm rec M).

Lemma both_mid n ns ta tb xs ys x q q' : postw idsA rdA ob g ta tb n -> kmid xs ys ns ->
  cc ta -> tp ta = x :: q -> tp tb = x :: q' -> above x xs -> above x ys ->
  kmid (ta :: xs) (tb :: ys) (if is_empty n then ns else n :: ns).
Proof.
  intros (t & R & Em & Hr & Hl) (rs & F & K) Ca Ea Eb Aa Ab.
  exists (if tnil t then rs else t :: rs). split.
  - rewrite Em. destruct (tnil t); auto.
  - eapply KM_both; eauto.
Qed.

Lemma left_loop_mid : forall fuel na itb xs ys,
  Forall2 RA na xs -> IB itb ys -> ksorted xs -> ksorted ys -> Forall cc xs -> Forall cc ys ->
  Forall Q ys -> sizes xs + sizes ys <= M ->
  errs (left_loop_in keep rec fuel na itb) (kmid xs ys).
Proof.
  induction fuel as [|fuel IH]; intros na itb xs ys Ia Ib Sa Sb Ca Cb HQ HM; [discriminate|].
  cbn [left_loop_in].
  destruct (cmp_with_cases idsA idsB rdA rdB al _ _ _ _ Ia Ib Sa Sb Ca Cb)
    as [-> -> -> -> | a xs' x q m na' -> -> E Aa Ab R I' -> | b ys' y q rb itb' -> E Aa Ab R I' N ->
       | a b xs' ys' x q q' m na' rb itb' -> -> -> Ea Eb Aa Ab Ra Ia' Rb Ib' N ->].
  - discriminate.
  - rewrite sizes_cons in *. inversion Ca; subst. pose proof (size_pos a).
    apply errs_pair; try discriminate. intros ns El. intros _. cbn [fst].
    destruct (IH na' itb xs' ys I' Ib (ksorted_tail _ _ Sa) Sb) as (rs & Fn & K); auto; [lia|now rewrite El|].
    rewrite El in Fn. exists (a :: rs). split; [now constructor|]. eapply KM_a; eauto.
  - rewrite N. rewrite sizes_cons in *. inversion Cb; inversion HQ; subst.
    eapply errs_weaken; [apply (IH na itb' xs ys'); eauto using ksorted_tail; lia|].
    intros ns (rs & Fn & K). exists rs. split; [auto|]. eapply KM_b_drop; eauto.
  - rewrite N. rewrite !sizes_cons in *. inversion Ca; inversion Cb; inversion HQ; subst.
    pose proof (size_pos a). pose proof (size_pos b).
    destruct (Hrec m rb a b) as [H1' H2']; auto using cc_croot; [lia|].
    apply errs_pair; try discriminate.
    + intros m' Em _. cbn [try fst]. unfold errs in H2'. rewrite Em in H2'. eapply fail_ok; eauto using ksorted_tail.
    + intros m' Em. cbn [try]. apply errs_pair; try discriminate. intros ns El _. cbn [fst].
      pose proof (IH na' itb' xs' ys' Ia' Ib' (ksorted_tail _ _ Sa) (ksorted_tail _ _ Sb)) as K. unfold errs in K.
      rewrite El in K. eapply both_mid; eauto. apply K; auto. lia.
Qed.
Lemma left_children_mid fuel na o xs ys :
  Forall2 RA na xs -> OB o ys -> ksorted xs -> ksorted ys -> Forall cc xs -> Forall cc ys ->
  Forall Q ys -> sizes xs + sizes ys <= M ->
  errs (left_children_in keep rec fuel na o) (kmid xs ys).
Proof.
  intros Ia Ob Sa Sb Ca Cb HQ HM. unfold left_children_in. destruct o as [itb|]; cbn in Ob; [|discriminate].
  destruct Ob as [_ Ib]. destruct na as [|m na]; [discriminate|]. now apply left_loop_mid.
Qed.

Lemma inner_loop_mid (NS : ~ strict) (gR : forall o, g o d = None) : forall fuel na itb xs ys,
  Forall2 RA na xs -> IB itb ys -> ksorted xs -> ksorted ys -> Forall cc xs -> Forall cc ys ->
  Forall Q ys -> sizes xs + sizes ys <= M ->
  errs (inner_loop_in keep rec fuel na itb) (kmid xs ys).
Proof.
  induction fuel as [|fuel IH]; intros na itb xs ys Ia Ib Sa Sb Ca Cb HQ HM; [discriminate|].
  cbn [inner_loop_in].
  destruct (cmp_with_cases idsA idsB rdA rdB al _ _ _ _ Ia Ib Sa Sb Ca Cb)
    as [-> -> -> -> | a xs' x q m na' -> -> E Aa Ab R I' -> | b ys' y q rb itb' -> E Aa Ab R I' N ->
       | a b xs' ys' x q q' m na' rb itb' -> -> -> Ea Eb Aa Ab Ra Ia' Rb Ib' N ->].
  - discriminate.
  - rewrite sizes_cons in *. inversion Ca; subst. pose proof (size_pos a).
    eapply errs_weaken; [apply (IH na' itb xs' ys); eauto using ksorted_tail; lia|].
    intros ns (rs & Fn & K). exists rs. split; [auto|]. eapply KM_a_drop; eauto.
  - rewrite N. rewrite sizes_cons in *. inversion Cb; inversion HQ; subst.
    eapply errs_weaken; [apply (IH na itb' xs ys'); eauto using ksorted_tail; lia|].
    intros ns (rs & Fn & K). exists rs. split; [auto|]. eapply KM_b_drop; eauto.
  - rewrite N. rewrite !sizes_cons in *. inversion Ca; inversion Cb; inversion HQ; subst.
    pose proof (size_pos a). pose proof (size_pos b).
    destruct (Hrec m rb a b) as [H1' H2']; auto using cc_croot; [lia|].
    apply errs_pair; try discriminate.
    + intros m' Em _. cbn [try fst]. unfold errs in H2'. rewrite Em in H2'. eapply fail_ok; eauto using ksorted_tail.
    + intros m' Em. cbn [try]. apply errs_pair; try discriminate. intros ns El _. cbn [fst].
      pose proof (IH na' itb' xs' ys' Ia' Ib' (ksorted_tail _ _ Sa) (ksorted_tail _ _ Sb)) as K. unfold errs in K.
      rewrite El in K. eapply both_mid; eauto. apply K; auto. lia.
Qed.
Lemma inner_children_mid (NS : ~ strict) (gR : forall o, g o d = None) fuel na o xs ys :
  Forall2 RA na xs -> OB o ys -> ksorted xs -> ksorted ys -> Forall cc xs -> Forall cc ys ->
  Forall Q ys -> sizes xs + sizes ys <= M ->
  errs (inner_children_in keep rec fuel na o) (kmid xs ys).
Proof.
  intros Ia Ob Sa Sb Ca Cb HQ HM. unfold inner_children_in. destruct o as [itb|]; cbn in Ob; [|discriminate].
  destruct Ob as [_ Ib]. destruct na as [|m na]; [discriminate|]. now apply inner_loop_mid.
Qed.
End Loops.

(** The end of the operations: load the children and go on there. *)
Lemma recurse_mid kids a bc p va v xs ys nx ta tb :
  RepP idsA rdA (n_prefix a) p -> RepV rdA (n_value a) v -> KidsOf rdA (n_kids a) nx -> Forall2 RA nx xs ->
  (forall o, bc = Ok o -> errs (kids nx o) (kmid xs ys)) -> ksorted xs -> Forall cc xs ->
  (forall k, lookup ta k = rawlook p va xs k) ->
  mid va (ob tb p) v -> (forall r, r <> [] -> ob tb (p ++ r) = okids d ob ys r) ->
  (forall x q q', tp ta = x :: q -> tp tb = x :: q' -> exists q2, p = x :: q2) ->
  (strict -> tleaf tb -> forall rs, KM xs ys rs -> croot (T p v rs)) ->
  errs (recurse dbg rdA' kids a bc) (midw ta tb).
Proof.
  intros RP RV RK RF Hk Sx Cx Ha Hv Ho Hp Hs.
  assert (forall rs, KM xs ys rs -> midt ta tb (T p v rs)) as HM.
  { intros rs K. split; [split; [exact (KM_sorted _ _ _ K)|exact (KM_wcc _ _ _ K)]|].
    split; [exact Hp|]. split; [|intros St L; now apply Hs]. intros k.
    rewrite Ha, lookup_raw. unfold rawlook. destruct (strip p k) as [r|] eqn:E; [|now left].
    apply strip_spec in E. subst k. destruct r as [|c r]; [now rewrite app_nil_r|].
    rewrite Ho by discriminate. apply (KM_look _ _ _ K). discriminate. }
  assert (midt ta tb (T p v xs)) as M0 by now apply HM, KM_keep.
  unfold recurse. apply errs_try.
  { intros _. exists (T p v xs). split; [|exact M0]. eapply Rep_mk; eauto. }
  intros ac E. destruct (SimErr.load_children_mut_sim rdA' rdA FA a) as [E2|E2]; [congruence|].
  rewrite (load_children_mut_ok rdA a nx RK) in E2. rewrite E2 in E. injection E as <-.
  assert (midw ta tb (set_kids a (KArc nx))) as M1.
  { exists (T p v xs). split; [|exact M0]. eapply Rep_mk; cbn; eauto. now left. }
  apply errs_try; [intros _; exact M1|]. intros o Eo. specialize (Hk o Eo).
  apply errs_pair.
  - intros l El _. cbn [try fst]. unfold errs in Hk. rewrite El in Hk. destruct (Hk eq_refl) as (rs & F & K).
    exists (T p v rs). split; [|auto]. eapply Rep_mk; cbn; eauto. now left.
  - intros l El. cbn [try]. apply errs_finish.
  - discriminate.
  - discriminate.
Qed.
End Generic.

Lemma firstn_common ap bp x q q' : ap = x :: q -> bp = x :: q' -> exists r, firstn (common_prefix ap bp) ap = x :: r.
Proof.
  intros -> ->. cbn. destruct (byte_eqb_spec x x) as [_|N]; [|congruence]. cbn. eauto.
Qed.

Lemma raw_at p v cs : rawlook p v cs p = v.
Proof. unfold rawlook. rewrite <- (app_nil_r p) at 2. now rewrite strip_app. Qed.
Lemma raw_below p v cs r : r <> [] -> rawlook p v cs (p ++ r) = okids None lookup cs r.
Proof. intros H. unfold rawlook. rewrite strip_app. destruct r; [congruence|reflexivity]. Qed.

Lemma ok_part {X} (x : left_in X) r' r (P : X -> Prop) :
  outcome x = r' -> SimErr.sim r' r -> okp al r P -> forall n, x = (n, Ok tt) -> P n.
Proof.
  intros E S O n ->. cbn in E. subst r'. destruct S as [S|S]; [discriminate|]. subst r.
  destruct O as [(y & [= <-] & H)|[O _]]; [exact H|discriminate].
Qed.

Lemma shortened_ok b t n o : NB b t -> n <= length (tp t) -> shortened rdB' b n = Ok o -> OB o [shorten n t].
Proof.
  intros R Hn E. unfold shortened in E.
  destruct (SimErr.r_clone_shortened_sim rdB' rdB FB b n) as [S|S]; rewrite S in E; [discriminate|].
  destruct (r_clone_shortened_ok idsB rdB al b t n R Hn) as [(b' & Eb & Rb' & _)|[Eb _]]; rewrite Eb in E;
    [|discriminate]. injection E as <-. now apply OB_single.
Qed.
Lemma children_ok b p v cs o : NB b (T p v cs) -> r_load_children rdB' b = Ok o -> OB o cs.
Proof.
  intros R E. destruct (SimErr.r_load_children_sim rdB' rdB FB b) as [S|S]; [congruence|].
  destruct (NRep_children _ _ _ HdB _ _ _ _ R) as (o' & Eo & H). congruence.
Qed.
Lemma splits_ok a t n a1 : RA a t -> n <= length (tp t) -> split rdA' a n = Ok a1 ->
  exists m, n_kids a1 = KArc [m] /\ RA m (shorten n t) /\ n_prefix a1 = Data (firstn n (tp t)) /\ n_value a1 = bnone.
Proof.
  intros R Hn E. destruct (SimErr.split_sim rdA' rdA FA a n) as [S|S]; [congruence|].
  destruct (split_ok idsA rdA a t n R Hn) as (n1 & m & E1 & K1 & Rm & _ & P1 & V1).
  assert (a1 = n1) as -> by congruence. eauto.
Qed.

(* ------------------------------------------------------------------ *)
Ltac prologue :=
  match goal with Ra : Rep _ _ ?na (T ?ap ?va ?xs), Rb : NRep _ _ _ ?rb (T ?bp ?vb ?ys), Ca : croot _, Cb : croot _ |- _ =>
    pose proof (Rep_inv _ _ _ _ _ _ Ra) as (RP & RV & nx & RK & RF);
    destruct (croot_kids _ Ca) as [Sa Ka]; destruct (croot_kids _ Cb) as [Sb Kb]; cbn [tc] in *;
    pose proof (RepV_opt _ _ _ RV) as VA; pose proof (NRep_value _ _ _ _ _ _ _ Rb) as VB;
    apply errs_try; [intros _; now apply midw_old|];
    let ap0 := fresh in let Eap := fresh in
    intros ap0 Eap; destruct (SimErr.load_prefix_sim rdA' rdA FA (n_prefix na)) as [Eap2|Eap2]; [congruence|];
    rewrite (RepP_load _ _ _ _ RP) in Eap2; rewrite Eap2 in Eap; injection Eap as <-;
    apply errs_try; [intros _; now apply midw_old|];
    let bp0 := fresh in let Ebp := fresh in
    intros bp0 Ebp; destruct (SimErr.load_prefix_sim rdB' rdB FB (r_prefix rb)) as [Ebp2|Ebp2]; [congruence|];
    rewrite (NRep_prefix _ _ _ _ _ _ _ Rb) in Ebp2; rewrite Ebp2 in Ebp; injection Ebp as <-
  end.

Section Joins.
Context (f f' : blob -> blob -> res blob) (h : bytes -> bytes -> option bytes).
Context (Hf : forall av bv x y, RepV rdA av (Some x) -> RepV rdB bv (Some y) ->
  okp al (f av bv) (fun r => RepV rdA r (h x y))).
Context (lossy : option bytes -> option bytes -> Prop) (Hkeep : keep = false -> forall o y, lossy o y).
Context (Ff : forall a b, SimErr.sim (f' a b) (f a b)).
Context (Lf : forall a b x y, RepV rdA a (Some x) -> RepV rdB b (Some y) -> f' a b = Err -> lossy (Some x) (Some y)).

Lemma f_cases av bv x y : RepV rdA av (Some x) -> RepV rdB bv (Some y) ->
  (f' av bv = Err -> lossy (Some x) (Some y)) /\ forall r, f' av bv = Ok r -> RepV rdA r (h x y).
Proof.
  intros Ra Rb. split; [now apply Lf|]. intros r E. destruct (Ff av bv) as [S|S]; [congruence|].
  destruct (Hf av bv x y Ra Rb) as [(z & E2 & H)|[E2 _]]; congruence.
Qed.

Section Left.
Context (Hids : idsA = false) (Hdbg : dbg = true -> det rdA \/ al) (NS : ~ strict).

Theorem left_combine_mid : forall fuel,
  recm lossy lookup (gL h) anyt (left_combine_in keep dbg rdA' rdB' f' fuel) (fuel - 2).
Proof.
  set (g := gL h).
  assert (gR : forall o, g o None = o) by (intros [|]; reflexivity).
  assert (gl : forall o, g None o = None) by reflexivity.
  assert (g0 : g None None = None) by reflexivity.
  assert (Snd : strict -> nondel g) by (intros St; now destruct NS).
  induction fuel as [|fuel IH]; intros na rb ta tb Ra Rb Ca Cb _ Hs;
    [pose proof (size_pos ta); cbn in Hs; lia|].
  split.
  { eapply ok_part; [apply out_left|apply SimErr.left_combine_with_sim with (rdA' := rdA) (rdB' := rdB) (f' := f) (fuel' := S fuel); auto|].
    eapply left_combine_with_ok; eauto. exact Logic.I. }
  destruct ta as [ap va xs], tb as [bp vb ys]. cbn [left_combine_in].
  rewrite !size_T in Hs.
  prologue.
  destruct (edges_cases ap bp) as [E1 E2 E3|E1 E2 E3|E1 E2 E3|x y E1 E2 E3 Ex Ey Nxy];
    set (n := common_prefix ap bp) in *; edge_tests.
  - subst bp.
    assert (forall v' w, RepV rdA v' w -> mid lossy g va vb w ->
      errs (recurse dbg rdA' (left_children_in keep (left_combine_in keep dbg rdA' rdB' f' fuel) fuel) (set_value na v')
             (r_load_children rdB' rb)) (midw lossy lookup g (T ap va xs) (T ap vb ys))) as G.
    { intros v' w Rv Mv. eapply recurse_mid with (d := None) (nx := nx) (p := ap) (va := va) (v := w) (xs := xs) (ys := ys); eauto.
      - intros o Eo. pose proof (children_ok _ _ _ _ _ Rb Eo). eapply left_children_mid with (M := fuel - 2); eauto using anyts, not_starts_lookup. lia.
      - intros k. apply lookup_raw.
      - rewrite lookup_raw, raw_at. exact Mv.
      - intros r Hr. rewrite lookup_raw. now apply raw_below.
      - intros St. now destruct NS. }
    destruct vb as [y|].
    + destruct VB as (bv & -> & RVb). destruct va as [x|]; rewrite VA.
      * destruct (f_cases _ _ _ _ RV RVb) as [F1 F2]. apply errs_try.
        -- intros E. exists (T ap None xs). split; [eapply Rep_mk; cbn; eauto; reflexivity|].
           split; [split; auto using ccs_wccs|]. split; [intros; eauto|]. split; [|intros St; now destruct NS].
           intros k. rewrite !lookup_raw. unfold rawlook. destruct (strip ap k) as [[|c r]|]; [|now left|now left].
           right. right. auto.
        -- intros r E. eapply G; [apply F2, E|]. right. now left.
      * replace na with (set_value na (n_value na)) by (now destruct na). eapply G; [exact RV|now left].
    + rewrite VB. replace na with (set_value na (n_value na)) by (now destruct na). eapply G; [exact RV|now left].
  - eapply recurse_mid with (d := None) (nx := nx) (p := ap) (va := va) (v := va) (xs := xs) (ys := [shorten n (T bp vb ys)]); eauto.
    + intros o Eo. apply (shortened_ok _ (T bp vb ys)) in Eo; [|exact Rb|cbn; lia].
      eapply left_children_mid with (M := fuel - 2); eauto using anyts, not_starts_lookup, cc_single_sorted.
      * constructor; [now apply shorten_cc|constructor].
      * rewrite sizes_single, size_shorten, size_T. lia.
    + intros k. apply lookup_raw.
    + now left.
    + intros r Hr. rewrite (rawlook_shorten (T bp vb ys) _ n E2). cbn [tp]. rewrite <- E3. now apply raw_below.
    + intros St. now destruct NS.
  - apply errs_try; [intros _; now apply midw_old|]. intros a1 Ea1.
    apply (splits_ok _ (T ap va xs)) in Ea1 as (m & K1 & Rm & P1 & V1); [|exact Ra|cbn; lia].
    cbn [tp] in P1. rewrite E3 in P1.
    eapply recurse_mid with (d := None) (nx := [m]) (p := bp) (va := None) (v := None) (xs := [shorten n (T ap va xs)]) (ys := ys);
      eauto using cc_single_sorted.
    + rewrite P1. now left.
    + left. exact K1.
    + intros o Eo. pose proof (children_ok _ _ _ _ _ Rb Eo).
      eapply left_children_mid with (M := fuel - 2); eauto using anyts, not_starts_lookup, cc_single_sorted.
      * constructor; [now apply shorten_cc|constructor].
      * rewrite sizes_single, size_shorten, size_T. lia.
    + constructor; [now apply shorten_cc|constructor].
    + intros k. rewrite (rawlook_shorten (T ap va xs) k n E2). cbn [tp]. now rewrite E3.
    + now left.
    + intros r Hr. rewrite lookup_raw. now apply raw_below.
    + intros St. now destruct NS.
  - apply errs_finish.
Qed.

Theorem inner_combine_mid : forall fuel,
  recm lossy lookup (gI h) anyt (inner_combine_in keep dbg rdA' rdB' f' fuel) (fuel - 2).
Proof.
  set (g := gI h).
  assert (gR : forall o, g o None = None) by (intros [|]; reflexivity).
  assert (gl : forall o, g None o = None) by reflexivity.
  assert (g0 : g None None = None) by reflexivity.
  assert (Snd : strict -> nondel g) by (intros St; now destruct NS).
  induction fuel as [|fuel IH]; intros na rb ta tb Ra Rb Ca Cb _ Hs;
    [pose proof (size_pos ta); cbn in Hs; lia|].
  split.
  { eapply ok_part; [apply out_inner|apply SimErr.inner_combine_with_sim with (rdA' := rdA) (rdB' := rdB) (f' := f) (fuel' := S fuel); auto|].
    eapply inner_combine_with_ok; eauto. exact Logic.I. }
  destruct ta as [ap va xs], tb as [bp vb ys]. cbn [inner_combine_in].
  rewrite !size_T in Hs.
  prologue.
  destruct (edges_cases ap bp) as [E1 E2 E3|E1 E2 E3|E1 E2 E3|x y E1 E2 E3 Ex Ey Nxy];
    set (n := common_prefix ap bp) in *; edge_tests.
  - subst bp.
    assert (forall v' w, RepV rdA v' w -> mid lossy g va vb w ->
      errs (recurse dbg rdA' (inner_children_in keep (inner_combine_in keep dbg rdA' rdB' f' fuel) fuel) (set_value na v')
             (r_load_children rdB' rb)) (midw lossy lookup g (T ap va xs) (T ap vb ys))) as G.
    { intros v' w Rv Mv. eapply recurse_mid with (d := None) (nx := nx) (p := ap) (va := va) (v := w) (xs := xs) (ys := ys); eauto.
      - intros o Eo. pose proof (children_ok _ _ _ _ _ Rb Eo). eapply inner_children_mid with (M := fuel - 2); eauto using anyts, not_starts_lookup. lia.
      - intros k. apply lookup_raw.
      - rewrite lookup_raw, raw_at. exact Mv.
      - intros r Hr. rewrite lookup_raw. now apply raw_below.
      - intros St. now destruct NS. }
    destruct va as [x|]; rewrite VA.
    + destruct vb as [y|].
      * destruct VB as (bv & -> & RVb). destruct (f_cases _ _ _ _ RV RVb) as [F1 F2]. apply errs_try.
        -- intros E. exists (T ap None xs). split; [eapply Rep_mk; cbn; eauto; reflexivity|].
           split; [split; auto using ccs_wccs|]. split; [intros; eauto|]. split; [|intros St; now destruct NS].
           intros k. rewrite !lookup_raw. unfold rawlook. destruct (strip ap k) as [[|c r]|]; [|now left|now left].
           right. right. auto.
        -- intros r E. eapply G; [apply F2, E|]. right. now left.
      * rewrite VB. eapply (G bnone None); [reflexivity|right; now left].
    + eapply (G bnone None); [reflexivity|now left].
  - eapply recurse_mid with (d := None) (nx := nx) (p := ap) (va := va) (v := None) (xs := xs) (ys := [shorten n (T bp vb ys)]); eauto.
    + reflexivity.
    + intros o Eo. apply (shortened_ok _ (T bp vb ys)) in Eo; [|exact Rb|cbn; lia].
      eapply inner_children_mid with (M := fuel - 2); eauto using anyts, not_starts_lookup, cc_single_sorted.
      * constructor; [now apply shorten_cc|constructor].
      * rewrite sizes_single, size_shorten, size_T. lia.
    + intros k. apply lookup_raw.
    + right. left. symmetry. rewrite (rawlook_shorten (T bp vb ys) _ n E2). cbn [tp]. rewrite <- E3, raw_at. apply gR.
    + intros r Hr. rewrite (rawlook_shorten (T bp vb ys) _ n E2). cbn [tp]. rewrite <- E3. now apply raw_below.
    + intros St. now destruct NS.
  - apply errs_try; [intros _; now apply midw_old|]. intros a1 Ea1.
    apply (splits_ok _ (T ap va xs)) in Ea1 as (m & K1 & Rm & P1 & V1); [|exact Ra|cbn; lia].
    cbn [tp] in P1. rewrite E3 in P1.
    eapply recurse_mid with (d := None) (nx := [m]) (p := bp) (va := None) (v := None) (xs := [shorten n (T ap va xs)]) (ys := ys);
      eauto using cc_single_sorted.
    + rewrite P1. now left.
    + left. exact K1.
    + intros o Eo. pose proof (children_ok _ _ _ _ _ Rb Eo).
      eapply inner_children_mid with (M := fuel - 2); eauto using anyts, not_starts_lookup, cc_single_sorted.
      * constructor; [now apply shorten_cc|constructor].
      * rewrite sizes_single, size_shorten, size_T. lia.
    + constructor; [now apply shorten_cc|constructor].
    + intros k. rewrite (rawlook_shorten (T ap va xs) k n E2). cbn [tp]. now rewrite E3.
    + now left.
    + intros r Hr. rewrite lookup_raw. now apply raw_below.
    + intros St. now destruct NS.
  - apply errs_finish.
Qed.

End Left.
Section Outer.
Context (Hids : idsA = true -> forall x y, h x y <> None).
Context (c c' : converter).
Context (HcN : forall fuel r t, NB r t -> size t < fuel ->
  okp al (conv_node c fuel r)
    (fun n => RA n t /\ (blob_is_id (r_prefix r) = false -> blob_is_id (n_prefix n) = false))).
Context (HcS : forall fuel r t k, NB r t -> k <= length (tp t) -> size t < fuel ->
  okp al (conv_node_shortened c fuel r k) (fun n => RA n (shorten k t))).
Context (HcV : forall bv y, RepV rdB bv (Some y) -> okp al (conv_value c bv) (fun v => RepV rdA v (Some y))).
Context (FcN : forall fuel fuel' r, fuel = fuel' -> SimErr.sim (conv_node c' fuel r) (conv_node c fuel' r)).
Context (FcS : forall fuel fuel' r n, fuel = fuel' ->
  SimErr.sim (conv_node_shortened c' fuel r n) (conv_node_shortened c fuel' r n)).
Context (FcV : forall v, SimErr.sim (conv_value c' v) (conv_value c v)).
(** What the strict case needs. *)
Context (Sh : strict -> forall x y, h x y <> None) (Sf : strict -> forall a b, f' a b <> Err).
Context (ScN : strict -> forall fuel r, conv_node c' fuel r <> Err).
Context (ScV : strict -> forall v, conv_value c' v <> Err).
Context (ScS : strict -> forall fuel r n, conv_node_shortened c' fuel r n <> Err).

Lemma conv_cases fuel r t n : NB r t -> size t < fuel -> conv_node c' fuel r = Ok n -> RA n t.
Proof.
  intros R Hf' E. destruct (FcN fuel fuel r eq_refl) as [S|S]; [congruence|].
  destruct (HcN fuel r t R Hf') as [(m & Em & Hm & _)|[Em _]]; congruence.
Qed.

Notation g := (gO h).
Lemma outer_g0 : g None None = None. Proof. reflexivity. Qed.
Lemma outer_nd : strict -> nondel g.
Proof. intros St. apply gO_nondel, Sh, St. Qed.

Lemma convert_noerr : strict -> forall fuel itb, ~ snd (convert_loop_in c' fuel itb) = Err.
Proof.
  intros St. induction fuel as [|fuel IH]; intros itb; [discriminate|]. cbn [convert_loop_in].
  destruct (it_next itb) as [[y itb']|]; [|discriminate].
  destruct (conv_node c' fuel y) as [x| | |] eqn:E; cbn [try]; try discriminate; [|now destruct (ScN St _ _ E)].
  specialize (IH itb'). destruct (convert_loop_in c' fuel itb') as [l r]. exact IH.
Qed.
Lemma convert_mid : forall fuel itb ys, IB itb ys -> ksorted ys -> Forall cc ys -> sizes ys + 1 < fuel ->
  errs (convert_loop_in c' fuel itb) (kmid lossy None lookup g [] ys).
Proof.
  induction fuel as [|fuel IH]; intros itb ys Ib Sb Cb Hfu; [lia|].
  intros Hsnd. assert (~ strict) as NS by (intros St; exact (convert_noerr St _ _ Hsnd)). revert Hsnd.
  change (errs (convert_loop_in c' (S fuel) itb) (kmid lossy None lookup g [] ys)). cbn [convert_loop_in].
  destruct ys as [|b ys].
  - apply IRepT_nil in Ib as (-> & _). discriminate.
  - apply IRepT_cons in Ib as (rb & itb' & -> & R & I & _). rewrite sizes_cons in Hfu.
    pose proof (size_pos b). inversion Cb as [|? ? Hb Hys]; subst.
    destruct (cc_nonempty_prefix _ Hb) as (x & q & E). pose proof Sb as Sb'.
    apply (ksorted_cons _ _ _ _ E) in Sb' as [A _].
    apply errs_try.
    + intros _. exists []. split; [constructor|]. apply KM_keep; constructor.
    + intros m Em. apply errs_pair; try discriminate. intros l El _. cbn [fst].
      pose proof (IH itb' ys I (ksorted_tail _ _ Sb)) as K. unfold errs in K. rewrite El in K.
      destruct K as (rs & F & K); auto; [lia|]. exists (b :: rs).
      split; [constructor; [|exact F]; apply (conv_cases fuel rb b m R); [lia|exact Em]|].
      eapply KM_b; eauto; first [now constructor|intros St; now destruct NS].
Qed.

Section Loop.
Context (rec : node -> noderef -> left_in node) (M : nat) (Hrec : recm lossy lookup g anyt rec M).

Lemma outer_loop_mid : forall fuel na itb xs ys,
  Forall2 RA na xs -> IB itb ys -> ksorted xs -> ksorted ys -> Forall cc xs -> Forall cc ys ->
  sizes xs + sizes ys <= M -> sizes xs + sizes ys + 1 < fuel ->
  errs (outer_loop_in keep rec c' fuel na itb) (kmid lossy None lookup g xs ys) /\
  (strict -> xs = [] -> snd (outer_loop_in keep rec c' fuel na itb) <> Err).
Proof.
  induction fuel as [|fuel IH]; intros na itb xs ys Ia Ib Sa Sb Ca Cb HM Hfu; [lia|].
  cbn [outer_loop_in].
  destruct (cmp_with_cases idsA idsB rdA rdB al _ _ _ _ Ia Ib Sa Sb Ca Cb)
    as [-> -> -> -> | a xs' x q m na' -> -> E Aa Ab R I' -> | b ys' y q rb itb' -> E Aa Ab R I' N ->
       | a b xs' ys' x q q' m na' rb itb' -> -> -> Ea Eb Aa Ab Ra Ia' Rb Ib' N ->].
  - split; discriminate.
  - split; [|discriminate]. rewrite sizes_cons in *. inversion Ca; subst. pose proof (size_pos a).
    apply errs_pair; try discriminate. intros ns El. intros _. cbn [fst].
    destruct (IH na' itb xs' ys I' Ib (ksorted_tail _ _ Sa) Sb) as [K _]; auto; [lia|lia|].
    unfold errs in K. rewrite El in K. destruct K as (rs & Fn & K); auto.
    exists (a :: rs). split; [now constructor|]. eapply KM_a; eauto.
  - rewrite N. rewrite sizes_cons in *. inversion Cb; subst. pose proof (size_pos b).
    destruct (IH na itb' xs ys' Ia I' Sa (ksorted_tail _ _ Sb)) as [K Kn]; auto; [lia|lia|]. split.
    + apply errs_try; [intros _; apply rest_ok; auto using outer_nd|]. intros m Em.
      apply errs_pair; try discriminate. intros ns El _. cbn [fst]. unfold errs in K. rewrite El in K, Kn.
      destruct K as (rs & Fn & K); auto. exists (b :: rs).
      split; [constructor; [apply (conv_cases fuel rb b m R); [lia|exact Em]|exact Fn]|].
      eapply KM_b; eauto. intros St Hx. now destruct (Kn St Hx).
    + intros St Hx. specialize (Kn St Hx).
      destruct (conv_node c' fuel rb) eqn:Ec; cbn [try]; try discriminate; [|now destruct (ScN St _ _ Ec)].
      now destruct (outer_loop_in keep rec c' fuel na itb').
  - split; [|discriminate]. rewrite N. rewrite !sizes_cons in *. inversion Ca; inversion Cb; subst.
    pose proof (size_pos a). pose proof (size_pos b).
    destruct (Hrec m rb a b) as [H1' H2']; auto using cc_croot; [exact Logic.I|lia|].
    apply errs_pair; try discriminate.
    + intros m' Em _. cbn [try fst]. unfold errs in H2'. rewrite Em in H2'. eapply fail_ok; eauto using ksorted_tail, outer_nd.
    + intros m' Em. cbn [try]. apply errs_pair; try discriminate. intros ns El _. cbn [fst].
      destruct (IH na' itb' xs' ys' Ia' Ib' (ksorted_tail _ _ Sa) (ksorted_tail _ _ Sb)) as [K _]; auto; [lia|lia|].
      unfold errs in K. rewrite El in K. eapply both_mid; eauto using not_starts_lookup, outer_nd.
Qed.
Lemma outer_children_mid fuel na o xs ys :
  Forall2 RA na xs -> OB o ys -> ksorted xs -> ksorted ys -> Forall cc xs -> Forall cc ys ->
  sizes xs + sizes ys <= M -> sizes xs + sizes ys + 1 < fuel ->
  errs (outer_children_in keep rec c' fuel na o) (kmid lossy None lookup g xs ys).
Proof.
  intros Ia Ob Sa Sb Ca Cb HM Hfu. unfold outer_children_in. destruct o as [itb|]; cbn in Ob; [|discriminate].
  destruct Ob as [_ Ib]. destruct na as [|m na].
  - inversion Ia; subst. apply convert_mid; auto.
  - now apply outer_loop_mid.
Qed.
End Loop.

Lemma croot_some p y rs : ksorted rs -> Forall cc rs -> croot (T p (Some y) rs).
Proof. intros S C. right. split; [|split; auto]. left. discriminate. Qed.

Theorem outer_combine_mid : forall fuel,
  recm lossy lookup g anyt (outer_combine_in keep dbg rdA' rdB' f' c' fuel) (fuel - 2).
Proof.
  induction fuel as [|fuel IH]; intros na rb ta tb Ra Rb Ca Cb _ Hs;
    [pose proof (size_pos ta); cbn in Hs; lia|].
  split.
  { eapply ok_part; [apply out_outer|apply SimErr.outer_combine_with_sim with (rdA' := rdA) (rdB' := rdB) (f' := f) (c' := c) (fuel' := S fuel); auto|].
    eapply outer_combine_with_ok; eauto. exact Logic.I. }
  destruct ta as [ap va xs], tb as [bp vb ys]. cbn [outer_combine_in].
  rewrite !size_T in Hs.
  prologue.
  destruct (edges_cases ap bp) as [E1 E2 E3|E1 E2 E3|E1 E2 E3|x y E1 E2 E3 Ex Ey Nxy];
    set (n := common_prefix ap bp) in *; edge_tests.
  - subst bp. cbn [try].
    assert (forall v' w, RepV rdA v' w -> mid lossy g va vb w -> (strict -> vb <> None -> w <> None) ->
      errs (recurse dbg rdA' (outer_children_in keep (outer_combine_in keep dbg rdA' rdB' f' c' fuel) c' fuel) (set_value na v')
             (r_load_children rdB' rb)) (midw lossy lookup g (T ap va xs) (T ap vb ys))) as G.
    { intros v' w Rv Mv Hw. eapply recurse_mid with (d := None) (nx := nx) (p := ap) (va := va) (v := w) (xs := xs) (ys := ys); eauto.
      - intros o Eo. pose proof (children_ok _ _ _ _ _ Rb Eo). eapply outer_children_mid with (M := fuel - 2); eauto; lia.
      - intros k. apply lookup_raw.
      - rewrite lookup_raw, raw_at. exact Mv.
      - intros r Hr. rewrite lookup_raw. now apply raw_below.
      - intros St [Ly Lv] rs K. cbn [tc tv] in *. subst ys. specialize (Hw St Lv). destruct w as [w|]; [|congruence].
        apply croot_some; [exact (KM_sorted _ _ _ _ _ _ _ K)|]. now apply (KM_strict _ _ _ _ _ _ _ K St). }
    destruct vb as [y|].
    + destruct VB as (bv & -> & RVb). destruct va as [x|]; rewrite VA.
      * destruct (f_cases _ _ _ _ RV RVb) as [F1 F2]. apply errs_try.
        -- intros E. exists (T ap None xs). split; [eapply Rep_mk; cbn; eauto; reflexivity|].
           split; [split; auto using ccs_wccs|]. split; [intros; eauto|]. split; [|intros St; now destruct (Sf St _ _ E)].
           intros k. rewrite !lookup_raw. unfold rawlook. destruct (strip ap k) as [[|c0 r]|]; [|now left|now left].
           right. right. auto.
        -- intros r E. eapply G; [apply F2, E|right; now left|]. intros St _. now apply Sh.
      * apply errs_try; [intros _; now apply midw_old|]. intros r E.
        destruct (FcV bv) as [S|S]; [congruence|].
        destruct (HcV bv y RVb) as [(z & Ez & Hz)|[Ez _]]; [|congruence]. assert (r = z) as -> by congruence.
        eapply G; [exact Hz|right; now left|discriminate].
    + rewrite VB. replace na with (set_value na (n_value na)) by (now destruct na).
      eapply G; [exact RV|now left|congruence].
  - eapply recurse_mid with (d := None) (nx := nx) (p := ap) (va := va) (v := va) (xs := xs) (ys := [shorten n (T bp vb ys)]); eauto.
    + intros o Eo. apply (shortened_ok _ (T bp vb ys)) in Eo; [|exact Rb|cbn; lia].
      eapply outer_children_mid with (M := fuel - 2); eauto using cc_single_sorted;
        try (rewrite sizes_single, size_shorten, size_T; lia).
      constructor; [now apply shorten_cc|constructor].
    + intros k. apply lookup_raw.
    + now left.
    + intros r Hr. rewrite (rawlook_shorten (T bp vb ys) _ n E2). cbn [tp]. rewrite <- E3. now apply raw_below.
    + intros St [Ly Lv] rs K. cbn [tc tv] in *.
      destruct (KM_strict _ _ _ _ _ _ _ K St) as (C & Le & Nx). { constructor; [now split|constructor]. }
      destruct Ca as [Ca|(Hl & _)].
      * injection Ca as -> -> ->. rewrite Nx by reflexivity. now left.
      * right. split; [|split; [exact (KM_sorted _ _ _ _ _ _ _ K)|exact C]].
        destruct Hl as [Hl|Hl]; cbn in Hl |- *; [now left|right; cbn; lia].
  - apply errs_try; [intros _; now apply midw_old|]. intros a1 Ea1.
    apply (splits_ok _ (T ap va xs)) in Ea1 as (m & K1 & Rm & P1 & V1); [|exact Ra|cbn; lia].
    cbn [tp] in P1. rewrite E3 in P1.
    assert (croot (T ap va xs)) as Ca0 by exact Ca.
    assert (forall v' w, RepV rdA v' w -> (w = None \/ w = vb) -> (strict -> vb <> None -> w <> None) ->
      errs (recurse dbg rdA' (outer_children_in keep (outer_combine_in keep dbg rdA' rdB' f' c' fuel) c' fuel) (set_value a1 v')
             (r_load_children rdB' rb)) (midw lossy lookup g (T ap va xs) (T bp vb ys))) as G.
    { intros v' w Rv Mv Hw.
      eapply recurse_mid with (d := None) (nx := [m]) (p := bp) (va := None) (v := w) (xs := [shorten n (T ap va xs)]) (ys := ys);
        eauto using cc_single_sorted.
      - cbn [n_prefix set_value]. rewrite P1. now left.
      - left. exact K1.
      - intros o Eo. pose proof (children_ok _ _ _ _ _ Rb Eo).
        eapply outer_children_mid with (M := fuel - 2); eauto using cc_single_sorted;
          try (rewrite sizes_single, size_shorten, size_T; lia).
        constructor; [now apply shorten_cc|constructor].
      - constructor; [now apply shorten_cc|constructor].
      - intros k. rewrite (rawlook_shorten (T ap va xs) k n E2). cbn [tp]. now rewrite E3.
      - rewrite lookup_raw, raw_at. destruct Mv as [->| ->]; [now left|right; now left].
      - intros r Hr. rewrite lookup_raw. now apply raw_below.
      - intros St [Ly Lv] rs K. cbn [tc tv] in *. subst ys. specialize (Hw St Lv). destruct w as [w|]; [|congruence].
        apply croot_some; [exact (KM_sorted _ _ _ _ _ _ _ K)|]. now apply (KM_strict _ _ _ _ _ _ _ K St). }
    assert (a1 = set_value a1 bnone) as Ea by (destruct a1; cbn in V1; now rewrite V1).
    rewrite V1. cbn [blob_opt bnone].
    destruct vb as [y|].
    + destruct VB as (bv & -> & RVb).
      apply errs_try.
      * intros E. exists (T bp None [shorten n (T ap va xs)]). split; [|split; [|split; [|split]]].
        -- eapply Rep_mk with (ns := [m]); cbn; eauto; [rewrite P1; now left|left; exact K1].
        -- split; [apply cc_single_sorted|]. constructor; [|constructor]. apply cc_wcc. now apply shorten_cc.
        -- intros; eauto.
        -- intros k. left. rewrite lookup_raw. rewrite (rawlook_shorten (T ap va xs) k n E2). cbn [tp]. now rewrite E3.
        -- intros St. now destruct (ScV St _ E).
      * intros r E. destruct (FcV bv) as [S|S]; [congruence|].
        destruct (HcV bv y RVb) as [(z & Ez & Hz)|[Ez _]]; [|congruence]. assert (r = z) as -> by congruence.
        eapply G; [exact Hz|now right|discriminate].
    + rewrite VB, Ea. eapply (G bnone None); [reflexivity|now left|congruence].
  - apply errs_try; [intros _; now apply midw_old|]. intros a1 Ea1.
    apply (splits_ok _ (T ap va xs)) in Ea1 as (m & K1 & Rm & P1 & V1); [|exact Ra|cbn; lia].
    cbn [tp] in P1.
    unfold load_children_mut. rewrite K1. cbn [try].
    apply errs_try; [|intros b' _; apply errs_finish].
    intros E. exists (T (firstn n ap) None [shorten n (T ap va xs)]). split; [|split; [|split; [|split]]].
    + eapply Rep_mk with (ns := [m]); cbn; eauto; [rewrite P1; now left|now left].
    + split; [apply cc_single_sorted|]. constructor; [|constructor]. apply cc_wcc. now apply shorten_cc.
    + cbn [tp]. intros z q q' Hz Hz'. eapply firstn_common; eauto.
    + intros k. left. rewrite lookup_raw. now rewrite (rawlook_shorten (T ap va xs) k n E1).
    + intros St. now destruct (ScS St _ _ _ E).
Qed.
End Outer.
End Joins.

(* ------------------------------------------------------------------ *)
Section Prefixes.
Context (lossy : option bytes -> bool -> Prop) (Hkeep : keep = false -> forall o y, lossy o y).
Context (Hids : idsA = false) (Hdbg : dbg = true -> det rdA \/ al) (NS : ~ strict).
Context (f f' : blob -> res bool) (s : bytes -> bool).
Context (Hf : forall bv y, RepV rdB bv (Some y) -> okp al (f bv) (fun b => b = s y)).
Context (Ff : forall a, SimErr.sim (f' a) (f a)).

Lemma selected_cases rb p v cs b : NB rb (T p v cs) -> selected f' (r_value_opt rb) = Ok b -> b = selv s v.
Proof.
  intros R E. destruct (SimErr.selected_sim f' f Ff (r_value_opt rb)) as [S|S]; [congruence|].
  destruct (selected_ok idsB rdB al f s Hf rb p v cs R) as [(x & Ex & H)|[Ex _]]; congruence.
Qed.
Lemma rawcov_at p vb ys : selv s vb = false -> rawcov s p vb ys p = false.
Proof.
  intros Sv. unfold rawcov. rewrite <- (app_nil_r p) at 2. rewrite strip_app, Sv. apply ckids_nil_key.
Qed.
Lemma rawcov_below p vb ys r : selv s vb = false -> rawcov s p vb ys (p ++ r) = okids false (cov s) ys r.
Proof. intros Sv. unfold rawcov. now rewrite strip_app, Sv. Qed.

Theorem remove_prefix_mid : forall fuel,
  recm lossy (cov s) gRm anyt (remove_prefix_in keep dbg rdA' rdB' f' fuel) (fuel - 2).
Proof.
  set (g := gRm).
  assert (gR : forall o, g o false = o) by reflexivity.
  assert (gl : forall o, g None o = None) by (intros [|]; reflexivity).
  assert (g0 : g None false = None) by reflexivity.
  assert (Snd : strict -> nondel g) by (intros St; now destruct NS).
  induction fuel as [|fuel IH]; intros na rb ta tb Ra Rb Ca Cb _ Hs;
    [pose proof (size_pos ta); cbn in Hs; lia|].
  split.
  { eapply ok_part; [apply out_remove_prefix|apply SimErr.remove_prefix_with_sim with (rdA' := rdA) (rdB' := rdB) (f' := f) (fuel' := S fuel); auto|].
    eapply remove_prefix_with_ok; eauto. exact Logic.I. }
  destruct ta as [ap va xs], tb as [bp vb ys]. cbn [remove_prefix_in].
  rewrite !size_T in Hs.
  prologue.
  destruct (edges_cases ap bp) as [E1 E2 E3|E1 E2 E3|E1 E2 E3|x y E1 E2 E3 Ex Ey Nxy];
    set (n := common_prefix ap bp) in *; edge_tests.
  - subst bp. apply errs_try; [intros _; now apply midw_old|]. intros b Eb.
    pose proof (selected_cases _ _ _ _ _ Rb Eb) as Sv. destruct b; [apply errs_finish|]. symmetry in Sv.
    eapply recurse_mid with (d := false) (nx := nx) (p := ap) (va := va) (v := va) (xs := xs) (ys := ys); eauto.
    + intros o Eo. pose proof (children_ok _ _ _ _ _ Rb Eo).
      eapply left_children_mid with (M := fuel - 2); eauto using anyts, cov_not_starts. lia.
    + intros k. apply lookup_raw.
    + now left.
    + intros r Hr. rewrite cov_raw. now apply rawcov_below.
    + intros St. now destruct NS.
  - eapply recurse_mid with (d := false) (nx := nx) (p := ap) (va := va) (v := va) (xs := xs) (ys := [shorten n (T bp vb ys)]); eauto.
    + intros o Eo. apply (shortened_ok _ (T bp vb ys)) in Eo; [|exact Rb|cbn; lia].
      eapply left_children_mid with (M := fuel - 2); eauto using anyts, cov_not_starts, cc_single_sorted.
      * constructor; [now apply shorten_cc|constructor].
      * rewrite sizes_single, size_shorten, size_T. lia.
    + intros k. apply lookup_raw.
    + now left.
    + intros r Hr. rewrite (rawcov_shorten s (T bp vb ys) _ n E2). cbn [tp]. rewrite <- E3. now apply rawcov_below.
    + intros St. now destruct NS.
  - apply errs_try; [intros _; now apply midw_old|]. intros b Eb.
    pose proof (selected_cases _ _ _ _ _ Rb Eb) as Sv. destruct b; [apply errs_finish|]. symmetry in Sv.
    apply errs_try; [intros _; now apply midw_old|]. intros a1 Ea1.
    apply (splits_ok _ (T ap va xs)) in Ea1 as (m & K1 & Rm & P1 & V1); [|exact Ra|cbn; lia].
    cbn [tp] in P1. rewrite E3 in P1.
    eapply recurse_mid with (d := false) (nx := [m]) (p := bp) (va := None) (v := None) (xs := [shorten n (T ap va xs)]) (ys := ys);
      eauto using cc_single_sorted.
    + rewrite P1. now left.
    + left. exact K1.
    + intros o Eo. pose proof (children_ok _ _ _ _ _ Rb Eo).
      eapply left_children_mid with (M := fuel - 2); eauto using anyts, cov_not_starts, cc_single_sorted.
      * constructor; [now apply shorten_cc|constructor].
      * rewrite sizes_single, size_shorten, size_T. lia.
    + constructor; [now apply shorten_cc|constructor].
    + intros k. rewrite (rawlook_shorten (T ap va xs) k n E2). cbn [tp]. now rewrite E3.
    + now left.
    + intros r Hr. rewrite cov_raw. now apply rawcov_below.
    + intros St. now destruct NS.
  - apply errs_finish.
Qed.

Theorem retain_prefix_mid : forall fuel,
  recm lossy (cov s) gRt (hered s) (retain_prefix_in keep dbg rdA' rdB' f' fuel) (fuel - 2).
Proof.
  set (g := gRt).
  assert (gR : forall o, g o false = None) by reflexivity.
  assert (gl : forall o, g None o = None) by (intros [|]; reflexivity).
  assert (g0 : g None false = None) by reflexivity.
  assert (Snd : strict -> nondel g) by (intros St; now destruct NS).
  induction fuel as [|fuel IH]; intros na rb ta tb Ra Rb Ca Cb HQ Hs;
    [pose proof (size_pos ta); cbn in Hs; lia|].
  split.
  { eapply ok_part; [apply out_retain|apply SimErr.retain_prefix_with_sim with (rdA' := rdA) (rdB' := rdB) (f' := f) (fuel' := S fuel); auto|].
    eapply retain_prefix_with_ok; eauto. }
  destruct ta as [ap va xs], tb as [bp vb ys]. cbn [retain_prefix_in].
  rewrite !size_T in Hs.
  prologue. pose proof (hered_kids _ _ _ _ Sb Kb HQ) as HQk.
  destruct (edges_cases ap bp) as [E1 E2 E3|E1 E2 E3|E1 E2 E3|x y E1 E2 E3 Ex Ey Nxy];
    set (n := common_prefix ap bp) in *; edge_tests.
  - subst bp. apply errs_try; [intros _; now apply midw_old|]. intros b Eb.
    pose proof (selected_cases _ _ _ _ _ Rb Eb) as Sv. destruct b; [apply errs_finish|]. symmetry in Sv.
    eapply recurse_mid with (d := false) (nx := nx) (p := ap) (va := va) (v := None) (xs := xs) (ys := ys); eauto.
    + reflexivity.
    + intros o Eo. pose proof (children_ok _ _ _ _ _ Rb Eo).
      eapply inner_children_mid with (M := fuel - 2); eauto using cov_not_starts. lia.
    + intros k. apply lookup_raw.
    + right. left. symmetry. rewrite cov_raw, rawcov_at by exact Sv. apply gR.
    + intros r Hr. rewrite cov_raw. now apply rawcov_below.
    + intros St. now destruct NS.
  - eapply recurse_mid with (d := false) (nx := nx) (p := ap) (va := va) (v := None) (xs := xs) (ys := [shorten n (T bp vb ys)]); eauto.
    + reflexivity.
    + intros o Eo. apply (shortened_ok _ (T bp vb ys)) in Eo; [|exact Rb|cbn; lia].
      eapply inner_children_mid with (M := fuel - 2); eauto using cov_not_starts, cc_single_sorted.
      * constructor; [now apply shorten_cc|constructor].
      * constructor; [apply hered_shorten; [cbn; lia|exact HQ]|constructor].
      * rewrite sizes_single, size_shorten, size_T. lia.
    + intros k. apply lookup_raw.
    + right. left. symmetry. rewrite (rawcov_shorten s (T bp vb ys) _ n E2). cbn [tp]. rewrite <- E3, rawcov_at by reflexivity. apply gR.
    + intros r Hr. rewrite (rawcov_shorten s (T bp vb ys) _ n E2). cbn [tp]. rewrite <- E3. now apply rawcov_below.
    + intros St. now destruct NS.
  - destruct vb as [v|].
    + destruct VB as (bv & -> & RVb). apply errs_try; [intros _; now apply midw_old|].
      intros [|] _; apply errs_finish.
    + rewrite VB. apply errs_try; [intros _; now apply midw_old|]. intros a1 Ea1.
      apply (splits_ok _ (T ap va xs)) in Ea1 as (m & K1 & Rm & P1 & V1); [|exact Ra|cbn; lia].
      cbn [tp] in P1. rewrite E3 in P1.
      eapply recurse_mid with (d := false) (nx := [m]) (p := bp) (va := None) (v := None) (xs := [shorten n (T ap va xs)]) (ys := ys);
        eauto using cc_single_sorted.
      * rewrite P1. now left.
      * left. exact K1.
      * intros o Eo. pose proof (children_ok _ _ _ _ _ Rb Eo).
        eapply inner_children_mid with (M := fuel - 2); eauto using cov_not_starts, cc_single_sorted.
        -- constructor; [now apply shorten_cc|constructor].
        -- rewrite sizes_single, size_shorten, size_T. lia.
      * constructor; [now apply shorten_cc|constructor].
      * intros k. rewrite (rawlook_shorten (T ap va xs) k n E2). cbn [tp]. now rewrite E3.
      * now left.
      * intros r Hr. rewrite cov_raw. now apply rawcov_below.
      * intros St. now destruct NS.
  - apply errs_finish.
Qed.
End Prefixes.
End Mid.
