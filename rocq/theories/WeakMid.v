(** What is left of a tree that need not be canonical when an operation that modifies
    it in place fails: the counterpart of InPlaceProofs.v. *)
From Verif Require Import Base BaseLemmas Header Node Combine Tree Rep JoinBase JoinProofs WithProofs PrefixProofs
  InPlace InPlaceAgree WeakFind WeakJoin WeakWith InPlaceProofs.
From Verif Require SimErr.

Section Mid.
Context (keep dbg : bool) (idsB : bool) (rdA rdB rdA' rdB' : reader) (al : Prop).
Context (HdB : det rdB \/ al) (FA : SimErr.rsim rdA' rdA) (FB : SimErr.rsim rdB' rdB).

Notation NB := (NRep idsB rdB al).
Notation IB := (IRepT idsB rdB al).
Notation OB := (ORep idsB rdB al).
Notation RA := (Rep false rdA).

Section Generic.
(** [lossy]: entries with these values may get lost. *)
Context {B : Type} (lossy : option bytes -> B -> Prop) (Hkeep : keep = false -> forall o y, lossy o y).
Context (d : B) (ob : tree -> bytes -> B) (g : option bytes -> B -> option bytes).
Context (g0 : g None d = None).
Context (obs : forall b k x q, tp b = x :: q -> starts b k = false -> ob b k = d).
Context (Q : tree -> Prop).

Notation mid := (InPlaceProofs.mid lossy g).

Record WM (xs ys rs : list tree) : Prop := {
  WM_sorted : ksorted rs;
  WM_wcc : Forall wcc rs;
  WM_above : forall c, above c xs -> above c ys -> above c rs;
  WM_look : forall k, k <> [] -> mid (lkids xs k) (okids d ob ys k) (lkids rs k) }.

Definition wmidt (ta tb t : tree) : Prop :=
  wroot t /\ (forall x q q', tp ta = x :: q -> tp tb = x :: q' -> exists q'', tp t = x :: q'') /\
  (forall k, mid (lookup ta k) (ob tb k) (lookup t k)).
Definition wmid (ta tb : tree) (n : node) : Prop := exists t, RA n t /\ wmidt ta tb t.
Definition wkmid (xs ys : list tree) (l : list node) : Prop := exists rs, Forall2 RA l rs /\ WM xs ys rs.

Definition wrecm (rec : node -> noderef -> left_in node) (M : nat) : Prop :=
  forall na rb ta tb, RA na ta -> NB rb tb -> wroot ta -> wroot tb -> Q tb -> size ta + size tb <= M ->
    ((forall n, rec na rb = (n, Ok tt) -> wpost rdA ob g ta tb n) /\ snd (rec na rb) <> Fuel /\
      (snd (rec na rb) = Panic -> al)) /\ errs (rec na rb) (wmid ta tb).

Lemma wmidt_old ta tb : wroot ta -> wmidt ta tb ta.
Proof.
  intros C. split; [exact C|]. split; [eauto|]. intros k; now left.
Qed.
Lemma wmid_old ta tb n : RA n ta -> wroot ta -> wmid ta tb n.
Proof. intros R C. exists ta. split; [exact R|]. now apply wmidt_old. Qed.

Lemma WM_keep xs ys : ksorted xs -> Forall wcc xs -> WM xs ys xs.
Proof. intros S C. split; auto. intros k _. now left. Qed.
Lemma WM_none xs ys : (forall o y, lossy o y) -> WM xs ys [].
Proof. intros L. split.
  - constructor.
  - constructor.
  - constructor.
  - intros k _. right. now right.
Qed.

Lemma rest_ok na xs ys : Forall2 RA na xs -> ksorted xs -> Forall wcc xs -> wkmid xs ys (rest keep na).
Proof.
  intros F S C. unfold rest. destruct (Bool.bool_dec keep true) as [E|E].
  - rewrite E. exists xs. split; [exact F|]. now apply WM_keep.
  - apply Bool.not_true_is_false in E. rewrite E. exists []. split; [constructor|]. apply WM_none; auto.
Qed.

Lemma WM_a a x q xs ys rs : wcc a -> tp a = x :: q -> above x xs -> above x ys ->
  WM xs ys rs -> WM (a :: xs) ys (a :: rs).
Proof.
  intros Ha E Hx Hy [K1 K2 K3 K4]. split.
  - apply (ksorted_cons _ _ _ _ E). auto.
  - constructor; auto.
  - intros c Hc Hc'. apply above_cons in Hc as [Hc1 Hc]. apply above_cons. auto.
  - intros [|y k] Hk; [congruence|]. cbn [lkids].
    destruct (starts a (y :: k)) eqn:S; [now left|apply K4; congruence].
Qed.
Lemma WM_a_drop a x q xs ys rs : (forall o, g o d = None) -> tp a = x :: q -> above x xs -> above x ys ->
  WM xs ys rs -> WM (a :: xs) ys rs.
Proof.
  intros Hg E Hx Hy [K1 K2 K3 K4]. split; auto.
  - intros c Hc Hc'. apply above_cons in Hc as [Hc1 Hc]. auto.
  - intros [|y k] Hk; [congruence|]. cbn [lkids].
    destruct (starts a (y :: k)) eqn:S; [|apply K4; congruence].
    unfold starts in S. rewrite E in S. destruct (byte_eqb_spec x y); [subst|congruence].
    right. left. rewrite (okids_above d ob) by assumption. rewrite Hg. now apply lkids_above, K3.
Qed.
Lemma WM_b b x q xs ys rs : (forall k, lookup b k = g None (ob b k)) ->
  wcc b -> tp b = x :: q -> above x xs -> above x ys ->
  WM xs ys rs -> WM xs (b :: ys) (b :: rs).
Proof.
  intros Hg Hb E Hx Hy [K1 K2 K3 K4]. split.
  - apply (ksorted_cons _ _ _ _ E). auto.
  - constructor; auto.
  - intros c Hc Hc'. apply above_cons in Hc' as [Hc1 Hc']. apply above_cons. auto.
  - intros [|y k] Hk; [congruence|]. cbn [lkids okids].
    destruct (starts b (y :: k)) eqn:S; [|apply K4; congruence].
    unfold starts in S. rewrite E in S. destruct (byte_eqb_spec x y); [subst|congruence].
    right. left. rewrite (lkids_above _ xs) by assumption. apply Hg.
Qed.
Lemma WM_b_drop b x q xs ys rs : tp b = x :: q -> above x xs -> above x ys ->
  WM xs ys rs -> WM xs (b :: ys) rs.
Proof.
  intros E Hx Hy [K1 K2 K3 K4]. split; auto.
  - intros c Hc Hc'. apply above_cons in Hc' as [Hc1 Hc']. auto.
  - intros [|y k] Hk; [congruence|]. cbn [okids].
    destruct (starts b (y :: k)) eqn:S; [|apply K4; congruence].
    unfold starts in S. rewrite E in S. destruct (byte_eqb_spec x y); [subst|congruence].
    left. rewrite (lkids_above _ xs) by assumption. now apply lkids_above, K3.
Qed.
(** A child was processed, a later one failed. *)
Lemma WM_both a b r x q q' xs ys rs :
  wroot r -> (forall k, lookup r k = g (lookup a k) (ob b k)) ->
  (tnil r = true \/ exists q2, tp r = x :: q2) ->
  tp a = x :: q -> tp b = x :: q' -> above x xs -> above x ys ->
  WM xs ys rs -> WM (a :: xs) (b :: ys) (if tnil r then rs else r :: rs).
Proof.
  intros Hr Hl Hp Ea Eb Hx Hy [K1 K2 K3 K4].
  destruct (tnil r) eqn:En.
  - split; auto.
    + intros c Hc Hc'. apply above_cons in Hc as [_ Hc], Hc' as [_ Hc']. auto.
    + intros [|y k] Hky; [congruence|]. cbn [lkids okids].
      unfold starts. rewrite Ea, Eb. destruct (byte_eqb_spec x y) as [->|Ny].
      * right. left. rewrite <- Hl, tnil_lookup by exact En. apply lkids_above. auto.
      * apply K4. congruence.
  - destruct Hp as [Hp|[qr Er]]; [congruence|]. split.
    + apply (ksorted_cons _ _ _ _ Er). auto.
    + constructor; auto. apply wroot_wcc; [exact Hr|]. rewrite Er. discriminate.
    + intros c Hc Hc'. apply above_cons in Hc as [Hc1 Hc], Hc' as [_ Hc']. apply above_cons.
      split; [|auto]. rewrite Er. now rewrite Ea in Hc1.
    + intros [|y k] Hky; [congruence|]. cbn [lkids okids].
      unfold starts. rewrite Er, Ea, Eb. destruct (byte_eqb_spec x y) as [->|Ny].
      * right. left. apply Hl.
      * apply K4. congruence.
Qed.
(** A child failed. *)
Lemma WM_fail a b t x q q' xs ys : wmidt a b t -> tp a = x :: q -> tp b = x :: q' -> above x xs -> above x ys ->
  ksorted xs -> Forall wcc xs -> WM (a :: xs) (b :: ys) (t :: xs).
Proof.
  intros (W & Hp & Hl) Ea Eb Hx Hy So C. destruct (Hp _ _ _ Ea Eb) as [q2 Et]. split.
  - apply (ksorted_cons _ _ _ _ Et). auto.
  - constructor; [|exact C]. apply wroot_wcc; [exact W|]. rewrite Et. discriminate.
  - intros c Hc Hc'. apply above_cons in Hc as [Hc1 Hc]. apply above_cons. rewrite Et. rewrite Ea in Hc1. auto.
  - intros [|y k] Hky; [congruence|]. cbn [lkids okids]. unfold starts. rewrite Et, Ea, Eb.
    destruct (byte_eqb_spec x y) as [->|Ny]; [apply Hl|now left].
Qed.

Lemma fail_ok n na xs ys a b x q q' : wmid a b n -> Forall2 RA na xs -> tp a = x :: q -> tp b = x :: q' ->
  above x xs -> above x ys -> ksorted xs -> Forall wcc xs -> wkmid (a :: xs) (b :: ys) (rest keep (n :: na)).
Proof.
  intros (t & R & M) F Ea Eb Hx Hy So C. unfold rest. destruct (Bool.bool_dec keep true) as [E|E].
  - rewrite E. exists (t :: xs). split; [now constructor|]. eapply WM_fail; eauto.
  - apply Bool.not_true_is_false in E. rewrite E. exists []. split; [constructor|]. apply WM_none; auto.
Qed.

Section Loops.
Context (rec : node -> noderef -> left_in node) (M : nat) (Hrec : wrecm rec M).

Lemma both_mid n ns ta tb xs ys x q q' : wpost rdA ob g ta tb n -> wkmid xs ys ns ->
  tp ta = x :: q -> tp tb = x :: q' -> above x xs -> above x ys ->
  wkmid (ta :: xs) (tb :: ys) (if is_empty n then ns else n :: ns).
Proof.
  intros (t & R & Em & Hr & Hl & Hp) (rs & F & K) Ea Eb Aa Ab.
  exists (if tnil t then rs else t :: rs). split.
  - rewrite Em. destruct (tnil t); auto.
  - eapply WM_both; eauto.
Qed.

Lemma left_loop_mid : forall fuel na itb xs ys,
  Forall2 RA na xs -> IB itb ys -> ksorted xs -> ksorted ys -> Forall wcc xs -> Forall wcc ys ->
  Forall Q ys -> sizes xs + sizes ys <= M ->
  errs (left_loop_in keep rec fuel na itb) (wkmid xs ys).
Proof.
  induction fuel as [|fuel IH]; intros na itb xs ys Ia Ib Sa Sb Ca Cb HQ HM; [discriminate|].
  cbn [left_loop_in].
  destruct (w_cmp_cases false idsB rdA rdB al _ _ _ _ Ia Ib Sa Sb Ca Cb)
    as [-> -> -> -> | a xs' x q m na' -> -> E Aa Ab R I' -> | b ys' y q rb itb' -> E Aa Ab R I' N ->
       | a b xs' ys' x q q' m na' rb itb' -> -> -> Ea Eb Aa Ab Ra Ia' Rb Ib' N ->].
  - discriminate.
  - rewrite sizes_cons in *. inversion Ca; subst. pose proof (size_pos a).
    apply errs_pair; try discriminate. intros ns El. intros _. cbn [fst].
    destruct (IH na' itb xs' ys I' Ib (ksorted_tail _ _ Sa) Sb) as (rs & Fn & K); auto; [lia|now rewrite El|].
    rewrite El in Fn. exists (a :: rs). split; [now constructor|]. eapply WM_a; eauto.
  - rewrite N. rewrite sizes_cons in *. inversion Cb; inversion HQ; subst.
    eapply errs_weaken; [apply (IH na itb' xs ys'); eauto using ksorted_tail; lia|].
    intros ns (rs & Fn & K). exists rs. split; [auto|]. eapply WM_b_drop; eauto.
  - rewrite N. rewrite !sizes_cons in *. inversion Ca; inversion Cb; inversion HQ; subst.
    pose proof (size_pos a). pose proof (size_pos b).
    destruct (Hrec m rb a b) as [[H1' _] H2']; auto using wcc_wroot; [lia|].
    apply errs_pair; try discriminate.
    + intros m' Em _. cbn [try fst]. unfold errs in H2'. rewrite Em in H2'. eapply fail_ok; eauto using ksorted_tail.
    + intros m' Em. cbn [try]. apply errs_pair; try discriminate. intros ns El _. cbn [fst].
      pose proof (IH na' itb' xs' ys' Ia' Ib' (ksorted_tail _ _ Sa) (ksorted_tail _ _ Sb)) as K. unfold errs in K.
      rewrite El in K. eapply both_mid; eauto. apply K; auto. lia.
Qed.
Lemma left_children_mid fuel na o xs ys :
  Forall2 RA na xs -> OB o ys -> ksorted xs -> ksorted ys -> Forall wcc xs -> Forall wcc ys ->
  Forall Q ys -> sizes xs + sizes ys <= M ->
  errs (left_children_in keep rec fuel na o) (wkmid xs ys).
Proof.
  intros Ia Ob Sa Sb Ca Cb HQ HM. unfold left_children_in. destruct o as [itb|]; cbn in Ob; [|discriminate].
  destruct Ob as [_ Ib]. destruct na as [|m na]; [discriminate|]. now apply left_loop_mid.
Qed.

Lemma inner_loop_mid (gR : forall o, g o d = None) : forall fuel na itb xs ys,
  Forall2 RA na xs -> IB itb ys -> ksorted xs -> ksorted ys -> Forall wcc xs -> Forall wcc ys ->
  Forall Q ys -> sizes xs + sizes ys <= M ->
  errs (inner_loop_in keep rec fuel na itb) (wkmid xs ys).
Proof.
  induction fuel as [|fuel IH]; intros na itb xs ys Ia Ib Sa Sb Ca Cb HQ HM; [discriminate|].
  cbn [inner_loop_in].
  destruct (w_cmp_cases false idsB rdA rdB al _ _ _ _ Ia Ib Sa Sb Ca Cb)
    as [-> -> -> -> | a xs' x q m na' -> -> E Aa Ab R I' -> | b ys' y q rb itb' -> E Aa Ab R I' N ->
       | a b xs' ys' x q q' m na' rb itb' -> -> -> Ea Eb Aa Ab Ra Ia' Rb Ib' N ->].
  - discriminate.
  - rewrite sizes_cons in *. inversion Ca; subst. pose proof (size_pos a).
    eapply errs_weaken; [apply (IH na' itb xs' ys); eauto using ksorted_tail; lia|].
    intros ns (rs & Fn & K). exists rs. split; [auto|]. eapply WM_a_drop; eauto.
  - rewrite N. rewrite sizes_cons in *. inversion Cb; inversion HQ; subst.
    eapply errs_weaken; [apply (IH na itb' xs ys'); eauto using ksorted_tail; lia|].
    intros ns (rs & Fn & K). exists rs. split; [auto|]. eapply WM_b_drop; eauto.
  - rewrite N. rewrite !sizes_cons in *. inversion Ca; inversion Cb; inversion HQ; subst.
    pose proof (size_pos a). pose proof (size_pos b).
    destruct (Hrec m rb a b) as [[H1' _] H2']; auto using wcc_wroot; [lia|].
    apply errs_pair; try discriminate.
    + intros m' Em _. cbn [try fst]. unfold errs in H2'. rewrite Em in H2'. eapply fail_ok; eauto using ksorted_tail.
    + intros m' Em. cbn [try]. apply errs_pair; try discriminate. intros ns El _. cbn [fst].
      pose proof (IH na' itb' xs' ys' Ia' Ib' (ksorted_tail _ _ Sa) (ksorted_tail _ _ Sb)) as K. unfold errs in K.
      rewrite El in K. eapply both_mid; eauto. apply K; auto. lia.
Qed.
Lemma inner_children_mid (gR : forall o, g o d = None) fuel na o xs ys :
  Forall2 RA na xs -> OB o ys -> ksorted xs -> ksorted ys -> Forall wcc xs -> Forall wcc ys ->
  Forall Q ys -> sizes xs + sizes ys <= M ->
  errs (inner_children_in keep rec fuel na o) (wkmid xs ys).
Proof.
  intros Ia Ob Sa Sb Ca Cb HQ HM. unfold inner_children_in. destruct o as [itb|]; cbn in Ob; [|discriminate].
  destruct Ob as [_ Ib]. destruct na as [|m na]; [discriminate|]. now apply inner_loop_mid.
Qed.
End Loops.

(** The end of the operations: load the children and go on there. *)
Lemma recurse_mid kids a bc p va v xs ys nx ta tb :
  RepP false rdA (n_prefix a) p -> RepV rdA (n_value a) v -> KidsOf rdA (n_kids a) nx -> Forall2 RA nx xs ->
  (forall o, bc = Ok o -> errs (kids nx o) (wkmid xs ys)) -> ksorted xs -> Forall wcc xs ->
  (forall k, lookup ta k = rawlook p va xs k) ->
  mid va (ob tb p) v -> (forall r, r <> [] -> ob tb (p ++ r) = okids d ob ys r) ->
  (forall x q q', tp ta = x :: q -> tp tb = x :: q' -> exists q2, p = x :: q2) ->
  errs (recurse dbg rdA' kids a bc) (wmid ta tb).
Proof.
  intros RP RV RK RF Hk Sx Cx Ha Hv Ho Hp.
  assert (forall rs, WM xs ys rs -> wmidt ta tb (T p v rs)) as HM.
  { intros rs K. split; [split; [exact (WM_sorted _ _ _ K)|exact (WM_wcc _ _ _ K)]|].
    split; [exact Hp|]. intros k.
    rewrite Ha, lookup_raw. unfold rawlook. destruct (strip p k) as [r|] eqn:E; [|now left].
    apply strip_spec in E. subst k. destruct r as [|c r]; [now rewrite app_nil_r|].
    rewrite Ho by discriminate. apply (WM_look _ _ _ K). discriminate. }
  assert (wmidt ta tb (T p v xs)) as M0 by now apply HM, WM_keep.
  unfold recurse. apply errs_try.
  { intros _. exists (T p v xs). split; [|exact M0]. eapply Rep_mk; eauto. }
  intros ac E. destruct (SimErr.load_children_mut_sim rdA' rdA FA a) as [E2|E2]; [congruence|].
  rewrite (load_children_mut_ok rdA a nx RK) in E2. rewrite E2 in E. injection E as <-.
  assert (wmid ta tb (set_kids a (KArc nx))) as M1.
  { exists (T p v xs). split; [|exact M0]. eapply Rep_mk; cbn; eauto. now left. }
  apply errs_try; [intros _; exact M1|]. intros o Eo. specialize (Hk o Eo).
  apply errs_pair.
  - intros l El _. cbn [try fst]. unfold errs in Hk. rewrite El in Hk. destruct (Hk eq_refl) as (rs & F & K).
    exists (T p v rs). split; [|auto]. eapply Rep_mk; cbn; eauto. now left.
  - intros l El. cbn [try]. apply errs_finish.
  - discriminate.
  - discriminate.
Qed.
End Generic.

Lemma ok_parts {X} (x : left_in X) r' r (P : X -> Prop) :
  outcome x = r' -> SimErr.sim r' r -> okp al r P ->
  (forall n, x = (n, Ok tt) -> P n) /\ snd x <> Fuel /\ (snd x = Panic -> al).
Proof.
  intros E S O. destruct x as [y u]. cbn in *.
  destruct S as [S|S]; subst r'; destruct O as [(z & Ez & H)|[Ez A]]; subst r; destruct u as [[]| | |]; cbn in *;
    repeat split; try congruence; auto. all: intros n [= <-]; congruence.
Qed.
Lemma shortened_ok b t n o : NB b t -> n <= length (tp t) -> shortened rdB' b n = Ok o -> OB o [shorten n t].
Proof.
  intros R Hn E. unfold shortened in E.
  destruct (SimErr.r_clone_shortened_sim rdB' rdB FB b n) as [S|S]; rewrite S in E; [discriminate|].
  destruct (r_clone_shortened_ok idsB rdB al b t n R Hn) as [(b' & Eb & Rb' & _)|[Eb _]]; rewrite Eb in E;
    [|discriminate]. injection E as <-. now apply OB_single.
Qed.
Lemma children_ok b p v cs o : NB b (T p v cs) -> r_load_children rdB' b = Ok o -> OB o cs.
Proof.
  intros R E. destruct (SimErr.r_load_children_sim rdB' rdB FB b) as [S|S]; [congruence|].
  destruct (NRep_children _ _ _ HdB _ _ _ _ R) as (o' & Eo & H). congruence.
Qed.
Lemma splits_ok a t n a1 : RA a t -> n <= length (tp t) -> split rdA' a n = Ok a1 ->
  exists m, n_kids a1 = KArc [m] /\ RA m (shorten n t) /\ n_prefix a1 = Data (firstn n (tp t)) /\ n_value a1 = bnone.
Proof.
  intros R Hn E. destruct (SimErr.split_sim rdA' rdA FA a n) as [S|S]; [congruence|].
  destruct (split_ok false rdA a t n R Hn) as (n1 & m & E1 & K1 & Rm & _ & P1 & V1).
  assert (a1 = n1) as -> by congruence. eauto.
Qed.

(* ------------------------------------------------------------------ *)
Ltac prologue :=
  match goal with Ra : Rep _ _ ?na (T ?ap ?va ?xs), Rb : NRep _ _ _ ?rb (T ?bp ?vb ?ys), Ca : wroot _, Cb : wroot _ |- _ =>
    pose proof (Rep_inv _ _ _ _ _ _ Ra) as (RP & RV & nx & RK & RF);
    destruct (wroot_kids _ Ca) as [Sa Ka]; destruct (wroot_kids _ Cb) as [Sb Kb]; cbn [tc] in *;
    pose proof (RepV_opt _ _ _ RV) as VA; pose proof (NRep_value _ _ _ _ _ _ _ Rb) as VB;
    apply errs_try; [intros _; now apply wmid_old|];
    let ap0 := fresh in let Eap := fresh in
    intros ap0 Eap; destruct (SimErr.load_prefix_sim rdA' rdA FA (n_prefix na)) as [Eap2|Eap2]; [congruence|];
    rewrite (RepP_load _ _ _ _ RP) in Eap2; rewrite Eap2 in Eap; injection Eap as <-;
    apply errs_try; [intros _; now apply wmid_old|];
    let bp0 := fresh in let Ebp := fresh in
    intros bp0 Ebp; destruct (SimErr.load_prefix_sim rdB' rdB FB (r_prefix rb)) as [Ebp2|Ebp2]; [congruence|];
    rewrite (NRep_prefix _ _ _ _ _ _ _ Rb) in Ebp2; rewrite Ebp2 in Ebp; injection Ebp as <-
  end.

Section Joins.
Context (f f' : blob -> blob -> res blob) (h : bytes -> bytes -> option bytes).
Context (Hf : forall av bv x y, RepV rdA av (Some x) -> RepV rdB bv (Some y) ->
  okp al (f av bv) (fun r => RepV rdA r (h x y))).
Context (lossy : option bytes -> option bytes -> Prop) (Hkeep : keep = false -> forall o y, lossy o y).
Context (Ff : forall a b, SimErr.sim (f' a b) (f a b)).
Context (Lf : forall a b x y, RepV rdA a (Some x) -> RepV rdB b (Some y) -> f' a b = Err -> lossy (Some x) (Some y)).

Lemma f_cases av bv x y : RepV rdA av (Some x) -> RepV rdB bv (Some y) ->
  (f' av bv = Err -> lossy (Some x) (Some y)) /\ forall r, f' av bv = Ok r -> RepV rdA r (h x y).
Proof.
  intros Ra Rb. split; [now apply Lf|]. intros r E. destruct (Ff av bv) as [S|S]; [congruence|].
  destruct (Hf av bv x y Ra Rb) as [(z & E2 & H)|[E2 _]]; congruence.
Qed.

Section Left.
Context (Hdbg : dbg = true -> det rdA \/ al).

Theorem w_left_combine_mid : forall fuel,
  wrecm lossy lookup (gL h) anyt (left_combine_in keep dbg rdA' rdB' f' fuel) (fuel - 2).
Proof.
  set (g := gL h).
  assert (gR : forall o, g o None = o) by (intros [|]; reflexivity).
  assert (gl : forall o, g None o = None) by reflexivity.
  assert (g0 : g None None = None) by reflexivity.
  induction fuel as [|fuel IH]; intros na rb ta tb Ra Rb Ca Cb _ Hs;
    [pose proof (size_pos ta); cbn in Hs; lia|].
  split.
  { eapply ok_parts; [apply out_left|apply SimErr.left_combine_with_sim with (rdA' := rdA) (rdB' := rdB) (f' := f) (fuel' := S fuel); auto|].
    eapply WeakWith.left_combine_with_ok; eauto. exact Logic.I. }
  destruct ta as [ap va xs], tb as [bp vb ys]. cbn [left_combine_in].
  rewrite !size_T in Hs.
  prologue.
  destruct (edges_cases ap bp) as [E1 E2 E3|E1 E2 E3|E1 E2 E3|x y E1 E2 E3 Ex Ey Nxy];
    set (n := common_prefix ap bp) in *; edge_tests.
  - subst bp.
    assert (forall v' w, RepV rdA v' w -> InPlaceProofs.mid lossy g va vb w ->
      errs (recurse dbg rdA' (left_children_in keep (left_combine_in keep dbg rdA' rdB' f' fuel) fuel) (set_value na v')
             (r_load_children rdB' rb)) (wmid lossy lookup g (T ap va xs) (T ap vb ys))) as G.
    { intros v' w Rv Mv. eapply recurse_mid with (d := None) (nx := nx) (p := ap) (va := va) (v := w) (xs := xs) (ys := ys); eauto.
      - intros o Eo. pose proof (children_ok _ _ _ _ _ Rb Eo). eapply left_children_mid with (M := fuel - 2); eauto using anyts, not_starts_lookup. lia.
      - intros k. apply lookup_raw.
      - rewrite lookup_raw, raw_at. exact Mv.
      - intros r Hr. rewrite lookup_raw. now apply raw_below. }
    destruct vb as [y|].
    + destruct VB as (bv & -> & RVb). destruct va as [x|]; rewrite VA.
      * destruct (f_cases _ _ _ _ RV RVb) as [F1 F2]. apply errs_try.
        -- intros E. exists (T ap None xs). split; [eapply Rep_mk; cbn; eauto; reflexivity|].
           split; [split; auto|]. split; [intros; eauto|].
           intros k. rewrite !lookup_raw. unfold rawlook. destruct (strip ap k) as [[|c r]|]; [|now left|now left].
           right. right. auto.
        -- intros r E. eapply G; [apply F2, E|]. right. now left.
      * replace na with (set_value na (n_value na)) by (now destruct na). eapply G; [exact RV|now left].
    + rewrite VB. replace na with (set_value na (n_value na)) by (now destruct na). eapply G; [exact RV|now left].
  - eapply recurse_mid with (d := None) (nx := nx) (p := ap) (va := va) (v := va) (xs := xs) (ys := [shorten n (T bp vb ys)]); eauto.
    + intros o Eo. apply (shortened_ok _ (T bp vb ys)) in Eo; [|exact Rb|cbn; lia].
      eapply left_children_mid with (M := fuel - 2); eauto using anyts, not_starts_lookup, cc_single_sorted.
      * constructor; [now apply shorten_wcc|constructor].
      * rewrite sizes_single, size_shorten, size_T. lia.
    + intros k. apply lookup_raw.
    + now left.
    + intros r Hr. rewrite (rawlook_shorten (T bp vb ys) _ n E2). cbn [tp]. rewrite <- E3. now apply raw_below.
  - apply errs_try; [intros _; now apply wmid_old|]. intros a1 Ea1.
    apply (splits_ok _ (T ap va xs)) in Ea1 as (m & K1 & Rm & P1 & V1); [|exact Ra|cbn; lia].
    cbn [tp] in P1. rewrite E3 in P1.
    eapply recurse_mid with (d := None) (nx := [m]) (p := bp) (va := None) (v := None) (xs := [shorten n (T ap va xs)]) (ys := ys);
      eauto using cc_single_sorted.
    + rewrite P1. now left.
    + left. exact K1.
    + intros o Eo. pose proof (children_ok _ _ _ _ _ Rb Eo).
      eapply left_children_mid with (M := fuel - 2); eauto using anyts, not_starts_lookup, cc_single_sorted.
      * constructor; [now apply shorten_wcc|constructor].
      * rewrite sizes_single, size_shorten, size_T. lia.
    + constructor; [now apply shorten_wcc|constructor].
    + intros k. rewrite (rawlook_shorten (T ap va xs) k n E2). cbn [tp]. now rewrite E3.
    + now left.
    + intros r Hr. rewrite lookup_raw. now apply raw_below.
  - apply errs_finish.
Qed.

Theorem w_inner_combine_mid : forall fuel,
  wrecm lossy lookup (gI h) anyt (inner_combine_in keep dbg rdA' rdB' f' fuel) (fuel - 2).
Proof.
  set (g := gI h).
  assert (gR : forall o, g o None = None) by (intros [|]; reflexivity).
  assert (gl : forall o, g None o = None) by reflexivity.
  assert (g0 : g None None = None) by reflexivity.
  induction fuel as [|fuel IH]; intros na rb ta tb Ra Rb Ca Cb _ Hs;
    [pose proof (size_pos ta); cbn in Hs; lia|].
  split.
  { eapply ok_parts; [apply out_inner|apply SimErr.inner_combine_with_sim with (rdA' := rdA) (rdB' := rdB) (f' := f) (fuel' := S fuel); auto|].
    eapply WeakWith.inner_combine_with_ok; eauto. exact Logic.I. }
  destruct ta as [ap va xs], tb as [bp vb ys]. cbn [inner_combine_in].
  rewrite !size_T in Hs.
  prologue.
  destruct (edges_cases ap bp) as [E1 E2 E3|E1 E2 E3|E1 E2 E3|x y E1 E2 E3 Ex Ey Nxy];
    set (n := common_prefix ap bp) in *; edge_tests.
  - subst bp.
    assert (forall v' w, RepV rdA v' w -> InPlaceProofs.mid lossy g va vb w ->
      errs (recurse dbg rdA' (inner_children_in keep (inner_combine_in keep dbg rdA' rdB' f' fuel) fuel) (set_value na v')
             (r_load_children rdB' rb)) (wmid lossy lookup g (T ap va xs) (T ap vb ys))) as G.
    { intros v' w Rv Mv. eapply recurse_mid with (d := None) (nx := nx) (p := ap) (va := va) (v := w) (xs := xs) (ys := ys); eauto.
      - intros o Eo. pose proof (children_ok _ _ _ _ _ Rb Eo). eapply inner_children_mid with (M := fuel - 2); eauto using anyts, not_starts_lookup. lia.
      - intros k. apply lookup_raw.
      - rewrite lookup_raw, raw_at. exact Mv.
      - intros r Hr. rewrite lookup_raw. now apply raw_below. }
    destruct va as [x|]; rewrite VA.
    + destruct vb as [y|].
      * destruct VB as (bv & -> & RVb). destruct (f_cases _ _ _ _ RV RVb) as [F1 F2]. apply errs_try.
        -- intros E. exists (T ap None xs). split; [eapply Rep_mk; cbn; eauto; reflexivity|].
           split; [split; auto|]. split; [intros; eauto|].
           intros k. rewrite !lookup_raw. unfold rawlook. destruct (strip ap k) as [[|c r]|]; [|now left|now left].
           right. right. auto.
        -- intros r E. eapply G; [apply F2, E|]. right. now left.
      * rewrite VB. eapply (G bnone None); [reflexivity|right; now left].
    + eapply (G bnone None); [reflexivity|now left].
  - eapply recurse_mid with (d := None) (nx := nx) (p := ap) (va := va) (v := None) (xs := xs) (ys := [shorten n (T bp vb ys)]); eauto.
    + reflexivity.
    + intros o Eo. apply (shortened_ok _ (T bp vb ys)) in Eo; [|exact Rb|cbn; lia].
      eapply inner_children_mid with (M := fuel - 2); eauto using anyts, not_starts_lookup, cc_single_sorted.
      * constructor; [now apply shorten_wcc|constructor].
      * rewrite sizes_single, size_shorten, size_T. lia.
    + intros k. apply lookup_raw.
    + right. left. symmetry. rewrite (rawlook_shorten (T bp vb ys) _ n E2). cbn [tp]. rewrite <- E3, raw_at. apply gR.
    + intros r Hr. rewrite (rawlook_shorten (T bp vb ys) _ n E2). cbn [tp]. rewrite <- E3. now apply raw_below.
  - apply errs_try; [intros _; now apply wmid_old|]. intros a1 Ea1.
    apply (splits_ok _ (T ap va xs)) in Ea1 as (m & K1 & Rm & P1 & V1); [|exact Ra|cbn; lia].
    cbn [tp] in P1. rewrite E3 in P1.
    eapply recurse_mid with (d := None) (nx := [m]) (p := bp) (va := None) (v := None) (xs := [shorten n (T ap va xs)]) (ys := ys);
      eauto using cc_single_sorted.
    + rewrite P1. now left.
    + left. exact K1.
    + intros o Eo. pose proof (children_ok _ _ _ _ _ Rb Eo).
      eapply inner_children_mid with (M := fuel - 2); eauto using anyts, not_starts_lookup, cc_single_sorted.
      * constructor; [now apply shorten_wcc|constructor].
      * rewrite sizes_single, size_shorten, size_T. lia.
    + constructor; [now apply shorten_wcc|constructor].
    + intros k. rewrite (rawlook_shorten (T ap va xs) k n E2). cbn [tp]. now rewrite E3.
    + now left.
    + intros r Hr. rewrite lookup_raw. now apply raw_below.
  - apply errs_finish.
Qed.

End Left.
Section Outer.
Context (c c' : converter).
Context (HcN : forall fuel r t, NB r t -> size t < fuel ->
  okp al (conv_node c fuel r)
    (fun n => RA n t /\ (blob_is_id (r_prefix r) = false -> blob_is_id (n_prefix n) = false))).
Context (HcS : forall fuel r t k, NB r t -> k <= length (tp t) -> size t < fuel ->
  okp al (conv_node_shortened c fuel r k) (fun n => RA n (shorten k t))).
Context (HcV : forall bv y, RepV rdB bv (Some y) -> okp al (conv_value c bv) (fun v => RepV rdA v (Some y))).
Context (FcN : forall fuel fuel' r, fuel = fuel' -> SimErr.sim (conv_node c' fuel r) (conv_node c fuel' r)).
Context (FcS : forall fuel fuel' r n, fuel = fuel' ->
  SimErr.sim (conv_node_shortened c' fuel r n) (conv_node_shortened c fuel' r n)).
Context (FcV : forall v, SimErr.sim (conv_value c' v) (conv_value c v)).
Lemma conv_cases fuel r t n : NB r t -> size t < fuel -> conv_node c' fuel r = Ok n -> RA n t.
Proof.
  intros R Hf' E. destruct (FcN fuel fuel r eq_refl) as [S|S]; [congruence|].
  destruct (HcN fuel r t R Hf') as [(m & Em & Hm & _)|[Em _]]; congruence.
Qed.

Notation g := (gO h).
Lemma outer_g0 : g None None = None. Proof. reflexivity. Qed.
Lemma convert_mid : forall fuel itb ys, IB itb ys -> ksorted ys -> Forall wcc ys -> sizes ys + 1 < fuel ->
  errs (convert_loop_in c' fuel itb) (wkmid lossy None lookup g [] ys).
Proof.
  induction fuel as [|fuel IH]; intros itb ys Ib Sb Cb Hfu; [lia|].
  cbn [convert_loop_in].
  destruct ys as [|b ys].
  - apply IRepT_nil in Ib as (-> & _). discriminate.
  - apply IRepT_cons in Ib as (rb & itb' & -> & R & I & _). rewrite sizes_cons in Hfu.
    pose proof (size_pos b). inversion Cb as [|? ? Hb Hys]; subst.
    destruct (wcc_prefix _ Hb) as (x & q & E). pose proof Sb as Sb'.
    apply (ksorted_cons _ _ _ _ E) in Sb' as [A _].
    apply errs_try.
    + intros _. exists []. split; [constructor|]. apply WM_keep; constructor.
    + intros m Em. apply errs_pair; try discriminate. intros l El _. cbn [fst].
      pose proof (IH itb' ys I (ksorted_tail _ _ Sb)) as K. unfold errs in K. rewrite El in K.
      destruct K as (rs & F & K); auto; [lia|]. exists (b :: rs).
      split; [constructor; [|exact F]; apply (conv_cases fuel rb b m R); [lia|exact Em]|].
      eapply WM_b; eauto; now constructor.
Qed.

Section Loop.
Context (rec : node -> noderef -> left_in node) (M : nat) (Hrec : wrecm lossy lookup g anyt rec M).

Lemma outer_loop_mid : forall fuel na itb xs ys,
  Forall2 RA na xs -> IB itb ys -> ksorted xs -> ksorted ys -> Forall wcc xs -> Forall wcc ys ->
  sizes xs + sizes ys <= M -> sizes xs + sizes ys + 1 < fuel ->
  errs (outer_loop_in keep rec c' fuel na itb) (wkmid lossy None lookup g xs ys).
Proof.
  induction fuel as [|fuel IH]; intros na itb xs ys Ia Ib Sa Sb Ca Cb HM Hfu; [lia|].
  cbn [outer_loop_in].
  destruct (w_cmp_cases false idsB rdA rdB al _ _ _ _ Ia Ib Sa Sb Ca Cb)
    as [-> -> -> -> | a xs' x q m na' -> -> E Aa Ab R I' -> | b ys' y q rb itb' -> E Aa Ab R I' N ->
       | a b xs' ys' x q q' m na' rb itb' -> -> -> Ea Eb Aa Ab Ra Ia' Rb Ib' N ->].
  - discriminate.
  - rewrite sizes_cons in *. inversion Ca; subst. pose proof (size_pos a).
    apply errs_pair; try discriminate. intros ns El. intros _. cbn [fst].
    pose proof (IH na' itb xs' ys I' Ib (ksorted_tail _ _ Sa) Sb) as K.
    unfold errs in K. rewrite El in K. destruct K as (rs & Fn & K); auto; [lia|lia|].
    exists (a :: rs). split; [now constructor|]. eapply WM_a; eauto.
  - rewrite N. rewrite sizes_cons in *. inversion Cb; subst. pose proof (size_pos b).
    pose proof (IH na itb' xs ys' Ia I' Sa (ksorted_tail _ _ Sb)) as K.
    apply errs_try; [intros _; apply rest_ok; auto|]. intros m Em.
    apply errs_pair; try discriminate. intros ns El _. cbn [fst]. unfold errs in K. rewrite El in K.
    destruct K as (rs & Fn & K); auto; [lia|lia|]. exists (b :: rs).
    split; [constructor; [apply (conv_cases fuel rb b m R); [lia|exact Em]|exact Fn]|].
    eapply WM_b; eauto.
  - rewrite N. rewrite !sizes_cons in *. inversion Ca; inversion Cb; subst.
    pose proof (size_pos a). pose proof (size_pos b).
    destruct (Hrec m rb a b) as [[H1' _] H2']; auto using wcc_wroot; [exact Logic.I|lia|].
    apply errs_pair; try discriminate.
    + intros m' Em _. cbn [try fst]. unfold errs in H2'. rewrite Em in H2'. eapply fail_ok; eauto using ksorted_tail.
    + intros m' Em. cbn [try]. apply errs_pair; try discriminate. intros ns El _. cbn [fst].
      pose proof (IH na' itb' xs' ys' Ia' Ib' (ksorted_tail _ _ Sa) (ksorted_tail _ _ Sb)) as K.
      unfold errs in K. rewrite El in K. eapply both_mid; eauto. apply K; auto; lia.
Qed.
Lemma outer_children_mid fuel na o xs ys :
  Forall2 RA na xs -> OB o ys -> ksorted xs -> ksorted ys -> Forall wcc xs -> Forall wcc ys ->
  sizes xs + sizes ys <= M -> sizes xs + sizes ys + 1 < fuel ->
  errs (outer_children_in keep rec c' fuel na o) (wkmid lossy None lookup g xs ys).
Proof.
  intros Ia Ob Sa Sb Ca Cb HM Hfu. unfold outer_children_in. destruct o as [itb|]; cbn in Ob; [|discriminate].
  destruct Ob as [_ Ib]. destruct na as [|m na].
  - inversion Ia; subst. apply convert_mid; auto.
  - now apply outer_loop_mid.
Qed.
End Loop.

Theorem w_outer_combine_mid : forall fuel,
  wrecm lossy lookup g anyt (outer_combine_in keep dbg rdA' rdB' f' c' fuel) (fuel - 2).
Proof.
  induction fuel as [|fuel IH]; intros na rb ta tb Ra Rb Ca Cb _ Hs;
    [pose proof (size_pos ta); cbn in Hs; lia|].
  split.
  { eapply ok_parts; [apply out_outer|apply SimErr.outer_combine_with_sim with (rdA' := rdA) (rdB' := rdB) (f' := f) (c' := c) (fuel' := S fuel); auto|].
    eapply WeakWith.outer_combine_with_ok; eauto. exact Logic.I. }
  destruct ta as [ap va xs], tb as [bp vb ys]. cbn [outer_combine_in].
  rewrite !size_T in Hs.
  prologue.
  destruct (edges_cases ap bp) as [E1 E2 E3|E1 E2 E3|E1 E2 E3|x y E1 E2 E3 Ex Ey Nxy];
    set (n := common_prefix ap bp) in *; edge_tests.
  - subst bp. cbn [try].
    assert (forall v' w, RepV rdA v' w -> InPlaceProofs.mid lossy g va vb w ->
      errs (recurse dbg rdA' (outer_children_in keep (outer_combine_in keep dbg rdA' rdB' f' c' fuel) c' fuel) (set_value na v')
             (r_load_children rdB' rb)) (wmid lossy lookup g (T ap va xs) (T ap vb ys))) as G.
    { intros v' w Rv Mv. eapply recurse_mid with (d := None) (nx := nx) (p := ap) (va := va) (v := w) (xs := xs) (ys := ys); eauto.
      - intros o Eo. pose proof (children_ok _ _ _ _ _ Rb Eo). eapply outer_children_mid with (M := fuel - 2); eauto; lia.
      - intros k. apply lookup_raw.
      - rewrite lookup_raw, raw_at. exact Mv.
      - intros r Hr. rewrite lookup_raw. now apply raw_below. }
    destruct vb as [y|].
    + destruct VB as (bv & -> & RVb). destruct va as [x|]; rewrite VA.
      * destruct (f_cases _ _ _ _ RV RVb) as [F1 F2]. apply errs_try.
        -- intros E. exists (T ap None xs). split; [eapply Rep_mk; cbn; eauto; reflexivity|].
           split; [split; auto|]. split; [intros; eauto|].
           intros k. rewrite !lookup_raw. unfold rawlook. destruct (strip ap k) as [[|c0 r]|]; [|now left|now left].
           right. right. auto.
        -- intros r E. eapply G; [apply F2, E|right; now left].
      * apply errs_try; [intros _; now apply wmid_old|]. intros r E.
        destruct (FcV bv) as [S|S]; [congruence|].
        destruct (HcV bv y RVb) as [(z & Ez & Hz)|[Ez _]]; [|congruence]. assert (r = z) as -> by congruence.
        eapply G; [exact Hz|right; now left].
    + rewrite VB. replace na with (set_value na (n_value na)) by (now destruct na).
      eapply G; [exact RV|now left].
  - eapply recurse_mid with (d := None) (nx := nx) (p := ap) (va := va) (v := va) (xs := xs) (ys := [shorten n (T bp vb ys)]); eauto.
    + intros o Eo. apply (shortened_ok _ (T bp vb ys)) in Eo; [|exact Rb|cbn; lia].
      eapply outer_children_mid with (M := fuel - 2); eauto using cc_single_sorted;
        try (rewrite sizes_single, size_shorten, size_T; lia).
      constructor; [now apply shorten_wcc|constructor].
    + intros k. apply lookup_raw.
    + now left.
    + intros r Hr. rewrite (rawlook_shorten (T bp vb ys) _ n E2). cbn [tp]. rewrite <- E3. now apply raw_below.
  - apply errs_try; [intros _; now apply wmid_old|]. intros a1 Ea1.
    apply (splits_ok _ (T ap va xs)) in Ea1 as (m & K1 & Rm & P1 & V1); [|exact Ra|cbn; lia].
    cbn [tp] in P1. rewrite E3 in P1.
    assert (forall v' w, RepV rdA v' w -> (w = None \/ w = vb) ->
      errs (recurse dbg rdA' (outer_children_in keep (outer_combine_in keep dbg rdA' rdB' f' c' fuel) c' fuel) (set_value a1 v')
             (r_load_children rdB' rb)) (wmid lossy lookup g (T ap va xs) (T bp vb ys))) as G.
    { intros v' w Rv Mv.
      eapply recurse_mid with (d := None) (nx := [m]) (p := bp) (va := None) (v := w) (xs := [shorten n (T ap va xs)]) (ys := ys);
        eauto using cc_single_sorted.
      - cbn [n_prefix set_value]. rewrite P1. now left.
      - left. exact K1.
      - intros o Eo. pose proof (children_ok _ _ _ _ _ Rb Eo).
        eapply outer_children_mid with (M := fuel - 2); eauto using cc_single_sorted;
          try (rewrite sizes_single, size_shorten, size_T; lia).
        constructor; [now apply shorten_wcc|constructor].
      - constructor; [now apply shorten_wcc|constructor].
      - intros k. rewrite (rawlook_shorten (T ap va xs) k n E2). cbn [tp]. now rewrite E3.
      - rewrite lookup_raw, raw_at. destruct Mv as [->| ->]; [now left|right; now left].
      - intros r Hr. rewrite lookup_raw. now apply raw_below. }
    assert (a1 = set_value a1 bnone) as Ea by (destruct a1; cbn in V1; now rewrite V1).
    rewrite V1. cbn [blob_opt bnone].
    destruct vb as [y|].
    + destruct VB as (bv & -> & RVb).
      apply errs_try.
      * intros E. exists (T bp None [shorten n (T ap va xs)]). split; [|split; [|split]].
        -- eapply Rep_mk with (ns := [m]); cbn; eauto; [rewrite P1; now left|left; exact K1].
        -- split; [apply cc_single_sorted|]. constructor; [|constructor]. now apply shorten_wcc.
        -- intros; eauto.
        -- intros k. left. rewrite lookup_raw. rewrite (rawlook_shorten (T ap va xs) k n E2). cbn [tp]. now rewrite E3.
      * intros r E. destruct (FcV bv) as [S|S]; [congruence|].
        destruct (HcV bv y RVb) as [(z & Ez & Hz)|[Ez _]]; [|congruence]. assert (r = z) as -> by congruence.
        eapply G; [exact Hz|now right].
    + rewrite VB, Ea. eapply (G bnone None); [reflexivity|now left].
  - apply errs_try; [intros _; now apply wmid_old|]. intros a1 Ea1.
    apply (splits_ok _ (T ap va xs)) in Ea1 as (m & K1 & Rm & P1 & V1); [|exact Ra|cbn; lia].
    cbn [tp] in P1.
    unfold load_children_mut. rewrite K1. cbn [try].
    apply errs_try; [|intros b' _; apply errs_finish].
    intros E. exists (T (firstn n ap) None [shorten n (T ap va xs)]). split; [|split; [|split]].
    + eapply Rep_mk with (ns := [m]); cbn; eauto; [rewrite P1; now left|now left].
    + split; [apply cc_single_sorted|]. constructor; [|constructor]. now apply shorten_wcc.
    + cbn [tp]. intros z q q' Hz Hz'. eapply firstn_common; eauto.
    + intros k. left. rewrite lookup_raw. now rewrite (rawlook_shorten (T ap va xs) k n E1).
Qed.
End Outer.
End Joins.

(* ------------------------------------------------------------------ *)
Section Prefixes.
Context (lossy : option bytes -> bool -> Prop) (Hkeep : keep = false -> forall o y, lossy o y).
Context (Hdbg : dbg = true -> det rdA \/ al).
Context (f f' : blob -> res bool) (s : bytes -> bool).
Context (Hf : forall bv y, RepV rdB bv (Some y) -> okp al (f bv) (fun b => b = s y)).
Context (Ff : forall a, SimErr.sim (f' a) (f a)).

Lemma selected_cases rb p v cs b : NB rb (T p v cs) -> selected f' (r_value_opt rb) = Ok b -> b = selv s v.
Proof.
  intros R E. destruct (SimErr.selected_sim f' f Ff (r_value_opt rb)) as [S|S]; [congruence|].
  destruct (selected_ok idsB rdB al f s Hf rb p v cs R) as [(x & Ex & H)|[Ex _]]; congruence.
Qed.

Theorem w_remove_prefix_mid : forall fuel,
  wrecm lossy (cov s) gRm anyt (remove_prefix_in keep dbg rdA' rdB' f' fuel) (fuel - 2).
Proof.
  set (g := gRm).
  assert (gR : forall o, g o false = o) by reflexivity.
  assert (gl : forall o, g None o = None) by (intros [|]; reflexivity).
  assert (g0 : g None false = None) by reflexivity.
  induction fuel as [|fuel IH]; intros na rb ta tb Ra Rb Ca Cb _ Hs;
    [pose proof (size_pos ta); cbn in Hs; lia|].
  split.
  { eapply ok_parts; [apply out_remove_prefix|apply SimErr.remove_prefix_with_sim with (rdA' := rdA) (rdB' := rdB) (f' := f) (fuel' := S fuel); auto|].
    eapply WeakWith.remove_prefix_with_ok; eauto. exact Logic.I. }
  destruct ta as [ap va xs], tb as [bp vb ys]. cbn [remove_prefix_in].
  rewrite !size_T in Hs.
  prologue.
  destruct (edges_cases ap bp) as [E1 E2 E3|E1 E2 E3|E1 E2 E3|x y E1 E2 E3 Ex Ey Nxy];
    set (n := common_prefix ap bp) in *; edge_tests.
  - subst bp. apply errs_try; [intros _; now apply wmid_old|]. intros b Eb.
    pose proof (selected_cases _ _ _ _ _ Rb Eb) as Sv. destruct b; [apply errs_finish|]. symmetry in Sv.
    eapply recurse_mid with (d := false) (nx := nx) (p := ap) (va := va) (v := va) (xs := xs) (ys := ys); eauto.
    + intros o Eo. pose proof (children_ok _ _ _ _ _ Rb Eo).
      eapply left_children_mid with (M := fuel - 2); eauto using anyts, cov_not_starts. lia.
    + intros k. apply lookup_raw.
    + now left.
    + intros r Hr. rewrite cov_raw. now apply rawcov_below.
  - eapply recurse_mid with (d := false) (nx := nx) (p := ap) (va := va) (v := va) (xs := xs) (ys := [shorten n (T bp vb ys)]); eauto.
    + intros o Eo. apply (shortened_ok _ (T bp vb ys)) in Eo; [|exact Rb|cbn; lia].
      eapply left_children_mid with (M := fuel - 2); eauto using anyts, cov_not_starts, cc_single_sorted.
      * constructor; [now apply shorten_wcc|constructor].
      * rewrite sizes_single, size_shorten, size_T. lia.
    + intros k. apply lookup_raw.
    + now left.
    + intros r Hr. rewrite (rawcov_shorten s (T bp vb ys) _ n E2). cbn [tp]. rewrite <- E3. now apply rawcov_below.
  - apply errs_try; [intros _; now apply wmid_old|]. intros b Eb.
    pose proof (selected_cases _ _ _ _ _ Rb Eb) as Sv. destruct b; [apply errs_finish|]. symmetry in Sv.
    apply errs_try; [intros _; now apply wmid_old|]. intros a1 Ea1.
    apply (splits_ok _ (T ap va xs)) in Ea1 as (m & K1 & Rm & P1 & V1); [|exact Ra|cbn; lia].
    cbn [tp] in P1. rewrite E3 in P1.
    eapply recurse_mid with (d := false) (nx := [m]) (p := bp) (va := None) (v := None) (xs := [shorten n (T ap va xs)]) (ys := ys);
      eauto using cc_single_sorted.
    + rewrite P1. now left.
    + left. exact K1.
    + intros o Eo. pose proof (children_ok _ _ _ _ _ Rb Eo).
      eapply left_children_mid with (M := fuel - 2); eauto using anyts, cov_not_starts, cc_single_sorted.
      * constructor; [now apply shorten_wcc|constructor].
      * rewrite sizes_single, size_shorten, size_T. lia.
    + constructor; [now apply shorten_wcc|constructor].
    + intros k. rewrite (rawlook_shorten (T ap va xs) k n E2). cbn [tp]. now rewrite E3.
    + now left.
    + intros r Hr. rewrite cov_raw. now apply rawcov_below.
  - apply errs_finish.
Qed.

Theorem w_retain_prefix_mid : forall fuel,
  wrecm lossy (cov s) gRt (hered s) (retain_prefix_in keep dbg rdA' rdB' f' fuel) (fuel - 2).
Proof.
  set (g := gRt).
  assert (gR : forall o, g o false = None) by reflexivity.
  assert (gl : forall o, g None o = None) by (intros [|]; reflexivity).
  assert (g0 : g None false = None) by reflexivity.
  induction fuel as [|fuel IH]; intros na rb ta tb Ra Rb Ca Cb HQ Hs;
    [pose proof (size_pos ta); cbn in Hs; lia|].
  split.
  { eapply ok_parts; [apply out_retain|apply SimErr.retain_prefix_with_sim with (rdA' := rdA) (rdB' := rdB) (f' := f) (fuel' := S fuel); auto|].
    eapply WeakWith.retain_prefix_with_ok; eauto. }
  destruct ta as [ap va xs], tb as [bp vb ys]. cbn [retain_prefix_in].
  rewrite !size_T in Hs.
  prologue. pose proof (w_hered_kids _ _ _ _ Sb Kb HQ) as HQk.
  destruct (edges_cases ap bp) as [E1 E2 E3|E1 E2 E3|E1 E2 E3|x y E1 E2 E3 Ex Ey Nxy];
    set (n := common_prefix ap bp) in *; edge_tests.
  - subst bp. apply errs_try; [intros _; now apply wmid_old|]. intros b Eb.
    pose proof (selected_cases _ _ _ _ _ Rb Eb) as Sv. destruct b; [apply errs_finish|]. symmetry in Sv.
    eapply recurse_mid with (d := false) (nx := nx) (p := ap) (va := va) (v := None) (xs := xs) (ys := ys); eauto.
    + reflexivity.
    + intros o Eo. pose proof (children_ok _ _ _ _ _ Rb Eo).
      eapply inner_children_mid with (M := fuel - 2); eauto using cov_not_starts. lia.
    + intros k. apply lookup_raw.
    + right. left. symmetry. rewrite cov_raw, rawcov_at by exact Sv. apply gR.
    + intros r Hr. rewrite cov_raw. now apply rawcov_below.
  - eapply recurse_mid with (d := false) (nx := nx) (p := ap) (va := va) (v := None) (xs := xs) (ys := [shorten n (T bp vb ys)]); eauto.
    + reflexivity.
    + intros o Eo. apply (shortened_ok _ (T bp vb ys)) in Eo; [|exact Rb|cbn; lia].
      eapply inner_children_mid with (M := fuel - 2); eauto using cov_not_starts, cc_single_sorted.
      * constructor; [now apply shorten_wcc|constructor].
      * constructor; [apply hered_shorten; [cbn; lia|exact HQ]|constructor].
      * rewrite sizes_single, size_shorten, size_T. lia.
    + intros k. apply lookup_raw.
    + right. left. symmetry. rewrite (rawcov_shorten s (T bp vb ys) _ n E2). cbn [tp]. rewrite <- E3, rawcov_at by reflexivity. apply gR.
    + intros r Hr. rewrite (rawcov_shorten s (T bp vb ys) _ n E2). cbn [tp]. rewrite <- E3. now apply rawcov_below.
  - destruct vb as [v|].
    + destruct VB as (bv & -> & RVb). apply errs_try; [intros _; now apply wmid_old|].
      intros [|] _; apply errs_finish.
    + rewrite VB. apply errs_try; [intros _; now apply wmid_old|]. intros a1 Ea1.
      apply (splits_ok _ (T ap va xs)) in Ea1 as (m & K1 & Rm & P1 & V1); [|exact Ra|cbn; lia].
      cbn [tp] in P1. rewrite E3 in P1.
      eapply recurse_mid with (d := false) (nx := [m]) (p := bp) (va := None) (v := None) (xs := [shorten n (T ap va xs)]) (ys := ys);
        eauto using cc_single_sorted.
      * rewrite P1. now left.
      * left. exact K1.
      * intros o Eo. pose proof (children_ok _ _ _ _ _ Rb Eo).
        eapply inner_children_mid with (M := fuel - 2); eauto using cov_not_starts, cc_single_sorted.
        -- constructor; [now apply shorten_wcc|constructor].
        -- rewrite sizes_single, size_shorten, size_T. lia.
      * constructor; [now apply shorten_wcc|constructor].
      * intros k. rewrite (rawlook_shorten (T ap va xs) k n E2). cbn [tp]. now rewrite E3.
      * now left.
      * intros r Hr. rewrite cov_raw. now apply rawcov_below.
  - apply errs_finish.
Qed.
End Prefixes.
End Mid.
