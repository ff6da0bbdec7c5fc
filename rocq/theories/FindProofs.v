(** Correctness of [find] and the operations built on it. *)
From Verif Require Import Base BaseLemmas Header Node Iter Tree Rep JoinBase PrefixProofs.
From Coq Require Import Sorting.Sorted.

Lemma sorted_nth l : ksorted l -> forall i j a b, i < j ->
  nth_error l i = Some a -> nth_error l j = Some b -> klt a b.
Proof.
  induction 1 as [|x l S IH F]; intros i j a b Hij Ha Hb; [now destruct i|].
  destruct j as [|j]; [lia|]. destruct i as [|i]; cbn in *.
  - injection Ha as ->. eapply Forall_forall in F; [exact F|]. eapply nth_error_In; eauto.
  - eapply IH; [|eauto|eauto]. lia.
Qed.

(** The first byte of a tree as a number. *)
Definition fb (t : tree) : option N := match tp t with x :: _ => Some (bnum x) | [] => None end.

Lemma klt_fb a b : klt a b -> exists x y, fb a = Some x /\ fb b = Some y /\ (x < y)%N.
Proof. unfold klt, fb. destruct (tp a), (tp b); try tauto. eauto. Qed.

Lemma cc_fb a : cc a -> exists x, fb a = Some x /\ (x < 256)%N.
Proof.
  intros H. destruct (cc_nonempty_prefix _ H) as (x & q & E). unfold fb. rewrite E.
  eexists. split; [reflexivity|apply bnum_lt].
Qed.

Lemma sorted_ge l : ksorted l -> Forall cc l -> forall i a x, nth_error l i = Some a -> fb a = Some x ->
  (N.of_nat i <= x)%N.
Proof.
  intros So C. induction i as [|i IH]; intros a x Ha Hx; [lia|].
  destruct (nth_error l i) as [b|] eqn:Eb.
  - destruct (klt_fb _ _ (sorted_nth _ So i (i + 1) b a ltac:(lia) Eb ltac:(now rewrite Nat.add_1_r))) as (y & z & Hy & Hz & L).
    rewrite Hz in Hx. injection Hx as ->. specialize (IH b y eq_refl Hy). lia.
  - apply nth_error_None in Eb. assert (nth_error l (S i) <> None) as N by congruence.
    apply nth_error_Some in N. lia.
Qed.

Lemma sorted_le l : ksorted l -> Forall cc l -> forall d i a x, length l = i + S d ->
  nth_error l i = Some a -> fb a = Some x -> (x + N.of_nat d < 256)%N.
Proof.
  intros So C. induction d as [|d IH]; intros i a x Hl Ha Hx.
  - apply nth_error_In in Ha. eapply Forall_forall in C; [|exact Ha].
    destruct (cc_fb _ C) as (y & Hy & L). rewrite Hy in Hx. injection Hx as ->. lia.
  - destruct (nth_error l (i + 1)) as [b|] eqn:Eb; [|apply nth_error_None in Eb; lia].
    destruct (klt_fb _ _ (sorted_nth _ So i (i + 1) a b ltac:(lia) Ha Eb)) as (y & z & Hy & Hz & L).
    rewrite Hy in Hx. injection Hx as ->. specialize (IH (i + 1) b z ltac:(lia) Eb Hz). lia.
Qed.

Lemma sorted_256 l i a : ksorted l -> Forall cc l -> length l = 256 ->
  nth_error l i = Some a -> fb a = Some (N.of_nat i).
Proof.
  intros So C L H. pose proof H as H'. apply nth_error_In in H'.
  pose proof (proj1 (Forall_forall _ _) C a H') as Ca. destruct (cc_fb _ Ca) as (x & Hx & _).
  assert (i < length l) by (apply nth_error_Some; congruence).
  pose proof (sorted_ge l So C i a x H Hx).
  pose proof (sorted_le l So C (255 - i) i a x ltac:(lia) H Hx).
  rewrite Hx. f_equal. lia.
Qed.

Lemma cmp_first a c : cmp_ob (hd_error (tp a)) (Some c) =
  match fb a with Some x => N.compare x (bnum c) | None => Lt end.
Proof. unfold fb. destruct (tp a); reflexivity. Qed.

Section Find.
Context (ids : bool) (rd : reader).

Notation NR := (NRep ids rd True).
Notation IR := (IRepT ids rd True).
Notation RR := (Rep ids rd).

(** The child starting with a byte. *)
Definition has_child (cs : list tree) (c : byte) (r : option noderef) : Prop :=
  match r with
  | Some r => exists a q, In a cs /\ tp a = c :: q /\ NR r a
  | None => forall a q, In a cs -> tp a <> c :: q
  end.

Lemma Forall2_nth {A B} (R : A -> B -> Prop) l l' : Forall2 R l l' -> forall i,
  match nth_error l i, nth_error l' i with
  | Some x, Some y => R x y
  | None, None => True
  | _, _ => False
  end.
Proof. induction 1; intros [|i]; cbn; auto. apply IHForall2. Qed.

Lemma bsearch_ok ns cs c : Forall2 RR ns cs -> ksorted cs -> Forall cc cs ->
  forall fuel left right, right - left < fuel -> right <= length ns ->
  (forall i a x, i < left -> nth_error cs i = Some a -> fb a = Some x -> (x < bnum c)%N) ->
  (forall i a x, right <= i -> nth_error cs i = Some a -> fb a = Some x -> (bnum c < x)%N) ->
  has_child cs c (option_map ROwned (bsearch ns c fuel left right)).
Proof.
  intros F So C. induction fuel as [|fuel IH]; intros left right Hf Hr HL HR; [lia|].
  cbn [bsearch]. destruct (Nat.ltb_spec left right) as [Hlt|Hge].
  - set (mid := left + (right - left) / 2).
    assert (left <= mid < right) as Hm.
    { unfold mid. pose proof (Nat.div_lt (right - left) 2). lia. }
    pose proof (Forall2_nth _ _ _ F mid) as Hn.
    destruct (nth_error ns mid) as [x|] eqn:Ex; [|apply nth_error_None in Ex; lia].
    destruct (nth_error cs mid) as [a|] eqn:Ea; [|contradiction].
    rewrite (Rep_first _ _ _ _ Hn), cmp_first.
    pose proof (nth_error_In _ _ Ea) as Hin.
    pose proof (proj1 (Forall_forall _ _) C a Hin) as Ca. destruct (cc_fb _ Ca) as (z & Hz & _).
    rewrite Hz. destruct (N.compare_spec z (bnum c)) as [E|E|E].
    + cbn. unfold fb in Hz. destruct (tp a) as [|y q] eqn:Et; [discriminate|]. injection Hz as Hz.
      rewrite E in Hz. apply bnum_inj in Hz. subst y. exists a, q. split; [exact Hin|].
      split; [exact Et|]. now apply Rep_NRep.
    + apply IH; try lia.
      * intros i b w Hi Hb Hw. destruct (Nat.eq_dec i mid) as [->|Ni].
        -- rewrite Hb in Ea. injection Ea as ->. rewrite Hw in Hz. injection Hz as ->. exact E.
        -- destruct (klt_fb _ _ (sorted_nth _ So i mid b a ltac:(lia) Hb Ea)) as (y1 & y2 & H1 & H2 & L).
           rewrite H1 in Hw. rewrite H2 in Hz. injection Hw as ->. injection Hz as ->. lia.
      * exact HR.
    + apply IH; try lia.
      * exact HL.
      * intros i b w Hi Hb Hw. destruct (Nat.eq_dec i mid) as [->|Ni].
        -- rewrite Hb in Ea. injection Ea as ->. rewrite Hw in Hz. injection Hz as ->. exact E.
        -- destruct (klt_fb _ _ (sorted_nth _ So mid i a b ltac:(lia) Ea Hb)) as (y1 & y2 & H1 & H2 & L).
           rewrite H2 in Hw. rewrite H1 in Hz. injection Hw as ->. injection Hz as ->. lia.
  - cbn. intros a q Hin Et. apply In_nth_error in Hin as [i Hi].
    assert (fb a = Some (bnum c)) as Hb by (unfold fb; now rewrite Et).
    destruct (Nat.lt_ge_cases i left) as [L|L].
    + specialize (HL i a _ L Hi Hb). lia.
    + specialize (HR i a _ ltac:(lia) Hi Hb). lia.
Qed.

Lemma find_owned_ok ns cs c : Forall2 RR ns cs -> ksorted cs -> Forall cc cs ->
  has_child cs c (option_map ROwned (find_owned ns c)).
Proof.
  intros F So C. unfold find_owned. destruct (Nat.eqb_spec (length ns) 256) as [E|E].
  - pose proof (Forall2_len _ _ _ F) as L. pose proof (bnum_lt c) as Lc.
    pose proof (Forall2_nth _ _ _ F (N.to_nat (bnum c))) as Hn.
    destruct (nth_error ns _) as [x|] eqn:Ex; [|apply nth_error_None in Ex; lia].
    destruct (nth_error cs _) as [a|] eqn:Ea; [|contradiction].
    pose proof (sorted_256 cs _ a So C ltac:(lia) Ea) as Hf. rewrite N2Nat.id in Hf.
    cbn. unfold fb in Hf. destruct (tp a) as [|y q] eqn:Et; [discriminate|]. injection Hf as Hf.
    apply bnum_inj in Hf. subst y. exists a, q. split; [eapply nth_error_In; eauto|].
    split; [exact Et|]. now apply Rep_NRep.
  - apply bsearch_ok; auto; try lia. intros i a x Hi Ha. pose proof (Forall2_len _ _ _ F).
    assert (nth_error cs i <> None) as N by congruence. apply nth_error_Some in N. lia.
Qed.

Lemma find_borrowed_ok c : forall fuel data cs, length data < fuel ->
  IR (IBorrowed data) cs -> ksorted cs -> Forall cc cs ->
  has_child cs c (option_map RBorrowed (find_borrowed fuel data c)).
Proof.
  induction fuel as [|fuel IH]; intros data cs Hf H So C; [lia|]. cbn [find_borrowed].
  destruct cs as [|a cs].
  - apply IRepT_nil in H as [H _]. cbn in H. destruct (read_one data) as [[b rest]|]; [discriminate|].
    cbn. intros ? ? [].
  - apply IRepT_cons in H as (r & it' & H1 & H2 & H3 & H4). cbn in H1, H4.
    destruct (read_one data) as [[b rest]|] eqn:Er; [|discriminate].
    injection H1 as <- <-. injection H4 as H4. rewrite H4, cmp_first.
    inversion C as [|? ? Ca C']; subst. destruct (cc_fb _ Ca) as (z & Hz & _). rewrite Hz.
    destruct (cc_nonempty_prefix _ Ca) as (x & q & Et).
    assert (z = bnum x) as -> by (unfold fb in Hz; rewrite Et in Hz; congruence).
    pose proof (proj1 (ksorted_cons _ cs _ _ Et) So) as [Ab So'].
    destruct (N.compare_spec (bnum x) (bnum c)) as [E|E|E].
    + apply bnum_inj in E. subst c. cbn. exists a, q. split; [now left|]. auto.
    + apply read_one_shorter in Er. specialize (IH rest cs ltac:(lia) H3 So' C').
      destruct (find_borrowed fuel rest c) as [r|]; cbn in *.
      * destruct IH as (a' & q' & Hin & Hr). exists a', q'. split; [now right|exact Hr].
      * intros a' q' [<-|Hin]; [rewrite Et; intros [= ->]; lia|now apply IH].
    + cbn. intros a' q' [<-|Hin]; [rewrite Et; intros [= ->]; lia|].
      eapply Forall_forall in Ab; [|exact Hin]. intros E'. cbn in Ab. rewrite E' in Ab. lia.
Qed.

Lemma it_find_ok it cs c : IR it cs -> ksorted cs -> Forall cc cs -> has_child cs c (it_find it c).
Proof.
  intros H So C. destruct it as [ns|data]; cbn [it_find].
  - destruct H as [_ (ns' & E & F)]. cbn in E. subst. now apply find_owned_ok.
  - apply find_borrowed_ok; auto.
Qed.

(** What [find] returns. *)
Definition find_post (t : tree) (k : bytes) (x : find_result) : Prop :=
  match x with
  | Found r => exists t', NR r t' /\ croot t' /\ (exists p, k = p ++ tp t') /\ size t' <= size t /\
      ((t' = t /\ k = tp t) \/ cc t') /\
      forall z, lookup t (k ++ z) = lookup t' (tp t' ++ z)
  | Prefix r n => exists t', NR r t' /\ croot t' /\ n < length (tp t') /\
      (exists p, k = p ++ firstn n (tp t')) /\ n <= length k /\ size t' <= size t /\
      forall z, lookup t (k ++ z) = lookup t' (firstn n (tp t') ++ z)
  | NotFound => k <> [] /\ forall z, lookup t (k ++ z) = None
  end.

Lemma NRep_children_T r p v cs : NR r (T p v cs) ->
  exists o, r_load_children rd r = Ok o /\ ORep ids rd True o cs.
Proof. apply NRep_children. now right. Qed.

Lemma size_in a cs : In a cs -> size a <= sizes cs.
Proof.
  induction cs as [|b cs IH]; [intros []|]. intros [->|H]; rewrite sizes_cons; [lia|]. specialize (IH H). lia.
Qed.

Theorem find_ok : forall fuel r t k, NR r t -> croot t -> size t < fuel ->
  exists x, find rd fuel r k = Ok x /\ find_post t k x.
Proof.
  induction fuel as [|fuel IH]; intros r [p v cs] k H Hc Hf; [lia|]. cbn [find].
  rewrite (NRep_prefix _ _ _ _ _ _ _ H). cbn [bind]. rewrite size_T in Hf.
  destruct (croot_kids _ Hc) as [So C]. cbn [tc] in *.
  destruct (edges_cases p k) as [E1 E2 E3|E1 E2 E3|E1 E2 E3|x y E1 E2 E3 Ex Ey Nxy];
    set (n := common_prefix p k) in *; edge_tests.
  - subst k. eexists. split; [reflexivity|]. exists (T p v cs). split; [exact H|]. split; [exact Hc|].
    split; [exists []; reflexivity|]. auto.
  - (* the key goes on *)
    destruct (skipn_cons_nth n k E2) as (c & Ec & Es). rewrite Ec.
    assert (k <> []) as Nk by (intros ->; cbn in E2; lia).
    destruct (NRep_children_T _ _ _ _ H) as (o & -> & Ho). cbn [bind].
    assert (forall z, lookup (T p v cs) (k ++ z) = lkids cs (skipn n k ++ z)) as HL.
    { intros z. rewrite lookup_raw. unfold rawlook.
      rewrite <- (firstn_skipn n k) at 1. rewrite <- app_assoc, E3, strip_app, Es. reflexivity. }
    assert (forall z, (forall a q, In a cs -> tp a <> c :: q) -> lookup (T p v cs) (k ++ z) = None) as HN.
    { intros z Ha. rewrite HL, Es. clear -Ha. induction cs as [|a cs IH]; [reflexivity|]. cbn.
      unfold starts. destruct (tp a) as [|x q] eqn:E; cbn.
      - apply IH. intros; apply Ha; now right.
      - destruct (byte_eqb_spec x c); [subst; exfalso; eapply Ha; [now left|exact E]|].
        apply IH. intros; apply Ha; now right. }
    destruct o as [it|]; cbn in Ho.
    + destruct Ho as [_ Hi]. pose proof (it_find_ok _ _ c Hi So C) as Hh.
      destruct (it_find it c) as [r'|]; cbn in Hh.
      * destruct Hh as (a & q & Hin & Et & Hr).
        pose proof (proj1 (Forall_forall _ _) C a Hin) as Ca. pose proof (size_in _ _ Hin) as Sz.
        destruct (IH r' a (skipn n k) Hr (cc_croot _ Ca) ltac:(lia)) as (x & -> & Hp).
        eexists. split; [reflexivity|].
        assert (forall z, lookup (T p v cs) (k ++ z) = lookup a (skipn n k ++ z)) as HL'.
        { intros z. rewrite HL. apply lkids_in; auto. rewrite Es. cbn. eapply starts_self; eauto. }
        destruct x as [r2|r2 m|]; cbn [find_post] in *.
        -- destruct Hp as (t' & N' & C' & (p' & Ep) & Sz' & Hcc & Hz). exists t'. split; [exact N'|]. split; [exact C'|].
           split; [exists (firstn n k ++ p'); now rewrite <- app_assoc, <- Ep, firstn_skipn|].
           split; [rewrite size_T; lia|]. split; [right; destruct Hcc as [[-> _]|]; auto|].
           intros z. now rewrite HL', Hz.
        -- destruct Hp as (t' & N' & C' & Ln & (p' & Ep) & Lk & Sz' & Hz). exists t'. split; [exact N'|]. split; [exact C'|].
           split; [exact Ln|].
           split; [exists (firstn n k ++ p'); now rewrite <- app_assoc, <- Ep, firstn_skipn|].
           rewrite skipn_length in Lk. split; [lia|]. split; [rewrite size_T; lia|].
           intros z. now rewrite HL', Hz.
        -- split; [exact Nk|]. intros z. destruct Hp as [_ Hp]. now rewrite HL', Hp.
      * eexists. split; [reflexivity|]. split; [exact Nk|]. intros z. now apply HN.
    + subst cs. eexists. split; [reflexivity|]. split; [exact Nk|]. intros z. apply HN. intros ? ? [].
  - eexists. split; [reflexivity|]. exists (T p v cs). cbn [tp]. split; [exact H|]. split; [exact Hc|].
    split; [exact E2|]. split; [exists []; cbn; now rewrite E3|]. split; [lia|]. split; [auto|].
    intros z. now rewrite E3.
  - eexists. split; [reflexivity|]. split; [intros ->; cbn in E2; lia|]. intros z.
    rewrite lookup_raw. unfold rawlook.
    destruct (strip p (k ++ z)) as [s|] eqn:Es; [|reflexivity]. apply strip_spec in Es. exfalso.
    assert (nth_error (k ++ z) n = Some x) as Hx.
    { rewrite Es. now rewrite nth_error_app1. }
    rewrite nth_error_app1 in Hx by assumption. congruence.
Qed.

(* ------------------------------------------------------------------ *)
(** The operations. *)

Lemma lookup_self p v cs z : lookup (T p v cs) (p ++ z) = match z with [] => v | _ => lkids cs z end.
Proof. rewrite lookup_raw. unfold rawlook. now rewrite strip_app. Qed.

Lemma lookup_here p v cs : lookup (T p v cs) p = v.
Proof. pose proof (lookup_self p v cs []) as H. rewrite app_nil_r in H. exact H. Qed.

Lemma lookup_short t n : n < length (tp t) -> lookup t (firstn n (tp t)) = None.
Proof.
  intros H. destruct t as [p v cs]. cbn [tp] in *. rewrite lookup_raw. unfold rawlook.
  destruct (strip p (firstn n p)) as [r|] eqn:E; [|reflexivity]. apply strip_spec in E.
  apply (f_equal (@length byte)) in E. rewrite app_length, firstn_length in E. lia.
Qed.

(** [get] returns a value that loads to the entry of the map. *)
Theorem get_ok fuel n t k : RR n t -> croot t -> size t < fuel ->
  exists o, get rd fuel n k = Ok o /\
    match lookup t k with
    | None => o = None
    | Some x => exists b, o = Some b /\ RepV rd b (Some x)
    end.
Proof.
  intros H Hc Hf. unfold get.
  destruct (find_ok fuel (ROwned n) t k (Rep_NRep _ _ _ _ _ H) Hc Hf) as (x & -> & Hp). cbn [bind].
  eexists. split; [reflexivity|]. destruct x as [r|r m|]; cbn in Hp.
  - destruct Hp as (t' & N' & C' & _ & _ & _ & Hz). specialize (Hz []). rewrite !app_nil_r in Hz. rewrite Hz.
    destruct t' as [p v cs]. cbn [tp]. rewrite lookup_here.
    apply NRep_value in N'. exact N'.
  - destruct Hp as (t' & N' & C' & L & _ & _ & _ & Hz). specialize (Hz []). rewrite !app_nil_r in Hz. rewrite Hz.
    now rewrite lookup_short.
  - destruct Hp as [_ Hp]. specialize (Hp []). rewrite app_nil_r in Hp. now rewrite Hp.
Qed.

Theorem contains_key_ok fuel n t k : RR n t -> croot t -> size t < fuel ->
  contains_key rd fuel n k = Ok (match lookup t k with Some _ => true | None => false end).
Proof.
  intros H Hc Hf. destruct (get_ok fuel n t k H Hc Hf) as (o & Hg & Ho).
  unfold get in Hg. unfold contains_key. destruct (find rd fuel (ROwned n) k) as [x| | |]; cbn [bind] in *; try discriminate.
  injection Hg as <-. f_equal. destruct (lookup t k) as [y|].
  - destruct Ho as (b & Ho & _). destruct x; try discriminate. now rewrite Ho.
  - destruct x; auto. now rewrite Ho.
Qed.

(** [has_prefix], except on the empty tree and the empty prefix. *)
Theorem has_prefix_ok fuel n t k : RR n t -> croot t -> size t < fuel ->
  exists b, has_prefix rd fuel n k = Ok b /\
    (t <> tempty \/ k <> [] -> (b = true <-> exists z, lookup t (k ++ z) <> None)) /\
    (t = tempty -> k = [] -> b = true).
Proof.
  intros H Hc Hf. unfold has_prefix.
  destruct (find_ok fuel (ROwned n) t k (Rep_NRep _ _ _ _ _ H) Hc Hf) as (x & -> & Hp). cbn [bind].
  eexists. split; [reflexivity|]. destruct x as [r|r m|]; cbn in Hp.
  - split; [|auto]. intros Hne. split; [intros _|reflexivity].
    destruct Hp as (t' & N' & C' & [p E] & _ & Hcc & Hz).
    assert (t' <> tempty) as Ne.
    { destruct Hcc as [[-> Ek]|Hcc].
      - intros ->. destruct Hne as [Hne|Hne]; [congruence|]. now apply Hne.
      - intros ->. inversion Hcc; congruence. }
    destruct (croot_has_key _ C' Ne) as [w Hw].
    assert (exists z, w = tp t' ++ z) as [z ->].
    { destruct t' as [p' v' cs']. rewrite lookup_raw in Hw. unfold rawlook in Hw. cbn.
      destruct (strip p' w) as [z|] eqn:Es; [|congruence]. apply strip_spec in Es. eauto. }
    exists z. now rewrite Hz.
  - destruct Hp as (t' & N' & C' & L & _ & _ & _ & Hz). split; [|auto]. intros _. split; [intros _|reflexivity].
    assert (t' <> tempty) as Ne by (intros ->; cbn in L; lia).
    destruct (croot_has_key _ C' Ne) as [w Hw].
    assert (exists z, w = tp t' ++ z) as [z ->].
    { destruct t' as [p' v' cs']. rewrite lookup_raw in Hw. unfold rawlook in Hw. cbn.
      destruct (strip p' w) as [z|] eqn:Es; [|congruence]. apply strip_spec in Es. eauto. }
    exists (skipn m (tp t') ++ z). rewrite Hz, app_assoc, firstn_skipn. exact Hw.
  - split.
    + intros _. split; [discriminate|]. intros [z Hz]. destruct Hp as [_ Hp]. now rewrite Hp in Hz.
    + intros -> ->. now destruct Hp.
Qed.
End Find.
