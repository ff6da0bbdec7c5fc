(** Looking up keys in trees that need not be canonical: nodes without value may have
    any number of children.  Such trees are left behind by operations that fail. *)
From Verif Require Import Base BaseLemmas Header Node Iter Tree Rep JoinBase PrefixProofs FindProofs.
From Coq Require Import Sorting.Sorted.

(** Ordered children with non-empty edges; nothing about values. *)
Inductive wcc : tree -> Prop :=
| wcc_intro p v cs : p <> [] -> ksorted cs -> Forall wcc cs -> wcc (T p v cs).
Definition wroot (t : tree) : Prop := ksorted (tc t) /\ Forall wcc (tc t).

Lemma cc_wcc t : cc t -> wcc t.
Proof.
  induction t as [p v cs IH] using tree_ind'. intros H. inversion H as [p0 v0 cs0 Np L So C]; subst.
  constructor; auto. rewrite Forall_forall in *. auto.
Qed.
Lemma ccs_wccs l : Forall cc l -> Forall wcc l.
Proof. apply Forall_impl. exact cc_wcc. Qed.
Lemma croot_wroot t : croot t -> wroot t.
Proof. intros H. apply croot_kids in H as [S C]. split; auto using ccs_wccs. Qed.
Lemma wcc_wroot t : wcc t -> wroot t.
Proof. intros H. inversion H; subst. split; auto. Qed.
Lemma wroot_wcc t : wroot t -> tp t <> [] -> wcc t.
Proof. destruct t. intros [S C] N. now constructor. Qed.
Lemma wroot_kids t : wroot t -> ksorted (tc t) /\ Forall wcc (tc t).
Proof. auto. Qed.
Lemma wcc_prefix t : wcc t -> exists x q, tp t = x :: q.
Proof. intros H; inversion H; subst. cbn. destruct p; [congruence|eauto]. Qed.
Lemma wlkids_in cs c k : ksorted cs -> Forall wcc cs -> In c cs -> starts c k = true ->
  lkids cs k = lookup c k.
Proof.
  induction cs as [|a cs IH]; [intros _ _ []|]. intros S C Hin St. inversion C; subst.
  destruct (wcc_prefix _ H1) as (x & q & E).
  apply (ksorted_cons _ _ _ _ E) in S as [A S]. cbn. destruct Hin as [->|Hin]; [now rewrite St|].
  destruct (starts a k) eqn:Sa; [|auto]. exfalso.
  destruct k as [|y k]; [now rewrite starts_nil in St|].
  unfold starts in Sa. rewrite E in Sa. destruct (byte_eqb_spec x y); [subst|discriminate].
  eapply Forall_forall in A; [|exact Hin]. unfold starts in St. destruct (tp c); [discriminate|].
  destruct (byte_eqb_spec b y); [subst; lia|discriminate].
Qed.

Lemma wcc_fb a : wcc a -> exists x, fb a = Some x /\ (x < 256)%N.
Proof.
  intros H. destruct (wcc_prefix _ H) as (x & q & E). unfold fb. rewrite E.
  eexists. split; [reflexivity|apply bnum_lt].
Qed.

Lemma w_sorted_ge l : ksorted l -> Forall wcc l -> forall i a x, nth_error l i = Some a -> fb a = Some x ->
  (N.of_nat i <= x)%N.
Proof.
  intros So C. induction i as [|i IH]; intros a x Ha Hx; [lia|].
  destruct (nth_error l i) as [b|] eqn:Eb.
  - destruct (klt_fb _ _ (sorted_nth _ So i (i + 1) b a ltac:(lia) Eb ltac:(now rewrite Nat.add_1_r))) as (y & z & Hy & Hz & L).
    rewrite Hz in Hx. injection Hx as ->. specialize (IH b y eq_refl Hy). lia.
  - apply nth_error_None in Eb. assert (nth_error l (S i) <> None) as N by congruence.
    apply nth_error_Some in N. lia.
Qed.

Lemma w_sorted_le l : ksorted l -> Forall wcc l -> forall d i a x, length l = i + S d ->
  nth_error l i = Some a -> fb a = Some x -> (x + N.of_nat d < 256)%N.
Proof.
  intros So C. induction d as [|d IH]; intros i a x Hl Ha Hx.
  - apply nth_error_In in Ha. eapply Forall_forall in C; [|exact Ha].
    destruct (wcc_fb _ C) as (y & Hy & L). rewrite Hy in Hx. injection Hx as ->. lia.
  - destruct (nth_error l (i + 1)) as [b|] eqn:Eb; [|apply nth_error_None in Eb; lia].
    destruct (klt_fb _ _ (sorted_nth _ So i (i + 1) a b ltac:(lia) Ha Eb)) as (y & z & Hy & Hz & L).
    rewrite Hy in Hx. injection Hx as ->. specialize (IH (i + 1) b z ltac:(lia) Eb Hz). lia.
Qed.

Lemma w_sorted_256 l i a : ksorted l -> Forall wcc l -> length l = 256 ->
  nth_error l i = Some a -> fb a = Some (N.of_nat i).
Proof.
  intros So C L H. pose proof H as H'. apply nth_error_In in H'.
  pose proof (proj1 (Forall_forall _ _) C a H') as Ca. destruct (wcc_fb _ Ca) as (x & Hx & _).
  assert (i < length l) by (apply nth_error_Some; congruence).
  pose proof (w_sorted_ge l So C i a x H Hx).
  pose proof (w_sorted_le l So C (255 - i) i a x ltac:(lia) H Hx).
  rewrite Hx. f_equal. lia.
Qed.


Section Find.
Context (ids : bool) (rd : reader).

Notation NR := (NRep ids rd True).
Notation IR := (IRepT ids rd True).
Notation RR := (Rep ids rd).




Lemma w_bsearch_ok ns cs c : Forall2 RR ns cs -> ksorted cs -> Forall wcc cs ->
  forall fuel left right, right - left < fuel -> right <= length ns ->
  (forall i a x, i < left -> nth_error cs i = Some a -> fb a = Some x -> (x < bnum c)%N) ->
  (forall i a x, right <= i -> nth_error cs i = Some a -> fb a = Some x -> (bnum c < x)%N) ->
  has_child ids rd cs c (option_map ROwned (bsearch ns c fuel left right)).
Proof.
  intros F So C. induction fuel as [|fuel IH]; intros left right Hf Hr HL HR; [lia|].
  cbn [bsearch]. destruct (Nat.ltb_spec left right) as [Hlt|Hge].
  - set (mid := left + (right - left) / 2).
    assert (left <= mid < right) as Hm.
    { unfold mid. pose proof (Nat.div_lt (right - left) 2). lia. }
    pose proof (Forall2_nth _ _ _ F mid) as Hn.
    destruct (nth_error ns mid) as [x|] eqn:Ex; [|apply nth_error_None in Ex; lia].
    destruct (nth_error cs mid) as [a|] eqn:Ea; [|contradiction].
    rewrite (Rep_first _ _ _ _ Hn), cmp_first.
    pose proof (nth_error_In _ _ Ea) as Hin.
    pose proof (proj1 (Forall_forall _ _) C a Hin) as Ca. destruct (wcc_fb _ Ca) as (z & Hz & _).
    rewrite Hz. destruct (N.compare_spec z (bnum c)) as [E|E|E].
    + cbn. unfold fb in Hz. destruct (tp a) as [|y q] eqn:Et; [discriminate|]. injection Hz as Hz.
      rewrite E in Hz. apply bnum_inj in Hz. subst y. exists a, q. split; [exact Hin|].
      split; [exact Et|]. now apply Rep_NRep.
    + apply IH; try lia.
      * intros i b w Hi Hb Hw. destruct (Nat.eq_dec i mid) as [->|Ni].
        -- rewrite Hb in Ea. injection Ea as ->. rewrite Hw in Hz. injection Hz as ->. exact E.
        -- destruct (klt_fb _ _ (sorted_nth _ So i mid b a ltac:(lia) Hb Ea)) as (y1 & y2 & H1 & H2 & L).
           rewrite H1 in Hw. rewrite H2 in Hz. injection Hw as ->. injection Hz as ->. lia.
      * exact HR.
    + apply IH; try lia.
      * exact HL.
      * intros i b w Hi Hb Hw. destruct (Nat.eq_dec i mid) as [->|Ni].
        -- rewrite Hb in Ea. injection Ea as ->. rewrite Hw in Hz. injection Hz as ->. exact E.
        -- destruct (klt_fb _ _ (sorted_nth _ So mid i a b ltac:(lia) Ea Hb)) as (y1 & y2 & H1 & H2 & L).
           rewrite H2 in Hw. rewrite H1 in Hz. injection Hw as ->. injection Hz as ->. lia.
  - cbn. intros a q Hin Et. apply In_nth_error in Hin as [i Hi].
    assert (fb a = Some (bnum c)) as Hb by (unfold fb; now rewrite Et).
    destruct (Nat.lt_ge_cases i left) as [L|L].
    + specialize (HL i a _ L Hi Hb). lia.
    + specialize (HR i a _ ltac:(lia) Hi Hb). lia.
Qed.

Lemma w_find_owned_ok ns cs c : Forall2 RR ns cs -> ksorted cs -> Forall wcc cs ->
  has_child ids rd cs c (option_map ROwned (find_owned ns c)).
Proof.
  intros F So C. unfold find_owned. destruct (Nat.eqb_spec (length ns) 256) as [E|E].
  - pose proof (Forall2_len _ _ _ F) as L. pose proof (bnum_lt c) as Lc.
    pose proof (Forall2_nth _ _ _ F (N.to_nat (bnum c))) as Hn.
    destruct (nth_error ns _) as [x|] eqn:Ex; [|apply nth_error_None in Ex; lia].
    destruct (nth_error cs _) as [a|] eqn:Ea; [|contradiction].
    pose proof (w_sorted_256 cs _ a So C ltac:(lia) Ea) as Hf. rewrite N2Nat.id in Hf.
    cbn. unfold fb in Hf. destruct (tp a) as [|y q] eqn:Et; [discriminate|]. injection Hf as Hf.
    apply bnum_inj in Hf. subst y. exists a, q. split; [eapply nth_error_In; eauto|].
    split; [exact Et|]. now apply Rep_NRep.
  - apply w_bsearch_ok; auto; try lia. intros i a x Hi Ha. pose proof (Forall2_len _ _ _ F).
    assert (nth_error cs i <> None) as N by congruence. apply nth_error_Some in N. lia.
Qed.

Lemma w_find_borrowed_ok c : forall fuel data cs, length data < fuel ->
  IR (IBorrowed data) cs -> ksorted cs -> Forall wcc cs ->
  has_child ids rd cs c (option_map RBorrowed (find_borrowed fuel data c)).
Proof.
  induction fuel as [|fuel IH]; intros data cs Hf H So C; [lia|]. cbn [find_borrowed].
  destruct cs as [|a cs].
  - apply IRepT_nil in H as [H _]. cbn in H. destruct (read_one data) as [[b rest]|]; [discriminate|].
    cbn. intros ? ? [].
  - apply IRepT_cons in H as (r & it' & H1 & H2 & H3 & H4). cbn in H1, H4.
    destruct (read_one data) as [[b rest]|] eqn:Er; [|discriminate].
    injection H1 as <- <-. injection H4 as H4. rewrite H4, cmp_first.
    inversion C as [|? ? Ca C']; subst. destruct (wcc_fb _ Ca) as (z & Hz & _). rewrite Hz.
    destruct (wcc_prefix _ Ca) as (x & q & Et).
    assert (z = bnum x) as -> by (unfold fb in Hz; rewrite Et in Hz; congruence).
    pose proof (proj1 (ksorted_cons _ cs _ _ Et) So) as [Ab So'].
    destruct (N.compare_spec (bnum x) (bnum c)) as [E|E|E].
    + apply bnum_inj in E. subst c. cbn. exists a, q. split; [now left|]. auto.
    + apply read_one_shorter in Er. specialize (IH rest cs ltac:(lia) H3 So' C').
      destruct (find_borrowed fuel rest c) as [r|]; cbn in *.
      * destruct IH as (a' & q' & Hin & Hr). exists a', q'. split; [now right|exact Hr].
      * intros a' q' [<-|Hin]; [rewrite Et; intros [= ->]; lia|now apply IH].
    + cbn. intros a' q' [<-|Hin]; [rewrite Et; intros [= ->]; lia|].
      eapply Forall_forall in Ab; [|exact Hin]. intros E'. cbn in Ab. rewrite E' in Ab. lia.
Qed.

Lemma w_it_find_ok it cs c : IR it cs -> ksorted cs -> Forall wcc cs -> has_child ids rd cs c (it_find it c).
Proof.
  intros H So C. destruct it as [ns|data]; cbn [it_find].
  - destruct H as [_ (ns' & E & F)]. cbn in E. subst. now apply w_find_owned_ok.
  - apply w_find_borrowed_ok; auto.
Qed.

(** What [find] returns. *)
Definition w_find_post (t : tree) (k : bytes) (x : find_result) : Prop :=
  match x with
  | Found r => exists t', NR r t' /\ wroot t' /\ (exists p, k = p ++ tp t') /\ size t' <= size t /\
      ((t' = t /\ k = tp t) \/ wcc t') /\
      forall z, lookup t (k ++ z) = lookup t' (tp t' ++ z)
  | Prefix r n => exists t', NR r t' /\ wroot t' /\ n < length (tp t') /\
      (exists p, k = p ++ firstn n (tp t')) /\ n <= length k /\ size t' <= size t /\
      forall z, lookup t (k ++ z) = lookup t' (firstn n (tp t') ++ z)
  | NotFound => k <> [] /\ forall z, lookup t (k ++ z) = None
  end.



Theorem w_find_ok : forall fuel r t k, NR r t -> wroot t -> size t < fuel ->
  exists x, find rd fuel r k = Ok x /\ w_find_post t k x.
Proof.
  induction fuel as [|fuel IH]; intros r [p v cs] k H Hc Hf; [lia|]. cbn [find].
  rewrite (NRep_prefix _ _ _ _ _ _ _ H). cbn [bind]. rewrite size_T in Hf.
  destruct (wroot_kids _ Hc) as [So C]. cbn [tc] in *.
  destruct (edges_cases p k) as [E1 E2 E3|E1 E2 E3|E1 E2 E3|x y E1 E2 E3 Ex Ey Nxy];
    set (n := common_prefix p k) in *; edge_tests.
  - subst k. eexists. split; [reflexivity|]. exists (T p v cs). split; [exact H|]. split; [exact Hc|].
    split; [exists []; reflexivity|]. auto.
  - (* the key goes on *)
    destruct (skipn_cons_nth n k E2) as (c & Ec & Es). rewrite Ec.
    assert (k <> []) as Nk by (intros ->; cbn in E2; lia).
    destruct (NRep_children_T ids rd _ _ _ _ H) as (o & -> & Ho). cbn [bind].
    assert (forall z, lookup (T p v cs) (k ++ z) = lkids cs (skipn n k ++ z)) as HL.
    { intros z. rewrite lookup_raw. unfold rawlook.
      rewrite <- (firstn_skipn n k) at 1. rewrite <- app_assoc, E3, strip_app, Es. reflexivity. }
    assert (forall z, (forall a q, In a cs -> tp a <> c :: q) -> lookup (T p v cs) (k ++ z) = None) as HN.
    { intros z Ha. rewrite HL, Es. clear -Ha. induction cs as [|a cs IH]; [reflexivity|]. cbn.
      unfold starts. destruct (tp a) as [|x q] eqn:E; cbn.
      - apply IH. intros; apply Ha; now right.
      - destruct (byte_eqb_spec x c); [subst; exfalso; eapply Ha; [now left|exact E]|].
        apply IH. intros; apply Ha; now right. }
    destruct o as [it|]; cbn in Ho.
    + destruct Ho as [_ Hi]. pose proof (w_it_find_ok _ _ c Hi So C) as Hh.
      destruct (it_find it c) as [r'|]; cbn in Hh.
      * destruct Hh as (a & q & Hin & Et & Hr).
        pose proof (proj1 (Forall_forall _ _) C a Hin) as Ca. pose proof (size_in _ _ Hin) as Sz.
        destruct (IH r' a (skipn n k) Hr (wcc_wroot _ Ca) ltac:(lia)) as (x & -> & Hp).
        eexists. split; [reflexivity|].
        assert (forall z, lookup (T p v cs) (k ++ z) = lookup a (skipn n k ++ z)) as HL'.
        { intros z. rewrite HL. apply wlkids_in; auto. rewrite Es. cbn. eapply starts_self; eauto. }
        destruct x as [r2|r2 m|]; cbn [w_find_post] in *.
        -- destruct Hp as (t' & N' & C' & (p' & Ep) & Sz' & Hcc & Hz). exists t'. split; [exact N'|]. split; [exact C'|].
           split; [exists (firstn n k ++ p'); now rewrite <- app_assoc, <- Ep, firstn_skipn|].
           split; [rewrite size_T; lia|]. split; [right; destruct Hcc as [[-> _]|]; auto|].
           intros z. now rewrite HL', Hz.
        -- destruct Hp as (t' & N' & C' & Ln & (p' & Ep) & Lk & Sz' & Hz). exists t'. split; [exact N'|]. split; [exact C'|].
           split; [exact Ln|].
           split; [exists (firstn n k ++ p'); now rewrite <- app_assoc, <- Ep, firstn_skipn|].
           rewrite skipn_length in Lk. split; [lia|]. split; [rewrite size_T; lia|].
           intros z. now rewrite HL', Hz.
        -- split; [exact Nk|]. intros z. destruct Hp as [_ Hp]. now rewrite HL', Hp.
      * eexists. split; [reflexivity|]. split; [exact Nk|]. intros z. now apply HN.
    + subst cs. eexists. split; [reflexivity|]. split; [exact Nk|]. intros z. apply HN. intros ? ? [].
  - eexists. split; [reflexivity|]. exists (T p v cs). cbn [tp]. split; [exact H|]. split; [exact Hc|].
    split; [exact E2|]. split; [exists []; cbn; now rewrite E3|]. split; [lia|]. split; [auto|].
    intros z. now rewrite E3.
  - eexists. split; [reflexivity|]. split; [intros ->; cbn in E2; lia|]. intros z.
    rewrite lookup_raw. unfold rawlook.
    destruct (strip p (k ++ z)) as [s|] eqn:Es; [|reflexivity]. apply strip_spec in Es. exfalso.
    assert (nth_error (k ++ z) n = Some x) as Hx.
    { rewrite Es. now rewrite nth_error_app1. }
    rewrite nth_error_app1 in Hx by assumption. congruence.
Qed.

(* ------------------------------------------------------------------ *)





(** [get] returns a value that loads to the entry of the map. *)
Theorem w_get_ok fuel n t k : RR n t -> wroot t -> size t < fuel ->
  exists o, get rd fuel n k = Ok o /\
    match lookup t k with
    | None => o = None
    | Some x => exists b, o = Some b /\ RepV rd b (Some x)
    end.
Proof.
  intros H Hc Hf. unfold get.
  destruct (w_find_ok fuel (ROwned n) t k (Rep_NRep _ _ _ _ _ H) Hc Hf) as (x & -> & Hp). cbn [bind].
  eexists. split; [reflexivity|]. destruct x as [r|r m|]; cbn in Hp.
  - destruct Hp as (t' & N' & C' & _ & _ & _ & Hz). specialize (Hz []). rewrite !app_nil_r in Hz. rewrite Hz.
    destruct t' as [p v cs]. cbn [tp]. rewrite lookup_here.
    apply NRep_value in N'. exact N'.
  - destruct Hp as (t' & N' & C' & L & _ & _ & _ & Hz). specialize (Hz []). rewrite !app_nil_r in Hz. rewrite Hz.
    now rewrite lookup_short.
  - destruct Hp as [_ Hp]. specialize (Hp []). rewrite app_nil_r in Hp. now rewrite Hp.
Qed.

End Find.
