(** When [remove] and [remove_prefix] fail a [debug_assert!]. *)
From Verif Require Import Base BaseLemmas Header Node Combine Iter Api Tree Rep JoinBase PrefixProofs FindProofs Entries Canon Spec GroupSpec GroupProofs PanicSpec.
From Coq Require Import Sorting.Sorted.

(** The key leaves the tree in the middle of an edge above a node with children. *)
Inductive Stray : tree -> bytes -> Prop :=
| Stray_here r x z v cs c w : x <> c -> cs <> [] -> Stray (T (r ++ x :: z) v cs) (r ++ c :: w)
| Stray_kid p v cs c x w : In c cs -> hd_error (tp c) = Some x -> Stray c (x :: w) -> Stray (T p v cs) (p ++ x :: w).

Lemma lookup_kid_in p v cs c x w : ksorted cs -> Forall cc cs -> In c cs -> hd_error (tp c) = Some x ->
  lookup (T p v cs) (p ++ x :: w) = lookup c (x :: w).
Proof.
  intros So Fc Hin Hx. rewrite lookup_kid by discriminate.
  induction cs as [|a cs IH]; [destruct Hin|]. inversion Fc as [|? ? Ca Fc']; subst.
  destruct (ksorted_inv _ _ So Ca) as (y & q & Ey & Ab & So'). cbn [lkids].
  destruct Hin as [->|Hin].
  - rewrite Ey in Hx. injection Hx as ->. now rewrite (starts_self c x q w Ey).
  - assert (y <> x) as N.
    { intros ->. unfold above in Ab. rewrite Forall_forall in Ab. specialize (Ab _ Hin).
      destruct (tp c); [discriminate|]. injection Hx as ->. lia. }
    rewrite (starts_other a y q x w Ey N). apply IH; auto.
Qed.

Lemma lookup_other_in p v cs x w : ksorted cs -> Forall cc cs -> lookup (T p v cs) (p ++ x :: w) <> None ->
  exists c, In c cs /\ hd_error (tp c) = Some x.
Proof.
  intros So Fc. rewrite lookup_kid by discriminate.
  induction cs as [|a cs IH]; [intros H; now destruct H|]. inversion Fc as [|? ? Ca Fc']; subst.
  destruct (ksorted_inv _ _ So Ca) as (y & q & Ey & Ab & So'). cbn [lkids].
  destruct (Byte.eqb y x) eqn:E.
  - apply Byte.byte_dec_bl in E as ->. intros _. exists a. rewrite Ey. split; [now left|reflexivity].
  - assert (y <> x) as N by (intros ->; rewrite (Byte.byte_dec_lb eq_refl) in E; discriminate).
    rewrite (starts_other a y q x w Ey N). intros H. destruct (IH So' Fc' H) as (c & Hc & Hx). exists c. split; [now right|exact Hx].
Qed.

Lemma lookup_prefix t k : lookup t k <> None -> exists z, k = tp t ++ z.
Proof. destruct (lookup t k) as [x|] eqn:E; [|congruence]. intros _. eapply lookup_some_prefix; eauto. Qed.

Lemma two_keys p v cs : live v cs -> ksorted cs -> Forall cc cs -> cs <> [] ->
  exists x y, x <> y /\ lookup (T p v cs) (p ++ x) <> None /\ lookup (T p v cs) (p ++ y) <> None.
Proof.
  intros [L|L] So Fc N.
  - destruct cs as [|c cs]; [congruence|]. inversion Fc as [|? ? Ca Fc']; subst.
    destruct (cc_nonempty_prefix _ Ca) as (x & q & E). destruct (cc_key_first _ _ _ Ca E) as (r & Hr).
    exists [], (x :: r). split; [discriminate|]. split.
    + rewrite app_nil_r, lookup_here. exact L.
    + erewrite lookup_kid_in; [exact Hr|auto|auto|now left|now rewrite E].
  - destruct cs as [|a [|b cs]]; [cbn in L; lia|cbn in L; lia|]. inversion Fc as [|? ? Ca Fc']; subst. inversion Fc' as [|? ? Cb Fc2]; subst.
    destruct (cc_nonempty_prefix _ Ca) as (x & q & E). destruct (cc_key_first _ _ _ Ca E) as (r & Hr).
    destruct (cc_nonempty_prefix _ Cb) as (x' & q' & E'). destruct (cc_key_first _ _ _ Cb E') as (r' & Hr').
    exists (x :: r), (x' :: r'). split.
    + intros [= -> _]. destruct (ksorted_inv _ _ So Ca) as (y & u & Ey & Ab & _). rewrite E in Ey. injection Ey as <- <-.
      inversion Ab as [|? ? A1 _]; subst. rewrite E' in A1. lia.
    + split; (erewrite lookup_kid_in; [eassumption|auto|auto| |]); [now left|now rewrite E|right; now left|now rewrite E'].
Qed.

Lemma forks_sub p v cs c x q : ksorted cs -> Forall cc cs -> In c cs -> hd_error (tp c) = Some x ->
  forks (lookup (T p v cs)) (p ++ x :: q) <-> forks (lookup c) (x :: q).
Proof.
  intros So Fc Hin Hx. unfold forks.
  assert (forall u, lookup (T p v cs) ((p ++ x :: q) ++ u) = lookup c ((x :: q) ++ u)) as E.
  { intros u. rewrite <- app_assoc. cbn [app]. now apply lookup_kid_in. }
  pose proof (E []) as E0. rewrite !app_nil_r in E0. rewrite E0.
  split; (intros [H|(c1 & c2 & z1 & z2 & N & H1 & H2)]; [now left|right]); exists c1, c2, z1, z2; rewrite !E in *; auto.
Qed.

Lemma Stray_strays g k : Stray g k -> croot g -> strays (lookup g) k.
Proof.
  induction 1 as [r x z v cs c w Ne Nc|p v cs c x w Hin Hx HS IH]; intros C.
  - destruct (croot_kids _ C) as [So Fc]. cbn [tc] in *.
    destruct C as [C|(L & _ & _)]; [injection C as _ -> ->; congruence|]. cbn [tv tc] in L.
    destruct (two_keys (r ++ x :: z) v cs L So Fc Nc) as (a & b & Nab & Ha & Hb).
    exists r, c, w, (x :: z ++ a), (x :: z ++ b). split; [reflexivity|]. split; [|split; [|split; [|split]]].
    + intros u. destruct (lookup (T (r ++ x :: z) v cs) (r ++ c :: u)) eqn:E; [|reflexivity]. exfalso.
      destruct (lookup_some_prefix _ _ _ E) as (y & Ey). cbn [tp] in Ey. rewrite <- app_assoc in Ey.
      apply app_inv_head in Ey. now injection Ey as -> _.
    + eapply (edge_no_fork (T (r ++ x :: z) v cs) [] [] _ r (x :: z)); [right; cbn; auto|apply Sub_root|reflexivity|discriminate|now left].
    + intros [= E]. apply app_inv_head in E. congruence.
    + now rewrite <- app_assoc in Ha.
    + now rewrite <- app_assoc in Hb.
  - destruct (croot_kids _ C) as [So Fc]. cbn [tc] in *.
    assert (cc c) as Cc by (rewrite Forall_forall in Fc; auto).
    destruct (IH (cc_croot _ Cc)) as (q & c' & w' & a & b & Ek & Hn & Hf & Nab & Ha & Hb).
    destruct q as [|y q].
    + exfalso. cbn in Ek. injection Ek as -> ->. destruct (tp c) as [|y t] eqn:Et; [discriminate|]. injection Hx as ->.
      destruct (cc_key_first _ _ _ Cc Et) as (r & Hr). apply Hr. apply (Hn r).
    + injection Ek as -> ->. exists (p ++ y :: q), c', w', a, b.
      rewrite <- !app_assoc. cbn [app]. split; [reflexivity|].
      split; [intros u; rewrite <- app_assoc; cbn [app]; rewrite (lookup_kid_in p v cs c y) by auto; apply Hn|].
      split; [rewrite forks_sub; eauto|]. split; [exact Nab|].
      rewrite !(lookup_kid_in p v cs c y) by auto. auto.
Qed.

Lemma strays_Stray g : forall k, croot g -> strays (lookup g) k -> Stray g k.
Proof.
  induction g as [p v cs IH] using tree_ind'. intros k C (q & c & w & a & b & -> & Hn & Hf & Nab & Ha & Hb).
  destruct (croot_kids _ C) as [So Fc]. cbn [tc] in *.
  destruct (lookup_prefix _ _ Ha) as (za & Ea). destruct (lookup_prefix _ _ Hb) as (zb & Eb). cbn [tp] in *.
  assert (croot (T p v cs) -> live v cs) as HL.
  { intros [E|(L & _)]; [|exact L]. injection E as -> -> ->. destruct Ha. apply tempty_lookup. }
  specialize (HL C).
  destruct (prefix_cases _ _ _ _ Ea) as [(y & -> & Ey)|(y & Ny & -> & Ey)].
  - destruct y as [|y0 y].
    + exfalso. apply Hf. rewrite app_nil_r. apply live_forks; auto.
    + apply (Stray_here q y0 y).
      * intros ->. subst a. rewrite <- app_comm_cons in Ha. now rewrite Hn in Ha.
      * intros ->. rewrite Ey in Ha. rewrite <- app_assoc in Eb. apply app_inv_head in Eb. subst b.
        apply Nab. subst a. f_equal.
        assert (forall u, lookup (T (q ++ y0 :: y) v []) (q ++ (y0 :: y) ++ u) <> None -> u = []) as X.
        { intros u. rewrite app_assoc. destruct u; [auto|]. intros X. rewrite lookup_kid in X by discriminate. now destruct X. }
        now rewrite (X _ Ha), (X _ Hb).
  - destruct y as [|y0 y]; [congruence|].
    rewrite <- !app_assoc in *. cbn [app] in *.
    destruct (lookup_other_in p v cs y0 _ So Fc Ha) as (c0 & Hin & Hx).
    apply Stray_kid with (c := c0); auto. rewrite Forall_forall in IH. apply IH; auto.
    + rewrite Forall_forall in Fc. now apply cc_croot, Fc.
    + exists (y0 :: y), c, w, a, b. split; [reflexivity|].
      rewrite !(lookup_kid_in p v cs c0 y0) in * by auto. repeat split; auto.
      * intros z. specialize (Hn z). rewrite <- app_assoc in Hn. cbn [app] in Hn. rewrite (lookup_kid_in p v cs c0 y0) in Hn by auto. exact Hn.
      * intros F. apply Hf. now apply forks_sub with (c := c0).
Qed.

(** Debug and release builds differ only on stray keys. *)
Section Builds.
Context (rd : reader).
Notation R := (Rep false rd).
Definition dp (n : node) : Prop := blob_is_id (n_prefix n) = false.
(** A tree with one key. *)
Definition one (k : bytes) (vb : blob) : noderef := ROwned (Node (Data k) vb (KId [])).

Lemma R_dp n t : R n t -> dp n.
Proof. destruct t. intros H. apply Rep_inv in H as ([E|[E _]] & _); [|discriminate]. unfold dp. now rewrite E. Qed.
Lemma Rs_dp ns cs : Forall2 R ns cs -> Forall dp ns.
Proof. induction 1; constructor; eauto using R_dp. Qed.

Lemma canon_builds n ns : n_kids n = KArc ns -> dp n -> Forall dp ns -> canonicalize true n = canonicalize false n.
Proof.
  intros E D F. unfold canonicalize. rewrite E. cbn [andb negb].
  destruct (blob_opt (n_value n)); [reflexivity|]. destruct ns as [|c [|]]; [reflexivity| |reflexivity].
  inversion F as [|? ? Dc _]; subst. rewrite D, Dc. reflexivity.
Qed.

Lemma canon_dp dbg n r : canonicalize dbg n = Ok r -> dp n -> dp r.
Proof.
  unfold canonicalize, dp. intros E D.
  destruct (dbg && _); [discriminate|].
  match type of E with bind ?x _ = _ => destruct x as [n1| | |] eqn:E1 end; try discriminate. cbn [bind] in E.
  assert (blob_is_id (n_prefix n1) = false) as D1.
  { destruct (blob_opt (n_value n)); [now injection E1 as <-|]. destruct (n_kids n) as [[|c [|]]|]; try (now injection E1 as <-).
    destruct (dbg && _); [discriminate|]. now injection E1 as <-. }
  destruct (_ && _); injection E as <-; [reflexivity|exact D1].
Qed.

Section Loop.
Context (rec1 rec2 : node -> noderef -> res node).

Lemma loop_done : forall fuel ns, left_with_loop rec1 fuel ns (IOwned []) = left_with_loop rec2 fuel ns (IOwned []).
Proof.
  induction fuel as [|fuel IH]; intros ns; [reflexivity|]. destruct ns as [|n ns]; [reflexivity|].
  cbn [left_with_loop cmp_with it_first]. now rewrite IH.
Qed.

Lemma loop_builds k vb x w : k = x :: w -> forall fuel ns cs, Forall2 R ns cs ->
  (forall n c, R n c -> In c cs -> hd_error (tp c) = Some x -> rec1 n (one k vb) = rec2 n (one k vb) \/ Stray c k) ->
  left_with_loop rec1 fuel ns (IOwned [Node (Data k) vb (KId [])]) =
    left_with_loop rec2 fuel ns (IOwned [Node (Data k) vb (KId [])]) \/
  exists c, In c cs /\ hd_error (tp c) = Some x /\ Stray c k.
Proof.
  intros Ek. induction fuel as [|fuel IH]; intros ns cs F Hr; [now left|].
  destruct F as [|n c ns cs Rn F].
  - left. cbn. destruct fuel; reflexivity.
  - cbn [left_with_loop]. cbn [cmp_with it_first it_next n_first n_prefix].
    subst k. change (n_first (Node (Data (x :: w)) vb (KId []))) with (Some x). rewrite (Rep_first _ _ _ _ Rn).
    destruct (hd_error (tp c)) as [y|] eqn:Ey; cbn [cmp_ob].
    2:{ destruct (IH ns cs F) as [->|(c0 & H0)]; [intros; apply Hr; auto; now right|now left|right; exists c0; cbn; tauto]. }
    destruct (N.compare_spec (bnum y) (bnum x)) as [E|E|E].
    + assert (y = x) as ->. { apply bnum_inj. exact E. }
      destruct (Hr n c Rn (or_introl eq_refl) Ey) as [E1|HS].
      * left. fold (one (x :: w) vb). rewrite E1. destruct (rec2 n (one (x :: w) vb)); cbn [bind]; try reflexivity.
        now rewrite loop_done.
      * right. exists c. split; [now left|auto].
    + destruct (IH ns cs F) as [->|(c0 & H0)]; [intros; apply Hr; auto; now right|now left|right; exists c0; cbn; tauto].
    + left. apply loop_done.
Qed.
End Loop.

Lemma loop_dp rec : (forall x y r, dp x -> rec x y = Ok r -> dp r) -> forall fuel ns it l,
  Forall dp ns -> left_with_loop rec fuel ns it = Ok l -> Forall dp l.
Proof.
  intros Hr. induction fuel as [|fuel IH]; intros ns it l F E; [discriminate|]. cbn [left_with_loop] in E.
  destruct (cmp_with ns it) as [[]|]; [| | |now injection E as <-].
  - destruct F as [|n ns D F]; [discriminate|]. destruct (it_next it) as [[y it']|]; [|discriminate].
    destruct (rec n y) as [r| | |] eqn:Er; cbn [bind] in E; try discriminate.
    destruct (left_with_loop rec fuel ns it') as [rs| | |] eqn:El; cbn [bind] in E; try discriminate. injection E as <-.
    pose proof (IH _ _ _ F El). destruct (is_empty r); [assumption|]. constructor; eauto.
  - destruct F as [|n ns D F]; [discriminate|].
    destruct (left_with_loop rec fuel ns it) as [rs| | |] eqn:El; cbn [bind] in E; try discriminate. injection E as <-.
    constructor; eauto.
  - destruct (it_next it) as [[y it']|]; [|discriminate]. eauto.
Qed.

Lemma diverge (a k : bytes) : common_prefix a k <> length a -> common_prefix a k <> length k ->
  exists r x z c w, a = r ++ x :: z /\ k = r ++ c :: w /\ x <> c.
Proof.
  revert k. induction a as [|x a IH]; intros k; [cbn; congruence|]. destruct k as [|c k]; [cbn; congruence|].
  cbn [common_prefix length]. destruct (Byte.eqb x c) eqn:E.
  - apply Byte.byte_dec_bl in E as <-. intros H1 H2. destruct (IH k) as (r & y & z & d & w & -> & -> & N); [congruence|congruence|].
    exists (x :: r), y, z, d, w. auto.
  - intros _ _. exists [], x, a, c, k. split; [reflexivity|]. split; [reflexivity|]. intros ->.
    now rewrite (Byte.byte_dec_lb eq_refl) in E.
Qed.

Lemma canon_any a g k : R a g -> common_prefix (tp g) k <> length (tp g) -> common_prefix (tp g) k <> length k ->
  canonicalize true a = canonicalize false a \/ Stray g k.
Proof.
  intros H N1 N2. pose proof (R_dp _ _ H) as D. destruct g as [p v cs]. cbn [tp] in *.
  apply Rep_inv in H as (RP & RV & ns & RK & F).
  destruct RK as [E|[[E ->]|(r & id & data & E & H1 & H2 & H3)]].
  - left. eapply canon_builds; eauto using Rs_dp.
  - left. unfold canonicalize. rewrite E. reflexivity.
  - right. destruct (diverge p k N1 N2) as (q & x & z & c & w & -> & -> & N). apply Stray_here; [exact N|].
    intros ->. inversion F; subst; congruence.
Qed.

Lemma skip_common (p k : bytes) : common_prefix p k = length p -> common_prefix p k <> length k ->
  exists x w, k = p ++ x :: w /\ skipn (common_prefix p k) k = x :: w.
Proof.
  revert k. induction p as [|y p IH]; intros k H1 H2.
  - destruct k as [|x w]; [now destruct H2|]. exists x, w. auto.
  - destruct k as [|x k]; [discriminate|]. cbn [common_prefix] in *. destruct (Byte.eqb y x) eqn:E; [|discriminate].
    apply Byte.byte_dec_bl in E as <-. cbn [length] in *. injection H1 as H1.
    destruct (IH k H1) as (x & w & -> & E); [congruence|]. exists x, w. cbn [skipn]. auto.
Qed.

Notation remove1 dbg := (left_combine_with dbg rd detached_read (fun _ _ => Ok bnone)).
Notation removep dbg := (remove_prefix_with dbg rd detached_read (fun _ => Ok true)).

Lemma shortened k vb n : n <= length k ->
  r_clone_shortened detached_read (one k vb) n = Ok (Node (Data (skipn n k)) vb (KId [])).
Proof. intros H. unfold one, r_clone_shortened, clone_shortened. cbn. rewrite slice_from_ok by assumption. reflexivity. Qed.

Lemma bind_dp dbg (x : res node) r : (forall n, x = Ok n -> dp n) -> (n <- x ;; canonicalize dbg n) = Ok r -> dp r.
Proof. intros H E. destruct x as [n| | |]; try discriminate. eapply canon_dp; eauto. Qed.

Lemma split_dp n k a : split rd n k = Ok a -> dp a.
Proof.
  unfold split. destruct (load_prefix rd (n_prefix n)) as [p| | |]; try discriminate. cbn [bind].
  destruct (slice_from k p) as [q| | |]; try discriminate. cbn [bind]. destruct (slice_to k p); try discriminate.
  cbn [bind]. intros [= <-]. reflexivity.
Qed.

Ltac step E := match type of E with bind ?x _ = Ok _ => let F := fresh in destruct x eqn:F; cbn [bind] in E; try discriminate end.

Lemma remove1_dp dbg fuel a b r : dp a -> remove1 dbg fuel a b = Ok r -> dp r.
Proof.
  destruct fuel as [|fuel]; [discriminate|]. cbn [left_combine_with]. intros D E. step E. step E.
  destruct (_ && _); [|destruct (_ =? _); [|destruct (_ =? _)]].
  - step E. step E. step E. step E. eapply canon_dp; [exact E|].
    assert (dp a2) as D2; [|destruct a2; exact D2].
    destruct (r_value_opt b); [destruct (blob_opt (n_value a))|]; cbn in H1; injection H1 as <-; exact D.
  - step E. step E. step E. eapply canon_dp; [exact E|]. destruct a; exact D.
  - step E. step E. step E. step E. eapply canon_dp; [exact E|]. apply split_dp in H1. destruct a2; exact H1.
  - eapply canon_dp; eauto.
Qed.

Lemma remove1_builds : forall fuel a g k vb, R a g ->
  remove1 true fuel a (one k vb) = remove1 false fuel a (one k vb) \/ Stray g k.
Proof.
  induction fuel as [|fuel IH]; intros a g k vb H; [now left|]. cbn [left_combine_with].
  pose proof (R_dp _ _ H) as D. destruct g as [p v cs]. pose proof H as H'.
  apply Rep_inv in H as (RP & RV & ns & RK & F).
  rewrite (RepP_load _ _ _ _ RP). change (load_prefix detached_read (r_prefix (one k vb))) with (Ok k : res bytes). cbn [bind].
  destruct (Nat.eqb_spec (common_prefix p k) (length p)) as [E1|E1]; cbn [andb].
  - destruct (Nat.eqb_spec (common_prefix p k) (length k)) as [E2|E2].
    + left. match goal with |- bind ?x _ = _ => assert (exists v', x = Ok (set_value a v')) as (v' & ->) end.
      { destruct (r_value_opt (one k vb)); [destruct (blob_opt (n_value a))|]; cbn [bind]; eauto; destruct a as [? v' ?]; now exists v'. }
      cbn [bind]. assert (n_kids (set_value a v') = n_kids a) as Ek by (now destruct a). rewrite <- Ek in RK.
      rewrite (load_children_mut_ok _ _ _ RK). cbn [bind].
      change (r_load_children detached_read (one k vb)) with (Ok None : res (option iter)). cbn [bind left_children_with].
      eapply canon_builds; [now destruct a|destruct a; exact D|eauto using Rs_dp].
    + rewrite (load_children_mut_ok _ _ _ RK). cbn [bind]. rewrite shortened by apply common_prefix_le_r. cbn [bind].
      destruct (skip_common p k E1 E2) as (x & w & Ek & ->). cbn [it_single left_children_with].
      destruct ns as [|n0 ns].
      { left. cbn [bind]. eapply canon_builds; [now destruct a|destruct a; exact D|constructor]. }
      destruct (loop_builds (remove1 true fuel) (remove1 false fuel) (x :: w) vb x w eq_refl fuel (n0 :: ns) cs F) as [->|(c & Hin & Hx & HS)].
      * intros n c Rn _ _. now apply IH.
      * left. destruct (left_with_loop _ _ (n0 :: ns) _) as [l| | |] eqn:El; cbn [bind]; try reflexivity.
        eapply canon_builds; [now destruct a|destruct a; exact D|].
        eapply loop_dp; [|exact (Rs_dp _ _ F)|exact El]. intros y z r Dy Er. eapply remove1_dp; eauto.
      * right. subst k. now apply Stray_kid with (c := c).
  - destruct (Nat.eqb_spec (common_prefix p k) (length k)) as [E2|E2]; cbn [andb].
    + left. destruct (split_ok _ _ _ _ (common_prefix p k) H') as (a1 & m & -> & Ek & Rm & Dm & Ep & Ev); [apply common_prefix_le_l|].
      cbn [bind]. unfold load_children_mut. rewrite Ek. cbn [bind].
      change (r_load_children detached_read (one k vb)) with (Ok None : res (option iter)). cbn [bind left_children_with].
      eapply canon_builds; [reflexivity|unfold dp; destruct a1; cbn in *; now rewrite Ep|]. constructor; [exact Dm|constructor].
    + apply (canon_any a (T p v cs) k); auto.
Qed.

Lemma removep_dp dbg fuel a b r : dp a -> removep dbg fuel a b = Ok r -> dp r.
Proof.
  destruct fuel as [|fuel]; [discriminate|]. cbn [remove_prefix_with]. intros D E. step E. step E.
  destruct (_ && _); [|destruct (_ =? _); [|destruct (_ =? _)]].
  - step E. destruct a2; [eapply canon_dp; [exact E|]; destruct a; exact D|]. step E. step E. step E.
    eapply canon_dp; [exact E|]. destruct a; exact D.
  - step E. destruct a2; [eapply canon_dp; [exact E|]; destruct a; exact D|]. step E. step E. step E. step E.
    eapply canon_dp; [exact E|]. apply split_dp in H2. destruct a2; exact H2.
  - step E. step E. step E. eapply canon_dp; [exact E|]. destruct a; exact D.
  - eapply canon_dp; eauto.
Qed.

Lemma removep_builds : forall fuel a g k v0, R a g ->
  removep true fuel a (one k (Data v0)) = removep false fuel a (one k (Data v0)) \/ Stray g k.
Proof.
  induction fuel as [|fuel IH]; intros a g k v0 H; [now left|]. cbn [remove_prefix_with].
  pose proof (R_dp _ _ H) as D. destruct g as [p v cs]. pose proof H as H'.
  apply Rep_inv in H as (RP & RV & ns & RK & F).
  rewrite (RepP_load _ _ _ _ RP). change (load_prefix detached_read (r_prefix (one k (Data v0)))) with (Ok k : res bytes). cbn [bind].
  change (selected (fun _ => Ok true) (r_value_opt (one k (Data v0)))) with (Ok true). cbn [bind].
  assert (canonicalize true (set_kids (set_value a bnone) (KId [])) = canonicalize false (set_kids (set_value a bnone) (KId []))) as E0
    by (destruct a; reflexivity).
  destruct (Nat.eqb_spec (common_prefix p k) (length p)) as [E1|E1]; cbn [andb].
  - destruct (Nat.eqb_spec (common_prefix p k) (length k)) as [E2|E2]; [now left|].
    rewrite (load_children_mut_ok _ _ _ RK). cbn [bind]. rewrite shortened by apply common_prefix_le_r. cbn [bind].
    destruct (skip_common p k E1 E2) as (x & w & Ek & ->). cbn [it_single left_children_with].
    destruct ns as [|n0 ns].
    { left. cbn [bind]. eapply canon_builds; [now destruct a|destruct a; exact D|constructor]. }
    destruct (loop_builds (removep true fuel) (removep false fuel) (x :: w) (Data v0) x w eq_refl fuel (n0 :: ns) cs F) as [->|(c & Hin & Hx & HS)].
    + intros n c Rn _ _. now apply IH.
    + left. destruct (left_with_loop _ _ (n0 :: ns) _) as [l| | |] eqn:El; cbn [bind]; try reflexivity.
      eapply canon_builds; [now destruct a|destruct a; exact D|].
      eapply loop_dp; [|exact (Rs_dp _ _ F)|exact El]. intros y z r Dy Er. eapply removep_dp; eauto.
    + right. subst k. now apply Stray_kid with (c := c).
  - destruct (Nat.eqb_spec (common_prefix p k) (length k)) as [E2|E2]; [now left|].
    apply (canon_any a (T p v cs) k); auto.
Qed.

(** Freshly loaded trees panic on stray keys. *)
Definition fresh (n : node) : Prop := exists id, n_kids n = KId id.

Lemma decode_fresh data ns : decode data ns -> Forall fresh ns.
Proof.
  induction 1 as [|data b rest n ns _ E _ IH]; constructor; auto.
  unfold b_to_owned in E. destruct (b_children b); try discriminate. injection E as <-. eexists. reflexivity.
Qed.

Lemma fresh_kids n ns : fresh n -> KidsOf rd (n_kids n) ns -> Forall fresh ns.
Proof.
  intros (id & E) [E1|[[_ ->]|(r & i & data & _ & _ & H & _)]]; [congruence|constructor|]. eapply decode_fresh; eauto.
Qed.

Lemma loop_panics rec k vb x w : k = x :: w -> forall ns cs c fuel, Forall2 R ns cs -> ksorted cs -> Forall cc cs -> length ns < fuel ->
  In c cs -> hd_error (tp c) = Some x ->
  (forall n, In n ns -> R n c -> rec n (one k vb) = Panic) ->
  left_with_loop rec fuel ns (IOwned [Node (Data k) vb (KId [])]) = Panic.
Proof.
  intros -> ns. induction ns as [|n ns IH]; intros cs c fuel F So Fc Hl Hin Hx Hr; inversion F as [|? c0 ? cs' Rn F']; subst; [destruct Hin|].
  destruct fuel as [|fuel]; [lia|]. cbn [length] in Hl. inversion Fc as [|? ? Cc Fc']; subst.
  destruct (ksorted_inv _ _ So Cc) as (y & q & Ey & Ab & So').
  cbn [left_with_loop]. cbn [cmp_with it_first it_next n_first n_prefix].
  change (n_first (Node (Data (x :: w)) vb (KId []))) with (Some x). rewrite (Rep_first _ _ _ _ Rn), Ey. cbn [hd_error cmp_ob].
  destruct Hin as [->|Hin].
  - rewrite Ey in Hx. injection Hx as ->. rewrite N.compare_refl. fold (one (x :: w) vb).
    rewrite (Hr n (or_introl eq_refl) Rn). reflexivity.
  - assert (bnum y < bnum x)%N as Lt.
    { unfold above in Ab. rewrite Forall_forall in Ab. specialize (Ab _ Hin). destruct (tp c); [discriminate|]. now injection Hx as ->. }
    rewrite (proj2 (N.compare_lt_iff _ _) Lt). rewrite (IH cs' c fuel); auto; [lia|]. intros m Hm. apply Hr. now right.
Qed.

Lemma canon_stray a r x z v cs : fresh a -> R a (T (r ++ x :: z) v cs) -> cs <> [] -> canonicalize true a = Panic.
Proof.
  intros (id & E) H N. apply Rep_inv in H as (_ & _ & ns & RK & F). unfold canonicalize. rewrite E in *.
  destruct id as [|i id]; [|reflexivity].
  destruct RK as [X|[[_ ->]|(r' & id & data & X & _)]]; [discriminate|inversion F; congruence|discriminate].
Qed.

Lemma common_diverge r x z c w : x <> c -> common_prefix (r ++ x :: z) (r ++ c :: w) = length r.
Proof.
  intros N. induction r as [|y r IH]; cbn.
  - destruct (Byte.eqb x c) eqn:E; [|reflexivity]. now apply Byte.byte_dec_bl in E.
  - now rewrite (Byte.byte_dec_lb eq_refl), IH.
Qed.

Lemma remove1_panics g k : Stray g k -> forall fuel a vb, croot g -> fresh a -> R a g -> size g < fuel ->
  remove1 true fuel a (one k vb) = Panic.
Proof.
  induction 1 as [r x z v cs c w Ne Nc|p v cs c x w Hin Hx HS IH]; intros fuel a vb C Fr H Hf;
    (destruct fuel as [|fuel]; [lia|]); cbn [left_combine_with]; pose proof H as H'; apply Rep_inv in H as (RP & RV & ns & RK & F);
    rewrite (RepP_load _ _ _ _ RP).
  - change (load_prefix detached_read (r_prefix (one (r ++ c :: w) vb))) with (Ok (r ++ c :: w) : res bytes). cbn [bind].
    rewrite common_diverge by assumption. rewrite !app_length. cbn [length].
    rewrite (proj2 (Nat.eqb_neq _ _)) by lia. rewrite (proj2 (Nat.eqb_neq _ _)) by lia. cbn [andb].
    eapply canon_stray; eauto.
  - change (load_prefix detached_read (r_prefix (one (p ++ x :: w) vb))) with (Ok (p ++ x :: w) : res bytes). cbn [bind].
    rewrite common_prefix_app, Nat.eqb_refl, app_length. cbn [length].
    rewrite (proj2 (Nat.eqb_neq _ _)) by lia. cbn [andb].
    rewrite (load_children_mut_ok _ _ _ RK). cbn [bind]. rewrite shortened by (rewrite app_length; lia). cbn [bind].
    rewrite skipn_app, skipn_all, Nat.sub_diag. cbn [skipn app it_single left_children_with].
    destruct (croot_kids _ C) as [So Fc]. cbn [tc] in *. rewrite size_T in Hf. pose proof (sizes_length cs).
    destruct ns as [|n0 ns]; [inversion F; subst; destruct Hin|].
    rewrite (loop_panics _ (x :: w) vb x w eq_refl (n0 :: ns) cs c fuel); auto.
    + pose proof (Forall2_len _ _ _ F). lia.
    + intros n Hn Rn. apply IH; auto.
      * rewrite Forall_forall in Fc. now apply cc_croot, Fc.
      * pose proof (fresh_kids _ _ Fr RK) as FF. rewrite Forall_forall in FF. now apply FF.
      * pose proof (size_in _ _ Hin). lia.
Qed.

Lemma removep_panics g k : Stray g k -> forall fuel a v0, croot g -> fresh a -> R a g -> size g < fuel ->
  removep true fuel a (one k (Data v0)) = Panic.
Proof.
  induction 1 as [r x z v cs c w Ne Nc|p v cs c x w Hin Hx HS IH]; intros fuel a v0 C Fr H Hf;
    (destruct fuel as [|fuel]; [lia|]); cbn [remove_prefix_with]; pose proof H as H'; apply Rep_inv in H as (RP & RV & ns & RK & F);
    rewrite (RepP_load _ _ _ _ RP).
  - change (load_prefix detached_read (r_prefix (one (r ++ c :: w) (Data v0)))) with (Ok (r ++ c :: w) : res bytes). cbn [bind].
    rewrite common_diverge by assumption. rewrite !app_length. cbn [length].
    rewrite (proj2 (Nat.eqb_neq _ _)) by lia. rewrite (proj2 (Nat.eqb_neq _ _)) by lia. cbn [andb].
    eapply canon_stray; eauto.
  - change (load_prefix detached_read (r_prefix (one (p ++ x :: w) (Data v0)))) with (Ok (p ++ x :: w) : res bytes). cbn [bind].
    rewrite common_prefix_app, Nat.eqb_refl, app_length. cbn [length].
    rewrite (proj2 (Nat.eqb_neq _ _)) by lia. cbn [andb].
    rewrite (load_children_mut_ok _ _ _ RK). cbn [bind]. rewrite shortened by (rewrite app_length; lia). cbn [bind].
    rewrite skipn_app, skipn_all, Nat.sub_diag. cbn [skipn app it_single left_children_with].
    destruct (croot_kids _ C) as [So Fc]. cbn [tc] in *. rewrite size_T in Hf. pose proof (sizes_length cs).
    destruct ns as [|n0 ns]; [inversion F; subst; destruct Hin|].
    rewrite (loop_panics _ (x :: w) (Data v0) x w eq_refl (n0 :: ns) cs c fuel); auto.
    + pose proof (Forall2_len _ _ _ F). lia.
    + intros n Hn Rn. apply IH; auto.
      * rewrite Forall_forall in Fc. now apply cc_croot, Fc.
      * pose proof (fresh_kids _ _ Fr RK) as FF. rewrite Forall_forall in FF. now apply FF.
      * pose proof (size_in _ _ Hin). lia.
Qed.
End Builds.
