(** How the nodes of a tree built by insertions alone look: a node without
    children has an empty vector of children exactly when its key was inserted
    again. *)
From Verif Require Import Base BaseLemmas Header Node Combine Iter Api Spec Client Tree Rep Canon Top MemLemmas PrefixExact JoinBase.
From Coq Require Import Sorting.Sorted.

Notation insert1 dbg := (outer_combine_with dbg detached_read detached_read downcast_converter (fun _ r => Ok r)).

Inductive marks : (bytes -> bool) -> node -> Prop :=
| marks_leaf w p v : w p = false -> blob_opt v <> None -> marks w (Node (Data p) v (KId []))
| marks_bare w p v : w p = true -> blob_opt v <> None -> marks w (Node (Data p) v (KArc []))
| marks_kids w p v l : l <> [] -> Forall (marks (fun s => w (p ++ s))) l -> marks w (Node (Data p) v (KArc l)).

Lemma marks_ext n : forall w w', marks w n -> (forall s, w (blob_slice (n_prefix n) ++ s) = w' (blob_slice (n_prefix n) ++ s)) -> marks w' n.
Proof.
  induction n as [p v l IH|p v i] using node_ind'; intros w w' M H; inversion M; subst; cbn in H.
  - constructor; auto. specialize (H []). rewrite app_nil_r in H. congruence.
  - constructor; auto. rewrite Forall_forall in *. intros x Hx. eapply (IH x Hx); [now apply H5|].
    intros s. cbn. apply H.
  - constructor; auto. specialize (H []). rewrite app_nil_r in H. congruence.
Qed.
Lemma marks_full n w r : marks w n -> (r = n) -> is_empty r = false.
Proof.
  intros M ->. destruct M as [w p v _ Hv|w p v _ Hv|w p v l _ _]; unfold is_empty, has_value, is_leaf; cbn [n_value n_kids];
    [now destruct (blob_opt v)|now rewrite andb_false_r|now rewrite andb_false_r].
Qed.

Lemma canonicalize_same dbg p v l r : (blob_opt v <> None \/ 2 <= length l) ->
  canonicalize dbg (Node p v (KArc l)) = Ok r -> r = Node p v (KArc l).
Proof.
  intros H. unfold canonicalize. cbn [n_kids n_value negb]. rewrite andb_false_r.
  destruct (blob_opt v) as [x|] eqn:E.
  - cbn [bind]. unfold has_value. cbn [n_value]. rewrite E. cbn. congruence.
  - destruct H as [H|H]; [congruence|]. destruct l as [|a [|b l]]; cbn in H; try lia.
    cbn [bind]. unfold has_value, child_count. cbn. rewrite E. cbn. congruence.
Qed.

Lemma loop_done c rec fuel : forall ac rs, outer_with_loop c rec fuel ac (IOwned []) = Ok rs -> rs = ac.
Proof.
  induction fuel as [|fuel IH]; intros [|x ac] rs E; cbn in E; try congruence.
  destruct (outer_with_loop c rec fuel ac (IOwned [])) eqn:E1; cbn in E; try discriminate.
  apply IH in E1. congruence.
Qed.

Section Insert.
Context (dbg : bool).
Notation DR := (Rep false detached_read).

Definition flag (o : option bytes) : bool := match o with Some _ => true | None => false end.

Lemma others_keep c k w w' ac cs : (forall s, s <> c :: k -> w' s = w s) -> Forall2 DR ac cs ->
  Forall (fun t => exists b q, tp t = b :: q /\ b <> c) cs -> Forall (marks w) ac -> Forall (marks w') ac.
Proof.
  intros Hw F Nc M. induction F as [|y u ac cs Ry F' IHF]; [constructor|]. inversion Nc as [|? ? (b' & q' & Eu & Nb) Nc']; subst. inversion M; subst.
  constructor; [|auto]. destruct u as [p u ds]. cbn in Eu. subst p. apply Rep_inv in Ry as (RP & _). destruct RP as [RP|[? _]]; [|discriminate].
  eapply marks_ext; [eassumption|]. intros s. rewrite RP. cbn. symmetry. apply Hw. congruence.
Qed.

Lemma loop_marks rec c k v w w' : 
  (forall s, s <> c :: k -> w' s = w s) ->
  forall fuel ac cs rs, Forall2 DR ac cs -> ksorted cs -> Forall cc cs -> Forall (marks w) ac ->
  w' (c :: k) = flag (lkids cs (c :: k)) ->
  (forall x t r, In x ac -> DR x t -> cc t -> starts t (c :: k) = true -> lkids cs (c :: k) = lookup t (c :: k) ->
     rec x (ROwned (n_single (c :: k) v)) = Ok r -> marks w' r) ->
  outer_with_loop downcast_converter rec fuel ac (IOwned [n_single (c :: k) v]) = Ok rs ->
  Forall (marks w') rs /\ length ac <= length rs /\ rs <> [] /\ (ac <> [] -> 2 <= length rs \/ length ac = 1).
Proof.
  intros Hw. induction fuel as [|fuel IH]; intros ac cs rs F So Cs M Hk Hr E; [discriminate|].
  destruct ac as [|x ac].
  - inversion F; subst. cbn in E. unfold bind in E. destruct (outer_with_loop _ rec fuel [] (IOwned [])) eqn:E1; try discriminate.
    apply loop_done in E1. subst. injection E as <-. cbn in Hk. split; [|split; [|split]]; cbn; try lia; try discriminate; try congruence.
    constructor; [|constructor]. apply marks_leaf; [exact Hk|discriminate].
  - inversion F as [|x0 t ac0 cs0 Rx F' ]; subst. rename cs0 into cs. inversion Cs as [|? ? Ct Cs']; subst. inversion M as [|? ? Mx M']; subst.
    inversion So as [|? ? So' Ab]; subst.
    assert (exists b q, tp t = b :: q) as (b & q & Eb). { inversion Ct; subst. cbn. destruct p; [congruence|]. eauto. }
    assert (n_first x = Some b) as Fx. { rewrite (Rep_first _ _ _ _ Rx), Eb. reflexivity. }
    assert (n_prefix x = Data (b :: q)) as Px. { destruct t as [p u ds]. apply Rep_inv in Rx as (RP & _). cbn in Eb. subst p. destruct RP as [RP|[? _]]; [exact RP|discriminate]. }
    assert (c <> b -> marks w' x) as Keep.
    { intros N. eapply marks_ext; [exact Mx|]. intros s. rewrite Px. cbn. symmetry. apply Hw. congruence. }
    cbn [outer_with_loop cmp_with it_first] in E. rewrite Fx in E.
    destruct (cmp_ob (Some b) (n_first (n_single (c :: k) v))) eqn:Ec; cbn in Ec; unfold cmp_ob in Ec; cbn in Ec.
    + (* same byte *)
      apply N.compare_eq in Ec. apply bnum_inj in Ec. subst b. cbn [it_next] in E.
      destruct (rec x (ROwned (n_single (c :: k) v))) as [r| | |] eqn:Er; cbn [bind] in E; try discriminate.
      destruct (outer_with_loop _ rec fuel ac (IOwned [])) eqn:E1; cbn [bind] in E; try discriminate.
      apply loop_done in E1. subst a.
      assert (lkids (t :: cs) (c :: k) = lookup t (c :: k)) as El by now apply lkids_take with q.
      assert (marks w' r) as Mr.
      { eapply Hr; [left; reflexivity|exact Rx|exact Ct| |exact El|exact Er]. unfold starts. rewrite Eb. now apply byte_eqb_refl. }
      rewrite (marks_full r w' r Mr eq_refl) in E. injection E as <-.
      split; [|split; [|split]]; cbn; try lia; try discriminate.
      constructor; [exact Mr|]. 
      assert (Forall (fun t => exists b q, tp t = b :: q /\ b <> c) cs) as Nc.
      { rewrite Forall_forall in *. intros u Hu. specialize (Ab u Hu). unfold klt in Ab. rewrite Eb in Ab. destruct (tp u) as [|b' q'] eqn:Eu; [easy|].
        exists b', q'. split; [reflexivity|]. intros ->. lia. }
      exact (others_keep c k w w' ac cs Hw F' Nc M').
    + (* x first *)
      rewrite N.compare_lt_iff in Ec.
      assert (c <> b) as Ncb by (intros ->; lia).
      destruct (outer_with_loop _ rec fuel ac _) as [rs0| | |] eqn:E1; cbn [bind] in E; try discriminate. injection E as <-.
      assert (lkids (t :: cs) (c :: k) = lkids cs (c :: k)) as El by (apply lkids_skip with b q; congruence).
      rewrite El in Hk.
      destruct (IH ac cs rs0 F' So' Cs' M' Hk) as (A & B & C & D); [|exact E1|].
      { intros y u r Hy Ry Cu Su Eu. apply Hr with u; [now right|exact Ry|exact Cu|exact Su|]. now rewrite El. }
      split; [constructor; auto|]. cbn. split; [lia|]. split; [discriminate|]. intros _. left. destruct rs0; [congruence|]. cbn. lia.
    + (* y first *)
      rewrite N.compare_gt_iff in Ec.
      assert (c <> b) as Ncb by (intros ->; lia).
      cbn [it_next] in E. cbn [conv_node downcast_converter bind] in E.
      destruct (outer_with_loop _ rec fuel (x :: ac) (IOwned [])) as [rs0| | |] eqn:E1; cbn [bind] in E; try discriminate. injection E as <-.
      apply loop_done in E1. subst rs0.
      assert (Forall (fun t => exists b q, tp t = b :: q /\ b <> c) (t :: cs)) as Nc.
      { constructor; [exists b, q; split; [exact Eb|congruence]|]. rewrite Forall_forall in *. intros u Hu. specialize (Ab u Hu). unfold klt in Ab. rewrite Eb in Ab.
        destruct (tp u) as [|b' q'] eqn:Eu; [easy|]. exists b', q'. split; [reflexivity|]. intros ->. lia. }
      assert (lkids (t :: cs) (c :: k) = None) as El.
      { clear - Nc. induction Nc as [|u l (b & q & Eu & N) Nc IHN]; [reflexivity|]. rewrite (lkids_skip u b q l c k Eu N). exact IHN. }
      rewrite El in Hk. split; [|cbn; repeat split; try lia; discriminate].
      constructor; [apply marks_leaf; [exact Hk|discriminate]|].
      exact (others_keep c k w w' _ _ Hw F Nc M).
Qed.

Lemma skip_single k v n : n <= length k -> r_clone_shortened detached_read (ROwned (n_single k v)) n = Ok (n_single (skipn n k) v).
Proof.
  intros L. cbn. unfold clone_shortened. cbn. unfold slice_from. destruct (Nat.leb_spec n (length k)); [reflexivity|lia].
Qed.

Lemma marks_shift p q v kb w : marks w (Node (Data (p ++ q)) v kb) -> marks (fun s => w (p ++ s)) (Node (Data q) v kb).
Proof.
  inversion 1; subst; constructor; auto. rewrite Forall_forall in *. intros x Hx.
  eapply marks_ext; [now apply H5|]. intros s. cbn. now rewrite <- app_assoc.
Qed.

Lemma kids_marks p v kb ns w : marks w (Node (Data p) v kb) -> KidsOf detached_read kb ns ->
  Forall (marks (fun s => w (p ++ s))) ns.
Proof.
  intros M [->|[[-> ->]|(r0 & id & data & _ & E & _)]]; [|constructor|discriminate].
  inversion M; subst; [constructor|assumption].
Qed.

Lemma kids_keep w w' ns cs : Forall2 DR ns cs -> Forall cc cs -> (forall s, s <> [] -> w' s = w s) ->
  Forall (marks w) ns -> Forall (marks w') ns.
Proof.
  intros F Cs H M. induction F as [|x t ns cs Rx F IH]; [constructor|]. inversion Cs as [|? ? Ct Cs']; subst. inversion M; subst.
  constructor; [|auto]. destruct t as [p u ds]. apply Rep_inv in Rx as (RP & _). destruct RP as [RP|[? _]]; [|discriminate].
  inversion Ct; subst. eapply marks_ext; [eassumption|]. intros s. rewrite RP. cbn. symmetry. apply H. destruct p; [congruence|discriminate].
Qed.

Lemma kids_nil ns cs : Forall2 DR ns cs -> (ns = [] <-> cs = []).
Proof. intros F. inversion F; split; congruence. Qed.

Lemma insert_marks v : forall fuel na ta k w w' r, DR na ta -> croot ta -> ta <> tempty -> marks w na ->
  (forall s, s <> k -> w' s = w s) -> w' k = flag (lookup ta k) ->
  insert1 dbg fuel na (ROwned (n_single k v)) = Ok r -> marks w' r.
Proof.
  induction fuel as [|fuel IH]; intros na ta k w w' r R C Ne M Hw Hk E; [discriminate|].
  destruct ta as [ap va cs]. destruct (Rep_inv _ _ _ _ _ _ R) as (RP & RV & ns & RK & RF).
  destruct na as [pb vb kb]. cbn [n_prefix n_value n_kids] in *. destruct RP as [->|[? _]]; [|discriminate].
  destruct (croot_kids _ C) as [So Cs]. cbn [tc] in So, Cs.
  pose proof (kids_marks _ _ _ _ _ M RK) as MK.
  assert (live va cs) as Lv. { destruct C as [C|[C _]]; [congruence|exact C]. }
  assert (va <> None -> blob_opt vb <> None) as Vb.
  { intros Hv. destruct va as [x|]; [|congruence]. destruct RV as [->|(? & ? & -> & _)]; discriminate. }
  cbn [outer_combine_with n_prefix load_prefix bind r_prefix n_single] in E.
  destruct (edges_cases ap k) as [E1 E2 E3|E1 E2 E3|E1 E2 E3|x y E1 E2 E3 Ex Ey Nxy];
    revert E; set (n := common_prefix ap k) in *; edge_tests; intros E.
  - (* equal *)
    subst k. cbn [bind r_value_opt n_value n_single blob_opt set_value n_prefix n_kids] in E.
    assert (exists a2, a2 = Node (Data ap) (Data v) kb /\
      (ac <- load_children_mut detached_read a2 ;; canonicalize dbg (set_kids a2 (KArc ac))) = Ok r) as (a2 & -> & E').
    { eexists. split; [reflexivity|]. destruct (blob_opt vb); cbn [bind conv_value downcast_converter] in E;
        destruct (load_children_mut _ _); cbn in E |- *; exact E. }
    clear E. rewrite (load_children_mut_ok detached_read (Node (Data ap) (Data v) kb) ns RK) in E'. cbn [bind set_kids n_prefix n_value] in E'.
    apply canonicalize_same in E'; [|left; discriminate]. subst r.
    rewrite lookup_at in Hk.
    destruct ns as [|m ns].
    + inversion RF; subst. destruct Lv as [Lv|Lv]; [|cbn in Lv; lia]. apply marks_bare; [|discriminate].
      rewrite Hk. destruct va; [reflexivity|congruence].
    + apply marks_kids; [discriminate|]. eapply kids_keep; [exact RF|exact Cs| |exact MK].
      intros s Ns. cbn. apply Hw. intros X. rewrite <- (app_nil_r ap) in X at 2. apply app_inv_head in X. congruence.
  - (* the node's edge is shorter *)
    rewrite (load_children_mut_ok detached_read (Node (Data ap) vb kb) ns RK) in E. cbn [bind] in E.
    change (Node (Data k) (Data v) (KId [])) with (n_single k v) in E.
    rewrite skip_single in E by lia. cbn [bind] in E.
    destruct (skipn_cons_nth n k E2) as (c & Ec & Es).
    assert (k = ap ++ c :: skipn (S n) k) as Ek. { rewrite <- Es, <- E3 at 1. now rewrite firstn_skipn. }
    rewrite Es in E. set (z := skipn (S n) k) in *. clearbody z. clear Es Ec E3. subst k.
    rewrite lookup_under in Hk by discriminate.
    unfold it_single in E. cbn [outer_children_with] in E.
    assert (exists rs, (match ns with [] => convert_loop downcast_converter fuel (IOwned [n_single (c :: z) v])
             | _ => outer_with_loop downcast_converter (insert1 dbg fuel) fuel ns (IOwned [n_single (c :: z) v]) end) = Ok rs /\
        canonicalize dbg (Node (Data ap) vb (KArc rs)) = Ok r) as (rs & Er & Ecn).
    { destruct ns; [destruct (convert_loop _ _ _)|destruct (outer_with_loop _ _ _ _ _)]; cbn in E; try discriminate; eauto. }
    clear E.
    assert (Forall (marks (fun s => w' (ap ++ s))) rs /\ rs <> [] /\ (2 <= length cs -> 2 <= length rs)) as (A & B & D).
    { destruct ns as [|m ns].
      - inversion RF; subst. destruct fuel as [|[|fuel]]; cbn in Er; try discriminate. injection Er as <-.
        split; [|split; [discriminate|cbn; lia]]. constructor; [|constructor]. apply marks_leaf; [exact Hk|discriminate].
      - destruct (loop_marks (insert1 dbg fuel) c z v (fun s => w (ap ++ s)) (fun s => w' (ap ++ s))) with (fuel := fuel) (ac := m :: ns) (cs := cs) (rs := rs)
          as (A & B & D & G); auto.
        + intros s Ns. apply Hw. intros X. apply app_inv_head in X. congruence.
        + intros x t r0 Hx Rx Ct St Et Er0. eapply IH with (w := fun s => w (ap ++ s)); [exact Rx|now apply cc_croot|..|exact Er0].
          * intros ->. inversion Ct; congruence.
          * rewrite Forall_forall in MK. now apply MK.
          * intros s Ns. apply Hw. intros X. apply app_inv_head in X. congruence.
          * rewrite Hk, Et. reflexivity.
        + split; [exact A|]. split; [exact D|]. rewrite <- (Forall2_len _ _ _ RF). lia. }
    apply canonicalize_same in Ecn.
    + subst r. now apply marks_kids.
    + destruct Lv as [Lv|Lv]; [left; auto|right; auto].
  - (* the key is shorter *)
    assert (ap = k ++ skipn n ap) as Ea. { rewrite <- E3 at 1. now rewrite firstn_skipn. }
    assert (skipn n ap <> []) as Nq. { intros X. apply (f_equal (@length byte)) in X. rewrite skipn_length in X. cbn in X. lia. }
    revert E. unfold split. cbn [n_prefix load_prefix bind n_value n_kids]. unfold slice_from, slice_to.
    replace (n <=? length ap) with true by (symmetry; apply Nat.leb_le; lia). cbn [bind].
    cbn [r_value_opt n_value blob_opt bnone bind conv_value downcast_converter set_value n_prefix n_kids load_children_mut r_load_children].
    intros E. cbn [outer_children_with bind set_kids n_prefix n_value n_kids load_children n_single] in E.
    apply canonicalize_same in E; [|left; discriminate]. subst r. rewrite E3.
    apply marks_kids; [discriminate|]. constructor; [|constructor]. rewrite Ea in M at 1. apply marks_shift in M.
    eapply marks_ext; [exact M|]. intros s. cbn. symmetry. apply Hw. intros X. rewrite <- (app_nil_r k) in X at 2. apply app_inv_head in X.
    destruct (skipn n ap); [congruence|discriminate].
  - (* different *)
    assert (ap = firstn n ap ++ skipn n ap) as Ea by now rewrite firstn_skipn.
    destruct (skipn_cons_nth n ap E1) as (x' & Ex' & Sa). destruct (skipn_cons_nth n k E2) as (y' & Ey' & Sk).
    assert (x' = x) as -> by congruence. assert (y' = y) as -> by congruence.
    assert (k = firstn n ap ++ y :: skipn (S n) k) as Ek. { rewrite <- Sk, E3. now rewrite firstn_skipn. }
    rewrite Sa in Ea.
    assert (lookup (T ap va cs) k = None) as El.
    { destruct (lookup (T ap va cs) k) eqn:X; [|reflexivity]. apply lookup_below in X as [z X]. 
      assert (firstn n ap ++ y :: skipn (S n) k = firstn n ap ++ (x :: skipn (S n) ap) ++ z) as X'.
      { rewrite app_assoc, <- Ea, <- Ek. exact X. }
      apply app_inv_head in X'. cbn in X'. congruence. }
    rewrite El in Hk. cbn [flag] in Hk.
    revert E. unfold split. cbn [n_prefix load_prefix bind n_value n_kids]. unfold slice_from, slice_to.
    replace (n <=? length ap) with true by (symmetry; apply Nat.leb_le; lia).
    cbn [bind load_children_mut n_kids conv_node_shortened downcast_converter].
    change (Node (Data k) (Data v) (KId [])) with (n_single k v). rewrite skip_single by lia. cbn [bind set_kids n_prefix n_value].
    intros E. apply canonicalize_same in E; [|right; unfold sort2; destruct (cmp_ob _ _); cbn; lia]. subst r.
    apply marks_kids; [unfold sort2; destruct (cmp_ob _ _); discriminate|].
    assert (marks (fun s => w' (firstn n ap ++ s)) (Node (Data (skipn n ap)) vb kb)) as M1.
    { rewrite <- Sa in Ea. rewrite Ea in M at 1. apply marks_shift in M. eapply marks_ext; [exact M|]. intros s. cbn. symmetry. apply Hw.
      intros X. rewrite Sa in X. rewrite Ek in X. apply app_inv_head in X. cbn in X. congruence. }
    assert (marks (fun s => w' (firstn n ap ++ s)) (n_single (skipn n k) v)) as M2.
    { apply marks_leaf; [|discriminate]. rewrite Sk, <- Ek. exact Hk. }
    unfold sort2. destruct (cmp_ob _ _); repeat (constructor; auto).
Qed.
End Insert.
