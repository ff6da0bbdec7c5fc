(** Programs on nodes: the heap invariant holds throughout. *)
From Verif Require Import Base BaseLemmas Header Node Store Heap HeapSpec HeapProofs HeapOps.

Notation items e := (flat_map slot_items e).

Lemma env_items G e fe : Forall2 (srep G) e fe -> Forall (item_ok G) (items e).
Proof. induction 1; cbn; [constructor|]. apply Forall_app. split; [eapply srep_items; eassumption|assumption]. Qed.
Lemma env_ext G G' e fe : Forall2 (srep G) e fe -> ext G G' (items e) -> Forall2 (srep G') e fe.
Proof.
  induction 1 as [|s f e fe H1 H2 IH]; cbn; [constructor|]. rewrite ext_app. intros [X1 X2].
  constructor; [apply (srep_ext _ _ _ _ H1 X1)|auto].
Qed.
Lemma env_var G e fe r : Forall2 (srep G) e fe -> srep G (var r e) (fvar r fe).
Proof. unfold var, fvar. intros H. revert r. induction H; intros [|r]; cbn; auto. Qed.
Lemma env_upd G e fe r s f : Forall2 (srep G) e fe -> srep G s f -> Forall2 (srep G) (upd r s e) (upd r f fe).
Proof. intros H Hs. revert r. induction H; intros [|r]; cbn; constructor; auto. Qed.
Lemma occ_upd e r s b : occ b (items (upd r s e)) + (if r <? length e then occ b (slot_items (var r e)) else 0) =
  occ b (items e) + (if r <? length e then occ b (slot_items s) else 0).
Proof.
  unfold var. revert r. induction e as [|x e IH]; intros [|r]; cbn; try lia.
  - rewrite !occ_app. lia.
  - rewrite !occ_app. specialize (IH r). cbn in IH. lia.
Qed.
Lemma var_far e r : length e <= r -> var r e = SGone.
Proof. intros H. unfold var. now apply nth_overflow. Qed.
Lemma occ_gone e r b : occ b (items (upd r SGone e)) + occ b (slot_items (var r e)) = occ b (items e).
Proof.
  pose proof (occ_upd e r SGone b) as H. cbn [slot_items occ] in H. destruct (Nat.ltb_spec r (length e)) as [|Hr]; [lia|].
  rewrite (var_far _ _ Hr). cbn. lia.
Qed.
Lemma occ_put e r s b : r < length e -> occ b (items (upd r s (upd r SGone e))) = occ b (items (upd r SGone e)) + occ b (slot_items s).
Proof.
  intros Hr. pose proof (occ_upd (upd r SGone e) r s b) as H. rewrite upd_len in H.
  rewrite (proj2 (Nat.ltb_lt _ _) Hr) in H.
  assert (var r (upd r SGone e) = SGone) as E.
  { unfold var. clear -Hr. revert r Hr. induction e as [|x e IH]; intros [|r] Hr; cbn in *; try lia; auto.
    apply IH. lia. }
  rewrite E in H. cbn in H. lia.
Qed.
Lemma env_clear G rs : forall e fe, Forall2 (srep G) e fe -> Forall2 (srep G) (clear rs e) (f_clear rs fe).
Proof. induction rs as [|r rs IH]; intros e fe H; cbn; [exact H|]. apply IH. apply env_upd; [exact H|exact Logic.I]. Qed.
Lemma items_app e e' : items (e ++ e') = items e ++ items e'.
Proof. apply flat_map_app. Qed.

(** ** Operations *)
Definition arg (o : op) : option nat :=
  match o with OValueOwned r => Some r | OChildrenArc r => Some r | OPush r => Some r | _ => None end.
Definition taken (e : env) (o : op) : list item :=
  match o with OChildrenArc r => slot_items (var r e) | OPush r => slot_items (var r e) | _ => [] end.
Definition arg_ok (e : env) (fe : fenv) (o : op) (G : ghost) : Prop :=
  match arg o with Some r => srep G (var r e) (fvar r fe) | None => True end.

Lemma hdr_id_small n : n < 128 -> exists h, hdr_id n = Ok h.
Proof. intros H. do 128 (destruct n as [|n]; [eexists; reflexivity|]). lia. Qed.

Lemma op_all dbg e fe o R0 n n' outs l : f_op dbg fe o n = Some (n', outs, l) ->
  (forall r, o = OValueOwned r -> forall a, occ a (slot_items (var r e)) <= occ a R0) ->
  op_ok (h_op dbg e o) (taken e o) R0 (arg_ok e fe o) n n' outs l.
Proof.
  intros E H0 R h G c L I A C. destruct o as [d|v|r|hd d|hd d|hd d|id|r| |p k| |r|i]; cbn [h_op f_op taken app] in *;
    unfold arg_ok in A; cbn [arg] in A.
  - assert (n' = set_prefix_slice n d /\ outs = [] /\ l = 0) as (-> & -> & ->) by (repeat split; congruence).
    apply wp_simple. apply (wp_set_p (Data d) _ c n); auto. reflexivity.
  - assert (n' = set_value n (opt_value (option_map Data v)) /\ outs = [] /\ l = 0) as (-> & -> & ->) by (repeat split; congruence).
    apply wp_simple. destruct v as [d|]; cbn [h_set_value opt_value option_map].
    + apply (wp_set_v (Data d) _ c n); auto. reflexivity.
    + unfold h_set_value. rewrite node_items_split in I.
      eapply wp_bind.
      { eapply (wp_frame _ _ (p_items c ++ c_items c ++ R) R _ h G I); [occ_solve|occ_solve|]. apply wp_drop. rearr I. }
      cbn beta. intros _ h1 G1 ((-> & I1 & _) & _). apply wp_ret. split.
      * rewrite node_items_split. flds. rewrite none_items. rearr I1.
      * destruct C as (P & V & K). split; [exact P|]. split; [apply none_brep|exact K].
  - destruct (fvar r fe) as [|b| |] eqn:Ef; try congruence.
    assert (n' = set_value n b /\ outs = [] /\ l = 0) as (-> & -> & ->) by (repeat split; congruence).
    destruct (var r e) as [|hd w| |] eqn:Er; cbn [srep] in A; try tauto.
    apply wp_simple. unfold h_set_value_owned. rewrite node_items_split in I.
    eapply wp_bind.
    { eapply (wp_frame _ _ (p_items c ++ c_items c ++ R) R _ h G I); [occ_solve|occ_solve|]. apply wp_drop. rearr I. }
    cbn beta. intros _ h1 G1 ((-> & I1 & _) & _).
    assert (live h1 (field_items BytesK hd w)) as Lw.
    { apply (inv_live_roots _ _ _ _ I1). intros a. specialize (L a). specialize (H0 r eq_refl a). rewrite Er in H0.
      cbn [slot_items] in H0. rewrite !occ_app. lia. }
    eapply wp_bind.
    { apply (wp_word_clone BytesK hd w _ R h1 G I1); [eapply brep_items; eassumption|apply (brep_inline _ _ _ _ A)|exact Lw|].
      intros a Ha Hk. exfalso. pose proof (brep_items _ _ _ _ A) as It. rewrite Forall_forall in It.
      unfold field_items in *. destruct (is_arc hd); [|cbn in Ha; lia].
      destruct (It (BytesK, w) (or_introl eq_refl)) as (a' & Ew & Ka). cbn in Ew, Ka. subst w. cbn in Ha.
      destruct (Nat.eqb_spec a' a) as [Eaa|]; [subst a'; congruence|lia]. }
    cbn beta. intros w' h2 G2 (-> & -> & I2 & _). apply wp_ret. split.
    + rewrite node_items_split. flds. rearr I2.
    + destruct C as (P & V & K). split; [exact P|]. split; [exact A|exact K].
  - destruct (borrowed hd d) as [b|] eqn:B; [|congruence]. destruct (borrowed_hdr _ _ _ B) as [Hh <-].
    assert (n' = Node b (n_value n) (n_kids n) /\ outs = [] /\ l = 0) as (-> & -> & ->) by (repeat split; congruence).
    apply wp_simple. apply (wp_set_p b hd c n); auto.
  - destruct (borrowed hd d) as [b|] eqn:B; [|congruence]. destruct (borrowed_hdr _ _ _ B) as [Hh <-].
    assert (n' = set_value n b /\ outs = [] /\ l = 0) as (-> & -> & ->) by (repeat split; congruence).
    apply wp_simple. apply (wp_set_v b hd c n); auto.
  - destruct (borrowed hd d) as [[|x]|] eqn:B; try congruence. destruct (borrowed_hdr _ _ _ B) as [Hh Ed].
    cbn [blob_slice] in Ed. subst d.
    assert (n' = set_kids n (KId x) /\ outs = [] /\ l = 0) as (-> & -> & ->) by (repeat split; congruence).
    apply wp_simple. unfold h_set_children_borrowed. cbn [hdr_for] in Hh. rewrite (proj2 (id_len _ _ Hh)).
    apply (wp_set_c x hd c n); auto.
  - destruct (Nat.ltb_spec (length id) 128) as [Hl|]; [|congruence].
    assert (n' = set_kids n (KId id) /\ outs = [] /\ l = 0) as (-> & -> & ->) by (repeat split; congruence).
    apply wp_simple. unfold h_set_children_id. destruct (hdr_id_small _ Hl) as (hd & Hh). rewrite Hh.
    apply (wp_set_c id hd c n); auto.
  - destruct (fvar r fe) as [| |ns|] eqn:Ef; try congruence.
    assert (n' = set_kids n (KArc ns) /\ outs = [] /\ l = 0) as (-> & -> & ->) by (repeat split; congruence).
    destruct (var r e) as [| |a|] eqn:Er; cbn [srep] in A; try tauto.
    apply wp_simple. apply (wp_set_arc a ns c n); auto.
  - assert (n' = set_value n bnone /\ outs = [FValue (n_value n)] /\ l = 0) as (-> & -> & ->) by (repeat split; congruence).
    cbn [h_take_value fst snd]. apply wp_ret. exists []. cbn [fst snd flat_map slot_items app].
    destruct C as (P & V & K). split; [|split; [|split; [|split; [reflexivity|constructor]]]].
    + rewrite node_items_split in *. flds. rewrite none_items. unfold v_items in I. rearr I.
    + split; [exact P|]. split; [apply none_brep|exact K].
    + constructor; [exact V|constructor].
  - destruct (Nat.leb_spec k (length p)) as [Hk|]; [|congruence].
    match type of E with Some (?x, _, _) = _ => assert (n' = x /\ outs = [] /\ l = 0) as (-> & -> & ->) by (repeat split; congruence) end.
    apply wp_simple. apply (wp_split p k c n R h G Hk I C).
  - destruct (canonicalize dbg n) as [m|x| |] eqn:Ec; try congruence.
    assert (n' = m /\ outs = [] /\ l = forgets n) as (-> & -> & ->) by (repeat split; congruence).
    apply (wp_canonicalize dbg c n m R h G I C Ec).
  - destruct (fvar r fe) as [x| | |] eqn:Ef; try congruence. destruct (n_kids n) as [ns|] eqn:Ek; [|congruence].
    assert (n' = set_kids n (KArc (ns ++ [x])) /\ outs = [] /\ l = 0) as (-> & -> & ->) by (repeat split; congruence).
    destruct (var r e) as [cx| | |] eqn:Er; cbn [srep] in A; try tauto. cbn [slot_items] in I.
    apply (wp_with_children c n ns (node_items cx ++ R) R h G (fun c a cs => _ <! vec_put a (cs ++ [cx]) ;; ret (c, [])));
      [exact I|occ_solve|exact C|exact Ek|].
    intros c1 a cs h1 G1 X1 I1 P V U Ga Hcs. rewrite ext_app in X1. destruct X1 as [X1 _].
    assert (inv h1 G1 ((NodesK, Ptr a) :: p_items c1 ++ v_items c1 ++ flat_map node_items (cs ++ [cx]) ++ R)) as J1.
    { rewrite flat_map_app. cbn [flat_map]. rearr I1. }
    eapply wp_bind.
    { apply (wp_return c1 (n_prefix n) (n_value n) a _ (ns ++ [x]) R h1 G1 J1 P V U Ga).
      apply Forall2_app; [exact Hcs|]. constructor; [apply (crep_ext _ _ _ _ A X1)|constructor]. }
    cbn beta. intros _ h2 G2 (I2 & C2 & _). apply wp_ret. exists [].
    split; [exact I2|]. split; [exact C2|]. split; [constructor|]. split; [reflexivity|constructor].
  - destruct (n_kids n) as [ns|] eqn:Ek; [|congruence]. destruct (nth_error ns i) as [x|] eqn:Ex; [|congruence].
    assert (n' = set_kids n (KArc (firstn i ns ++ skipn (S i) ns)) /\ outs = [FNode x] /\ l = 0) as (-> & -> & ->) by (repeat split; congruence).
    apply (wp_with_children c n ns R R h G (fun c a cs =>
      match nth_error cs i with
      | None => panic
      | Some x => _ <! vec_put a (firstn i cs ++ skipn (S i) cs) ;; ret (c, [SNode x])
      end)); [exact I|occ_solve|exact C|exact Ek|].
    intros c1 a cs h1 G1 _ I1 P V U Ga Hcs.
    destruct (Forall2_nth _ _ _ _ _ Hcs Ex) as (cx & Ecx & Cx). rewrite Ecx.
    rewrite (nth_split _ _ _ Ecx), flat_map_app in I1. cbn [flat_map] in I1.
    assert (inv h1 G1 ((NodesK, Ptr a) :: p_items c1 ++ v_items c1 ++ flat_map node_items (firstn i cs ++ skipn (S i) cs) ++
      (node_items cx ++ R))) as J1.
    { rewrite flat_map_app. rearr I1. }
    eapply wp_bind.
    { eapply (wp_frame _ _ (node_items cx ++ R) R _ h1 G1 J1); [occ_solve|occ_solve|].
      apply (wp_return c1 (n_prefix n) (n_value n) a _ (firstn i ns ++ skipn (S i) ns) _ h1 G1 J1 P V U Ga).
      apply Forall2_app; [now apply Forall2_firstn|now apply Forall2_skipn]. }
    cbn beta. intros _ h2 G2 ((I2 & C2 & _) & X2 & _). rewrite ext_app in X2. destruct X2 as [X2 _].
    apply wp_ret. exists []. cbn [fst snd flat_map slot_items app]. rewrite app_nil_r.
    split; [exact I2|]. split; [exact C2|]. split; [|split; [reflexivity|constructor]].
    constructor; [apply (crep_ext _ _ _ _ Cx X2)|constructor].
Qed.

(** ** Reading *)
Definition near (E : list item) (h : heap) (c : cnode) : Prop :=
  forall a, 0 < occ a (node_items c) -> 0 < occ a E + occ_heap a h.
Lemma near_live h G E lk c : inv h G (E ++ lk) -> near E h c -> live h (node_items c) /\ above lk G h (node_items c).
Proof.
  intros I N. split; intros a Ha; specialize (N a Ha); pose proof (i_cnt _ _ _ I a) as C; rewrite occ_app in C; lia.
Qed.
Lemma near_cell h E a m cs c : nth_error h a = Some (Some (m, CNodes cs)) -> In c cs -> near E h c.
Proof.
  intros En Hin b Hb. pose proof (occ_heap_nth b _ _ _ _ En) as O. cbn [cell_items] in O.
  assert (occ b (node_items c) <= occ b (flat_map node_items cs)); [|lia].
  clear -Hin. induction cs as [|x cs IH]; [easy|]. cbn [flat_map]. rewrite occ_app.
  destruct Hin as [->|Hin]; [lia|]. specialize (IH Hin). lia.
Qed.
Lemma at_ok h G E lk : inv h G (E ++ lk) -> forall path n c m, crep G c n -> near E h c -> f_at n path = Some m ->
  exists c', h_at c path h = Done (c', h) /\ crep G c' m /\ near E h c'.
Proof.
  intros I. induction path as [|i path IH]; intros n c m C N F; cbn [f_at h_at] in *.
  - assert (m = n) as -> by congruence. exists c. auto.
  - destruct (n_kids n) as [ns|] eqn:Ek; [|congruence]. destruct (nth_error ns i) as [x|] eqn:Ex; [|congruence].
    destruct (near_live _ _ _ _ _ I N) as [L _].
    pose proof (h_children_ok _ _ _ _ _ I C L) as K. rewrite Ek in K. destruct K as (a & Ec & Ga & K).
    assert (0 < cnt h a) as Ca.
    { apply L. destruct C as (_ & _ & C). rewrite Ek in C. destruct C as [Hh _].
      rewrite (node_items_arc c a Hh Ec), !occ_app. cbn. rewrite Nat.eqb_refl. lia. }
    destruct (vec_get_ok _ _ _ _ _ I Ca Ga) as (k & cs & En & _ & V & Hcs).
    unfold mbind. rewrite K, V. destruct (Forall2_nth _ _ _ _ _ Hcs Ex) as (cx & Ecx & Cx). rewrite Ecx.
    apply (IH x cx m Cx); [|exact F]. apply (near_cell _ _ _ _ _ _ En (nth_error_In _ _ Ecx)).
Qed.
Lemma place_ok h G e fe lk r path m : inv h G (items e ++ lk) -> Forall2 (srep G) e fe ->
  f_place (fvar r fe) path = Some m ->
  exists c, h_place (var r e) path h = Done (c, h) /\ crep G c m /\ near (items e) h c.
Proof.
  intros I He F. pose proof (env_var _ _ _ r He) as V. pose proof (occ_gone e r) as O.
  unfold f_place in F. destruct (fvar r fe) as [n| |ns|]; try congruence.
  - destruct (var r e) as [c| | |]; cbn [srep] in V; try tauto. cbn [h_place].
    apply (at_ok h G _ lk I path n c m V); [|exact F]. intros a Ha. specialize (O a). cbn [slot_items] in O. lia.
  - destruct path as [|i path]; [congruence|]. destruct (nth_error ns i) as [x|] eqn:Ex; [|congruence].
    destruct (var r e) as [| |a|]; cbn [srep] in V; try tauto. cbn [h_place].
    assert (0 < cnt h a) as Ca.
    { pose proof (i_cnt _ _ _ I a) as C. specialize (O a). cbn [slot_items occ] in O. rewrite Nat.eqb_refl in O.
      rewrite occ_app in C. lia. }
    destruct (vec_get_ok _ _ _ _ _ I Ca V) as (k & cs & En & _ & Vg & Hcs). unfold mbind. rewrite Vg.
    destruct (Forall2_nth _ _ _ _ _ Hcs Ex) as (cx & Ecx & Cx). rewrite Ecx.
    apply (at_ok h G _ lk I path x cx m Cx); [|exact F]. apply (near_cell _ _ _ _ _ _ En (nth_error_In _ _ Ecx)).
Qed.

Lemma nodes_ok G rs : forall e fe ns, Forall2 (srep G) e fe -> f_nodes rs fe = Some ns ->
  exists cs, h_nodes rs e = Some cs /\ Forall2 (crep G) cs ns /\
    forall b, occ b (flat_map node_items cs) + occ b (items (clear rs e)) = occ b (items e).
Proof.
  induction rs as [|r rs IH]; intros e fe ns He F; cbn [f_nodes h_nodes clear] in *.
  - assert (ns = []) as -> by congruence. exists []. repeat split. constructor.
  - pose proof (env_var _ _ _ r He) as V. destruct (fvar r fe) as [n| | |]; try congruence.
    destruct (f_nodes rs (upd r FGone fe)) as [ns'|] eqn:F'; [|congruence].
    assert (ns = n :: ns') as -> by congruence.
    destruct (IH (upd r SGone e) (upd r FGone fe) ns') as (cs & -> & Hcs & O); [apply env_upd; [exact He|exact Logic.I]|exact F'|].
    pose proof (occ_gone e r) as Og. destruct (var r e) as [c| | |]; cbn [srep] in V; try tauto.
    exists (c :: cs). split; [reflexivity|]. split; [constructor; assumption|]. intros b. cbn [flat_map]. rewrite occ_app.
    specialize (O b). specialize (Og b). cbn [slot_items] in Og. lia.
Qed.

(** ** Steps *)
Definition step_post (lk : list item) (fe' : fenv) (l : nat) (e' : env) (h' : heap) (G' : ghost) : Prop :=
  exists lk', inv h' G' (items e' ++ lk' ++ lk) /\ Forall2 (srep G') e' fe' /\ length lk' = l /\ leaks_ok G' lk'.

Lemma occ_moved e o b : occ b (items e) = occ b (taken e o) + occ b (items (clear (moved o) e)).
Proof.
  destruct o; cbn [taken moved clear occ]; try lia.
  all: pose proof (occ_gone e r b); lia.
Qed.
Lemma occ_var e r b : occ b (slot_items (var r e)) <= occ b (items e).
Proof. pose proof (occ_gone e r b). lia. Qed.

Lemma step_mut dbg e fe r path o n n' s l lk h G : inv h G (items e ++ lk) -> Forall2 (srep G) e fe ->
  fvar r (f_clear (moved o) fe) = FNode n ->
  f_mut (f_op dbg (match o with OValueOwned _ => upd r FGone (f_clear (moved o) fe) | _ => fe end) o) path n = Some (n', s, l) ->
  wp (h_step dbg (IMut r path o) e) lk (step_post lk (upd r (FNode n') (upd r FGone (f_clear (moved o) fe)) ++ s) l) h G.
Proof.
  intros I He F Fm. cbn [h_step]. set (e1 := clear (moved o) e) in *. set (fe1 := f_clear (moved o) fe) in *.
  assert (Forall2 (srep G) e1 fe1) as He1 by now apply env_clear.
  pose proof (env_var _ _ _ r He1) as V. rewrite F in V.
  destruct (var r e1) as [c| | |] eqn:Er; cbn [srep] in V; try tauto.
  assert (r < length e1) as Hr.
  { destruct (Nat.lt_ge_cases r (length e1)) as [|Hge]; [assumption|]. rewrite (var_far _ _ Hge) in Er. congruence. }
  set (e2 := upd r SGone e1) in *. set (fe2 := upd r FGone fe1) in *.
  assert (Forall2 (srep G) e2 fe2) as He2 by (apply env_upd; [exact He1|exact Logic.I]).
  set (eo := match o with OValueOwned _ => e2 | _ => e end). set (feo := match o with OValueOwned _ => fe2 | _ => fe end) in *.
  assert (Forall2 (srep G) eo feo) as Heo by (unfold eo, feo; destruct o; assumption).
  assert (taken eo o = taken e o) as Et by (unfold eo; destruct o; reflexivity).
  assert (inv h G (node_items c ++ taken e o ++ (items e2 ++ lk))) as J.
  { apply (inv_occ _ _ _ _ I).
    - intros b. rewrite !occ_app. pose proof (occ_moved e o b) as O1. pose proof (occ_gone e1 r b) as O2. fold e1 in O1.
      fold e2 in O2. rewrite Er in O2. cbn [slot_items] in O2. lia.
    - pose proof (i_root _ _ _ I) as Rt. rewrite !Forall_app in *. split; [apply (crep_items _ _ _ V)|].
      split; [|split; [apply (env_items _ _ _ He2)|tauto]].
      assert (forall q, Forall (item_ok G) (slot_items (var q e))) as Hq.
      { intros q. apply (srep_items _ _ (fvar q fe)). now apply env_var. }
      destruct o; cbn [taken]; auto. }
  assert (op_ok (h_mut (h_op dbg eo o) path) (taken eo o) (items e2) (arg_ok eo feo o) n n' s l) as W.
  { apply (mut_ok _ (f_op dbg feo o) _ _ _).
    - intros G1 G2 X A. unfold arg_ok in *. rewrite Et in X. destruct o as [d|v|q|hd d|hd d|hd d|id|q| |p k| |q|i];
        cbn [arg taken] in *; try exact Logic.I; apply (srep_ext _ _ _ _ A); intros b Hb; apply X; rewrite occ_app;
        try (unfold eo in Hb; lia).
      unfold eo in Hb. pose proof (occ_var e2 q b). lia.
    - intros m m' oo k Hf. apply op_all; [exact Hf|]. intros q -> b. unfold eo. apply occ_var.
    - exact Fm. }
  eapply wp_bind.
  { eapply (wp_frame _ _ (items e2 ++ lk) lk _ h G J); [occ_solve|occ_solve|].
    apply (W (items e2 ++ lk) h G c); [occ_solve|rewrite Et; exact J| |exact V].
    unfold arg_ok. destruct (arg o) as [q|]; [apply env_var; exact Heo|exact Logic.I]. }
  cbn beta. intros [y so] h' G'. cbn [fst snd]. intros ((lk' & I' & C' & S' & Ll & Lk) & X' & _). cbn [fst snd] in *.
  apply wp_ret. rewrite ext_app in X'. destruct X' as [X' _].
  exists lk'. split; [|split; [|auto]].
  - apply (inv_occ _ _ _ _ I').
    + intros b. rewrite items_app, !occ_app. unfold e2. rewrite (occ_put e1 r (SNode y) b Hr). cbn [slot_items]. lia.
    + pose proof (i_root _ _ _ I') as Rt. rewrite items_app, !Forall_app in *. destruct Rt as (Rn & Rs & Rl & Re & Rk).
      split; [|tauto]. split; [|exact Rs].
      apply (env_items G' _ (upd r (FNode n') fe2)). apply env_upd; [apply (env_ext _ _ _ _ He2 X')|exact C'].
  - apply Forall2_app; [|exact S']. apply env_upd; [apply (env_ext _ _ _ _ He2 X')|exact C'].
Qed.

Lemma step_ok dbg i e fe fe' l lk h G : inv h G (items e ++ lk) -> Forall2 (srep G) e fe ->
  f_step dbg i fe = Some (fe', l) -> wp (h_step dbg i e) lk (step_post lk fe' l) h G.
Proof.
  intros I He F. destruct i as [|rs|r path|r path|r path|r path o|r]; cbn [f_step] in F.
  - assert (fe' = fe ++ [FNode n_empty] /\ l = 0) as [-> ->] by (split; congruence). cbn [h_step].
    apply wp_ret. exists []. split; [|split; [|split; [reflexivity|constructor]]].
    + rewrite items_app. cbn [flat_map slot_items app]. rewrite empty_items. rearr I.
    + apply Forall2_app; [exact He|]. constructor; [apply empty_crep|constructor].
  - destruct (f_nodes rs fe) as [ns|] eqn:Fn; [|congruence].
    assert (fe' = f_clear rs fe ++ [FArc ns] /\ l = 0) as [-> ->] by (split; congruence). cbn [h_step].
    destruct (nodes_ok G rs e fe ns He Fn) as (cs & -> & Hcs & O).
    pose proof (env_clear _ rs _ _ He) as Hc.
    assert (inv h G (cell_items (CNodes cs) ++ (items (clear rs e) ++ lk))) as J.
    { apply (inv_occ _ _ _ _ I).
      - intros b. cbn [cell_items]. rewrite !occ_app. specialize (O b). lia.
      - pose proof (i_root _ _ _ I) as Rt. rewrite !Forall_app in *. split; [apply (creps_items _ _ _ Hcs)|].
        split; [apply (env_items _ _ _ Hc)|tauto]. }
    eapply wp_bind.
    { eapply (wp_frame _ _ (items (clear rs e) ++ lk) lk _ h G J); [occ_solve|occ_solve|].
      apply (wp_new (CNodes cs) (GN ns) _ h G J Hcs). }
    cbn beta. intros a h1 G1 ((-> & I1 & _) & X & _). apply wp_ret. rewrite ext_app in X. destruct X as [X _].
    exists []. split; [|split; [|split; [reflexivity|constructor]]].
    + rewrite items_app. cbn [flat_map slot_items app]. cbn [gkind] in I1. rearr I1.
    + apply Forall2_app; [apply (env_ext _ _ _ _ Hc X)|]. constructor; [apply gset_eq|constructor].
  - destruct (f_place (fvar r fe) path) as [n|] eqn:Fp; [|congruence].
    assert (fe' = fe ++ [FNode n] /\ l = 0) as [-> ->] by (split; congruence). cbn [h_step].
    destruct (place_ok _ _ _ _ _ _ _ _ I He Fp) as (c & Hp & C & N). destruct (near_live _ _ _ _ _ I N) as [L A].
    eapply wp_bind.
    { apply (wp_pure _ c lk (fun p h' G' => p = c /\ h' = h /\ G' = G) h G Hp). auto. }
    cbn beta. intros c0 h' G' (-> & -> & ->).
    eapply wp_bind; [apply (wp_clone c n _ lk h G I C L A)|].
    cbn beta. intros c' h1 G1 (-> & -> & I1 & _). apply wp_ret. exists [].
    split; [|split; [|split; [reflexivity|constructor]]].
    + rewrite items_app. cbn [flat_map slot_items app]. rewrite app_nil_r. rearr I1.
    + apply Forall2_app; [exact He|]. constructor; [exact C|constructor].
  - destruct (f_place (fvar r fe) path) as [n|] eqn:Fp; [|congruence].
    assert (fe' = fe ++ [FValue (n_value n)] /\ l = 0) as [-> ->] by (split; congruence). cbn [h_step].
    destruct (place_ok _ _ _ _ _ _ _ _ I He Fp) as (c & Hp & C & N). destruct (near_live _ _ _ _ _ I N) as [L A].
    eapply wp_bind.
    { apply (wp_pure _ c lk (fun p h' G' => p = c /\ h' = h /\ G' = G) h G Hp). auto. }
    cbn beta. intros c0 h' G' (-> & -> & ->).
    rewrite node_items_split, !live_app in L. rewrite node_items_split, !above_app in A.
    destruct C as (P & V & K).
    eapply wp_bind.
    { apply (wp_word_clone BytesK (c_vh c) (c_v c) _ lk h G I); [eapply brep_items; eassumption| |tauto|tauto].
      apply (brep_inline _ _ _ _ V). }
    cbn beta. intros c' h1 G1 (-> & -> & I1 & _). apply wp_ret. exists [].
    split; [|split; [|split; [reflexivity|constructor]]].
    + rewrite items_app. cbn [flat_map slot_items app]. rewrite app_nil_r. rearr I1.
    + apply Forall2_app; [exact He|]. constructor; [exact V|constructor].
  - destruct (f_place (fvar r fe) path) as [n|] eqn:Fp; [|congruence]. destruct (n_kids n) as [ns|] eqn:Ek; [|congruence].
    assert (fe' = fe ++ [FArc ns] /\ l = 0) as [-> ->] by (split; congruence). cbn [h_step].
    destruct (place_ok _ _ _ _ _ _ _ _ I He Fp) as (c & Hp & C & N). destruct (near_live _ _ _ _ _ I N) as [L A].
    eapply wp_bind.
    { apply (wp_pure _ c lk (fun p h' G' => p = c /\ h' = h /\ G' = G) h G Hp). auto. }
    cbn beta. intros c0 h' G' (-> & -> & ->).
    pose proof (h_children_ok _ _ _ _ _ I C L) as K. rewrite Ek in K. destruct K as (a & Ec & Ga & K).
    assert (0 < occ a (node_items c)) as Oa.
    { destruct C as (_ & _ & C). rewrite Ek in C. destruct C as [Hh _].
      rewrite (node_items_arc c a Hh Ec), !occ_app. cbn. rewrite Nat.eqb_refl. lia. }
    eapply wp_bind.
    { apply (wp_pure _ (RArc a) lk (fun p h' G' => p = RArc a /\ h' = h /\ G' = G) h G K). auto. }
    cbn beta. intros c0 h' G' (-> & -> & ->).
    eapply wp_bind.
    { apply (wp_arc_clone a NodesK _ lk h G I (L a Oa)); [now rewrite Ga|]. apply (A a Oa). }
    cbn beta. intros _ h1 G1 (-> & I1 & _). apply wp_ret. exists [].
    split; [|split; [|split; [reflexivity|constructor]]].
    + rewrite items_app. cbn [flat_map slot_items app]. rearr I1.
    + apply Forall2_app; [exact He|]. constructor; [exact Ga|constructor].
  - destruct (fvar r (f_clear (moved o) fe)) as [n| | |] eqn:Fv; try congruence.
    cbv zeta in F. match type of F with match ?x with _ => _ end = _ => destruct x as [[[n' s] l0]|] eqn:Fm end; [|congruence].
    match type of F with Some (?x, _) = _ => assert (fe' = x /\ l = l0) as [-> ->] by (split; congruence) end.
    apply (step_mut dbg e fe r path o n n' s l0 lk h G I He Fv Fm).
  - assert (fe' = upd r FGone fe /\ l = 0) as [-> ->] by (split; congruence). cbn [h_step].
    assert (Forall2 (srep G) (upd r SGone e) (upd r FGone fe)) as Hu by (apply env_upd; [exact He|exact Logic.I]).
    assert (inv h G (slot_items (var r e) ++ (items (upd r SGone e) ++ lk))) as J.
    { apply (inv_occ _ _ _ _ I).
      - intros b. rewrite !occ_app. pose proof (occ_gone e r b). lia.
      - pose proof (i_root _ _ _ I) as Rt. rewrite !Forall_app in *.
        split; [apply (srep_items _ _ (fvar r fe)); now apply env_var|]. split; [apply (env_items _ _ _ Hu)|tauto]. }
    eapply wp_bind.
    { eapply (wp_frame _ _ (items (upd r SGone e) ++ lk) lk _ h G J); [occ_solve|occ_solve|]. apply (wp_drop _ _ _ _ J). }
    cbn beta. intros _ h1 G1 ((-> & I1 & _) & _). apply wp_ret. exists [].
    split; [exact I1|]. split; [exact Hu|]. split; [reflexivity|constructor].
Qed.

Lemma run_ok dbg p : forall e fe fe' l lk h G, inv h G (items e ++ lk) -> Forall2 (srep G) e fe -> leaks_ok G lk ->
  f_run dbg p fe = Some (fe', l) ->
  exists e' h' G' lk', h_run dbg p e h = Done (e', h') /\ inv h' G' (items e' ++ lk') /\ Forall2 (srep G') e' fe' /\
    leaks_ok G' lk' /\ length lk' = length lk + l.
Proof.
  induction p as [|i p IH]; intros e fe fe' l lk h G I He Lk F; cbn [f_run h_run] in *.
  - assert (fe' = fe /\ l = 0) as [-> ->] by (split; congruence). exists e, h, G, lk. rewrite Nat.add_0_r. auto 6.
  - destruct (f_step dbg i fe) as [[fe1 l1]|] eqn:F1; [|congruence].
    destruct (f_run dbg p fe1) as [[fe2 l2]|] eqn:F2; [|congruence].
    assert (fe' = fe2 /\ l = l1 + l2) as [-> ->] by (split; congruence).
    destruct (step_ok dbg i e fe fe1 l1 lk h G I He F1) as (e1 & h1 & G1 & D & (X & _) & (lk1 & I1 & He1 & Hl & Lk1)).
    destruct (IH e1 fe1 fe2 l2 (lk1 ++ lk) h1 G1 I1 He1) as (e2 & h2 & G2 & lk2 & D2 & I2 & He2 & Lk2 & Hl2).
    + apply Forall_app. split; [exact Lk1|apply (leaks_ext _ _ _ Lk X)].
    + exact F2.
    + exists e2, h2, G2, lk2. unfold mbind. rewrite D. rewrite app_length in Hl2.
      split; [exact D2|]. split; [exact I2|]. split; [exact He2|]. split; [exact Lk2|lia].
Qed.
