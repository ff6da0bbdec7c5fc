(** Steps that leave borrowed memory alone; reading and cloning borrowed nodes. *)
From Verif Require Import Base BaseLemmas Header Node Combine Store Heap HeapSpec HeapProofs HeapOps HeapIter HeapTree.

(** [R]: what others own; [B]: what is borrowed and may be cloned, so that counts change. *)
Definition wpk {A} (m : M A) (R B : list item) (Q : A -> heap -> ghost -> Prop) (h : heap) (G : ghost) : Prop :=
  exists a h' G', m h = Done (a, h') /\ stp R h G h' G' /\ keeps B h G h' G' /\ Q a h' G'.

Lemma wpk_ret {A} (a : A) R B (Q : A -> heap -> ghost -> Prop) h G : Q a h G -> wpk (ret a) R B Q h G.
Proof. intros H. exists a, h, G. split; [reflexivity|]. split; [apply stp_refl|]. split; [apply keeps_refl|exact H]. Qed.
Lemma wpk_bind {A C} (m : M A) (k : A -> M C) R B Q Q' h G :
  wpk m R B Q h G -> (forall a h' G', Q a h' G' -> keeps B h G h' G' -> wpk (k a) R B Q' h' G') ->
  wpk (mbind m k) R B Q' h G.
Proof.
  intros (a & h' & G' & E & S1 & K1 & HQ) K. destruct (K _ _ _ HQ K1) as (b & h2 & G2 & E2 & S2 & K2 & HQ2).
  exists b, h2, G2. unfold mbind. rewrite E. split; [exact E2|]. split; [apply (stp_trans _ _ _ _ _ _ _ S1 S2)|].
  split; [apply (keeps_trans _ _ _ _ _ _ _ K1 K2)|exact HQ2].
Qed.
Lemma wpk_weaken {A} (m : M A) R B (Q Q' : A -> heap -> ghost -> Prop) h G :
  wpk m R B Q h G -> (forall a h' G', Q a h' G' -> keeps B h G h' G' -> Q' a h' G') -> wpk m R B Q' h G.
Proof. intros (a & h' & G' & E & S1 & K1 & HQ) K. exists a, h', G'. auto. Qed.
Lemma wpk_pure {A} (m : M A) (x : A) R B (Q : A -> heap -> ghost -> Prop) h G :
  m h = Done (x, h) -> Q x h G -> wpk m R B Q h G.
Proof. intros E HQ. exists x, h, G. split; [exact E|]. split; [apply stp_refl|]. split; [apply keeps_refl|exact HQ]. Qed.
(** A read in front. *)
Lemma wpk_read {A C} (m : M A) (x : A) (k : A -> M C) R B (Q : C -> heap -> ghost -> Prop) h G :
  m h = Done (x, h) -> wpk (k x) R B Q h G -> wpk (mbind m k) R B Q h G.
Proof. intros E (b & h2 & G2 & E2 & W). exists b, h2, G2. unfold mbind. rewrite E. auto. Qed.

Lemma stp_sub Z R1 R h G h' G' : inv h G Z -> (forall a, occ a R1 <= occ a Z) -> (forall a, occ a R <= occ a R1) ->
  stp R1 h G h' G' -> stp R h G h' G'.
Proof.
  intros I L1 L2 (X & P & S). split; [|split].
  - intros b Hb. apply X. specialize (L2 b). lia.
  - intros b Hb K C. pose proof (i_cnt _ _ _ I b) as D. specialize (L1 b). specialize (L2 b).
    assert (occ b R1 = occ b R) as U by lia. rewrite <- U. apply P; try lia. exact K.
  - apply (keeps_sub _ _ _ _ _ _ L2 S).
Qed.
(** More in the frame. *)
Lemma wpk_frame {A} (m : M A) Z R1 R B1 B (Q : A -> heap -> ghost -> Prop) h G :
  inv h G Z -> (forall a, occ a R1 <= occ a Z) -> (forall a, occ a R <= occ a R1) -> (forall a, occ a B <= occ a B1) ->
  wpk m R1 B1 Q h G -> wpk m R B (fun a h' G' => Q a h' G' /\ stp R1 h G h' G') h G.
Proof.
  intros I L1 L2 L3 (a & h' & G' & E & S1 & K & HQ). exists a, h', G'. split; [exact E|].
  split; [apply (stp_sub Z R1); auto|]. split; [apply (keeps_sub _ _ _ _ _ _ L3 K)|auto].
Qed.
(** Steps that treat what is borrowed like the rest of the frame. *)
Lemma wpk_of {A} (m : M A) Z R1 R B (Q : A -> heap -> ghost -> Prop) h G :
  inv h G Z -> (forall a, occ a R1 <= occ a Z) -> (forall a, occ a R <= occ a R1) -> (forall a, occ a B <= occ a R1) ->
  wp m R1 Q h G -> wpk m R B (fun a h' G' => Q a h' G' /\ stp R1 h G h' G') h G.
Proof.
  intros I L1 L2 L3 (a & h' & G' & E & S1 & HQ). exists a, h', G'. split; [exact E|].
  split; [apply (stp_sub Z R1); auto|]. split; [apply (keeps_sub _ _ _ _ _ _ L3 (proj2 (proj2 S1)))|auto].
Qed.

(** ** Borrowed nodes *)
Definition bor (h : heap) (G : ghost) (B : list item) (b : cnode) (m : node) : Prop :=
  crep G b m /\ forall a, 0 < occ a (node_items b) -> deep h B a.
Lemma bor_keeps h G B h' G' b m : keeps B h G h' G' -> bor h G B b m -> bor h' G' B b m.
Proof.
  intros K [C D]. split; [|intros a Ha; apply (deep_keeps _ _ _ _ _ _ K), D, Ha].
  apply (crep_ext _ _ _ _ C). intros a Ha. apply (K a (D a Ha)).
Qed.
Lemma bors_keeps h G B h' G' bs ms : keeps B h G h' G' -> Forall2 (bor h G B) bs ms -> Forall2 (bor h' G' B) bs ms.
Proof. intros K. induction 1; constructor; eauto using bor_keeps. Qed.
Lemma bor_sub h G B B' b m : (forall a, occ a B <= occ a B') -> bor h G B b m -> bor h G B' b m.
Proof. intros L [C D]. split; [exact C|]. intros a Ha. apply (deep_sub _ _ _ _ L), D, Ha. Qed.
Lemma bor_own h G B b m : crep G b m -> bor h G (node_items b ++ B) b m.
Proof. intros C. split; [exact C|]. intros a Ha. apply deep_root. rewrite occ_app. lia. Qed.
Lemma bor_live h G Z B b m : inv h G Z -> (forall a, occ a B <= occ a Z) -> bor h G B b m -> live h (node_items b).
Proof.
  intros I L [_ D] a Ha. apply D in Ha. apply deep_occ in Ha. pose proof (i_cnt _ _ _ I a). specialize (L a). lia.
Qed.
Lemma bor_above h G Z R B b m : inv h G Z -> (forall a, occ a (R ++ B) <= occ a Z) -> bor h G B b m -> above R G h (node_items b).
Proof.
  intros I L [_ D] a Ha _. apply D in Ha. apply deep_occ in Ha. pose proof (i_cnt _ _ _ I a). specialize (L a).
  rewrite occ_app in L. lia.
Qed.

(** Nothing is overwritten by cloning. *)
Definition clean_step (h h' : heap) : Prop := forall a, same_cell h h' a.
Lemma clean_refl h : clean_step h h.
Proof. intros a n x E. now exists n. Qed.
Lemma clean_trans h h1 h2 : clean_step h h1 -> clean_step h1 h2 -> clean_step h h2.
Proof. intros A B a n x E. destruct (A a n x E) as (m & Em). apply (B a m x Em). Qed.
Lemma word_clone_clean hdr w h w' h' : word_clone hdr w h = Done (w', h') -> clean_step h h'.
Proof.
  unfold word_clone. destruct (is_arc hdr).
  - unfold arc_clone, mbind, arc_get. destruct w as [|a]; [discriminate|].
    destruct (nth_error h a) as [[[n x]|]|] eqn:E; try discriminate. cbn. intros F b. injection F as _ <-.
    apply (same_cell_upd _ _ _ _ _ _ E). eauto.
  - destruct w; [|discriminate]. intros F. injection F as _ <-. apply clean_refl.
Qed.
Lemma h_clone_clean c h c' h' : h_clone c h = Done (c', h') -> clean_step h h'.
Proof.
  unfold h_clone, mbind.
  destruct (word_clone (c_ph c) (c_p c) h) as [[w1 h1]| | |] eqn:E1; try discriminate.
  destruct (word_clone (c_vh c) (c_v c) h1) as [[w2 h2]| | |] eqn:E2; try discriminate.
  destruct (word_clone (c_ch c) (c_c c) h2) as [[w3 h3]| | |] eqn:E3; try discriminate.
  intros F. unfold ret in F. assert (h' = h3) as -> by congruence.
  apply (clean_trans _ _ _ (word_clone_clean _ _ _ _ _ E1)).
  apply (clean_trans _ _ _ (word_clone_clean _ _ _ _ _ E2) (word_clone_clean _ _ _ _ _ E3)).
Qed.

Lemma wpk_clone b m Y R B h G : inv h G (Y ++ R ++ B) -> bor h G B b m ->
  wpk (h_clone b) R B (fun c' h' G' => c' = b /\ G' = G /\ inv h' G (node_items b ++ Y ++ R ++ B)) h G.
Proof.
  intros I H.
  destruct (wp_clone b m (Y ++ R ++ B) R h G I (proj1 H)) as (c & h' & G' & E & S1 & -> & -> & I' & _).
  { refine (bor_live _ _ _ _ _ _ I _ H); occ_solve. }
  { refine (bor_above _ _ _ _ _ _ _ I _ H); occ_solve. }
  exists b, h', G. split; [exact E|]. split; [exact S1|]. split; [|auto].
  intros a _. split; [apply (h_clone_clean _ _ _ _ E)|reflexivity].
Qed.
(** Cloning a borrowed value. *)
Lemma wpk_clone_value hd w v Y R B h G : inv h G (Y ++ R ++ B) -> brep G hd w v ->
  (forall a, 0 < occ a (field_items BytesK hd w) -> deep h B a) ->
  wpk (word_clone hd w) R B (fun w' h' G' => w' = w /\ G' = G /\
    inv h' G (field_items BytesK hd w ++ Y ++ R ++ B)) h G.
Proof.
  intros I V D. assert (forall a, 0 < occ a (field_items BytesK hd w) -> 0 < occ a B \/ 0 < occ_heap a h) as L.
  { intros a Ha. apply deep_occ, D, Ha. }
  destruct (wp_word_clone BytesK hd w (Y ++ R ++ B) R h G I (brep_items _ _ _ _ V)) as (w' & h' & G' & E & S1 & -> & -> & I' & _).
  - eauto using brep_inline.
  - intros a Ha. apply L in Ha. pose proof (i_cnt _ _ _ I a) as C. rewrite !occ_app in C. lia.
  - intros a Ha _. apply L in Ha. pose proof (i_cnt _ _ _ I a) as C. rewrite !occ_app in C. lia.
  - exists w, h', G. split; [exact E|]. split; [exact S1|]. split; [|auto].
    intros a _. split; [apply (word_clone_clean _ _ _ _ _ E)|reflexivity].
Qed.

(** Reading. *)
Lemma load_prefix_ok h G Z c n p : inv h G Z -> crep G c n -> live h (node_items c) ->
  load_prefix detached_read (n_prefix n) = Ok p -> n_prefix n = Data p /\ h_load_prefix c h = Done (p, h).
Proof.
  intros I (P & V & K) L E. unfold node_items in L. rewrite !live_app in L. destruct L as (L & _).
  destruct (n_prefix n) as [d|id]; [|destruct id; discriminate E]. cbn in E. assert (d = p) as -> by congruence.
  split; [reflexivity|]. unfold h_load_prefix. rewrite (brep_is_id _ _ _ _ P). cbn [blob_is_id].
  apply (blob_read_ok _ _ _ _ _ _ I P L).
Qed.
Lemma first_ok h G Z c n : inv h G Z -> crep G c n -> live h (node_items c) -> h_first c h = Done (n_first n, h).
Proof.
  intros I (P & V & K) L. unfold node_items in L. rewrite !live_app in L. destruct L as (L & _).
  unfold h_first, mbind. now rewrite (blob_read_ok _ _ _ _ _ _ I P L).
Qed.
Lemma is_empty_ok G c n : crep G c n -> h_is_empty c = is_empty n.
Proof.
  intros C. unfold h_is_empty, is_empty. rewrite (has_value_ok _ _ _ C). f_equal. destruct C as (_ & _ & K).
  unfold is_leaf. destruct (n_kids n) as [ns|id]; cbn [krep] in K.
  - destruct K as (-> & _). reflexivity.
  - rewrite (brep_none _ _ _ _ K). now destruct id.
Qed.
Lemma value_opt_ok G c n : crep G c n ->
  match blob_opt (n_value n) with
  | Some v => h_value_opt c = Some (c_vh c, c_v c) /\ v = n_value n
  | None => h_value_opt c = None /\ n_value n = bnone
  end.
Proof.
  intros C. unfold h_value_opt. rewrite (has_value_ok _ _ _ C). unfold has_value.
  destruct (n_value n) as [d|[|x id]]; cbn; auto.
Qed.

(** ** Iterators *)
Definition irep (h : heap) (G : ghost) (B : list item) (it : biter) (ms : list node) : Prop :=
  Forall2 (bor h G B) (bi_rest it) ms /\
  match bi_vec it with
  | None => True
  | Some (a, cs) => deep h B a /\ exists n, nth_error h a = Some (Some (n, CNodes cs))
  end.
Lemma irep_keeps h G B h' G' it ms : keeps B h G h' G' -> irep h G B it ms -> irep h' G' B it ms.
Proof.
  intros K [F V]. split; [apply (bors_keeps _ _ _ _ _ _ _ K F)|]. destruct (bi_vec it) as [[a cs]|]; [|exact V].
  destruct V as (D & n & E). split; [apply (deep_keeps _ _ _ _ _ _ K D)|]. apply (proj1 (K a D) n _ E).
Qed.
Lemma bi_check_ok h G B it ms : irep h G B it ms -> bi_check it h = Done (tt, h).
Proof.
  intros [_ V]. unfold bi_check. destruct (bi_vec it) as [[a cs]|]; [|reflexivity]. destruct V as (D & n & E).
  unfold mbind, vec_get, mbind, arc_get. rewrite E. cbn. destruct (list_eq_dec cnode_eq_dec cs cs); [reflexivity|congruence].
Qed.
Lemma bi_next_ok h G B it ms : irep h G B it ms ->
  match ms with
  | [] => bi_next it h = Done (None, h)
  | m :: ms' => exists b it', bi_next it h = Done (Some (b, it'), h) /\ bor h G B b m /\ irep h G B it' ms'
  end.
Proof.
  intros H. pose proof (bi_check_ok _ _ _ _ _ H) as E. destruct H as [F V]. unfold bi_next.
  inversion F as [E1|b m r ms' Hb Hr E1]; subst; [reflexivity|].
  exists b, (BIter (bi_vec it) r). unfold mbind. rewrite E. split; [reflexivity|]. split; [exact Hb|]. split; [exact Hr|exact V].
Qed.
Lemma bi_first_ok h G Z B it ms : inv h G Z -> (forall a, occ a B <= occ a Z) -> irep h G B it ms ->
  bi_first it h = Done (it_first (IOwned ms), h).
Proof.
  intros I L H. pose proof (bi_check_ok _ _ _ _ _ H) as E. destruct H as [F V]. unfold bi_first.
  inversion F as [E1|b m r ms' Hb Hr E1]; subst; [reflexivity|]. unfold mbind. rewrite E. cbn.
  now rewrite (first_ok _ _ _ _ _ I (proj1 Hb) (bor_live _ _ _ _ _ _ I L Hb)).
Qed.

Definition orep (h : heap) (G : ghost) (B : list item) (o : option biter) (po : option iter) : Prop :=
  match o, po with
  | None, None => True
  | Some it, Some (IOwned ms) => irep h G B it ms
  | _, _ => False
  end.
Lemma slice_ok h G Z B b m po : inv h G Z -> (forall a, occ a B <= occ a Z) -> bor h G B b m ->
  load_children detached_read m = Ok po ->
  exists o, h_slice b h = Done (o, h) /\ orep h G B o po.
Proof.
  intros I L H E. pose proof (bor_live _ _ _ _ _ _ I L H) as Lv.
  pose proof (h_children_ok _ _ _ _ _ I (proj1 H) Lv) as K. unfold load_children in E. unfold h_slice, mbind.
  destruct (n_kids m) as [ms|id] eqn:Em.
  - destruct K as (a & Ec & Ga & K). rewrite K.
    assert (c_ch b = hdr_data 127) as Hh. { destruct (proj1 H) as (_ & _ & Kk). rewrite Em in Kk. apply Kk. }
    assert (deep h B a) as D.
    { apply (proj2 H). rewrite (node_items_arc b a Hh Ec), !occ_app. cbn. rewrite Nat.eqb_refl. lia. }
    assert (0 < cnt h a) as Ca.
    { apply Lv. rewrite (node_items_arc b a Hh Ec), !occ_app. cbn. rewrite Nat.eqb_refl. lia. }
    destruct (vec_get_ok _ _ _ _ _ I Ca Ga) as (k & cs & En & _ & Eg & Hcs). rewrite Eg.
    assert (Forall2 (bor h G B) cs ms) as F.
    { assert (forall c, In c cs -> forall x, 0 < occ x (node_items c) -> deep h B x) as Dc.
      { intros c Hc x Hx. apply (deep_in _ _ _ _ _ _ D En). cbn [cell_items].
        clear -Hc Hx. induction cs as [|d cs IH]; [destruct Hc|]. cbn [flat_map]. rewrite occ_app.
        destruct Hc as [->|Hc]; [lia|]. specialize (IH Hc). lia. }
      clear -Hcs Dc. induction Hcs as [|c n cs ns H1 H2 IH]; [constructor|]. constructor.
      - split; [exact H1|]. intros x. apply Dc. now left.
      - apply IH. intros d Hd. apply Dc. now right. }
    destruct ms as [|m0 ms].
    + assert (po = None) as -> by congruence. inversion F; subst. exists None. split; [reflexivity|exact Logic.I].
    + assert (po = Some (IOwned (m0 :: ms))) as -> by congruence. inversion F as [|c0 ? cs' ? F1 F2]; subst.
      eexists. split; [reflexivity|]. cbn [orep]. split; [exact F|]. split; [exact D|]. eauto.
  - destruct id as [|x id]; [|discriminate E]. cbn in E. assert (po = None) as -> by congruence. rewrite K.
    exists None. split; [reflexivity|exact Logic.I].
Qed.

(** ** Values *)
Definition vitems (v : byte * word) : list item := field_items BytesK (fst v) (snd v).
Definition vrep (G : ghost) (v : byte * word) (b : blob) : Prop := brep G (fst v) (snd v) b.
(** [set_value_owned] followed by dropping the value. *)
Lemma wp_store_value c n v b R h G : inv h G (node_items c ++ vitems v ++ R) -> crep G c n -> vrep G v b ->
  wp (c' <! h_set_value_owned (fst v) (snd v) c ;; _ <! drop_value v ;; ret c') R
    (fun c' h' G' => inv h' G' (node_items c' ++ R) /\ crep G' c' (set_value n b)) h G.
Proof.
  intros I (P & V & K) Vb. unfold h_set_value_owned.
  assert (wp (_ <! drop (v_items c) ;; w' <! word_clone (fst v) (snd v) ;; _ <! drop_value v ;; ret (with_v c (fst v) w')) R
    (fun c' h' G' => inv h' G' (node_items c' ++ R) /\ crep G' c' (set_value n b)) h G) as W.
  { rewrite node_items_split in I. eapply wp_bind.
    { eapply (wp_frame _ _ (p_items c ++ c_items c ++ vitems v ++ R) R _ h G I); [occ_solve|occ_solve|]. apply wp_drop. rearr I. }
    cbn beta. intros _ h1 G1 ((-> & I1 & _) & _).
    eapply wp_bind.
    { apply (wp_word_clone BytesK (fst v) (snd v) _ R h1 G I1 (brep_items _ _ _ _ Vb)).
      - eauto using brep_inline.
      - apply (inv_live_roots _ _ _ _ I1). unfold vitems. occ_solve.
      - intros a Ha. pose proof (brep_items _ _ _ _ Vb) as It. unfold field_items in *. destruct (is_arc (fst v)); [|cbn in Ha; lia].
        apply Forall_inv in It. destruct It as (a' & Ea & Ka). cbn in Ea, Ka. rewrite Ea in Ha. cbn in Ha.
        destruct (Nat.eqb_spec a' a) as [E0|]; [rewrite <- E0, Ka; discriminate|lia]. }
    cbn beta. intros w h2 G2 (-> & -> & I2 & _). fold (vitems v) in I2.
    eapply wp_bind.
    { eapply (wp_frame _ _ (p_items c ++ c_items c ++ vitems v ++ R) R _ h2 G I2); [occ_solve|occ_solve|].
      apply wp_drop. fold (vitems v). rearr I2. }
    cbn beta. intros _ h3 G3 ((-> & I3 & _) & _). apply wp_ret. split.
    - rewrite node_items_split. flds. fold (vitems v). rearr I3.
    - split; [exact P|]. split; [exact Vb|exact K]. }
  destruct W as (x & h' & G' & D & W). exists x, h', G'. split; [|exact W]. rewrite <- D. unfold mbind.
  destruct (drop (v_items c) h) as [[? ?]| | |]; try reflexivity.
  destruct (word_clone (fst v) (snd v) h0) as [[? ?]| | |]; reflexivity.
Qed.
