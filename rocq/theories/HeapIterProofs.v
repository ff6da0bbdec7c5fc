(** Proofs about iterators in memory. *)
From Verif Require Import Base BaseLemmas Header Node Store Heap HeapSpec HeapIter HeapIterSpec HeapProofs HeapOps HeapRun HeapTop.

(** What a frame keeps. *)
Definition kept (R : list item) (h : heap) (G : ghost) (h' : heap) (G' : ghost) : Prop :=
  ext G G' R /\ forall a, 0 < occ a R -> same_cell h h' a.
Lemma kept_stp R h G h' G' : stp R h G h' G' -> kept R h G h' G'.
Proof. intros (X & _ & S). split; [exact X|]. intros a Ha. apply S. now apply deep_root. Qed.
Lemma kept_refl R h G : kept R h G h G.
Proof. split; [apply ext_refl|intros; apply same_cell_refl]. Qed.
Lemma kept_trans R h G h1 G1 h2 G2 : kept R h G h1 G1 -> kept R h1 G1 h2 G2 -> kept R h G h2 G2.
Proof.
  intros (E & S) (E' & S'). split.
  - intros a Ha. rewrite (E' a Ha). auto.
  - intros a Ha n x En. destruct (S a Ha n x En) as (m & Em). apply (S' a Ha m x Em).
Qed.
Lemma kept_le R R' h G h' G' : kept R h G h' G' -> (forall a, occ a R' <= occ a R) -> kept R' h G h' G'.
Proof. intros (E & S) L. split; intros a Ha; [apply E|apply S]; specialize (L a); lia. Qed.
Lemma kept_app R R' h G h' G' : kept (R ++ R') h G h' G' <-> kept R h G h' G' /\ kept R' h G h' G'.
Proof.
  split.
  - intros K. split; apply (kept_le _ _ _ _ _ _ K); occ_solve.
  - intros [[E S] [E' S']]. split; intros a Ha; rewrite occ_app in Ha; (destruct (occ a R) eqn:Eo; [apply E' || apply S'|apply E || apply S]; lia).
Qed.

(** ** One iterator *)
Definition it_rep (h : heap) (G : ghost) (it : hiter) (ns : list node) : Prop :=
  exists all n, G (hi_arc it) = GN all /\ nth_error h (hi_arc it) = Some (Some (n, CNodes (hi_cs it))) /\
    ns = skipn (hi_pos it) all.
Lemma it_kept h G it ns h' G' : it_rep h G it ns -> kept (iter_items it) h G h' G' -> it_rep h' G' it ns.
Proof.
  intros (all & n & Ga & En & ->) (E & S).
  assert (0 < occ (hi_arc it) (iter_items it)) as O. { cbn. rewrite Nat.eqb_refl. lia. }
  destruct (S _ O _ _ En) as (m & Em). exists all, m. rewrite (E _ O). auto.
Qed.
Lemma skipn_nth {A} i (l : list A) : match nth_error l i with Some x => skipn i l = x :: skipn (S i) l | None => skipn i l = [] end.
Proof.
  revert l. induction i as [|i IH]; intros [|x l]; try reflexivity.
  change (nth_error (x :: l) (S i)) with (nth_error l i). change (skipn (S i) (x :: l)) with (skipn i l).
  change (skipn (S (S i)) (x :: l)) with (skipn (S i) l). apply IH.
Qed.
Lemma near_above h G Z c : inv h G Z -> near [] h c -> live h (node_items c) /\ forall R, (forall a, occ a R <= occ a Z) -> above R G h (node_items c).
Proof.
  intros I N. split.
  - intros a Ha. specialize (N a Ha). pose proof (i_cnt _ _ _ I a). cbn in N. lia.
  - intros R L a Ha _. specialize (N a Ha). pose proof (i_cnt _ _ _ I a). specialize (L a). cbn in N. lia.
Qed.

Lemma it_near h G it ns c : it_rep h G it ns -> In c (hi_cs it) -> near [] h c.
Proof. intros (all & m & _ & En & _) Hin. apply (near_cell _ [] _ _ _ _ En Hin). Qed.

(** The next element. *)
Lemma iter_next_ok h G Z it ns : inv h G Z -> it_rep h G it ns ->
  match ns with
  | [] => h_iter_next it h = Done ((None, it), h)
  | n :: ns' => exists c it', h_iter_next it h = Done ((Some c, it'), h) /\ crep G c n /\ In c (hi_cs it) /\
      it_rep h G it' ns' /\ iter_items it' = iter_items it
  end.
Proof.
  intros I (all & m & Ga & En & ->). destruct (i_cell _ _ _ I _ _ _ En) as [_ Hg]. rewrite Ga in Hg. cbn [grep] in Hg.
  pose proof (skipn_nth (hi_pos it) all) as S. unfold h_iter_next. destruct (nth_error all (hi_pos it)) as [n|] eqn:E.
  - rewrite S. destruct (Forall2_nth _ _ _ _ _ Hg E) as (c & Ec & C). rewrite Ec.
    exists c, (HIter (hi_arc it) (hi_cs it) (Datatypes.S (hi_pos it))). unfold vec_get, mbind, arc_get. rewrite En. cbn [snd].
    unfold ret. destruct (list_eq_dec cnode_eq_dec (hi_cs it) (hi_cs it)) as [_|N]; [|congruence].
    split; [reflexivity|]. split; [exact C|].
    split; [|split; [exists all, m; auto|reflexivity]].
    apply (nth_error_In _ _ Ec).
  - rewrite S. assert (nth_error (hi_cs it) (hi_pos it) = None) as ->; [|reflexivity].
    apply nth_error_None. rewrite (Forall2_len _ _ _ Hg). now apply nth_error_None.
Qed.

(** [new_owned] takes over the reference; the memory is as before. *)
Lemma upd_upd {A} i (x y : A) l : upd i x (upd i y l) = upd i x l.
Proof. revert l. induction i; intros [|z l]; cbn; congruence. Qed.
Lemma upd_same {A} i (x : A) l : nth_error l i = Some x -> upd i x l = l.
Proof. revert l. induction i; intros [|z l]; cbn; intros E; try congruence. now rewrite IHi. Qed.
Lemma iter_new_ok h G Z a ns : inv h G Z -> 0 < cnt h a -> G a = GN ns ->
  exists it, h_iter_new a h = Done (it, h) /\ hi_arc it = a /\ it_rep h G it ns.
Proof.
  intros I Ca Ga. destruct (vec_get_ok _ _ _ _ _ I Ca Ga) as (m & cs & En & Em & V & Hcs).
  exists (HIter a cs 0). split; [|split; [reflexivity|exists ns, m; auto]].
  unfold h_iter_new, mbind. rewrite V. unfold arc_clone, mbind, arc_get, put. rewrite En. cbn [fst snd].
  pose proof (nth_upd_eq a (Some (S m, CNodes cs)) _ _ En) as E1.
  unfold drop. pose proof (total_cnt (upd a (Some (S m, CNodes cs)) h) a) as T. unfold cnt in T. rewrite E1 in T.
  destruct (total (upd a (Some (S m, CNodes cs)) h)) as [|f]; [lia|]. cbn [drop_items]. rewrite E1. cbn [same_kind].
  destruct (Nat.eqb_spec (S m) 1) as [|_]; [lia|]. rewrite upd_upd. replace (S m - 1) with m by lia.
  rewrite (upd_same _ _ _ En). unfold ret. now destruct f.
Qed.

(** ** Parts of a step *)
Definition val_items (v : option (byte * word)) : list item :=
  match v with Some (hd, w) => field_items BytesK hd w | None => [] end.
Definition val_rep (G : ghost) (v : option (byte * word)) (b : option blob) : Prop :=
  match v, b with Some (hd, w), Some b => brep G hd w b | None, None => True | _, _ => False end.
Lemma val_ext G G' v b : val_rep G v b -> ext G G' (val_items v) -> val_rep G' v b.
Proof. destruct v as [[hd w]|], b as [b|]; cbn; auto. apply brep_ext. Qed.
Definition ch_items (o : option hiter) : list item := match o with Some it => iter_items it | None => [] end.
Definition ch_rep (h : heap) (G : ghost) (o : option hiter) (f : option (list node)) : Prop :=
  match o, f with Some it, Some ns => it_rep h G it ns | None, None => True | _, _ => False end.
Lemma ch_kept h G o f h' G' : ch_rep h G o f -> kept (ch_items o) h G h' G' -> ch_rep h' G' o f.
Proof. destruct o as [it|], f as [ns|]; cbn; auto. apply it_kept. Qed.
Definition loaded (k : kids) : option (option (list node)) :=
  match k with KArc ns => Some (Some ns) | KId [] => Some None | KId _ => None end.

Lemma wp_own_value c n Z R h G : inv h G Z -> crep G c n -> near [] h c -> (forall a, occ a R <= occ a Z) ->
  wp (h_own_value c) R (fun v h' G' => G' = G /\ inv h' G (val_items v ++ Z) /\ val_rep G v (blob_opt (n_value n))) h G.
Proof.
  intros I C N L. destruct (near_above _ _ _ _ I N) as [Lv A]. specialize (A R L). unfold h_own_value.
  rewrite (has_value_ok _ _ _ C). unfold has_value. destruct C as (P & V & K).
  rewrite node_items_split, !live_app in Lv. rewrite node_items_split, !above_app in A.
  destruct (blob_opt (n_value n)) as [b|] eqn:E.
  - assert (b = n_value n) as ->. { unfold blob_opt in E. destruct (n_value n) as [|[|]]; congruence. }
    eapply wp_bind.
    { apply (wp_word_clone BytesK (c_vh c) (c_v c) _ R h G I); [eapply brep_items; eassumption| |tauto|tauto].
      apply (brep_inline _ _ _ _ V). }
    cbn beta. intros w h1 G1 (-> & -> & I1 & M1). apply wp_ret. auto.
  - apply wp_ret. cbn. auto.
Qed.
Lemma load_prefix_ok c n Z h G p : inv h G Z -> crep G c n -> near [] h c -> n_prefix n = Data p ->
  h_load_prefix c h = Done (p, h).
Proof.
  intros I C N E. destruct (near_above _ _ _ _ I N) as [Lv _]. destruct C as (P & V & K).
  rewrite node_items_split, !live_app in Lv. unfold h_load_prefix. rewrite (brep_is_id _ _ _ _ P), E. cbn [blob_is_id].
  rewrite (blob_read_ok _ _ _ _ _ _ I P (proj1 Lv)). now rewrite E.
Qed.
Lemma wp_load_children c n o Z R h G : inv h G Z -> crep G c n -> near [] h c -> (forall a, occ a R <= occ a Z) ->
  loaded (n_kids n) = Some o ->
  wp (h_load_children c) R (fun ch h' G' => G' = G /\ inv h' G (ch_items ch ++ Z) /\ ch_rep h' G ch o) h G.
Proof.
  intros I C N L E. destruct (near_above _ _ _ _ I N) as [Lv A]. specialize (A R L).
  pose proof (h_children_ok _ _ _ _ _ I C Lv) as K. unfold h_load_children.
  destruct (n_kids n) as [ns|id] eqn:Ek; cbn [loaded] in E.
  - assert (o = Some ns) as -> by congruence. destruct K as (a & Ec & Ga & K).
    assert (0 < occ a (node_items c)) as Oa.
    { destruct C as (_ & _ & C). rewrite Ek in C. destruct C as [Hh _].
      rewrite (node_items_arc c a Hh Ec), !occ_app. cbn. rewrite Nat.eqb_refl. lia. }
    eapply wp_bind.
    { apply (wp_pure _ (RArc a) R (fun p h' G' => p = RArc a /\ h' = h /\ G' = G) h G K). auto. }
    cbn beta. intros c0 h' G' (-> & -> & ->).
    eapply wp_bind.
    { apply (wp_arc_clone a NodesK Z R h G I (Lv a Oa)); [now rewrite Ga|]. apply (A a Oa). }
    cbn beta. intros _ h1 G1 (-> & I1 & M1).
    assert (0 < cnt h1 a) as C1. { specialize (M1 a). specialize (Lv a Oa). lia. }
    destruct (iter_new_ok _ _ _ _ _ I1 C1 Ga) as (it & Hn & Ea & It).
    eapply wp_bind.
    { apply (wp_pure _ it R (fun p h' G' => p = it /\ h' = h1 /\ G' = G) h1 G Hn). auto. }
    cbn beta. intros c0 h' G' (-> & -> & ->). apply wp_ret. split; [reflexivity|]. split; [|exact It].
    cbn [ch_items]. unfold iter_items. rewrite Ea. exact I1.
  - destruct id as [|x id]; [|discriminate E]. assert (o = None) as -> by congruence.
    eapply wp_bind.
    { apply (wp_pure _ (RId []) R (fun p h' G' => p = RId [] /\ h' = h /\ G' = G) h G K). auto. }
    cbn beta. intros c0 h' G' (-> & -> & ->). apply wp_ret. cbn. auto.
Qed.

(** Copy on write of the key. *)
Lemma wp_key_mut f a k R h G : inv h G ((BytesK, Ptr a) :: R) -> G a = GB k ->
  wp (h_key_mut f a) R (fun b h' G' => inv h' G' ((BytesK, Ptr b) :: R) /\ G' b = GB (f k)) h G.
Proof.
  intros I Ga. pose proof (i_cnt _ _ _ I a) as Ca. cbn [occ] in Ca. rewrite Nat.eqb_refl in Ca.
  unfold cnt in Ca. destruct (nth_error h a) as [[[m x]|]|] eqn:En; try lia.
  destruct (i_cell _ _ _ I _ _ _ En) as [_ Hg]. rewrite Ga in Hg. destruct x as [k'|cs]; cbn in Hg; [subst k'|tauto].
  unfold h_key_mut. unfold wp at 1, mbind at 1, arc_get at 1. rewrite En. cbn [fst snd].
  destruct (Nat.eqb_spec m 1) as [->|N1].
  - exists a, (upd a (Some (1, CBytes (f k))) h), (gset G a (GB (f k))). split; [reflexivity|].
    assert (occ a R = 0 /\ occ_heap a h = 0) as (OR & OH) by lia.
    assert (forall b, cnt (upd a (Some (1, CBytes (f k))) h) b = cnt h b) as Cn.
    { intros b. destruct (Nat.eq_dec a b) as [<-|Nb].
      - rewrite (cnt_upd_eq _ _ _ _ En). unfold cnt. now rewrite En.
      - now rewrite cnt_upd_neq. }
    assert (forall x m b, nth_error h b = Some (Some (m, x)) -> ext G (gset G a (GB (f k))) (cell_items x)) as Ex.
    { intros x m b Eb d Hd. apply gset_neq. intros ->. pose proof (occ_heap_nth a _ _ _ _ Eb). lia. }
    split; [|split].
    + split; [|split].
      * intros b Hb. apply gset_neq. intros ->. lia.
      * intros b _ _ Hb. now rewrite Cn.
      * intros b Db. apply deep_occ in Db. split; [apply (same_cell_upd _ _ _ _ _ _ En); intros ->; lia|].
        apply gset_neq. intros ->. lia.
    + constructor.
      * intros b. rewrite Cn, (i_cnt _ _ _ I b).
        pose proof (occ_heap_upd b a (Some (1, CBytes (f k))) _ h En) as U. cbn [occ_entry cell_items occ] in U. lia.
      * intros b m x Hb. destruct (Nat.eq_dec a b) as [<-|Nb].
        -- rewrite (nth_upd_eq _ _ _ _ En) in Hb. assert (m = 1 /\ x = CBytes (f k)) as [-> ->] by (split; congruence).
           rewrite gset_eq. split; [lia|]. reflexivity.
        -- rewrite nth_upd_neq in Hb by exact Nb. destruct (i_cell _ _ _ I _ _ _ Hb) as [Hm Hx].
           split; [exact Hm|]. rewrite gset_neq by congruence. apply (grep_ext _ _ _ _ Hx (Ex _ _ _ Hb)).
      * pose proof (i_root _ _ _ I) as Rt. apply Forall_inv_tail in Rt.
        constructor; [exists a; cbn; now rewrite gset_eq|].
        rewrite Forall_forall in *. intros [kk w] Hin. destruct (Rt _ Hin) as (b & Eb & Kb). cbn in Eb. subst w.
        exists b. split; [reflexivity|]. rewrite gset_neq; [exact Kb|]. intros ->.
        pose proof (occ_in _ _ _ Hin). lia.
    + apply gset_eq.
  - assert (wp (b <! arc_new (CBytes (f k)) ;; _ <! drop [(BytesK, Ptr a)] ;; ret b) R
      (fun b h' G' => inv h' G' ((BytesK, Ptr b) :: R) /\ G' b = GB (f k)) h G) as W; [|exact W].
    eapply wp_bind.
    { eapply (wp_frame _ _ ((BytesK, Ptr a) :: R) R _ h G I); [occ_solve|occ_solve|].
      apply (wp_new (CBytes (f k)) (GB (f k)) ((BytesK, Ptr a) :: R) h G I). reflexivity. }
    cbn beta. intros b h1 G1 ((-> & I1 & _) & _). cbn [gkind] in I1.
    eapply wp_bind.
    { eapply (wp_frame _ _ ((BytesK, Ptr b) :: R) R _ h1 _ I1); [occ_solve|occ_solve|]. apply wp_drop. rearr I1. }
    cbn beta. intros _ h2 G2 ((-> & I2 & _) & _). apply wp_ret. split; [exact I2|]. apply gset_eq.
Qed.

(** ** The listing of a tree *)
Fixpoint listings (pre : bytes) (ns : list node) : option (list (bytes * blob)) :=
  match ns with
  | [] => Some []
  | n :: ns => match listing pre n, listings pre ns with Some a, Some b => Some (a ++ b) | _, _ => None end
  end.
Definition own_entry (k : bytes) (v : blob) : list (bytes * blob) :=
  match blob_opt v with Some b => [(k, b)] | None => [] end.
Lemma some_inj {A} (a b : A) : Some a = Some b -> a = b.
Proof. congruence. Qed.
Lemma listing_some pre n l : listing pre n = Some l -> exists p o l', n_prefix n = Data p /\ loaded (n_kids n) = Some o /\
  match o with Some ns => listings (pre ++ p) ns | None => Some [] end = Some l' /\ l = own_entry (pre ++ p) (n_value n) ++ l'.
Proof.
  destruct n as [[p|p] v k]; cbn [listing n_prefix n_kids n_value]; [|discriminate]. intros E.
  destruct k as [ns|[|x id]]; [| |discriminate].
  - exists p, (Some ns).
    match type of E with match ?g ns with _ => _ end = _ =>
      assert (forall x, g x = listings (pre ++ p) x) as Hg by (induction x as [|y x IH]; [reflexivity|cbn [listings]; now rewrite <- IH]) end.
    rewrite Hg in E.
    destruct (listings (pre ++ p) ns) as [l'|]; [|discriminate]. exists l'. split; [reflexivity|]. split; [reflexivity|]. split; [reflexivity|]. unfold own_entry. symmetry. exact (some_inj _ _ E).
  - exists p, None, []. repeat split. unfold own_entry. rewrite app_nil_r. symmetry. exact (some_inj _ _ E).
Qed.

Definition opt_app {A} (a b : option (list A)) : option (list A) :=
  match a, b with Some a, Some b => Some (a ++ b) | _, _ => None end.
Fixpoint remaining (path : bytes) (fr : list (nat * option (list node))) : option (list (bytes * blob)) :=
  match fr with
  | [] => Some []
  | (n, o) :: fr =>
      opt_app (match o with Some ns => listings path ns | None => Some [] end) (remaining (k_pop n path) fr)
  end.
Fixpoint weight (n : node) : nat :=
  3 + match n_kids n with
      | KArc ns => (fix all (ns : list node) : nat := match ns with [] => 0 | n :: ns => weight n + all ns end) ns
      | KId _ => 0
      end.
Fixpoint weights (ns : list node) : nat := match ns with [] => 0 | n :: ns => weight n + weights ns end.
Definition oweight (o : option (list node)) : nat := match o with Some ns => 1 + weights ns | None => 0 end.
Lemma weight_loaded n o : loaded (n_kids n) = Some o -> 2 + oweight o <= weight n.
Proof.
  destruct n as [p v [ns|[|x id]]]; cbn [loaded n_kids]; intros E; try discriminate.
  - assert (o = Some ns) as -> by congruence. cbn [oweight]. 
    change (weight (Node p v (KArc ns))) with (3 + weights ns). lia.
  - assert (o = None) as -> by congruence. cbn. lia.
Qed.
Fixpoint fweight (fr : list (nat * option (list node))) : nat :=
  match fr with [] => 0 | (_, o) :: fr => 1 + oweight o + fweight fr end.

Lemma pop_append k p : k_pop (length p) (k_append p k) = k.
Proof.
  unfold k_pop, k_append. rewrite app_length. replace (length k + length p - length p) with (length k) by lia.
  now rewrite firstn_app, Nat.sub_diag, firstn_all, app_nil_r.
Qed.
Lemma pop_zero k : k_pop 0 k = k.
Proof. unfold k_pop. rewrite Nat.sub_0_r. apply firstn_all. Qed.

(** ** [KeyValueIter] *)
Definition frame_rep (h : heap) (G : ghost) (s : nat * option hiter) (f : nat * option (list node)) : Prop :=
  fst s = fst f /\ ch_rep h G (snd s) (snd f).
Lemma frames_kept h G st fr h' G' : Forall2 (frame_rep h G) st fr -> kept (flat_map frame_items st) h G h' G' ->
  Forall2 (frame_rep h' G') st fr.
Proof.
  induction 1 as [|s f st fr [H1 H2] H IH]; intros K; [constructor|]. cbn [flat_map] in K. apply kept_app in K.
  destruct K as [K1 K2]. constructor; [split; [exact H1|apply (ch_kept _ _ _ _ _ _ H2 K1)]|auto].
Qed.
Definition kv_rep (h : heap) (G : ghost) (k : hkv) (es : list (bytes * blob)) : Prop :=
  exists path fr, G (kv_path k) = GB path /\ Forall2 (frame_rep h G) (kv_stack k) fr /\ remaining path fr = Some es.
Lemma kv_kept h G k es h' G' : kv_rep h G k es -> kept (kv_items k) h G h' G' -> kv_rep h' G' k es.
Proof.
  intros (path & fr & Ga & Hf & Hr) K. exists path, fr. unfold kv_items in K.
  change ((BytesK, Ptr (kv_path k)) :: flat_map frame_items (kv_stack k))
    with ([(BytesK, Ptr (kv_path k))] ++ flat_map frame_items (kv_stack k)) in K.
  apply kept_app in K. destruct K as [[K1 _] K2].
  split; [|split; [apply (frames_kept _ _ _ _ _ _ Hf K2)|exact Hr]].
  rewrite K1; [exact Ga|]. cbn. rewrite Nat.eqb_refl. lia.
Qed.
Definition out_items (y : option (addr * (byte * word))) : list item :=
  match y with Some (a, (hd, w)) => (BytesK, Ptr a) :: field_items BytesK hd w | None => [] end.
Definition kv_post (R : list item) (es : list (bytes * blob)) (y : hkv * option (addr * (byte * word))) (h : heap) (G : ghost) : Prop :=
  inv h G (kv_items (fst y) ++ out_items (snd y) ++ R) /\ kv_rep h G (fst y) (tl es) /\
  match es, snd y with
  | [], None => True
  | (key, v) :: _, Some (a, (hd, w)) => G a = GB key /\ brep G hd w v
  | _, _ => False
  end.

Lemma kv_next_ok : forall fuel k path fr es R h G, inv h G (kv_items k ++ R) -> G (kv_path k) = GB path ->
  Forall2 (frame_rep h G) (kv_stack k) fr -> remaining path fr = Some es -> fweight fr < fuel ->
  wp (h_kv_next fuel k) R (kv_post R es) h G.
Proof.
  induction fuel as [|fuel IH]; intros k path fr es R h G I Gp Hf Hr Hw; [lia|]. cbn [h_kv_next].
  destruct k as [pa st]. cbn [kv_stack kv_path] in *. destruct Hf as [|[n o] [n' o'] rest fr [Hn Ho] Hf].
  - cbn [remaining] in Hr. apply some_inj in Hr. subst es. apply wp_ret. split; [exact I|]. split; [|exact Logic.I].
    exists path, []. split; [exact Gp|]. split; [constructor|reflexivity].
  - cbn [fst snd] in Hn, Ho. subst n'. cbn [remaining fweight] in Hr, Hw. unfold kv_items in I. cbn [kv_path kv_stack flat_map] in I.
    unfold frame_items at 1 in I. cbn [snd] in I.
    destruct o as [it|], o' as [ns|]; cbn [ch_rep] in Ho; try tauto.
    + pose proof (iter_next_ok _ _ _ _ _ I Ho) as Nx. destruct ns as [|nd ns].
      * eapply wp_bind.
        { apply (wp_pure _ (None, it) R (fun p h' G' => p = (None, it) /\ h' = h /\ G' = G) h G Nx). auto. }
        cbn beta. intros y h' G' (-> & -> & ->). cbn [fst snd].
        set (Z := (BytesK, Ptr pa) :: flat_map frame_items rest ++ R).
        eapply wp_bind.
        { eapply (wp_frame _ _ Z R _ h G I); [unfold Z; occ_solve|unfold Z; occ_solve|].
          apply wp_drop. unfold Z. rearr I. }
        cbn beta. intros _ h1 G1 ((-> & I1 & _) & S1). apply kept_stp in S1.
        apply (IH _ path ((n, None) :: fr)).
        -- unfold kv_items. cbn [kv_path kv_stack flat_map]. unfold frame_items at 1. cbn [snd app]. unfold Z in I1. rearr I1.
        -- exact Gp.
        -- constructor; [split; [reflexivity|exact Logic.I]|]. apply (frames_kept _ _ _ _ _ _ Hf).
           apply (kept_le _ _ _ _ _ _ S1). unfold Z. occ_solve.
        -- exact Hr.
        -- cbn [fweight oweight weights] in *. lia.
      * destruct Nx as (c & it' & Nx & C & Hin & Ho' & Ei).
        eapply wp_bind.
        { apply (wp_pure _ (Some c, it') R (fun p h' G' => p = (Some c, it') /\ h' = h /\ G' = G) h G Nx). auto. }
        cbn beta. intros y h' G' (-> & -> & ->). cbn [fst snd].
        (* the parts of the listing *)
        cbn [listings] in Hr. destruct (listing path nd) as [l1|] eqn:E1; [|discriminate Hr].
        destruct (listings path ns) as [l2|] eqn:E2; [|discriminate Hr]. cbn [opt_app] in Hr.
        destruct (remaining (k_pop n path) fr) as [l3|] eqn:E3; [|discriminate Hr]. apply some_inj in Hr.
        destruct (listing_some _ _ _ E1) as (p & oc & l' & Ep & El & Ec & El1).
        (* the value *)
        set (Z := ((BytesK, Ptr pa) :: iter_items it ++ flat_map frame_items rest ++ R)).
        assert (inv h G Z) as I0 by (unfold Z; rearr I). clear I.
        eapply wp_bind.
        { eapply (wp_frame _ _ Z R _ h G I0); [auto|unfold Z; occ_solve|].
          apply (wp_own_value c nd Z Z h G I0 C (it_near _ _ _ _ _ Ho Hin)). auto. }
        cbn beta. intros v h1 G1 ((-> & I1 & Rv) & S1). apply kept_stp in S1.
        assert (it_rep h1 G it (nd :: ns)) as Ho1.
        { apply (it_kept _ _ _ _ _ _ Ho). apply (kept_le _ _ _ _ _ _ S1). unfold Z. occ_solve. }
        (* the prefix *)
        pose proof (load_prefix_ok c nd _ h1 G p I1 C (it_near _ _ _ _ _ Ho1 Hin) Ep) as Lp.
        eapply wp_bind.
        { apply (wp_pure _ p R (fun q h' G' => q = p /\ h' = h1 /\ G' = G) h1 G Lp). auto. }
        cbn beta. intros q h' G' (-> & -> & ->).
        (* the children *)
        eapply wp_bind.
        { eapply (wp_frame _ _ (val_items v ++ Z) R _ h1 G I1); [auto|unfold Z; occ_solve|].
          apply (wp_load_children c nd oc _ (val_items v ++ Z) h1 G I1 C (it_near _ _ _ _ _ Ho1 Hin)); [auto|exact El]. }
        cbn beta. intros ch h2 G2 ((-> & I2 & Rc) & S2). apply kept_stp in S2.
        (* the key *)
        set (Y := ch_items ch ++ val_items v ++ iter_items it ++ flat_map frame_items rest ++ R).
        assert (inv h2 G ((BytesK, Ptr pa) :: Y)) as J2 by (unfold Y; unfold Z in I2; rearr I2).
        eapply wp_bind.
        { eapply (wp_frame _ _ Y R _ h2 G J2); [occ_solve|unfold Y; occ_solve|].
          apply (wp_key_mut (k_append p) pa path Y h2 G J2 Gp). }
        cbn beta. intros a h3 G3 ((I3 & Ga) & S3). apply kept_stp in S3.
        set (k3 := HKv a ((length p, ch) :: (n, Some it') :: rest)).
        set (fr3 := (length p, oc) :: (n, Some ns) :: fr).
        assert (Forall2 (frame_rep h3 G3) (kv_stack k3) fr3) as F3.
        { constructor; [split; [reflexivity|]|constructor; [split; [reflexivity|]|]].
          - apply (ch_kept _ _ _ _ _ _ Rc). apply (kept_le _ _ _ _ _ _ S3). unfold Y. cbn [snd]. occ_solve.
          - cbn [snd ch_rep]. apply (it_kept h G _ _ _ _ Ho'). rewrite Ei.
            apply (kept_trans _ _ _ h1 G); [apply (kept_le _ _ _ _ _ _ S1); unfold Z; occ_solve|].
            apply (kept_trans _ _ _ h2 G); [apply (kept_le _ _ _ _ _ _ S2); unfold Z; occ_solve|].
            apply (kept_le _ _ _ _ _ _ S3). unfold Y. occ_solve.
          - apply (frames_kept h G _ _ _ _ Hf).
            apply (kept_trans _ _ _ h1 G); [apply (kept_le _ _ _ _ _ _ S1); unfold Z; occ_solve|].
            apply (kept_trans _ _ _ h2 G); [apply (kept_le _ _ _ _ _ _ S2); unfold Z; occ_solve|].
            apply (kept_le _ _ _ _ _ _ S3). unfold Y. occ_solve. }
        assert (remaining (path ++ p) fr3 = Some (l' ++ l2 ++ l3)) as R3.
        { unfold fr3. cbn [remaining]. rewrite Ec. change (path ++ p) with (k_append p path). rewrite pop_append, E2, E3. reflexivity. }
        assert (inv h3 G3 (kv_items k3 ++ val_items v ++ R)) as J3.
        { unfold kv_items, k3. cbn [kv_path kv_stack flat_map]. unfold frame_items at 1 2. cbn [snd]. rewrite Ei. fold (ch_items ch).
          unfold Y in I3. rearr I3. }
        assert (val_rep G3 v (blob_opt (n_value nd))) as Rv3.
        { apply (val_ext _ _ _ _ Rv). destruct S3 as [X3 _]. intros b Hb. apply X3. unfold Y. rewrite !occ_app. lia. }
        destruct v as [[hd w]|], (blob_opt (n_value nd)) as [b|] eqn:Eb; cbn [val_rep] in Rv3; try tauto.
        -- (* a value *)
           assert (es = (path ++ p, b) :: l' ++ l2 ++ l3) as ->.
           { rewrite <- Hr, El1. unfold own_entry. rewrite Eb. cbn [app]. now rewrite <- app_assoc. }
           assert (0 < cnt h3 a) as Ca.
           { rewrite (i_cnt _ _ _ J3 a). unfold kv_items, k3. cbn [kv_path app occ]. rewrite Nat.eqb_refl. lia. }
           eapply wp_bind.
           { eapply (wp_frame _ _ (kv_items k3 ++ val_items (Some (hd, w)) ++ R) R _ h3 G3 J3); [auto|occ_solve|].
             apply (wp_arc_clone a BytesK _ _ h3 G3 J3 Ca); [now rewrite Ga|]. rewrite Ga. discriminate. }
           cbn beta. intros _ h4 G4 ((-> & I4 & _) & S4). apply kept_stp in S4. apply wp_ret.
           split; [|split; [|cbn [snd]; split; [exact Ga|exact Rv3]]].
           ++ cbn [fst snd out_items]. cbn [val_items] in I4. rearr I4.
           ++ cbn [fst tl]. apply (kv_kept h3 G3).
              ** exists (path ++ p), fr3. auto.
              ** apply (kept_le _ _ _ _ _ _ S4). occ_solve.
        -- (* no value *)
           assert (es = l' ++ l2 ++ l3) as ->.
           { rewrite <- Hr, El1. unfold own_entry. rewrite Eb. cbn [app]. now rewrite <- app_assoc. }
           apply (IH k3 (path ++ p) fr3); auto.
           ++ pose proof (weight_loaded _ _ El). unfold fr3. cbn [fweight oweight weights] in *. lia.
    + set (Y := flat_map frame_items rest ++ R).
      assert (inv h G ((BytesK, Ptr pa) :: Y)) as J by (unfold Y; rearr I).
      eapply wp_bind.
      { eapply (wp_frame _ _ Y R _ h G J); [occ_solve|unfold Y; occ_solve|].
        apply (wp_key_mut (k_pop n) pa path Y h G J Gp). }
      cbn beta. intros a h1 G1 ((I1 & Ga) & S1). apply kept_stp in S1.
      apply (IH _ (k_pop n path) fr).
      * unfold kv_items. cbn [kv_path kv_stack]. unfold Y in I1. rearr I1.
      * exact Ga.
      * cbn [kv_stack]. apply (frames_kept _ _ _ _ _ _ Hf). apply (kept_le _ _ _ _ _ _ S1). unfold Y. occ_solve.
      * cbn [opt_app app] in Hr. destruct (remaining (k_pop n path) fr); exact Hr.
      * cbn [oweight] in Hw. lia.
Qed.

(** ** [ValueIter] *)
Definition vals_rep (h : heap) (G : ghost) (s : hvals) (nss : list (list node)) (vs : list blob) : Prop :=
  Forall2 (it_rep h G) s nss /\
  exists ls, Forall2 (fun ns l => exists pre, listings pre ns = Some l) nss ls /\ vs = map snd (concat ls).
Lemma its_kept h G s nss h' G' : Forall2 (it_rep h G) s nss -> kept (vals_items s) h G h' G' -> Forall2 (it_rep h' G') s nss.
Proof.
  induction 1 as [|it ns s nss H1 H IH]; intros K; [constructor|]. unfold vals_items in K. cbn [flat_map] in K. apply kept_app in K.
  destruct K as [K1 K2]. constructor; [apply (it_kept _ _ _ _ _ _ H1 K1)|auto].
Qed.
Lemma vals_kept h G s nss vs h' G' : vals_rep h G s nss vs -> kept (vals_items s) h G h' G' -> vals_rep h' G' s nss vs.
Proof. intros [H1 H2] K. split; [apply (its_kept _ _ _ _ _ _ H1 K)|exact H2]. Qed.
Fixpoint vweight (nss : list (list node)) : nat := match nss with [] => 0 | ns :: nss => 1 + weights ns + vweight nss end.
Definition vals_post (R : list item) (vs : list blob) (y : hvals * option (byte * word)) (h : heap) (G : ghost) : Prop :=
  inv h G (vals_items (fst y) ++ val_items (snd y) ++ R) /\ (exists nss, vals_rep h G (fst y) nss (tl vs)) /\
  val_rep G (snd y) (hd_error vs).

Lemma vals_next_ok : forall fuel s nss vs R h G, inv h G (vals_items s ++ R) -> vals_rep h G s nss vs -> vweight nss < fuel ->
  wp (h_vals_next fuel s) R (vals_post R vs) h G.
Proof.
  induction fuel as [|fuel IH]; intros s nss vs R h G I [Hf (ls & Hl & Hv)] Hw; [lia|]. cbn [h_vals_next].
  destruct Hf as [|it ns rest nss Ho Hf].
  - inversion Hl; subst. apply wp_ret. split; [exact I|]. split; [|exact Logic.I].
    exists []. split; [constructor|]. exists []. split; [constructor|reflexivity].
  - inversion Hl as [|? l0 ? ls' (pre & E0) Hl' Eq1 Eq2]. subst ls. cbn [vweight] in Hw. unfold vals_items in I. cbn [flat_map] in I.
    pose proof (iter_next_ok _ _ _ _ _ I Ho) as Nx. destruct ns as [|nd ns].
    + eapply wp_bind.
      { apply (wp_pure _ (None, it) R (fun p h' G' => p = (None, it) /\ h' = h /\ G' = G) h G Nx). auto. }
      cbn beta. intros y h' G' (-> & -> & ->). cbn [fst snd].
      set (Z := flat_map iter_items rest ++ R).
      eapply wp_bind.
      { eapply (wp_frame _ _ Z R _ h G I); [unfold Z; occ_solve|unfold Z; occ_solve|].
        apply wp_drop. unfold Z. rearr I. }
      cbn beta. intros _ h1 G1 ((-> & I1 & _) & S1). apply kept_stp in S1.
      apply (IH _ nss).
      * exact I1.
      * split.
        -- apply (its_kept _ _ _ _ _ _ Hf). apply (kept_le _ _ _ _ _ _ S1). unfold Z, vals_items. occ_solve.
        -- exists ls'. split; [exact Hl'|]. cbn [listings] in E0. apply some_inj in E0. subst l0. exact Hv.
      * lia.
    + destruct Nx as (c & it' & Nx & C & Hin & Ho' & Ei).
      eapply wp_bind.
      { apply (wp_pure _ (Some c, it') R (fun p h' G' => p = (Some c, it') /\ h' = h /\ G' = G) h G Nx). auto. }
      cbn beta. intros y h' G' (-> & -> & ->). cbn [fst snd].
      cbn [listings] in E0. destruct (listing pre nd) as [l1|] eqn:E1; [|discriminate E0].
      destruct (listings pre ns) as [l2|] eqn:E2; [|discriminate E0]. apply some_inj in E0. subst l0.
      destruct (listing_some _ _ _ E1) as (p & oc & l' & Ep & El & Ec & El1).
      set (Z := iter_items it ++ flat_map iter_items rest ++ R).
      assert (inv h G Z) as I0 by (unfold Z; rearr I). clear I.
      eapply wp_bind.
      { eapply (wp_frame _ _ Z R _ h G I0); [auto|unfold Z; occ_solve|].
        apply (wp_own_value c nd Z Z h G I0 C (it_near _ _ _ _ _ Ho Hin)). auto. }
      cbn beta. intros v h1 G1 ((-> & I1 & Rv) & S1). apply kept_stp in S1.
      assert (it_rep h1 G it (nd :: ns)) as Ho1.
      { apply (it_kept _ _ _ _ _ _ Ho). apply (kept_le _ _ _ _ _ _ S1). unfold Z. occ_solve. }
      eapply wp_bind.
      { eapply (wp_frame _ _ (val_items v ++ Z) R _ h1 G I1); [auto|unfold Z; occ_solve|].
        apply (wp_load_children c nd oc _ (val_items v ++ Z) h1 G I1 C (it_near _ _ _ _ _ Ho1 Hin)); [auto|exact El]. }
      cbn beta. intros ch h2 G2 ((-> & I2 & Rc) & S2). apply kept_stp in S2.
      set (s2 := match ch with Some i => [i] | None => [] end ++ it' :: rest).
      set (n2 := match oc with Some ns => [ns] | None => [] end ++ ns :: nss).
      assert (vals_items s2 = ch_items ch ++ iter_items it ++ vals_items rest) as Es.
      { unfold s2, vals_items. rewrite flat_map_app. cbn [flat_map]. rewrite Ei. destruct ch; cbn [flat_map ch_items app]; [now rewrite app_nil_r|reflexivity]. }
      assert (inv h2 G (vals_items s2 ++ val_items v ++ R)) as J2.
      { rewrite Es. unfold Z in I2. unfold vals_items. rearr I2. }
      assert (vals_rep h2 G s2 n2 (map snd (l' ++ l2 ++ concat ls'))) as V2.
      { split.
        - unfold s2, n2. apply Forall2_app; [destruct ch, oc; cbn in Rc; try tauto; repeat constructor; exact Rc|].
          constructor.
          + apply (it_kept h G _ _ _ _ Ho'). rewrite Ei.
            apply (kept_trans _ _ _ h1 G); [apply (kept_le _ _ _ _ _ _ S1); unfold Z; occ_solve|].
            apply (kept_le _ _ _ _ _ _ S2). unfold Z. occ_solve.
          + apply (its_kept h G _ _ _ _ Hf).
            apply (kept_trans _ _ _ h1 G); [apply (kept_le _ _ _ _ _ _ S1); unfold Z, vals_items; occ_solve|].
            apply (kept_le _ _ _ _ _ _ S2). unfold Z, vals_items. occ_solve.
        - destruct oc as [on|].
          + exists (l' :: l2 :: ls'). split; [|reflexivity]. constructor; [eauto|]. constructor; [eauto|exact Hl'].
          + apply some_inj in Ec. subst l'. exists (l2 :: ls'). split; [|reflexivity]. constructor; [eauto|exact Hl']. }
      cbn [concat] in Hv. rewrite El1, <- !app_assoc, map_app in Hv. unfold own_entry in Hv.
      destruct v as [[hd w]|], (blob_opt (n_value nd)) as [b|] eqn:Eb; cbn [val_rep] in Rv; try tauto.
      * cbn [map app snd] in Hv. subst vs. apply wp_ret. split; [exact J2|]. split; [|exact Rv].
        exists n2. exact V2.
      * cbn [map app] in Hv. subst vs. apply (IH s2 n2).
        -- exact J2.
        -- exact V2.
        -- pose proof (weight_loaded _ _ El). unfold n2. destruct oc; cbn [vweight app weights oweight] in *; lia.
Qed.
