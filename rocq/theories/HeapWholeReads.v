(** Reading a borrowed tree: first and last entries, and scans. *)
From Verif Require Import Base BaseLemmas Header Node Combine Iter Store Heap HeapSpec HeapProofs HeapOps HeapRun HeapIter HeapIterSpec HeapIterProofs
  HeapIterRun HeapTree HeapBorrow HeapMerge HeapClean HeapFind HeapTreeMono HeapGroup HeapGroupProofs HeapWhole.

(** ** First and last *)
Lemma owned_value_ok m R B h G c : inv h G (R ++ B) -> bor h G B c m ->
  wpk (h_owned_value c) R B (gpost R B (blob_opt (n_value m))) h G.
Proof.
  intros I Hy. unfold h_owned_value. pose proof (value_opt_ok _ _ _ (proj1 Hy)) as V.
  destruct (blob_opt (n_value m)) as [b|]; destruct V as [-> V].
  - subst b. cbn [fst snd]. destruct Hy as [(Hp & Hv & Hk) D].
    eapply wpk_bind; [apply (wpk_clone_value (c_vh c) (c_v c) (n_value m) [] R B h G I Hv)|].
    { intros a Ha. apply D. unfold node_items. rewrite !occ_app. lia. }
    cbn beta. intros w h1 G1 (-> & -> & I1) K1. apply wpk_ret. split; [exact I1|exact Hv].
  - apply wpk_ret. split; [exact I|exact Logic.I].
Qed.
Lemma bi_last_ok h G B it ms : irep h G B it ms ->
  match nth_error ms (length ms - 1) with
  | None => bi_last it h = Done (None, h)
  | Some m => exists b, bi_last it h = Done (Some b, h) /\ bor h G B b m
  end.
Proof.
  intros H. pose proof (bi_check_ok _ _ _ _ _ H) as E. destruct H as [F _]. unfold bi_last.
  destruct F as [|c m cs ms Hc F]; [reflexivity|].
  assert (exists b, last (c :: cs) c = b /\ match nth_error (m :: ms) (length (m :: ms) - 1) with Some m' => bor h G B b m' | None => False end) as (b & Eb & Hb).
  { clear -F Hc. cbn [length]. rewrite Nat.sub_1_r. cbn [Nat.pred]. revert c m Hc.
    assert (forall d c m, bor h G B c m -> exists b, last (c :: cs) d = b /\ match nth_error (m :: ms) (length ms) with Some m' => bor h G B b m' | None => False end) as A.
    { intros d. induction F as [|x y cs ms Hx F IH]; intros c m Hc; [exists c; auto|]. destruct (IH x y Hx) as (b & Eb & Hb).
      exists b. split; [exact Eb|exact Hb]. }
    intros c m Hc. apply A. exact Hc. }
  destruct (nth_error (m :: ms) (length (m :: ms) - 1)) as [m'|]; [|destruct Hb]. exists b. split; [|exact Hb].
  unfold mbind. rewrite E. rewrite <- Eb. reflexivity.
Qed.
Lemma first_value_ok : forall fuel m o, first_value mem fuel (ROwned m) = Ok o ->
  forall R B h G c, inv h G (R ++ B) -> bor h G B c m -> wpk (h_first_value fuel c) R B (gpost R B o) h G.
Proof.
  induction fuel as [|fuel IH]; intros m o E R B h G c I Hc; [discriminate E|]. cbn [first_value r_value_opt] in E. cbn [h_first_value].
  pose proof (value_opt_ok _ _ _ (proj1 Hc)) as V. pose proof (owned_value_ok m R B h G c I Hc) as W.
  destruct (blob_opt (n_value m)) as [v|]; destruct V as [-> V].
  - assert (o = Some v) as -> by congruence. exact W.
  - cbn [r_load_children] in E. destruct (load_children mem m) as [po| | |] eqn:Eo; try discriminate E. cbn [bind] in E.
    destruct (slice_ok h G (R ++ B) B c m po I ltac:(occ_solve) Hc Eo) as (it & Es & Ho). apply (wpk_read _ _ _ _ _ _ _ _ Es).
    destruct it as [it|], po as [[ms|d]|]; cbn [orep] in Ho; try (now destruct Ho).
    + pose proof (bi_next_ok _ _ _ _ _ Ho) as Hn. cbn [it_next] in E. destruct ms as [|m1 ms]; [discriminate E|].
      destruct Hn as (b & it' & En & Hb & _). apply (wpk_read _ _ _ _ _ _ _ _ En). apply (IH m1 o E R B h G b I Hb).
    + apply wpk_ret. assert (o = None) as -> by congruence. split; [exact I|exact Logic.I].
Qed.
Lemma last_value_ok : forall fuel m o, last_value mem fuel (ROwned m) = Ok o ->
  forall R B h G c, inv h G (R ++ B) -> bor h G B c m -> wpk (h_last_value fuel c) R B (gpost R B o) h G.
Proof.
  induction fuel as [|fuel IH]; intros m o E R B h G c I Hc; [discriminate E|]. cbn [last_value r_value_opt] in E. cbn [h_last_value].
  cbn [r_load_children] in E. destruct (load_children mem m) as [po| | |] eqn:Eo; try discriminate E. cbn [bind] in E.
  destruct (slice_ok h G (R ++ B) B c m po I ltac:(occ_solve) Hc Eo) as (it & Es & Ho). apply (wpk_read _ _ _ _ _ _ _ _ Es).
  destruct it as [it|], po as [[ms|d]|]; cbn [orep] in Ho; try (now destruct Ho).
  - pose proof (bi_last_ok _ _ _ _ _ Ho) as Hn. cbn [it_last] in E. destruct (nth_error ms (length ms - 1)) as [m1|]; [|discriminate E].
    destruct Hn as (b & En & Hb). apply (wpk_read _ _ _ _ _ _ _ _ En). apply (IH m1 o E R B h G b I Hb).
  - assert (o = blob_opt (n_value m)) as -> by congruence. apply (owned_value_ok m R B h G c I Hc).
Qed.
Definition epost (R B : list item) (o : option (bytes * blob)) (x : option bytes * slot) (h : heap) (G : ghost) : Prop :=
  fst x = option_map fst o /\ gpost R B (option_map snd o) (snd x) h G.
Lemma with_key_ok k o (m : M slot) R B h G : wpk m R B (gpost R B o) h G ->
  wpk (with_key k m) R B (epost R B (option_map (fun v => (k, v)) o)) h G.
Proof.
  intros W. unfold with_key. eapply wpk_bind; [exact W|]. cbn beta. intros s h1 G1 [I1 H1] _. apply wpk_ret. split; cbn [fst snd].
  - destruct o, s; cbn; tauto.
  - split; [exact I1|]. destruct o, s; cbn in *; tauto.
Qed.
Lemma first_entry_ok : forall fuel pre m o, first_entry mem fuel pre (ROwned m) = Ok o ->
  forall R B h G c, inv h G (R ++ B) -> bor h G B c m -> wpk (h_first_entry fuel pre c) R B (epost R B o) h G.
Proof.
  induction fuel as [|fuel IH]; intros pre m o E R B h G c I Hc; [discriminate E|]. cbn [first_entry r_prefix r_value_opt] in E. cbn [h_first_entry].
  destruct (load_prefix mem (n_prefix m)) as [p| | |] eqn:Ep; try discriminate E. cbn [bind] in E. cbv zeta in E.
  assert (live h (node_items c)) as Lc by (refine (bor_live _ _ _ _ _ _ I _ Hc); occ_solve).
  destruct (HeapBorrow.load_prefix_ok _ _ _ _ _ _ I (proj1 Hc) Lc Ep) as [_ El].
  apply (wpk_read _ _ _ _ _ _ _ _ El).
  pose proof (value_opt_ok _ _ _ (proj1 Hc)) as V. pose proof (owned_value_ok m R B h G c I Hc) as W.
  destruct (blob_opt (n_value m)) as [v|]; destruct V as [-> V].
  - assert (o = Some (pre ++ p, v)) as -> by congruence. apply (with_key_ok (pre ++ p) (Some v)). exact W.
  - cbn [r_load_children] in E. destruct (load_children mem m) as [po| | |] eqn:Eo; try discriminate E. cbn [bind] in E.
    destruct (slice_ok h G (R ++ B) B c m po I ltac:(occ_solve) Hc Eo) as (it & Es & Ho). apply (wpk_read _ _ _ _ _ _ _ _ Es).
    destruct it as [it|], po as [[ms|d]|]; cbn [orep] in Ho; try (now destruct Ho).
    + pose proof (bi_next_ok _ _ _ _ _ Ho) as Hn. cbn [it_next] in E. destruct ms as [|m1 ms]; [discriminate E|].
      destruct Hn as (b & it' & En & Hb & _). apply (wpk_read _ _ _ _ _ _ _ _ En). apply (IH _ m1 o E R B h G b I Hb).
    + apply wpk_ret. assert (o = None) as -> by congruence. split; [reflexivity|]. split; [exact I|exact Logic.I].
Qed.
Lemma last_entry_ok : forall fuel pre m o, last_entry mem fuel pre (ROwned m) = Ok o ->
  forall R B h G c, inv h G (R ++ B) -> bor h G B c m -> wpk (h_last_entry fuel pre c) R B (epost R B o) h G.
Proof.
  induction fuel as [|fuel IH]; intros pre m o E R B h G c I Hc; [discriminate E|]. cbn [last_entry r_prefix r_value_opt] in E. cbn [h_last_entry].
  destruct (load_prefix mem (n_prefix m)) as [p| | |] eqn:Ep; try discriminate E. cbn [bind] in E. cbv zeta in E.
  assert (live h (node_items c)) as Lc by (refine (bor_live _ _ _ _ _ _ I _ Hc); occ_solve).
  destruct (HeapBorrow.load_prefix_ok _ _ _ _ _ _ I (proj1 Hc) Lc Ep) as [_ El].
  apply (wpk_read _ _ _ _ _ _ _ _ El).
  cbn [r_load_children] in E. destruct (load_children mem m) as [po| | |] eqn:Eo; try discriminate E. cbn [bind] in E.
  destruct (slice_ok h G (R ++ B) B c m po I ltac:(occ_solve) Hc Eo) as (it & Es & Ho). apply (wpk_read _ _ _ _ _ _ _ _ Es).
  destruct it as [it|], po as [[ms|d]|]; cbn [orep] in Ho; try (now destruct Ho).
  - pose proof (bi_last_ok _ _ _ _ _ Ho) as Hn. cbn [it_last] in E. destruct (nth_error ms (length ms - 1)) as [m1|]; [|discriminate E].
    destruct Hn as (b & En & Hb). apply (wpk_read _ _ _ _ _ _ _ _ En). apply (IH _ m1 o E R B h G b I Hb).
  - assert (o = option_map (fun v => (pre ++ p, v)) (blob_opt (n_value m))) as -> by congruence.
    apply with_key_ok. apply (owned_value_ok m R B h G c I Hc).
Qed.

(** ** Scans *)
Lemma wpk_iter_of c n R B h G : inv h G (R ++ B) -> bor h G B c n ->
  wpk (h_iter_of c) R B (fun it h' G' => inv h' G' (iter_items it ++ R ++ B) /\ it_rep h' G' it [n]) h G.
Proof.
  intros I Hc. unfold h_iter_of. eapply wpk_bind; [apply (wpk_clone c n [] R B h G I Hc)|].
  cbn beta. intros c' h1 G1 (-> & -> & I1) K1. cbn [app] in I1.
  eapply wpk_bind.
  { eapply (wpk_of _ (node_items c ++ R ++ B) (R ++ B) R B _ h1 G I1); [occ_solve|occ_solve|occ_solve|].
    apply (wp_new (CNodes [c]) (GN [n]) (R ++ B) h1 G); [cbn [cell_items flat_map]; rewrite app_nil_r; exact I1|].
    constructor; [apply Hc|constructor]. }
  cbn beta. intros a h2 G2 ((-> & I2 & C2 & _) & _) K2. cbn [gkind] in I2.
  destruct (iter_new_ok h2 _ _ a [n] I2) as (it & Hn & Ea & Ir); [lia|apply gset_eq|].
  apply (wpk_pure _ it R B _ h2 _ Hn). split; [|exact Ir]. unfold iter_items. rewrite Ea. exact I2.
Qed.
Definition spost (R B : list item) (es : list (bytes * blob)) (k : hkv) (h : heap) (G : ghost) : Prop :=
  inv h G (kv_items k ++ R ++ B) /\ kv_rep h G k es.
Lemma wpk_new_key k R B h G : inv h G (R ++ B) ->
  wpk (arc_new (CBytes k)) R B (fun a h' G' => inv h' G' ((BytesK, Ptr a) :: R ++ B) /\ G' a = GB k /\ keeps B h G h' G') h G.
Proof.
  intros I. eapply wpk_weaken.
  { eapply (wpk_of _ (R ++ B) (R ++ B) R B _ h G I); [auto|occ_solve|occ_solve|]. apply (wp_new (CBytes k) (GB k) (R ++ B) h G I). reflexivity. }
  cbn beta. intros a h1 G1 ((-> & I1 & _) & _) K1. split; [exact I1|]. split; [apply gset_eq|exact K1].
Qed.
Lemma scan_from_ok c n pre es R B h G : inv h G (R ++ B) -> bor h G B c n -> listing pre n = Some es ->
  wpk (p <! arc_new (CBytes pre) ;; it <! h_iter_of c ;; ret (HKv p [(0, Some it)])) R B (spost R B es) h G.
Proof.
  intros I Hc El. eapply wpk_bind; [apply (wpk_new_key pre R B h G I)|]. cbn beta. intros p h1 G1 (I1 & Gp & _) K1.
  pose proof (bor_keeps _ _ _ _ _ _ _ K1 Hc) as Hc1.
  assert (inv h1 G1 (((BytesK, Ptr p) :: R) ++ B)) as J1 by exact I1.
  eapply wpk_bind.
  { eapply (wpk_frame _ _ ((BytesK, Ptr p) :: R) R B B _ h1 G1 J1); [occ_solve|occ_solve|auto|].
    apply (wpk_iter_of c n _ B h1 G1 J1 Hc1). }
  cbn beta. intros it h2 G2 ((I2 & Ir) & S2) _. apply wpk_ret. split.
  - replace (kv_items (HKv p [(0, Some it)])) with ((BytesK, Ptr p) :: iter_items it) by (cbn; now rewrite ?app_nil_r). rearr I2.
  - exists pre, [(0, Some [n])]. cbn [kv_path kv_stack]. split; [|split].
    + rewrite <- Gp. apply (proj1 S2). cbn [occ]. rewrite Nat.eqb_refl. lia.
    + constructor; [|constructor]. split; [reflexivity|exact Ir].
    + cbn [remaining]. rewrite (listings_one _ _ _ El). cbn. now rewrite app_nil_r.
Qed.
(** What a scan lists. *)
Definition scan_list (k : Iter.kv_iter) : option (list (bytes * blob)) :=
  match Iter.kv_stack k with
  | [] => Some []
  | (0, Some (IOwned [n])) :: [] => listing (Iter.kv_path k) n
  | _ => None
  end.
Lemma find_prefix_le : forall fuel r k t n, find mem fuel r k = Ok (Prefix t n) -> n <= length k.
Proof.
  induction fuel as [|fuel IH]; intros r k t n E; [discriminate E|]. cbn [find] in E.
  destruct (load_prefix mem (r_prefix r)) as [p| | |]; try discriminate E. cbn [bind] in E. cbv zeta in E.
  destruct ((length k - common_prefix p k =? 0) && (length p - common_prefix p k =? 0)); [discriminate E|].
  destruct (length k - common_prefix p k =? 0).
  { injection E as <- <-. apply common_prefix_le_r. }
  destruct (length p - common_prefix p k =? 0); [|discriminate E].
  destruct (nth_error k (common_prefix p k)); [|discriminate E].
  destruct (r_load_children mem r) as [[it|]| | |]; try discriminate E. cbn [bind] in E.
  destruct (it_find it b); [|discriminate E]. apply IH in E. rewrite skipn_length in E. lia.
Qed.
Lemma scan_ok fuel m p k es R B h G c : scan_prefix mem fuel m p = Ok k -> scan_list k = Some es -> inv h G (R ++ B) -> bor h G B c m ->
  wpk (h_scan_prefix fuel p c) R B (spost R B es) h G.
Proof.
  intros E El I Hc. unfold scan_prefix in E. destruct (find mem fuel (ROwned m) p) as [x| | |] eqn:Ex; try discriminate E. cbn [bind] in E.
  destruct (h_find_ok h G (R ++ B) B I ltac:(occ_solve) _ _ _ _ Ex c Hc) as (y & Ey & Hy).
  unfold h_scan_prefix. apply (wpk_read _ _ _ _ _ _ _ _ Ey).
  destruct y as [c1|c1 n1|], x as [[t|]|[t|] n2|]; cbn [frep] in Hy; try tauto; cbn [r_to_owned bind] in E.
  - injection E as <-. cbn [scan_list Iter.kv_stack Iter.kv_path] in El. apply (scan_from_ok c1 t p es R B h G I Hy El).
  - destruct Hy as [<- Hy]. destruct (slice_to (length p - n1) p) as [q| | |] eqn:Eq; try discriminate E. cbn [bind] in E. injection E as <-.
    cbn [scan_list Iter.kv_stack Iter.kv_path] in El.
    unfold slice_to in Eq. destruct (length p - n1 <=? length p) eqn:Ek; try discriminate Eq. assert (q = firstn (length p - n1) p) as -> by congruence.
    rewrite (proj2 (Nat.leb_le _ _) (find_prefix_le _ _ _ _ _ Ex)). apply (scan_from_ok c1 t _ es R B h G I Hy El).
  - injection E as <-. cbn [scan_list Iter.kv_stack] in El. injection El as <-.
    eapply wpk_bind; [apply (wpk_new_key [] R B h G I)|]. cbn beta. intros a h1 G1 (I1 & Ga & _) _. apply wpk_ret. split.
    + cbn [kv_items HeapIter.kv_stack HeapIter.kv_path flat_map]. exact I1.
    + exists [], []. cbn [HeapIter.kv_stack HeapIter.kv_path]. split; [exact Ga|]. split; [constructor|reflexivity].
Qed.
