(** Questions about borrowed trees: the answers on the heap are those on nodes as values,
    and nothing is left over. *)
From Verif Require Import Base BaseLemmas Header Node Combine Iter Store Heap HeapSpec HeapProofs HeapOps HeapIter HeapTree HeapBorrow HeapMerge HeapTreeOps HeapTreeRec
  HeapJoinPure HeapJoin HeapFind Client.

Definition bpost (R B : list item) (b r : bool) (h : heap) (G : ghost) : Prop := r = b /\ inv h G (R ++ B).
Definition ask_ok (hm : cnode -> cnode -> M bool) (pm : noderef -> noderef -> res bool) : Prop :=
  forall n m r, pm (ROwned n) (ROwned m) = Ok r -> forall R B h G a b, inv h G (R ++ B) -> bor h G B a n -> bor h G B b m ->
    wpk (hm a b) R B (bpost R B r) h G.
Lemma answer b R B h G : inv h G (R ++ B) -> wpk (ret b) R B (bpost R B b) h G.
Proof. intros I. apply wpk_ret. split; [reflexivity|exact I]. Qed.

(** ** One tree *)
Lemma contains_ok fuel m k b R B h G c : contains_key mem fuel m k = Ok b -> inv h G (R ++ B) -> bor h G B c m ->
  wpk (h_contains_key fuel k c) R B (bpost R B b) h G.
Proof.
  intros E I Hc. unfold contains_key in E. stepE E x Ex.
  destruct (h_find_ok h G (R ++ B) B I ltac:(occ_solve) _ _ _ _ Ex c Hc) as (y & Ey & Hy).
  unfold h_contains_key. apply (wpk_read _ _ _ _ _ _ _ _ Ey).
  destruct y as [c1|c1 n1|], x as [[t|]|[t|] n2|]; cbn [frep] in Hy; try tauto;
    try (assert (b = false) as -> by congruence; apply (answer false R B h G I)).
  unfold r_value_opt in E. pose proof (value_opt_ok _ _ _ (proj1 Hy)) as V.
  destruct (blob_opt (n_value t)) as [v|].
  - destruct V as [-> _]. assert (b = true) as -> by congruence. apply (answer true R B h G I).
  - destruct V as [-> _]. assert (b = false) as -> by congruence. apply (answer false R B h G I).
Qed.
Lemma prefix_ok fuel m k b R B h G c : has_prefix mem fuel m k = Ok b -> inv h G (R ++ B) -> bor h G B c m ->
  wpk (h_has_prefix fuel k c) R B (bpost R B b) h G.
Proof.
  intros E I Hc. unfold has_prefix in E. stepE E x Ex.
  destruct (h_find_ok h G (R ++ B) B I ltac:(occ_solve) _ _ _ _ Ex c Hc) as (y & Ey & Hy).
  unfold h_has_prefix. apply (wpk_read _ _ _ _ _ _ _ _ Ey).
  destruct y as [c1|c1 n1|], x as [[t|]|[t|] n2|]; cbn [frep] in Hy; try tauto;
    match type of E with Ok ?v = _ => assert (b = v) as -> by congruence; apply (answer v R B h G I) end.
Qed.
Lemma empty_ok n R B h G c : inv h G (R ++ B) -> bor h G B c n -> wpk (ret (h_is_empty c)) R B (bpost R B (is_empty n)) h G.
Proof. intros I Hc. rewrite (is_empty_ok _ _ _ (proj1 Hc)). apply (answer _ R B h G I). Qed.

(** ** Loops *)
Lemma then_or (m rest : M bool) (r r' : bool) R B h G : wpk m R B (bpost R B r) h G ->
  (r = false -> forall h' G', keeps B h G h' G' -> inv h' G' (R ++ B) -> wpk rest R B (bpost R B r') h' G') ->
  wpk (x <! m ;; if x then ret true else rest) R B (bpost R B (if r then true else r')) h G.
Proof.
  intros Hm Hr. eapply wpk_bind; [exact Hm|]. intros x h1 G1 [-> I1] K1. destruct r.
  - apply (answer true R B h1 G1 I1).
  - apply (Hr eq_refl h1 G1 K1 I1).
Qed.
(** [X] are the nodes that the question also borrows. *)
Lemma any_loop_ok (X : heap -> ghost -> list item -> Prop) hrec prec :
  (forall h G B h' G', keeps B h G h' G' -> X h G B -> X h' G' B) ->
  (forall n r, prec (ROwned n) = Ok r -> forall R B h G a, inv h G (R ++ B) -> X h G B -> bor h G B a n -> wpk (hrec a) R B (bpost R B r) h G) ->
  forall fuel ns r, any_loop prec fuel (IOwned ns) = Ok r -> forall R B h G it, inv h G (R ++ B) -> X h G B -> irep h G B it ns ->
  wpk (h_any_loop hrec fuel it) R B (bpost R B r) h G.
Proof.
  intros Hx Hrec. induction fuel as [|fuel IH]; intros ns r E R B h G it I HX H; [discriminate E|]. cbn [any_loop] in E. cbn [h_any_loop].
  pose proof (bi_next_ok _ _ _ _ _ H) as Hn. destruct ns as [|n ns]; cbn [it_next] in E.
  - apply (wpk_read _ _ _ _ _ _ _ _ Hn). assert (r = false) as -> by congruence. apply (answer false R B h G I).
  - destruct Hn as (b & it' & En & Hb & Hit). apply (wpk_read _ _ _ _ _ _ _ _ En). stepE E x Ex.
    assert (exists r', r = (if x then true else r') /\ (x = false -> any_loop prec fuel (IOwned ns) = Ok r')) as (r' & -> & E').
    { destruct x; [exists true; split; [congruence|discriminate]|exists r; auto]. }
    apply (then_or _ _ x r' R B h G); [apply (Hrec n x Ex R B h G b I HX Hb)|].
    intros Hf h1 G1 K1 I1. apply (IH ns r' (E' Hf) R B h1 G1 it' I1 (Hx _ _ _ _ _ K1 HX) (irep_keeps _ _ _ _ _ _ _ K1 Hit)).
Qed.
(** Both loops over two lists of children. *)
Fixpoint ppred (only : option bool) (rec : noderef -> noderef -> res bool) (fuel : nat) (ns ms : list node) : res bool :=
  match fuel with
  | 0 => Fuel
  | S fuel =>
      let left n ns' := match only with Some r => Ok r | None => ppred only rec fuel ns' ms end in
      let right m ms' := ppred only rec fuel ns ms' in
      match ns, ms with
      | [], [] => Ok false
      | n :: ns', [] => left n ns'
      | [], m :: ms' => right m ms'
      | n :: ns', m :: ms' =>
          match cmp_ob (n_first n) (n_first m) with
          | Lt => left n ns'
          | Gt => right m ms'
          | Eq => r <- rec (ROwned n) (ROwned m) ;; if r then Ok true else ppred only rec fuel ns' ms'
          end
      end
  end.
Lemma inner_ppred rec : forall fuel ns ms, inner_pred_loop rec fuel (IOwned ns) (IOwned ms) = ppred None rec fuel ns ms.
Proof.
  induction fuel as [|fuel IH]; intros ns ms; [reflexivity|]. cbn [inner_pred_loop ppred]. unfold oj_next.
  destruct ns as [|n ns], ms as [|m ms]; cbn [it_first it_next bind]; try reflexivity; try apply IH.
  destruct (cmp_ob (n_first n) (n_first m)); cbn [bind option_map fst]; rewrite ?IH; reflexivity.
Qed.
Lemma left_ppred rec : forall fuel ns ms, left_pred_loop rec fuel (IOwned ns) (IOwned ms) = ppred (Some true) rec fuel ns ms.
Proof.
  induction fuel as [|fuel IH]; intros ns ms; [reflexivity|]. cbn [left_pred_loop ppred]. unfold oj_next.
  destruct ns as [|n ns], ms as [|m ms]; cbn [it_first it_next bind]; try reflexivity; try apply IH.
  destruct (cmp_ob (n_first n) (n_first m)); cbn [bind option_map fst]; rewrite ?IH; reflexivity.
Qed.
Lemma pred_loop_ok only hrec prec : ask_ok hrec prec -> forall fuel ns ms r, ppred only prec fuel ns ms = Ok r ->
  forall R B h G a b, inv h G (R ++ B) -> irep h G B a ns -> irep h G B b ms ->
  wpk (h_pred_loop only hrec fuel a b) R B (bpost R B r) h G.
Proof.
  intros Hrec. induction fuel as [|fuel IH]; intros ns ms r E R B h G a b I Ha Hb; [discriminate E|].
  cbn [ppred] in E. cbv zeta in E. cbn [h_pred_loop].
  assert (forall x, occ x B <= occ x (R ++ B)) as L by occ_solve.
  pose proof (oj_ok _ _ _ _ _ _ _ _ I L Ha Hb) as O.
  assert (forall n ns' a', irep h G B a' ns' ->
    match only with Some r => Ok r | None => ppred only prec fuel ns' ms end = Ok r -> ns = n :: ns' ->
    wpk (match only with Some r => ret r | None => h_pred_loop only hrec fuel a' b end) R B (bpost R B r) h G) as A.
  { intros n ns' a' Ia F _. destruct only as [o|].
    - injection F as ->. apply (answer r R B h G I).
    - apply (IH ns' ms r F R B h G a' b I Ia Hb). }
  destruct ns as [|n ns], ms as [|m ms].
  - apply (wpk_read _ _ _ _ _ _ _ _ O). injection E as <-. apply (answer false R B h G I).
  - destruct O as (y & b' & O & By & Ib). apply (wpk_read _ _ _ _ _ _ _ _ O). apply (IH [] ms r E R B h G a b' I Ha Ib).
  - destruct O as (x & a' & O & Bx & Ia). apply (wpk_read _ _ _ _ _ _ _ _ O). apply (A n ns a' Ia E eq_refl).
  - destruct O as (x & a' & y & b' & Bx & Ia & By & Ib & O). apply (wpk_read _ _ _ _ _ _ _ _ O).
    destruct (cmp_ob (n_first n) (n_first m)); [|apply (A n ns a' Ia E eq_refl)|apply (IH (n :: ns) ms r E R B h G a b' I Ha Ib)].
    stepE E x0 Ex.
    assert (exists r', r = (if x0 then true else r') /\ (x0 = false -> ppred only prec fuel ns ms = Ok r')) as (r' & -> & E').
    { clear -E. destruct x0; [exists true; split; [congruence|discriminate]|exists r; auto]. }
    apply (then_or _ _ x0 r' R B h G); [apply (Hrec n m x0 Ex R B h G x y I Bx By)|].
    intros Hf h1 G1 K1 I1. apply (IH ns ms r' (E' Hf) R B h1 G1 a' b' I1); eapply irep_keeps; eassumption.
Qed.
Definition askids_ok (hk : option biter -> option biter -> M bool) (pk : option iter -> option iter -> res bool) : Prop :=
  forall ac bc r, pk ac bc = Ok r -> forall R B h G o o', inv h G (R ++ B) -> orep h G B o ac -> orep h G B o' bc ->
    wpk (hk o o') R B (bpost R B r) h G.
Lemma inner_kids_ok hrec prec fuel : ask_ok hrec prec -> askids_ok (h_inner_pred_kids hrec fuel) (inner_pred_children prec fuel).
Proof.
  intros Hr ac bc r E R B h G o o' I Ha Hb. unfold inner_pred_children in E. unfold h_inner_pred_kids.
  destruct ac as [[ns|]|], o as [a|]; try contradiction Ha; destruct bc as [[ms|]|], o' as [b|]; try contradiction Hb;
    try (assert (r = false) as -> by congruence; apply (answer false R B h G I)).
  rewrite inner_ppred in E. apply (pred_loop_ok None hrec prec Hr fuel ns ms r E R B h G a b I Ha Hb).
Qed.
Lemma left_kids_ok hrec prec fuel : ask_ok hrec prec -> askids_ok (h_left_pred_kids hrec fuel) (left_pred_children prec fuel).
Proof.
  intros Hr ac bc r E R B h G o o' I Ha Hb. unfold left_pred_children in E. unfold h_left_pred_kids.
  destruct ac as [[ns|]|], o as [a|]; try contradiction Ha; destruct bc as [[ms|]|], o' as [b|]; try contradiction Hb;
    try (match type of E with Ok ?v = _ => assert (r = v) as -> by congruence; apply (answer v R B h G I) end).
  rewrite left_ppred in E. apply (pred_loop_ok (Some true) hrec prec Hr fuel ns ms r E R B h G a b I Ha Hb).
Qed.

(** ** Temporaries *)
Lemma scoped_ok c n m (R B : list item) r h G : inv h G (node_items c ++ R ++ B) -> crep G c n ->
  ((forall a, occ a B <= occ a (node_items c ++ B)) -> inv h G (R ++ node_items c ++ B) -> wpk m R (node_items c ++ B) (bpost R (node_items c ++ B) r) h G) ->
  wpk (h_scoped c m) R B (bpost R B r) h G.
Proof.
  intros I C Hm. set (B' := node_items c ++ B) in *. unfold h_scoped.
  assert (inv h G (R ++ B')) as J. { unfold B'. rearr I. }
  assert (forall a, occ a B <= occ a B') as LB by (unfold B'; occ_solve).
  eapply wpk_bind.
  { eapply (wpk_frame _ _ R R B' B _ h G J); [occ_solve|occ_solve|exact LB|]. apply (Hm LB J). }
  cbn beta. intros o h2 G2 ([-> I2] & _) K2. unfold B' in I2.
  eapply wpk_bind; [apply (wpk_drop (node_items c) [] R B h2 G2); rearr I2|].
  cbn beta. intros _ h3 G3 (-> & I3) _. apply wpk_ret. split; [reflexivity|exact I3].
Qed.
Lemma bor_sub h G B B' a n : (forall x, occ x B <= occ x B') -> bor h G B a n -> bor h G B' a n.
Proof.
  intros L Ha. assert (irep h G B (BIter None [a]) [n]) as H by (split; [constructor; [exact Ha|constructor]|exact Logic.I]).
  apply (irep_sub _ _ _ _ _ _ L) in H. destruct H as [H _]. now inversion H.
Qed.

(** ** Closures *)
Definition fask_ok (hf : byte * word -> byte * word -> M bool) (pf : blob -> blob -> res bool) : Prop :=
  forall x y z, pf x y = Ok z -> forall R B h G av bv, inv h G (R ++ B) -> vrep G av x -> vrep G bv y ->
    (forall a, 0 < occ a (vitems av) -> deep h B a) -> (forall a, 0 < occ a (vitems bv) -> deep h B a) ->
    wpk (hf av bv) R B (bpost R B z) h G.
Lemma user_pred_ok g : fask_ok (h_user_pred g) (predicate mem mem g).
Proof.
  intros x y z E R B h G av bv I Va Vb Da Db. unfold predicate in E.
  destruct x as [x|id]; [|discriminate E]. cbn [value_load bind] in E. destruct y as [y|id]; [|discriminate E]. cbn [value_load bind] in E.
  assert (z = g x y) as -> by congruence. unfold h_user_pred.
  assert (live h (vitems av)) as La. { refine (deep_live _ _ _ _ _ I _ Da). occ_solve. }
  assert (live h (vitems bv)) as Lb. { refine (deep_live _ _ _ _ _ I _ Db). occ_solve. }
  apply (wpk_read _ _ _ _ _ _ _ _ (vread_ok _ _ _ _ _ I Va La)).
  apply (wpk_read _ _ _ _ _ _ _ _ (vread_ok _ _ _ _ _ I Vb Lb)). cbn [blob_slice]. apply (answer _ R B h G I).
Qed.

(** ** Two trees *)
Section Ask.
Context (hf : byte * word -> byte * word -> M bool) (pf : blob -> blob -> res bool) (Hf : fask_ok hf pf).

Lemma values_ok (only : bool) a n b m r R B h G : inv h G (R ++ B) -> bor h G B a n -> bor h G B b m ->
  match blob_opt (n_value n), blob_opt (n_value m) with Some x, Some y => pf x y | Some _, None => Ok only | _, _ => Ok false end = Ok r ->
  wpk (match h_value_opt a, h_value_opt b with Some av, Some bv => hf av bv | Some _, None => ret only | _, _ => ret false end) R B (bpost R B r) h G.
Proof.
  intros I Ha Hb E.
  pose proof (value_opt_ok _ _ _ (proj1 Ha)) as V. pose proof (value_opt_ok _ _ _ (proj1 Hb)) as W.
  destruct (bor_value _ _ _ _ _ Ha) as [Va Da]. destruct (bor_value _ _ _ _ _ Hb) as [Vb Db].
  destruct (blob_opt (n_value n)) as [x|], (blob_opt (n_value m)) as [y|]; destruct V as [V1 Hv]; destruct W as [W1 Hw]; rewrite V1, ?W1;
    try (match type of E with Ok ?v = _ => assert (r = v) as -> by congruence; apply (answer v R B h G I) end).
  subst x y. apply (Hf _ _ r E R B h G _ _ I Va Vb Da Db).
Qed.

Lemma inner_pred_ok : forall fuel, ask_ok (h_inner_pred hf fuel) (inner_combine_pred mem mem pf fuel).
Proof.
  induction fuel as [|fuel IH]; intros n m r E R B h G a b I Ha Hb; [discriminate E|].
  cbn [inner_combine_pred r_prefix] in E. stepE E ap Eap. stepE E bp Ebp. cbv zeta in E.
  assert (forall x, occ x B <= occ x (R ++ B)) as L by occ_solve.
  destruct (load_prefix_ok _ _ _ _ _ _ I (proj1 Ha) (bor_live _ _ _ _ _ _ I L Ha) Eap) as [_ El].
  destruct (load_prefix_ok _ _ _ _ _ _ I (proj1 Hb) (bor_live _ _ _ _ _ _ I L Hb) Ebp) as [_ El'].
  cbn [h_inner_pred]. apply (wpk_read _ _ _ _ _ _ _ _ El). apply (wpk_read _ _ _ _ _ _ _ _ El'). cbv zeta.
  destruct ((common_prefix ap bp =? length ap) && (common_prefix ap bp =? length bp));
    [|destruct (common_prefix ap bp =? length ap); [|destruct (common_prefix ap bp =? length bp)]].
  - cbn [r_value_opt r_load_children] in E. unfold r_value_opt in E. stepE E hit Ehit.
    assert (exists r', r = (if hit then true else r') /\ (hit = false -> (ac <- load_children mem n ;; bc <- load_children mem m ;;
      inner_pred_children (inner_combine_pred mem mem pf fuel) fuel ac bc) = Ok r')) as (r' & -> & E').
    { clear -E. destruct hit; [exists true; split; [congruence|discriminate]|exists r; auto]. }
    apply then_or.
    + eapply wpk_weaken; [|intros x h1 G1 Hx _; exact Hx].
      assert (match blob_opt (n_value n), blob_opt (n_value m) with Some x, Some y => pf x y | Some _, None => Ok false | _, _ => Ok false end = Ok hit) as Eh.
      { destruct (blob_opt (n_value n)); [|exact Ehit]. destruct (blob_opt (n_value m)); exact Ehit. }
      pose proof (values_ok false a n b m hit R B h G I Ha Hb Eh) as W.
      destruct (h_value_opt a); [|exact W]. destruct (h_value_opt b); exact W.
    + intros Hh h1 G1 K1 I1. specialize (E' Hh). stepE E' ac Eac. stepE E' bc Ebc.
      destruct (slice_ok h1 G1 _ B a n ac I1 L (bor_keeps _ _ _ _ _ _ _ K1 Ha) Eac) as (o & Es & Ho). apply (wpk_read _ _ _ _ _ _ _ _ Es).
      destruct (slice_ok h1 G1 _ B b m bc I1 L (bor_keeps _ _ _ _ _ _ _ K1 Hb) Ebc) as (o' & Es' & Ho'). apply (wpk_read _ _ _ _ _ _ _ _ Es').
      apply (inner_kids_ok _ _ fuel IH ac bc r' E' R B h1 G1 o o' I1 Ho Ho').
  - cbn [r_clone_shortened r_load_children] in E. stepE E m' Em. stepE E ac Eac.
    eapply wpk_bind; [apply (wpk_clone_shortened _ b m m' R B h G Em I Hb)|]. intros b' h1 G1 [I1 C1] K1.
    apply (scoped_ok b' m' _ R B r h1 G1 I1 C1). intros LB J. set (B' := node_items b' ++ B) in *.
    assert (forall x, occ x B' <= occ x (R ++ B')) as L' by occ_solve.
    assert (bor h1 G1 B' a n) as Ha' by (apply (bor_sub _ _ B); [exact LB|apply (bor_keeps _ _ _ _ _ _ _ K1 Ha)]).
    destruct (slice_ok h1 G1 _ B' a n ac J L' Ha' Eac) as (o & Es & Ho). apply (wpk_read _ _ _ _ _ _ _ _ Es).
    destruct ac as [[ns|]|], o as [it|]; try contradiction Ho; cbn [h_any].
    2: { injection E as <-. apply (answer false R B' h1 G1 J). }
    apply (any_loop_ok (fun h G B => bor h G B b' m') _ (fun x => inner_combine_pred mem mem pf fuel x (ROwned m'))) with (ns := ns); auto.
    + intros h2 G2 B2 h3 G3 K2. apply (bor_keeps _ _ _ _ _ _ _ K2).
    + intros x rx Ex R2 B2 h2 G2 c I2 Hb2 Hc2. apply (IH x m' rx Ex R2 B2 h2 G2 c b' I2 Hc2 Hb2).
    + apply (bor_own _ _ _ _ _ C1).
  - cbn [r_clone_shortened r_load_children] in E. stepE E n' En. stepE E bc Ebc.
    eapply wpk_bind; [apply (wpk_clone_shortened _ a n n' R B h G En I Ha)|]. intros a' h1 G1 [I1 C1] K1.
    apply (scoped_ok a' n' _ R B r h1 G1 I1 C1). intros LB J. set (B' := node_items a' ++ B) in *.
    assert (forall x, occ x B' <= occ x (R ++ B')) as L' by occ_solve.
    assert (bor h1 G1 B' b m) as Hb' by (apply (bor_sub _ _ B); [exact LB|apply (bor_keeps _ _ _ _ _ _ _ K1 Hb)]).
    destruct (slice_ok h1 G1 _ B' b m bc J L' Hb' Ebc) as (o & Es & Ho). apply (wpk_read _ _ _ _ _ _ _ _ Es).
    destruct bc as [[ms|]|], o as [it|]; try contradiction Ho; cbn [h_any].
    2: { injection E as <-. apply (answer false R B' h1 G1 J). }
    apply (any_loop_ok (fun h G B => bor h G B a' n') _ (fun y => inner_combine_pred mem mem pf fuel (ROwned n') y)) with (ns := ms); auto.
    + intros h2 G2 B2 h3 G3 K2. apply (bor_keeps _ _ _ _ _ _ _ K2).
    + intros y ry Ey R2 B2 h2 G2 c I2 Ha2 Hc2. apply (IH n' y ry Ey R2 B2 h2 G2 a' c I2 Ha2 Hc2).
    + apply (bor_own _ _ _ _ _ C1).
  - injection E as <-. apply (answer false R B h G I).
Qed.

Lemma left_pred_ok : forall fuel, ask_ok (h_left_pred hf fuel) (left_combine_pred mem mem pf fuel).
Proof.
  induction fuel as [|fuel IH]; intros n m r E R B h G a b I Ha Hb; [discriminate E|].
  cbn [left_combine_pred r_prefix] in E. stepE E ap Eap. stepE E bp Ebp. cbv zeta in E.
  assert (forall x, occ x B <= occ x (R ++ B)) as L by occ_solve.
  destruct (load_prefix_ok _ _ _ _ _ _ I (proj1 Ha) (bor_live _ _ _ _ _ _ I L Ha) Eap) as [_ El].
  destruct (load_prefix_ok _ _ _ _ _ _ I (proj1 Hb) (bor_live _ _ _ _ _ _ I L Hb) Ebp) as [_ El'].
  cbn [h_left_pred]. apply (wpk_read _ _ _ _ _ _ _ _ El). apply (wpk_read _ _ _ _ _ _ _ _ El'). cbv zeta.
  pose proof (left_kids_ok _ _ fuel IH) as Hk.
  destruct ((common_prefix ap bp =? length ap) && (common_prefix ap bp =? length bp));
    [|destruct (common_prefix ap bp =? length ap); [|destruct (common_prefix ap bp =? length bp)]].
  - cbn [r_value_opt r_load_children] in E. unfold r_value_opt in E. stepE E hit Ehit.
    assert (exists r', r = (if hit then true else r') /\ (hit = false -> (ac <- load_children mem n ;; bc <- load_children mem m ;;
      left_pred_children (left_combine_pred mem mem pf fuel) fuel ac bc) = Ok r')) as (r' & -> & E').
    { clear -E. destruct hit; [exists true; split; [congruence|discriminate]|exists r; auto]. }
    apply then_or.
    + apply (values_ok true a n b m hit R B h G I Ha Hb Ehit).
    + intros Hh h1 G1 K1 I1. specialize (E' Hh). stepE E' ac Eac. stepE E' bc Ebc.
      destruct (slice_ok h1 G1 _ B a n ac I1 L (bor_keeps _ _ _ _ _ _ _ K1 Ha) Eac) as (o & Es & Ho). apply (wpk_read _ _ _ _ _ _ _ _ Es).
      destruct (slice_ok h1 G1 _ B b m bc I1 L (bor_keeps _ _ _ _ _ _ _ K1 Hb) Ebc) as (o' & Es' & Ho'). apply (wpk_read _ _ _ _ _ _ _ _ Es').
      apply (Hk ac bc r' E' R B h1 G1 o o' I1 Ho Ho').
  - unfold r_value_opt in E. pose proof (value_opt_ok _ _ _ (proj1 Ha)) as V.
    destruct (blob_opt (n_value n)) as [v|]; destruct V as [V _]; rewrite V.
    + injection E as <-. apply (answer true R B h G I).
    + cbn [r_clone_shortened r_load_children] in E. stepE E ac Eac. stepE E m' Em.
      destruct (slice_ok h G _ B a n ac I L Ha Eac) as (o & Es & Ho). apply (wpk_read _ _ _ _ _ _ _ _ Es).
      eapply wpk_bind; [apply (wpk_clone_shortened _ b m m' R B h G Em I Hb)|]. intros b' h1 G1 [I1 C1] K1.
      apply (scoped_ok b' m' _ R B r h1 G1 I1 C1). intros LB J.
      apply (Hk ac (it_single m') r E R _ h1 G1); [exact J| |apply (single_orep _ _ _ _ _ C1)].
      apply (orep_sub _ _ B); [exact LB|]. apply (orep_keeps _ _ _ _ _ _ _ K1 Ho).
  - cbn [r_clone_shortened r_load_children] in E. stepE E n' En. stepE E bc Ebc.
    eapply wpk_bind; [apply (wpk_clone_shortened _ a n n' R B h G En I Ha)|]. intros a' h1 G1 [I1 C1] K1.
    apply (scoped_ok a' n' _ R B r h1 G1 I1 C1). intros LB J. set (B' := node_items a' ++ B) in *.
    assert (forall x, occ x B' <= occ x (R ++ B')) as L' by occ_solve.
    assert (bor h1 G1 B' b m) as Hb' by (apply (bor_sub _ _ B); [exact LB|apply (bor_keeps _ _ _ _ _ _ _ K1 Hb)]).
    destruct (slice_ok h1 G1 _ B' b m bc J L' Hb' Ebc) as (o & Es & Ho). apply (wpk_read _ _ _ _ _ _ _ _ Es).
    apply (Hk (it_single n') bc r E R _ h1 G1); [exact J|apply (single_orep _ _ _ _ _ C1)|exact Ho].
  - injection E as <-. apply (answer true R B h G I).
Qed.
End Ask.
