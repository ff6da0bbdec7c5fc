(** How many blocks a tree is behind its stored version, and how much the in-place
    operations add to that. *)
From Verif Require Import Base BaseLemmas Header Node Combine Iter Api Tree Rep Sim Store StoreProofs
  JoinProofs WithProofs MemLemmas HeapMerge CostSpec.

Definition ifok {A} (P : A -> Prop) (r : res A) : Prop := match r with Ok x => P x | _ => True end.
Lemma ifok_bind {A B} (P : A -> Prop) (Q : B -> Prop) x k :
  ifok P x -> (forall a, P a -> ifok Q (k a)) -> ifok Q (bind x k).
Proof. destruct x; cbn; auto. Qed.
Lemma ifok_bind' {A B} (Q : B -> Prop) (x : res A) k : (forall a, x = Ok a -> ifok Q (k a)) -> ifok Q (bind x k).
Proof. destruct x; cbn; auto. Qed.

(** Blocks to be written for a node by [serialize]. *)
Definition dblob (b : blob) : nat := match b with Data x => if length x <? 128 then 0 else 1 | Id _ => 0 end.
Definition some_kids (ns : list node) : nat := match ns with [] => 0 | _ => 1 end.
Fixpoint dirty (n : node) : nat :=
  match n with
  | Node p v k => dblob p + dblob v + match k with KArc ns => some_kids ns + list_sum (map dirty ns) | KId _ => 0 end
  end.
Definition dirties (ns : list node) : nat := list_sum (map dirty ns).
Definition kdirty (k : kids) : nat := match k with KArc ns => some_kids ns + dirties ns | KId _ => 0 end.
Lemma dirty_eq n : dirty n = dblob (n_prefix n) + dblob (n_value n) + kdirty (n_kids n).
Proof. destruct n as [p v [ns|id]]; reflexivity. Qed.
Lemma dirties_cons n ns : dirties (n :: ns) = dirty n + dirties ns.
Proof. reflexivity. Qed.
Lemma dirties_app ns ms : dirties (ns ++ ms) = dirties ns + dirties ms.
Proof. unfold dirties. now rewrite map_app, list_sum_app. Qed.
Lemma dblob_le b : dblob b <= 1.
Proof. unfold dblob. destruct b as [x|x]; [destruct (length x <? 128)|]; lia. Qed.
Lemma some_le ns : some_kids ns <= 1.
Proof. destruct ns; cbn; lia. Qed.

(** A tree has at most three blocks per node. *)
Lemma Rep_dirty ids rd t : forall n, Rep ids rd n t -> dirty n <= 3 * size t.
Proof.
  induction t as [p v cs IH] using tree_ind'. intros n R. apply Rep_inv in R as (_ & _ & ns & RK & F).
  rewrite dirty_eq, size_T. pose proof (dblob_le (n_prefix n)). pose proof (dblob_le (n_value n)).
  assert (kdirty (n_kids n) <= 1 + 3 * sizes cs); [|lia].
  destruct RK as [->|[[-> ->]|(r & id & data & -> & _)]]; cbn [kdirty]; [|lia..].
  pose proof (some_le ns). assert (dirties ns <= 3 * sizes cs); [|lia].
  clear - IH F. induction F as [|n c ns cs Rn F IHf]; [cbn; lia|]. inversion IH; subst.
  rewrite dirties_cons, sizes_cons. specialize (H1 _ Rn). specialize (IHf H2). lia.
Qed.

(** A node read from a block is stored completely. *)
Lemma hdr_len_lt h : hdr_len h < 128.
Proof.
  unfold hdr_len. change 127%N with (N.ones 7). rewrite N.land_ones. change (2 ^ 7)%N with 128%N.
  pose proof (N.mod_lt (bnum h) 128). lia.
Qed.
Lemma read_field_dirty x b r : read_field x = Some (b, r) -> dblob b = 0.
Proof.
  unfold read_field. destruct x as [|h tl]; [discriminate|]. destruct (Nat.ltb_spec (length tl) (hdr_len h)) as [|L]; [discriminate|].
  destruct (hdr_is_id h); intros [= <- <-]; [reflexivity|]. unfold dblob. rewrite firstn_length_le by lia.
  pose proof (hdr_len_lt h). destruct (Nat.ltb_spec (hdr_len h) 128); [reflexivity|lia].
Qed.
Lemma read_one_dirty x b r n : read_one x = Some (b, r) -> b_to_owned b = Ok n -> dirty n = 0.
Proof.
  unfold read_one. destruct (read_field x) as [[p x1]|] eqn:E1; [|discriminate].
  destruct (read_field x1) as [[v x2]|] eqn:E2; [|discriminate]. destruct (read_field x2) as [[k x3]|] eqn:E3; [|discriminate].
  intros [= <- <-]. unfold b_to_owned. cbn [b_children b_prefix b_value]. destruct k as [|c]; [discriminate|]. intros [= <-].
  cbn [dirty]. rewrite (read_field_dirty _ _ _ E1), (read_field_dirty _ _ _ E2). reflexivity.
Qed.
Lemma deserialize_dirty x n : deserialize x = Ok n -> dirty n = 0.
Proof.
  unfold deserialize. destruct (read_one x) as [[b r]|] eqn:E; [|discriminate]. destruct r; [|discriminate]. intros H.
  eapply read_one_dirty; eauto.
Qed.
Lemma collect_dirty : forall fuel x ns, collect_owned fuel x = Ok ns -> dirties ns = 0.
Proof.
  induction fuel as [|fuel IH]; cbn; [discriminate|]. intros x ns. destruct (read_one x) as [[b r]|] eqn:E.
  - destruct (b_to_owned b) as [n| | |] eqn:Eb; cbn; try discriminate.
    destruct (collect_owned fuel r) as [l| | |] eqn:El; cbn; try discriminate. intros [= <-].
    rewrite dirties_cons, (read_one_dirty _ _ _ _ E Eb), (IH _ _ El). reflexivity.
  - now intros [= <-].
Qed.

(** ** Writes of [serialize] *)
Section Writes.
Context (S : store).
Notation C := (counting S).
Definition wcost {A} (k : nat) (m : wm (st C) A) : Prop := forall s, snd (snd (m s)) <= snd s + k.
Lemma wcost_ret {A} (r : res A) : wcost 0 (wret r).
Proof. intros s. cbn. lia. Qed.
Lemma wcost_bind {A B} a b (m : wm (st C) A) (k : A -> wm (st C) B) : wcost a m -> (forall x, wcost b (k x)) -> wcost (a + b) (wbind m k).
Proof.
  intros H K s. unfold wbind. specialize (H s). destruct (m s) as [[x| | |] s1] eqn:E; cbn [fst snd] in *; try lia.
  specialize (K x s1). lia.
Qed.
Lemma wcost_le {A} a b (m : wm (st C) A) : wcost a m -> a <= b -> wcost b m.
Proof. intros H L s. specialize (H s). lia. Qed.
Lemma wcost_write d : wcost 1 (w_write C d).
Proof. intros s. unfold w_write. cbn. destruct (st_write S (fst s) d). cbn. lia. Qed.
Lemma wcost_blob n b : wcost (dblob b) (ser_blob C n b).
Proof.
  unfold ser_blob. destruct b as [x|x]; cbn [dblob blob_slice blob_is_id orb]; [|apply wcost_ret].
  destruct (length x <? 128); [apply wcost_ret|].
  refine (wcost_le (1 + (0 + 0)) 1 _ _ (le_n _)). apply wcost_bind; [apply wcost_write|]. intros id.
  apply wcost_bind; [apply wcost_ret|]. intros h. apply wcost_ret.
Qed.
Lemma wcost_serialize n : wcost (dirty n) (serialize C n).
Proof.
  induction n as [p v cs IH|p v id] using node_ind'; rewrite !serialize_eq.
  - rewrite dirty_eq. cbn [n_prefix n_value n_kids].
    refine (wcost_le (dblob p + (dblob v + (kdirty (KArc cs) + 0))) _ _ _ _); [|lia].
    apply wcost_bind; [apply wcost_blob|]. intros pb. apply wcost_bind; [apply wcost_blob|]. intros vb.
    apply wcost_bind; [|intros; apply wcost_ret].
    destruct cs as [|c cs]; cbn [ser_kids]; [apply wcost_ret|]. set (l := c :: cs) in *.
    refine (wcost_le (dirties l + (1 + (0 + 0))) _ _ _ _); [|cbn [kdirty]; subst l; cbn [some_kids]; lia].
    apply wcost_bind.
    + generalize (Some 0). induction IH as [|c' l' Hc _ IHl]; intros rs; cbn [sers]; [apply wcost_ret|].
      refine (wcost_le (dirty c' + (dirties l' + 0)) _ _ _ _); [|rewrite dirties_cons; lia].
      apply wcost_bind; [apply Hc|]. intros b. apply wcost_bind; [apply IHl|]. intros x. apply wcost_ret.
    + intros x. apply wcost_bind; [apply wcost_write|]. intros id. apply wcost_bind; [apply wcost_ret|]. intros h. apply wcost_ret.
  - rewrite dirty_eq. cbn [n_prefix n_value n_kids kdirty ser_kids].
    refine (wcost_le (dblob p + (dblob v + (0 + 0))) _ _ _ _); [|lia].
    apply wcost_bind; [apply wcost_blob|]. intros pb. apply wcost_bind; [apply wcost_blob|]. intros vb.
    apply wcost_bind; intros; apply wcost_ret.
Qed.
Lemma wcost_attached t : wcost (dirty t) (t_attached C t).
Proof. refine (wcost_le (dirty t + 0) _ _ _ _); [|lia]. apply wcost_bind; [apply wcost_serialize|]. intros b. apply wcost_ret. Qed.
Lemma wcost_reattach t : wcost (dirty t + 1) (t_reattach C t).
Proof.
  refine (wcost_le (dirty t + (1 + (0 + 0))) _ _ _ _); [|lia]. apply wcost_bind; [apply wcost_serialize|]. intros b.
  apply wcost_bind; [apply wcost_write|]. intros id. apply wcost_bind; [apply wcost_ret|]. intros x. apply wcost_ret.
Qed.

(** Afterwards the tree is stored. *)
Lemma attached_clean (S' : store) t s t' s' : t_attached S' t s = (Ok t', s') -> dirty t' = 0.
Proof.
  unfold t_attached, wbind. destruct (serialize S' t s) as [[d| | |] s1]; try discriminate. unfold wret.
  destruct (deserialize d) as [n| | |] eqn:E; intros X; inversion X; subst. eapply deserialize_dirty; eauto.
Qed.
Lemma reattach_clean (S' : store) t s id t' s' : t_reattach S' t s = (Ok (id, t'), s') -> dirty t' = 0.
Proof.
  unfold t_reattach, wbind. destruct (serialize S' t s) as [[d| | |] s1]; try discriminate. unfold w_write.
  destruct (st_write S' s1 d) as [[i| | |] s2]; try discriminate. unfold wret.
  destruct (deserialize d) as [n| | |] eqn:E; intros X; inversion X; subst. eapply deserialize_dirty; eauto.
Qed.
End Writes.

(** ** In-place operations *)
Fixpoint tweight (g : tree) : nat := match g with T p _ cs => length p + 4 + list_sum (map tweight cs) end.
Definition tweights (gs : list tree) : nat := list_sum (map tweight gs).
Lemma tweight_T p v cs : tweight (T p v cs) = length p + 4 + tweights cs.
Proof. reflexivity. Qed.
Lemma tweights_cons g gs : tweights (g :: gs) = tweight g + tweights gs.
Proof. reflexivity. Qed.
Lemma tweight_size g : 3 * size g <= tweight g.
Proof.
  induction g as [p v cs IH] using tree_ind'. rewrite size_T, tweight_T.
  assert (3 * sizes cs <= tweights cs); [|lia]. induction IH as [|c cs H _ IHc]; [cbn; lia|].
  rewrite sizes_cons, tweights_cons. lia.
Qed.
Lemma tweights_size gs : 3 * sizes gs <= tweights gs.
Proof. induction gs as [|g gs IH]; [cbn; lia|]. rewrite sizes_cons, tweights_cons. pose proof (tweight_size g). lia. Qed.

(** No empty edges below the root. *)
Inductive edges : tree -> Prop := edges_intro p v cs : Forall (fun c => tp c <> [] /\ edges c) cs -> edges (T p v cs).
Lemma edges_inv p v cs : edges (T p v cs) -> Forall (fun c => tp c <> [] /\ edges c) cs.
Proof. now inversion 1. Qed.
Lemma edges_cc g : cc g -> tp g <> [] /\ edges g.
Proof.
  induction g as [p v cs IH] using tree_ind'. intros C. inversion C as [? ? ? Np _ _ F]; subst. split; [exact Np|].
  constructor. rewrite Forall_forall in *. intros c Hc. apply IH; auto.
Qed.
Lemma edges_croot g : croot g -> edges g.
Proof.
  intros [->|(_ & _ & F)]; [constructor; constructor|]. destruct g as [p v cs]. constructor. cbn [tc] in F.
  eapply Forall_impl; [|exact F]. exact edges_cc.
Qed.

Lemma common_hd p q x : hd_error p = Some x -> hd_error q = Some x -> 1 <= common_prefix p q.
Proof. destruct p, q; cbn; try discriminate. intros [= ->] [= ->]. rewrite byte_eqb_refl. lia. Qed.
Lemma cmp_ob_eq a b : cmp_ob a b = Eq -> a = b.
Proof.
  unfold cmp_ob. destruct a as [x|], b as [y|]; try discriminate; auto. intros H. apply N.compare_eq in H. f_equal.
  now apply bnum_inj.
Qed.

Lemma canonicalize_dirty dbg n : ifok (fun r => dirty r <= dirty n) (canonicalize dbg n).
Proof.
  destruct n as [p v k]. unfold canonicalize. cbn [n_kids n_value n_prefix].
  destruct (dbg && negb _); [exact Logic.I|].
  assert (forall n1, dirty n1 <= dirty (Node p v k) ->
    ifok (fun r => dirty r <= dirty (Node p v k)) (if negb (has_value n1) && (child_count n1 =? 0)
      then Ok (Node (Data []) (n_value n1) (KId [])) else Ok n1)) as A.
  { intros n1 L. destruct (_ && _); cbn [ifok]; [|exact L]. rewrite !dirty_eq in *. cbn [n_prefix n_value n_kids kdirty dblob length] in *.
    change (0 <? 128) with true. cbn iota. lia. }
  destruct (blob_opt v) as [b|] eqn:Ev; [apply A; lia|]. destruct k as [[|c [|d l]]|id]; try (apply A; lia).
  destruct (dbg && _); [exact Logic.I|]. cbn [bind]. apply A. rewrite !dirty_eq. cbn [n_prefix n_value n_kids kdirty some_kids dirties map list_sum fold_right].
  rewrite (dirty_eq c). pose proof (dblob_le (Data (blob_slice p ++ blob_slice (n_prefix c)))). lia.
Qed.

Lemma shorten_T k p v cs : shorten k (T p v cs) = T (skipn k p) v cs.
Proof. reflexivity. Qed.
Lemma shorten_weight k p v cs : k <= length p -> tweight (shorten k (T p v cs)) = length p - k + 4 + tweights cs.
Proof. intros H. rewrite shorten_T, tweight_T, skipn_length. lia. Qed.
Lemma skipn_nonempty k (p : bytes) : k < length p -> skipn k p <> [].
Proof. intros H E. apply (f_equal (@length _)) in E. rewrite skipn_length in E. cbn in E. lia. Qed.

Section Ops.
Context (dbg ids : bool) (rd : reader).
Notation RA := (Rep ids rd).
Notation RB := (Rep false detached_read).

Definition kidA (x : node) : Prop := exists g, RA x g /\ tp g <> [] /\ edges g.
Definition kidB (y : node) (g : tree) : Prop := RB y g /\ tp g <> [] /\ edges g.

(** What the second operand looks like. *)
Lemma b_view b q w ys : RB b (T q w ys) -> edges (T q w ys) ->
  n_prefix b = Data q /\ (exists bs, Forall2 kidB bs ys /\
    load_children detached_read b = Ok (match bs with [] => None | _ => Some (IOwned bs) end)).
Proof.
  intros R E. apply Rep_inv in R as (RP & _ & bs & RK & F). apply edges_inv in E. split.
  - destruct RP as [->|[X _]]; [reflexivity|discriminate].
  - exists bs. split.
    + clear RK. induction F as [|y g bs ys Ry F IH]; constructor; inversion E; subst; auto. split; auto.
    + unfold load_children. destruct RK as [->|[[-> ->]|(r & id & data & _ & X & _)]]; [now destruct bs|reflexivity|discriminate].
Qed.
Lemma b_short b q w ys n : RB b (T q w ys) -> edges (T q w ys) -> n < length q ->
  exists b', r_clone_shortened detached_read (ROwned b) n = Ok b' /\ kidB b' (shorten n (T q w ys)).
Proof.
  intros R E H. destruct (clone_shortened_ok false detached_read b (T q w ys) n R) as (b' & Eb & Rb & _); [cbn; lia|].
  exists b'. split; [exact Eb|]. split; [exact Rb|]. rewrite shorten_T. split; [cbn; now apply skipn_nonempty|].
  apply edges_inv in E. now constructor.
Qed.

(** What the first operand looks like. *)
Lemma a_load a p v xs : RA a (T p v xs) -> edges (T p v xs) ->
  exists ac, load_children_mut rd a = Ok ac /\ Forall kidA ac /\ dirties ac <= kdirty (n_kids a).
Proof.
  intros R E. apply Rep_inv in R as (_ & _ & ns & RK & F). apply edges_inv in E.
  assert (Forall kidA ns) as Fk.
  { clear RK. induction F as [|y g bs ys Ry F IH]; constructor; inversion E; subst; auto. exists g. tauto. }
  exists ns. unfold load_children_mut. destruct RK as [->|[[-> ->]|(r & id & data & -> & Er & Hd & _)]].
  - cbn [kdirty]. repeat split; auto; lia.
  - repeat split; auto.
  - rewrite Er. cbn [bind]. assert (collect_owned (S (length data)) data = Ok ns) as Ec by (apply collect_owned_ok; auto).
    rewrite Ec. rewrite (collect_dirty _ _ _ Ec). repeat split; auto; lia.
Qed.
Lemma a_split a p v xs n : RA a (T p v xs) -> edges (T p v xs) -> n < length p ->
  exists a1 m, split rd a n = Ok a1 /\ load_children_mut rd a1 = Ok [m] /\ kidA m /\
    n_value a1 = bnone /\ dblob (n_prefix a1) + 1 + dirty m <= dirty a + 3.
Proof.
  intros R E H. pose proof (Rep_inv _ _ _ _ _ _ R) as (RP & _ & ns & RK & F). apply edges_inv in E.
  unfold split. rewrite (RepP_load _ _ _ _ RP). cbn [bind]. rewrite slice_from_ok, slice_to_ok by lia. cbn [bind].
  do 2 eexists. split; [reflexivity|]. split; [reflexivity|]. split; [|split; [reflexivity|]].
  - exists (T (skipn n p) v xs). split; [|split; [now apply skipn_nonempty|now constructor]].
    apply Rep_inv in R as (_ & RV & _). eapply Rep_mk; cbn; eauto. now left.
  - cbn [n_prefix]. rewrite (dirty_eq a), (dirty_eq (Node _ _ _)). cbn [n_prefix n_value n_kids].
    pose proof (dblob_le (Data (firstn n p))). pose proof (dblob_le (Data (skipn n p))). lia.
Qed.

Definition cost_rec (rec : node -> noderef -> res node) : Prop :=
  forall a ga b gb, RA a ga -> edges ga -> RB b gb -> edges gb ->
  ifok (fun r => dirty r + common_prefix (tp ga) (tp gb) <= dirty a + tweight gb + 1) (rec a (ROwned b)).

Lemma cmp_eq_common x ac y bs gx gy : RA x gx -> tp gx <> [] -> RB y gy -> tp gy <> [] ->
  cmp_with (x :: ac) (IOwned (y :: bs)) = Some Eq -> 1 <= common_prefix (tp gx) (tp gy).
Proof.
  intros Rx Nx Ry Ny. cbn [cmp_with it_first]. intros [= E]. apply cmp_ob_eq in E.
  rewrite (Rep_first _ _ _ _ Rx), (Rep_first _ _ _ _ Ry) in E.
  destruct (tp gx) as [|c p] eqn:Ep; [congruence|]. apply (common_hd _ _ c); [reflexivity|now symmetry].
Qed.

Lemma pmerge_dirty keep ins rec : cost_rec rec ->
  (forall c, ins = Some c -> forall fuel y g, RB y g -> ifok (fun x => dirty x <= 3 * size g) (conv_node c fuel (ROwned y))) ->
  forall fuel ac bs ys, Forall kidA ac -> Forall2 kidB bs ys ->
  ifok (fun rs => dirties rs <= dirties ac + tweights ys) (pmerge keep ins rec fuel ac (IOwned bs)).
Proof.
  intros Hr Hc. induction fuel as [|fuel IH]; intros ac bs ys Fa Fb; [exact Logic.I|]. cbn [pmerge].
  destruct (cmp_with ac (IOwned bs)) as [[| |]|] eqn:Ec.
  - destruct ac as [|x ac]; [exact Logic.I|]. destruct Fb as [|y g bs ys (Ry & Ny & Ey) Fb]; [exact Logic.I|]. cbn [it_next].
    inversion Fa as [|? ? (gx & Rx & Nx & Ex) Fa']; subst. pose proof (cmp_eq_common _ _ _ _ _ _ Rx Nx Ry Ny Ec) as L.
    eapply ifok_bind; [apply (Hr x gx y g); auto|]. intros r Lr. cbn beta in Lr.
    eapply ifok_bind; [apply (IH ac bs ys); auto|]. intros rs Lrs. cbn beta in Lrs. cbn [ifok].
    rewrite dirties_cons, tweights_cons. destruct (is_empty r); [|rewrite dirties_cons]; lia.
  - destruct ac as [|x ac]; [exact Logic.I|]. inversion Fa; subst. rewrite dirties_cons. destruct keep.
    + eapply ifok_bind; [apply (IH ac bs ys); auto|]. intros rs Lrs. cbn beta in Lrs. cbn [ifok]. rewrite dirties_cons. lia.
    + specialize (IH ac bs ys ltac:(auto) Fb). destruct (pmerge false ins rec fuel ac (IOwned bs)); cbn in *; auto. lia.
  - destruct Fb as [|y g bs ys (Ry & Ny & Ey) Fb]; [exact Logic.I|]. cbn [it_next]. rewrite tweights_cons.
    destruct ins as [c|].
    + eapply ifok_bind; [apply (Hc c eq_refl fuel y g Ry)|]. intros x Lx. cbn beta in Lx.
      eapply ifok_bind; [apply (IH ac bs ys); auto|]. intros rs Lrs. cbn beta in Lrs. cbn [ifok]. rewrite dirties_cons.
      pose proof (tweight_size g). lia.
    + specialize (IH ac bs ys Fa Fb). destruct (pmerge keep None rec fuel ac (IOwned bs)); cbn in *; auto. lia.
  - cbn [ifok]. cbn. lia.
Qed.

Definition kids_cost (cf : list node -> option iter -> res (list node)) : Prop :=
  forall ac bs ys, Forall kidA ac -> Forall2 kidB bs ys ->
  ifok (fun rs => dirties rs <= dirties ac + tweights ys) (cf ac (match bs with [] => None | _ => Some (IOwned bs) end)).

Lemma ifok_le {A} (P Q : A -> Prop) r : ifok P r -> (forall x, P x -> Q x) -> ifok Q r.
Proof. destruct r; cbn; auto. Qed.

Lemma left_kids rec fuel : cost_rec rec -> kids_cost (left_children_with rec fuel).
Proof.
  intros Hr ac bs ys Fa Fb. pose proof (pmerge_dirty true None rec Hr ltac:(discriminate) fuel ac bs ys Fa Fb) as P.
  rewrite <- left_merge in P. destruct bs as [|y bs]; cbn [left_children_with ifok]; [lia|].
  destruct ac as [|x ac]; [cbn; lia|exact P].
Qed.
Lemma inner_kids rec fuel : cost_rec rec -> kids_cost (inner_children_with rec fuel).
Proof.
  intros Hr ac bs ys Fa Fb. pose proof (pmerge_dirty false None rec Hr ltac:(discriminate) fuel ac bs ys Fa Fb) as P.
  rewrite <- inner_merge in P. destruct bs as [|y bs]; cbn [inner_children_with ifok]; [cbn; lia|].
  destruct ac as [|x ac]; [cbn; lia|exact P].
Qed.

Section Outer.
Context (c : converter) (f : blob -> blob -> res blob).
Context (HcN : forall fuel y g, RB y g -> ifok (fun x => dirty x <= 3 * size g) (conv_node c fuel (ROwned y))).
Context (HcS : forall fuel y g k, RB y g -> k <= length (tp g) ->
  ifok (fun x => dirty x <= 3 * size g) (conv_node_shortened c fuel (ROwned y) k)).

Lemma convert_dirty : forall fuel bs ys, Forall2 kidB bs ys ->
  ifok (fun rs => dirties rs <= tweights ys) (convert_loop c fuel (IOwned bs)).
Proof.
  induction fuel as [|fuel IH]; intros bs ys F; [exact Logic.I|]. cbn [convert_loop].
  destruct F as [|y g bs ys (Ry & Ny & Ey) Fb]; cbn [it_next ifok]; [cbn; lia|]. rewrite tweights_cons.
  eapply ifok_bind; [apply (HcN fuel y g Ry)|]. intros x Lx. cbn beta in Lx.
  eapply ifok_bind; [apply (IH bs ys); auto|]. intros rs Lrs. cbn beta in Lrs. cbn [ifok]. rewrite dirties_cons.
  pose proof (tweight_size g). lia.
Qed.
Lemma outer_kids rec fuel : cost_rec rec -> kids_cost (outer_children_with c rec fuel).
Proof.
  intros Hr ac bs ys Fa Fb. pose proof (pmerge_dirty true (Some c) rec Hr ltac:(intros ? [= <-]; exact HcN) fuel ac bs ys Fa Fb) as P.
  rewrite <- outer_merge in P. destruct bs as [|y bs]; cbn [outer_children_with ifok]; [lia|].
  destruct ac as [|x ac]; [|exact P]. exact (convert_dirty fuel _ _ Fb).
Qed.
End Outer.

(** The end of each operation: new children for [a]. *)
Lemma finish_dirty M a cf ac bs ys : kids_cost cf -> Forall kidA ac -> Forall2 kidB bs ys ->
  dblob (n_prefix a) + dblob (n_value a) + 1 + dirties ac + tweights ys <= M ->
  ifok (fun r => dirty r <= M) (ac' <- cf ac (match bs with [] => None | _ => Some (IOwned bs) end) ;; canonicalize dbg (set_kids a (KArc ac'))).
Proof.
  intros Hf Fa Fb L. eapply ifok_bind; [exact (Hf ac bs ys Fa Fb)|]. intros ac' La. cbn beta in La.
  eapply ifok_le; [apply canonicalize_dirty|]. cbn beta. intros r Lr. rewrite (dirty_eq (set_kids _ _)) in Lr.
  cbn [set_kids n_prefix n_value n_kids kdirty] in Lr. pose proof (some_le ac'). lia.
Qed.
Lemma cut_dirty a : ifok (fun r => dirty r <= dirty a) (canonicalize dbg (set_kids (set_value a bnone) (KId []))).
Proof.
  eapply ifok_le; [apply canonicalize_dirty|]. cbn beta. intros r Lr. rewrite (dirty_eq (set_kids _ _)) in Lr. rewrite (dirty_eq a).
  cbn [set_kids set_value n_prefix n_value n_kids kdirty] in Lr. change (dblob bnone) with 0 in Lr. lia.
Qed.

(** The parts of the proofs that are the same for all operations. *)
Ltac start := intros a ga b gb Ra Ea Rb Eb; destruct ga as [p v xs], gb as [q w ys]; cbn [tp];
  pose proof (proj1 (Rep_inv _ _ _ _ _ _ Ra)) as RP; pose proof (b_view _ _ _ _ Rb Eb) as (Pb & bs & Fb & Lb);
  pose proof (common_prefix_le_l p q) as L1; pose proof (common_prefix_le_r p q) as L2;
  rewrite tweight_T.
Ltac weaken M := apply (ifok_le (fun r => dirty r <= M)); [|intros ?r ?H; lia].

Lemma case_load a p v xs cf bs ys M : RA a (T p v xs) -> edges (T p v xs) -> kids_cost cf -> Forall2 kidB bs ys ->
  dirty a + 1 + tweights ys <= M ->
  ifok (fun r => dirty r <= M) (ac <- load_children_mut rd a ;;
    ac' <- cf ac (match bs with [] => None | _ => Some (IOwned bs) end) ;; canonicalize dbg (set_kids a (KArc ac'))).
Proof.
  intros Ra Ea Hf Fb L. destruct (a_load _ _ _ _ Ra Ea) as (ac & -> & Fa & La). cbn [bind].
  apply (finish_dirty M a cf ac bs ys); auto. rewrite dirty_eq in L. lia.
Qed.
(** The same when the value of [a] is changed first. *)
Lemma set_value_load a v' : load_children_mut rd (set_value a v') = load_children_mut rd a.
Proof. reflexivity. Qed.
Lemma case_load_value a p v xs cf bs ys M v' : RA a (T p v xs) -> edges (T p v xs) -> kids_cost cf -> Forall2 kidB bs ys ->
  dirty a + 1 + dblob v' + tweights ys <= M ->
  ifok (fun r => dirty r <= M) (ac <- load_children_mut rd (set_value a v') ;;
    ac' <- cf ac (match bs with [] => None | _ => Some (IOwned bs) end) ;; canonicalize dbg (set_kids (set_value a v') (KArc ac'))).
Proof.
  intros Ra Ea Hf Fb L. rewrite set_value_load. destruct (a_load _ _ _ _ Ra Ea) as (ac & -> & Fa & La). cbn [bind].
  apply (finish_dirty M (set_value a v') cf ac bs ys); auto. rewrite dirty_eq in L. cbn [set_value n_prefix n_value]. lia.
Qed.
Lemma case_short a p v xs cf b q w ys M n v' : RA a (T p v xs) -> edges (T p v xs) -> kids_cost cf ->
  RB b (T q w ys) -> edges (T q w ys) -> n < length q -> dblob v' <= dblob (n_value a) ->
  dirty a + 1 + (length q - n + 4 + tweights ys) <= M ->
  ifok (fun r => dirty r <= M) (ac <- load_children_mut rd (set_value a v') ;; b' <- r_clone_shortened detached_read (ROwned b) n ;;
    ac' <- cf ac (it_single b') ;; canonicalize dbg (set_kids (set_value a v') (KArc ac'))).
Proof.
  intros Ra Ea Hf Rb Eb Hn Lv L. rewrite set_value_load. destruct (a_load _ _ _ _ Ra Ea) as (ac & -> & Fa & La). cbn [bind].
  destruct (b_short _ _ _ _ n Rb Eb Hn) as (b' & -> & Kb). cbn [bind].
  apply (finish_dirty M (set_value a v') cf ac [b'] [shorten n (T q w ys)]); auto.
  rewrite tweights_cons, shorten_weight by lia. change (tweights []) with 0. rewrite dirty_eq in L. cbn [set_value n_prefix n_value]. lia.
Qed.
Lemma set_same a : set_value a (n_value a) = a.
Proof. now destruct a. Qed.
Lemma case_short' a p v xs cf b q w ys M n : RA a (T p v xs) -> edges (T p v xs) -> kids_cost cf ->
  RB b (T q w ys) -> edges (T q w ys) -> n < length q -> dirty a + 1 + (length q - n + 4 + tweights ys) <= M ->
  ifok (fun r => dirty r <= M) (ac <- load_children_mut rd a ;; b' <- r_clone_shortened detached_read (ROwned b) n ;;
    ac' <- cf ac (it_single b') ;; canonicalize dbg (set_kids a (KArc ac'))).
Proof.
  intros Ra Ea Hf Rb Eb Hn L. pose proof (case_short a p v xs cf b q w ys M n (n_value a) Ra Ea Hf Rb Eb Hn (le_n _) L) as P.
  now rewrite set_same in P.
Qed.
Lemma case_split a p v xs cf bs ys M n : RA a (T p v xs) -> edges (T p v xs) -> kids_cost cf -> Forall2 kidB bs ys -> n < length p ->
  dirty a + 3 + tweights ys <= M ->
  ifok (fun r => dirty r <= M) (a1 <- split rd a n ;; ac <- load_children_mut rd a1 ;;
    ac' <- cf ac (match bs with [] => None | _ => Some (IOwned bs) end) ;; canonicalize dbg (set_kids a1 (KArc ac'))).
Proof.
  intros Ra Ea Hf Fb Hn L. destruct (a_split _ _ _ _ n Ra Ea Hn) as (a1 & m & -> & Lm & Km & Vm & D). cbn [bind]. rewrite Lm. cbn [bind].
  apply (finish_dirty M a1 cf [m] bs ys); auto. rewrite Vm. change (dblob bnone) with 0. rewrite dirties_cons. change (dirties []) with 0. lia.
Qed.

Ltac opened RP Pb := cbn [bind]; rewrite (RepP_load _ _ _ _ RP); cbn [bind r_prefix]; rewrite Pb; cbn [load_prefix bind].

Lemma left_cost f : forall fuel, cost_rec (left_combine_with dbg rd detached_read f fuel).
Proof.
  induction fuel as [|fuel IH]; [intros a ga b gb _ _ _ _; exact Logic.I|]. start. cbn [left_combine_with]. opened RP Pb.
  pose proof (left_kids _ fuel IH) as Hk.
  set (n := common_prefix p q) in *. cbn zeta.
  destruct ((n =? length p) && (n =? length q)) eqn:E1.
  - apply andb_true_iff in E1 as [E1 E2]. apply Nat.eqb_eq in E1, E2. weaken (dirty a + 2 + tweights ys).
    cbn [r_load_children]. rewrite Lb.
    assert (forall a1 v', a1 = set_value a v' -> dblob v' <= dblob (n_value a) + 1 -> dblob v' <= 1 -> 
      ifok (fun r => dirty r <= dirty a + 2 + tweights ys) (ac <- load_children_mut rd a1 ;;
      bc <- Ok (match bs with [] => None | _ => Some (IOwned bs) end) ;;
      ac' <- left_children_with (left_combine_with dbg rd detached_read f fuel) fuel ac bc ;; canonicalize dbg (set_kids a1 (KArc ac')))) as A.
    { intros a1 v' -> Lv L3. cbn [bind]. eapply case_load_value; eauto. lia. }
    pose proof (dblob_le (n_value a)) as Lv.
    destruct (r_value_opt (ROwned b)) as [bv|]; [destruct (blob_opt (n_value a)) as [av|]; [apply ifok_bind'; intros a1 H; destruct (f av bv) as [u| | |]; cbn [bind] in H; inversion H; subst|cbn [bind]]|cbn [bind]];
      [apply (A _ u); auto; [pose proof (dblob_le u); lia|apply dblob_le]|apply (A _ (n_value a)); auto; [now rewrite set_same|lia]..].
  - destruct (Nat.eqb_spec n (length p)) as [E2|E2].
    + assert (n < length q) by (destruct (Nat.eqb_spec n (length q)); cbn in E1; [discriminate|lia]).
      weaken (dirty a + 1 + (length q - n + 4 + tweights ys)). eapply case_short'; eauto.
    + destruct (Nat.eqb_spec n (length q)) as [E3|E3].
      * weaken (dirty a + 3 + tweights ys). cbn [r_load_children]. rewrite Lb. cbn [bind]. eapply case_split; eauto. lia.
      * weaken (dirty a). apply canonicalize_dirty.
Qed.

Lemma inner_cost f : forall fuel, cost_rec (inner_combine_with dbg rd detached_read f fuel).
Proof.
  induction fuel as [|fuel IH]; [intros a ga b gb _ _ _ _; exact Logic.I|]. start. cbn [inner_combine_with]. opened RP Pb.
  pose proof (inner_kids _ fuel IH) as Hk.
  set (n := common_prefix p q) in *. cbn zeta.
  destruct ((n =? length p) && (n =? length q)) eqn:E1.
  - apply andb_true_iff in E1 as [E1 E2]. apply Nat.eqb_eq in E1, E2. weaken (dirty a + 2 + tweights ys).
    cbn [r_load_children]. rewrite Lb.
    assert (forall a1 v', a1 = set_value a v' ->
      ifok (fun r => dirty r <= dirty a + 2 + tweights ys) (ac <- load_children_mut rd a1 ;;
      bc <- Ok (match bs with [] => None | _ => Some (IOwned bs) end) ;;
      ac' <- inner_children_with (inner_combine_with dbg rd detached_read f fuel) fuel ac bc ;; canonicalize dbg (set_kids a1 (KArc ac')))) as A.
    { intros a1 v' ->. cbn [bind]. eapply case_load_value; eauto. pose proof (dblob_le v'). lia. }
    destruct (blob_opt (n_value a)) as [av|]; [destruct (r_value_opt (ROwned b)) as [bv|]; [apply ifok_bind'; intros a1 H; destruct (f av bv) as [u| | |]; cbn [bind] in H; inversion H; subst|cbn [bind]]|cbn [bind]];
      [apply (A _ u); auto|apply (A _ bnone); auto..].
  - destruct (Nat.eqb_spec n (length p)) as [E2|E2].
    + assert (n < length q) by (destruct (Nat.eqb_spec n (length q)); cbn in E1; [discriminate|lia]).
      weaken (dirty a + 1 + (length q - n + 4 + tweights ys)). eapply case_short; eauto. cbn. lia.
    + destruct (Nat.eqb_spec n (length q)) as [E3|E3].
      * weaken (dirty a + 3 + tweights ys). cbn [r_load_children]. rewrite Lb. cbn [bind]. eapply case_split; eauto. lia.
      * weaken (dirty a). apply cut_dirty.
Qed.

Lemma retain_cost f : forall fuel, cost_rec (retain_prefix_with dbg rd detached_read f fuel).
Proof.
  induction fuel as [|fuel IH]; [intros a ga b gb _ _ _ _; exact Logic.I|]. start. cbn [retain_prefix_with]. opened RP Pb.
  pose proof (inner_kids _ fuel IH) as Hk.
  set (n := common_prefix p q) in *. cbn zeta.
  destruct ((n =? length p) && (n =? length q)) eqn:E1.
  - apply andb_true_iff in E1 as [E1 E2]. apply Nat.eqb_eq in E1, E2. apply ifok_bind'. intros [|] _.
    + weaken (dirty a). apply canonicalize_dirty.
    + weaken (dirty a + 2 + tweights ys). cbn [r_load_children]. rewrite Lb.
      destruct (load_children_mut rd (set_value a bnone)) as [ac| | |] eqn:El; try exact Logic.I. cbn [bind].
      pose proof (case_load_value a p v xs _ bs ys (dirty a + 2 + tweights ys) bnone Ra Ea Hk Fb ltac:(cbn; lia)) as P.
      rewrite El in P. exact P.
  - destruct (Nat.eqb_spec n (length q)) as [E3|E3].
    + assert (n < length p) by (destruct (Nat.eqb_spec n (length p)); cbn in E1; [discriminate|lia]).
      destruct (r_value_opt (ROwned b)) as [bv|].
      * apply ifok_bind'. intros [|] _; weaken (dirty a); [apply canonicalize_dirty|apply cut_dirty].
      * weaken (dirty a + 3 + tweights ys). cbn [r_load_children]. rewrite Lb. cbn [bind]. eapply case_split; eauto.
    + destruct (Nat.eqb_spec n (length p)) as [E2|E2].
      * weaken (dirty a + 1 + (length q - n + 4 + tweights ys)). eapply case_short; eauto; [lia|cbn; lia].
      * weaken (dirty a). apply cut_dirty.
Qed.

Lemma remove_cost f : forall fuel, cost_rec (remove_prefix_with dbg rd detached_read f fuel).
Proof.
  induction fuel as [|fuel IH]; [intros a ga b gb _ _ _ _; exact Logic.I|]. start. cbn [remove_prefix_with]. opened RP Pb.
  pose proof (left_kids _ fuel IH) as Hk.
  set (n := common_prefix p q) in *. cbn zeta.
  destruct ((n =? length p) && (n =? length q)) eqn:E1.
  - apply andb_true_iff in E1 as [E1 E2]. apply Nat.eqb_eq in E1, E2. apply ifok_bind'. intros [|] _.
    + weaken (dirty a). apply cut_dirty.
    + weaken (dirty a + 2 + tweights ys). cbn [r_load_children]. rewrite Lb. cbn [bind]. eapply case_load; eauto. lia.
  - destruct (Nat.eqb_spec n (length q)) as [E3|E3].
    + assert (n < length p) by (destruct (Nat.eqb_spec n (length p)); cbn in E1; [discriminate|lia]).
      apply ifok_bind'. intros [|] _.
      * weaken (dirty a). apply cut_dirty.
      * weaken (dirty a + 3 + tweights ys). cbn [r_load_children]. rewrite Lb. cbn [bind]. eapply case_split; eauto.
    + destruct (Nat.eqb_spec n (length p)) as [E2|E2].
      * weaken (dirty a + 1 + (length q - n + 4 + tweights ys)). eapply case_short'; eauto. lia.
      * weaken (dirty a). apply canonicalize_dirty.
Qed.

Section OuterOp.
Context (c : converter) (f : blob -> blob -> res blob).
Context (HcN : forall fuel y g, RB y g -> ifok (fun x => dirty x <= 3 * size g) (conv_node c fuel (ROwned y))).
Context (HcS : forall fuel y g k, RB y g -> k <= length (tp g) ->
  ifok (fun x => dirty x <= 3 * size g) (conv_node_shortened c fuel (ROwned y) k)).

Lemma outer_value a1 o : ifok (fun a2 => exists v', a2 = set_value a1 v' /\ dblob v' <= dblob (n_value a1) + 1)
  (match o with
   | Some bv => match blob_opt (n_value a1) with
                | Some av => v <- f av bv ;; Ok (set_value a1 v)
                | None => v <- conv_value c bv ;; Ok (set_value a1 v)
                end
   | None => Ok a1
   end).
Proof.
  assert (forall r, ifok (fun a2 => exists v', a2 = set_value a1 v' /\ dblob v' <= dblob (n_value a1) + 1) (v <- r ;; Ok (set_value a1 v))) as A.
  { intros [v'| | |]; cbn [bind ifok]; auto. exists v'. split; [reflexivity|]. pose proof (dblob_le v'). lia. }
  destruct o as [bv|]; [destruct (blob_opt _); apply A|]. exists (n_value a1). split; [now rewrite set_same|lia].
Qed.

Lemma outer_cost : forall fuel, cost_rec (outer_combine_with dbg rd detached_read c f fuel).
Proof.
  induction fuel as [|fuel IH]; [intros a ga b gb _ _ _ _; exact Logic.I|]. start. cbn [outer_combine_with]. opened RP Pb.
  pose proof (outer_kids c HcN _ fuel IH) as Hk.
  set (n := common_prefix p q) in *. cbn zeta.
  destruct (Nat.eqb_spec n (length q)) as [E1|E1].
  - weaken (dirty a + 4 + tweights ys). cbn [r_load_children]. rewrite Lb.
    destruct (Nat.eqb_spec n (length p)) as [E2|E2]; cbn [negb].
    + cbn [bind]. eapply ifok_bind; [apply outer_value|]. intros a2 (v' & -> & Lv). cbn beta. rewrite set_value_load.
      destruct (a_load _ _ _ _ Ra Ea) as (ac & -> & Fa & La). cbn [bind].
      apply (finish_dirty _ (set_value a v') _ ac bs ys Hk Fa Fb). rewrite (dirty_eq a). cbn [set_value n_prefix n_value]. lia.
    + destruct (a_split _ _ _ _ n Ra Ea ltac:(lia)) as (a1 & m & -> & Lm & Km & Vm & D). cbn [bind].
      eapply ifok_bind; [apply outer_value|]. intros a2 (v' & -> & Lv). cbn beta. rewrite set_value_load, Lm. cbn [bind].
      apply (finish_dirty _ (set_value a1 v') _ [m] bs ys Hk); auto. cbn [set_value n_prefix n_value].
      rewrite Vm in Lv. change (dblob bnone) with 0 in Lv. rewrite dirties_cons. change (dirties []) with 0. lia.
  - destruct (Nat.eqb_spec n (length p)) as [E2|E2].
    + weaken (dirty a + 1 + (length q - n + 4 + tweights ys)). eapply case_short'; eauto. lia.
    + weaken (dirty a + 3 + (3 + tweights ys)).
      destruct (a_split _ _ _ _ n Ra Ea ltac:(lia)) as (a1 & m & -> & Lm & Km & Vm & D). cbn [bind]. rewrite Lm. cbn [bind].
      eapply ifok_bind; [apply (HcS fuel b (T q w ys) n Rb); cbn; lia|]. intros b' Lb'. cbn beta in Lb'.
      eapply ifok_le; [apply canonicalize_dirty|]. cbn beta. intros r Lr. rewrite (dirty_eq (set_kids _ _)) in Lr.
      cbn [set_kids n_prefix n_value n_kids kdirty] in Lr. rewrite Vm in Lr. change (dblob bnone) with 0 in Lr.
      rewrite size_T in Lb'. pose proof (tweights_size ys).
      assert (some_kids (sort2 m b') + dirties (sort2 m b') = 1 + dirty m + dirty b') as Es.
      { unfold sort2. destruct (cmp_ob _ _); cbn; lia. }
      lia.
Qed.
End OuterOp.

(** The converters. *)
Lemma downcast_N fuel y g : RB y g -> ifok (fun x => dirty x <= 3 * size g) (conv_node downcast_converter fuel (ROwned y)).
Proof. intros R. cbn. exact (Rep_dirty _ _ _ _ R). Qed.
Lemma downcast_S fuel y g k : RB y g -> k <= length (tp g) ->
  ifok (fun x => dirty x <= 3 * size g) (conv_node_shortened downcast_converter fuel (ROwned y) k).
Proof.
  intros R L. cbn [conv_node_shortened downcast_converter r_clone_shortened].
  destruct (clone_shortened_ok _ _ _ _ k R L) as (n' & -> & R' & _). cbn [ifok]. rewrite <- (size_shorten k g). exact (Rep_dirty _ _ _ _ R').
Qed.
Lemma r_detached_dirty fuel y g : RB y g -> ifok (fun x => dirty x <= 3 * size g) (r_detached detached_read fuel (ROwned y)).
Proof.
  intros R. pose proof (Rep_NRep false detached_read True _ _ R) as H.
  destruct (r_detached_True false detached_read (fuel + Datatypes.S (size g)) (ROwned y) g H) as (n & E & D & _); [lia|].
  destruct (r_detached_sim false detached_read detached_read (fun id => sim_refl false (detached_read id)) fuel (fuel + Datatypes.S (size g)) (ROwned y))
    as [X|[[X _]|X]]; [lia|now rewrite X|discriminate|]. rewrite X, E. cbn [ifok]. exact (Rep_dirty _ _ _ _ D).
Qed.
Lemma detach_S fuel y g k : RB y g -> k <= length (tp g) ->
  ifok (fun x => dirty x <= 3 * size g) (conv_node_shortened (detach_converter detached_read) fuel (ROwned y) k).
Proof.
  intros R L. cbn [conv_node_shortened detach_converter r_clone_shortened].
  destruct (clone_shortened_ok _ _ _ _ k R L) as (n' & -> & R' & _). cbn [bind]. rewrite <- (size_shorten k g). now apply r_detached_dirty.
Qed.
End Ops.
