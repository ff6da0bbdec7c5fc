(** The combines that make a new tree with closures that panic, on the heap, do what they do on nodes as values (Combine.v). *)
From Verif Require Import Base BaseLemmas Header Node Combine Store Heap HeapSpec HeapProofs HeapOps HeapIter HeapTree HeapBorrow HeapMerge HeapClean
  HeapTreeOps HeapTreeRec HeapTreeOuter HeapJoinPure HeapJoin HeapFail HeapFailOps.

(** On nodes as values the operation returned, or the closure panicked. *)
Definition settled {X} (r : res X) : Prop := match r with Ok _ | Err => True | _ => False end.
(** Nothing is left over of what was unwound. *)
Definition may {A X} (R B : list item) (P : X -> A -> heap -> ghost -> Prop) (ro : res X) (o : option A) (h : heap) (G : ghost) : Prop :=
  match ro, o with
  | Ok r, Some a => P r a h G
  | Err, None => inv h G (R ++ B)
  | _, _ => False
  end.
Lemma settle {A C} (r : res A) (k : A -> res C) : settled (bind r k) -> (exists x, r = Ok x /\ settled (k x)) \/ r = Err.
Proof. destruct r as [x| | |]; cbn; try tauto. intros H. left. eauto. Qed.
Lemma settle_ne {A C} (r : res A) (k : A -> res C) : r <> Err -> settled (bind r k) -> exists x, r = Ok x /\ settled (k x).
Proof. intros N H. destruct (settle r k H) as [H'|H']; [exact H'|contradiction]. Qed.
Ltac setl S x E N := match type of S with settled (bind ?r ?k) => let S' := fresh in destruct (settle_ne r k N S) as (x & E & S'); clear S; rename S' into S; rewrite E; cbn [bind] end.

Lemma wpk_unless {A C X Y} (m : M (option A)) (k : A -> M (option C)) R B (P : X -> A -> heap -> ghost -> Prop) (Q : Y -> C -> heap -> ghost -> Prop) ro ro' h G :
  wpk m R B (may R B P ro) h G -> (ro = Err -> ro' = Err) ->
  (forall x a h' G', ro = Ok x -> P x a h' G' -> keeps B h G h' G' -> wpk (k a) R B (may R B Q ro') h' G') ->
  wpk (unless_unwound m k) R B (may R B Q ro') h G.
Proof.
  intros W He Hk. eapply wpk_bind; [exact W|]. intros [a|] h1 G1 H K; destruct ro as [x| | |]; cbn [may] in H; try contradiction.
  - apply (Hk x a h1 G1 eq_refl H K).
  - rewrite (He eq_refl). apply wpk_ret. exact H.
Qed.
Lemma wpk_made {A X} (m : M A) R B (P : X -> A -> heap -> ghost -> Prop) r h G : wpk m R B (P r) h G -> wpk (made m) R B (may R B P (Ok r)) h G.
Proof. intros W. eapply wpk_bind; [exact W|]. intros a h1 G1 H _. apply wpk_ret. exact H. Qed.

Definition njoin_ok (hrec : cnode -> cnode -> M (option cnode)) (prec : noderef -> noderef -> res node) : Prop :=
  forall n m, settled (prec (ROwned n) (ROwned m)) -> forall R B h G a b, inv h G (R ++ B) -> bor h G B a n -> bor h G B b m ->
    wpk (hrec a b) R B (may R B (owned R B) (prec (ROwned n) (ROwned m))) h G.
Definition nkids_ok (hk : option biter -> option biter -> M (option (option addr))) (pk : option iter -> option iter -> res (option (list node))) : Prop :=
  forall ac bc, settled (pk ac bc) -> forall R B h G o o', inv h G (R ++ B) -> orep h G B o ac -> orep h G B o' bc ->
    wpk (hk o o') R B (may R B (cpost R B) (pk ac bc)) h G.
Definition nodes_post (R B : list item) (rs : list node) : list cnode -> heap -> ghost -> Prop := lpost R B rs True.

(** ** Loops *)
Lemma nkeep_ok chk r c rso R B h G (rest : M (option (list cnode))) :
  inv h G (node_items c ++ R ++ B) -> crep G c r -> settled rso ->
  (forall R' h' G', inv h' G' (R' ++ B) -> keeps B h G h' G' -> wpk rest R' B (may R' B (nodes_post R' B) rso) h' G') ->
  wpk (hn_keep chk c rest) R B (may R B (nodes_post R B) (rs <- rso ;; Ok (if chk && is_empty r then rs else r :: rs))) h G.
Proof.
  intros I C S Hr. unfold hn_keep. rewrite (is_empty_ok _ _ _ C). destruct (chk && is_empty r).
  - assert ((rs <- rso ;; Ok rs) = rso) as -> by (destruct rso; reflexivity).
    eapply wpk_bind; [apply (wpk_drop (node_items c) [] R B h G I)|]. cbn beta. intros _ h2 G2 (-> & I2) K2. apply (Hr R h2 G I2 K2).
  - assert (inv h G ((node_items c ++ R) ++ B)) as J by rearr I.
    eapply wpk_bind.
    { eapply (wpk_frame _ _ (node_items c ++ R) R B B _ h G J); [occ_solve|occ_solve|occ_solve|]. apply (Hr _ h G J (keeps_refl _ _ _)). }
    cbn beta. intros [cs|] h2 G2 (H2 & S2) K2; destruct rso as [rs| | |]; cbn [may bind] in *; try contradiction.
    + destruct H2 as (lk & I2 & C2 & L2 & Z2). rewrite (Z2 Logic.I) in *.
      pose proof (crep_keep _ _ _ _ _ _ _ S2 C) as C'. apply wpk_ret. exists []. cbn [flat_map].
      split; [rearr I2|]. split; [constructor; assumption|]. split; [constructor|auto].
    + eapply wpk_bind; [apply (wpk_drop (node_items c) [] R B h2 G2); rearr H2|]. cbn beta. intros _ h3 G3 (-> & I3) _.
      apply wpk_ret. exact I3.
Qed.
Lemma njoin_loop hrec prec ka kb : njoin_ok hrec prec -> forall fuel ns ms, settled (pjoin ka kb prec fuel ns ms) ->
  forall R B h G a b, inv h G (R ++ B) -> irep h G B a ns -> irep h G B b ms ->
  wpk (hn_join ka kb hrec fuel a b) R B (may R B (nodes_post R B) (pjoin ka kb prec fuel ns ms)) h G.
Proof.
  intros Hrec. induction fuel as [|fuel IH]; intros ns ms E R B h G a b I Ha Hb; [contradiction E|].
  cbn [pjoin] in *. cbv zeta in *. cbn [hn_join].
  assert (forall x, occ x B <= occ x (R ++ B)) as L by occ_solve.
  pose proof (oj_ok _ _ _ _ _ _ _ _ I L Ha Hb) as O.
  assert (forall chk n x (nrest mrest : list node) (arest brest : biter), bor h G B x n -> irep h G B arest nrest -> irep h G B brest mrest ->
    forall ro, ro = (r <- r_detached mem fuel (ROwned n) ;; rs <- pjoin ka kb prec fuel nrest mrest ;; Ok (if chk && is_empty r then rs else r :: rs)) -> settled ro ->
    wpk (r <! h_detached fuel x ;; hn_keep chk r (hn_join ka kb hrec fuel arest brest)) R B (may R B (nodes_post R B) ro) h G) as A.
  { intros chk n x nrest mrest arest brest Bx Ia Ib ro -> F. setl F r Er (ne_detached fuel n).
    eapply wpk_bind; [apply (wpk_detached fuel n r Er R B h G x I Bx)|]. intros c h1 G1 [I1 C1] K1.
    assert (settled (pjoin ka kb prec fuel nrest mrest)) as Sp by (destruct (settle _ _ F) as [(? & -> & _)| ->]; exact Logic.I).
    apply (nkeep_ok chk r c _ R B h1 G1 _ I1 C1 Sp). intros R' h' G' I' K.
    apply (IH nrest mrest Sp R' B h' G' arest brest I'); apply (irep_keeps _ _ _ _ _ _ _ (keeps_trans _ _ _ _ _ _ _ K1 K)); assumption. }
  destruct ns as [|n ns], ms as [|m ms].
  - apply (wpk_read _ _ _ _ _ _ _ _ O). apply wpk_ret. exists [].
    split; [exact I|]. split; [constructor|]. split; [constructor|auto].
  - destruct O as (y & b' & O & By & Ib). apply (wpk_read _ _ _ _ _ _ _ _ O). destruct kb as [chk|].
    + apply (A chk m y [] ms a b' By Ha Ib _ eq_refl E).
    + apply (IH [] ms E R B h G a b' I Ha Ib).
  - destruct O as (x & a' & O & Bx & Ia). apply (wpk_read _ _ _ _ _ _ _ _ O). destruct ka as [chk|].
    + apply (A chk n x ns [] a' b Bx Ia Hb _ eq_refl E).
    + apply (IH ns [] E R B h G a' b I Ia Hb).
  - destruct O as (x & a' & y & b' & Bx & Ia & By & Ib & O). apply (wpk_read _ _ _ _ _ _ _ _ O).
    destruct (cmp_ob (n_first n) (n_first m)).
    + assert (settled (prec (ROwned n) (ROwned m))) as Sp by (destruct (settle _ _ E) as [(? & -> & _)| ->]; exact Logic.I).
      eapply wpk_unless; [apply (Hrec n m Sp R B h G x y I Bx By)| |].
      * intros ->. reflexivity.
      * intros r c h1 G1 Er [I1 C1] K1. rewrite Er in *. cbn [bind] in *.
        assert (settled (pjoin ka kb prec fuel ns ms)) as Sq by (destruct (settle _ _ E) as [(? & -> & _)| ->]; exact Logic.I).
        apply (nkeep_ok true r c _ R B h1 G1 _ I1 C1 Sq). intros R' h' G' I' K.
        apply (IH ns ms Sq R' B h' G' a' b' I'); apply (irep_keeps _ _ _ _ _ _ _ (keeps_trans _ _ _ _ _ _ _ K1 K)); assumption.
    + destruct ka as [chk|].
      * apply (A chk n x ns (m :: ms) a' b Bx Ia Hb _ eq_refl E).
      * apply (IH ns (m :: ms) E R B h G a' b I Ia Hb).
    + destruct kb as [chk|].
      * apply (A chk m y (n :: ns) ms a b' By Ha Ib _ eq_refl E).
      * apply (IH (n :: ns) ms E R B h G a b' I Ha Ib).
Qed.
Lemma nloop_vec hrec prec ka kb fuel ns ms R B h G a b : njoin_ok hrec prec -> settled (pjoin ka kb prec fuel ns ms) ->
  inv h G (R ++ B) -> irep h G B a ns -> irep h G B b ms ->
  wpk (unless_unwound (hn_join ka kb hrec fuel a b) (fun cs => made (h_vec cs))) R B
    (may R B (cpost R B) (rs <- pjoin ka kb prec fuel ns ms ;; Ok (nonempty_vec rs))) h G.
Proof.
  intros Hr E I Ha Hb. eapply wpk_unless; [apply (njoin_loop hrec prec ka kb Hr fuel ns ms E R B h G a b I Ha Hb)| |].
  - intros ->. reflexivity.
  - intros rs cs h1 G1 -> (lk & I1 & C1 & L1 & Z1) K1. rewrite (Z1 Logic.I) in *. cbn [bind]. apply wpk_made. apply (vec_ok cs rs R B h1 G1 I1 C1).
Qed.
Lemma ne_it_detached fuel ms : it_detached mem fuel (IOwned ms) <> Err.
Proof.
  unfold it_detached. destruct ms as [|m ms]; [discriminate|]. apply ne_bind; [apply ne_detach_loop; apply ne_detached|]. intros; discriminate.
Qed.
Lemma nit_detached fuel ms R B h G it : settled (it_detached mem fuel (IOwned ms)) -> inv h G (R ++ B) -> irep h G B it ms ->
  wpk (made (h_it_detached fuel it)) R B (may R B (cpost R B) (it_detached mem fuel (IOwned ms))) h G.
Proof.
  intros S I H. pose proof (ne_it_detached fuel ms) as N. destruct (it_detached mem fuel (IOwned ms)) as [po| | |] eqn:E; try contradiction.
  apply wpk_made. apply (it_detached_ok fuel ms po R B h G it E I H).
Qed.
Lemma nnone R B h G : inv h G (R ++ B) -> wpk (ret (Some (@None addr))) R B (may R B (cpost R B) (Ok None)) h G.
Proof. intros I. apply wpk_ret. split; [exact I|exact Logic.I]. Qed.
Lemma outer_nkids hrec prec fuel : njoin_ok hrec prec -> nkids_ok (hn_outer_join hrec fuel) (outer_children mem mem prec fuel).
Proof.
  intros Hr ac bc E R B h G o o' I Ha Hb. unfold outer_children in *. unfold hn_outer_join.
  destruct ac as [[ns|]|], o as [a|]; try contradiction Ha; destruct bc as [[ms|]|], o' as [b|]; try contradiction Hb.
  - rewrite outer_pjoin in *. assert (settled (pjoin (Some true) (Some true) prec fuel ns ms)) as Sp by (destruct (settle _ _ E) as [(? & -> & _)| ->]; exact Logic.I).
    apply (nloop_vec hrec prec _ _ fuel ns ms R B h G a b Hr Sp I Ha Hb).
  - apply (nit_detached fuel ns R B h G a E I Ha).
  - apply (nit_detached fuel ms R B h G b E I Hb).
  - apply (nnone R B h G I).
Qed.
Lemma inner_nkids hrec prec fuel : njoin_ok hrec prec -> nkids_ok (hn_inner_join hrec fuel) (inner_children prec fuel).
Proof.
  intros Hr ac bc E R B h G o o' I Ha Hb. unfold inner_children in *. unfold hn_inner_join.
  destruct ac as [[ns|]|], o as [a|]; try contradiction Ha; destruct bc as [[ms|]|], o' as [b|]; try contradiction Hb; try apply (nnone R B h G I).
  rewrite inner_pjoin in *. assert (settled (pjoin None None prec fuel ns ms)) as Sp by (destruct (settle _ _ E) as [(? & -> & _)| ->]; exact Logic.I).
  apply (nloop_vec hrec prec _ _ fuel ns ms R B h G a b Hr Sp I Ha Hb).
Qed.
Lemma left_nkids hrec prec fuel : njoin_ok hrec prec -> nkids_ok (hn_left_join hrec fuel) (left_children mem prec fuel).
Proof.
  intros Hr ac bc E R B h G o o' I Ha Hb. unfold left_children in *. unfold hn_left_join.
  destruct ac as [[ns|]|], o as [a|]; try contradiction Ha; destruct bc as [[ms|]|], o' as [b|]; try contradiction Hb; try apply (nnone R B h G I).
  - rewrite left_pjoin in *. assert (settled (pjoin (Some false) None prec fuel ns ms)) as Sp by (destruct (settle _ _ E) as [(? & -> & _)| ->]; exact Logic.I).
    apply (nloop_vec hrec prec _ _ fuel ns ms R B h G a b Hr Sp I Ha Hb).
  - apply (nit_detached fuel ns R B h G a E I Ha).
Qed.

(** ** Children of the two nodes *)
Section Kids.
Context (hk : option biter -> option biter -> M (option (option addr))) (pk : option iter -> option iter -> res (option (list node))).
Context (Hk : nkids_ok hk pk).
Lemma nboth_ok a n b m ac bc R B h G : inv h G (R ++ B) -> bor h G B a n -> bor h G B b m ->
  load_children mem n = Ok ac -> load_children mem m = Ok bc -> settled (pk ac bc) -> wpk (hn_both hk a b) R B (may R B (cpost R B) (pk ac bc)) h G.
Proof.
  intros I Ha Hb Ea Eb E. unfold hn_both.
  destruct (slice_ok h G _ B a n ac I ltac:(occ_solve) Ha Ea) as (o & Es & Ho). apply (wpk_read _ _ _ _ _ _ _ _ Es).
  destruct (slice_ok h G _ B b m bc I ltac:(occ_solve) Hb Eb) as (o' & Es' & Ho'). apply (wpk_read _ _ _ _ _ _ _ _ Es').
  apply (Hk ac bc E R B h G o o' I Ho Ho').
Qed.
Lemma nafter_short b' m' m (R B : list item) po h G : inv h G (node_items b' ++ R ++ B) -> crep G b' m' ->
  (forall B', (forall a, occ a B <= occ a B') -> B' = node_items b' ++ B -> inv h G (R ++ B') -> wpk m R B' (may R B' (cpost R B') po) h G) ->
  wpk (r <! m ;; _ <! drop (node_items b') ;; ret r) R B (may R B (cpost R B) po) h G.
Proof.
  intros I C Hm. set (B' := node_items b' ++ B).
  assert (inv h G (R ++ B')) as J. { unfold B'. rearr I. }
  assert (forall a, occ a B <= occ a B') as LB by (unfold B'; occ_solve).
  eapply wpk_bind.
  { eapply (wpk_frame _ _ R R B' B _ h G J); [occ_solve|occ_solve|exact LB|]. apply (Hm B' LB eq_refl J). }
  cbn beta. intros [o|] h2 G2 (H2 & _) K2; destruct po as [x| | |]; cbn [may] in H2; try contradiction.
  - destruct H2 as [I2 C2]. unfold B' in I2. eapply wpk_bind; [apply (wpk_drop (node_items b') (kitems o)); rearr I2|].
    cbn beta. intros _ h3 G3 (-> & I3) _. apply wpk_ret. split; [exact I3|exact C2].
  - unfold B' in H2. eapply wpk_bind; [apply (wpk_drop (node_items b') []); rearr H2|].
    cbn beta. intros _ h3 G3 (-> & I3) _. apply wpk_ret. exact I3.
Qed.
Lemma nsecond_short k a n b m m' ac R B h G : inv h G (R ++ B) -> bor h G B a n -> bor h G B b m ->
  load_children mem n = Ok ac -> clone_shortened mem m k = Ok m' -> settled (pk ac (it_single m')) ->
  wpk (hn_second_short hk a b k) R B (may R B (cpost R B) (pk ac (it_single m'))) h G.
Proof.
  intros I Ha Hb Ea Em E. unfold hn_second_short.
  destruct (slice_ok h G _ B a n ac I ltac:(occ_solve) Ha Ea) as (o & Es & Ho). apply (wpk_read _ _ _ _ _ _ _ _ Es).
  eapply wpk_bind; [apply (wpk_clone_shortened k b m m' R B h G Em I Hb)|]. intros b' h1 G1 [I1 C1] K1.
  apply (nafter_short b' m' _ R B _ h1 G1 I1 C1). intros B' LB -> J.
  apply (Hk ac (it_single m') E R _ h1 G1); [exact J| |apply (single_orep _ _ _ _ _ C1)].
  apply (orep_sub _ _ B); [exact LB|]. apply (orep_keeps _ _ _ _ _ _ _ K1 Ho).
Qed.
Lemma nfirst_short k a n b m n' bc R B h G : inv h G (R ++ B) -> bor h G B a n -> bor h G B b m ->
  clone_shortened mem n k = Ok n' -> load_children mem m = Ok bc -> settled (pk (it_single n') bc) ->
  wpk (hn_first_short hk a b k) R B (may R B (cpost R B) (pk (it_single n') bc)) h G.
Proof.
  intros I Ha Hb En Eb E. unfold hn_first_short.
  eapply wpk_bind; [apply (wpk_clone_shortened k a n n' R B h G En I Ha)|]. intros a' h1 G1 [I1 C1] K1.
  destruct (slice_ok h1 G1 _ B b m bc I1 ltac:(occ_solve) (bor_keeps _ _ _ _ _ _ _ K1 Hb) Eb) as (o & Es & Ho). apply (wpk_read _ _ _ _ _ _ _ _ Es).
  apply (nafter_short a' n' _ R B _ h1 G1 I1 C1). intros B' LB -> J.
  apply (Hk (it_single n') bc E R _ h1 G1); [exact J|apply (single_orep _ _ _ _ _ C1)|].
  apply (orep_sub _ _ B); [exact LB|exact Ho].
Qed.
End Kids.

(** ** Values *)
Definition nf_ok (hf : byte * word -> byte * word -> M (option (option (byte * word)))) (pf : blob -> blob -> res (option blob)) : Prop :=
  forall x y, settled (pf x y) -> forall R B h G av bv, inv h G (R ++ B) -> vrep G av x -> vrep G bv y ->
    (forall a, 0 < occ a (vitems av) -> deep h B a) -> (forall a, 0 < occ a (vitems bv) -> deep h B a) ->
    wpk (hf av bv) R B (may R B (vpost R B) (pf x y)) h G.
(** The closure of a user on values: it panics for some. *)
Definition shaky_new (panics : bytes -> bytes -> bool) (g : bytes -> bytes -> option bytes) (a b : blob) : res (option blob) :=
  x <- value_load mem a ;; y <- value_load mem b ;; if panics x y then Err else Ok (option_map Data (g x y)).
Lemma nuser_ok panics g : nf_ok (hn_user panics g) (shaky_new panics g).
Proof.
  intros x y E R B h G av bv I Va Vb Da Db. unfold shaky_new in *.
  destruct x as [x|[|? id]]; try contradiction E. cbn [value_load bind] in *. destruct y as [y|[|? id]]; try contradiction E. cbn [value_load bind] in *.
  unfold hn_user.
  assert (live h (vitems av)) as La. { refine (deep_live _ _ _ _ _ I _ Da). occ_solve. }
  assert (live h (vitems bv)) as Lb. { refine (deep_live _ _ _ _ _ I _ Db). occ_solve. }
  apply (wpk_read _ _ _ _ _ _ _ _ (vread_ok _ _ _ _ _ I Va La)).
  apply (wpk_read _ _ _ _ _ _ _ _ (vread_ok _ _ _ _ _ I Vb Lb)). cbn [blob_slice].
  destruct (panics x y).
  - apply wpk_ret. exact I.
  - apply wpk_made. apply (user_new_ok g (Data x) (Data y) _ eq_refl R B h G av bv I Va Vb Da Db).
Qed.
Lemma shaky_new_data panics g x y z : shaky_new panics g x y = Ok z -> zdata z.
Proof.
  unfold shaky_new. intros E. stepE E a Ea. stepE E b Eb. destruct (panics a b); [discriminate E|].
  assert (z = option_map Data (g a b)) as -> by congruence. destruct (g a b); exact Logic.I.
Qed.
Lemma ne_opt_detached o : opt_detached o <> Err.
Proof. destruct o as [[d|id]|]; cbn; discriminate. Qed.
Lemma nopt_value a n R B h G : inv h G (R ++ B) -> bor h G B a n -> settled (opt_detached (blob_opt (n_value n))) ->
  wpk (made (h_opt_detached (h_value_opt a))) R B (may R B (vpost R B) (opt_detached (blob_opt (n_value n)))) h G.
Proof.
  intros I Ha S. pose proof (ne_opt_detached (blob_opt (n_value n))) as N. destruct (opt_detached (blob_opt (n_value n))) as [z| | |] eqn:E; try contradiction.
  apply wpk_made. apply (opt_value_ok a n z R B h G I Ha E).
Qed.

(** ** The new node *)
Section Ops.
Context (dbg : bool).
Lemma nbranch p mv mk zo ro R B h G : wpk mv R B (may R B (vpost R B) zo) h G -> (zo = Err -> ro = Err) ->
  (forall z, zo = Ok z -> exists po,
     (forall R' h' G', keeps B h G h' G' -> inv h' G' (R' ++ B) -> wpk mk R' B (may R' B (cpost R' B) po) h' G') /\
     (po = Err -> ro = Err) /\ forall ks, po = Ok ks -> solid False ks /\ exists r, finish dbg p z ks = Ok r /\ ro = Ok r) ->
  wpk (hn_finish dbg p mv mk) R B (may R B (owned R B) ro) h G.
Proof.
  intros Hv He Hk. unfold hn_finish. eapply wpk_unless; [exact Hv|exact He|]. intros z v h1 G1 Ez [I1 V1] K1.
  destruct (Hk z Ez) as (po & Hm & Hpe & Hpo).
  assert (inv h1 G1 ((ovitems v ++ R) ++ B)) as J1 by rearr I1.
  eapply wpk_bind.
  { eapply (wpk_frame _ _ (ovitems v ++ R) R B B _ h1 G1 J1); [occ_solve|occ_solve|occ_solve|]. apply (Hm _ h1 G1 K1 J1). }
  cbn beta. intros [o|] h2 G2 (H2 & X2 & _) K2; destruct po as [ks| | |]; cbn [may] in H2; try contradiction.
  - destruct H2 as [I2 C2]. rewrite ext_app in X2. destruct X2 as [X2 _].
    destruct (Hpo ks eq_refl) as [Sk (r & Er & ->)]. apply wpk_made.
    apply (finish_ok dbg p z v ks o r R B h2 G2); [rearr I2| |exact C2|exact Sk|exact Er].
    destruct v as [v|], z as [[d|]|]; try contradiction V1; [|exact Logic.I]. apply (brep_ext G1 G2 (fst v) (snd v) (Data d) V1 X2).
  - rewrite (Hpe eq_refl). destruct v as [v|]; cbn [ovitems] in H2.
    + eapply wpk_bind; [apply (wpk_drop (vitems v) [] R B h2 G2); rearr H2|]. cbn beta. intros _ h3 G3 (-> & I3) _. apply wpk_ret. exact I3.
    + apply wpk_bind with (Q := fun _ h' G' => inv h' G' (R ++ B)); [apply wpk_ret; exact H2|]. intros _ h3 G3 I3 _. apply wpk_ret. exact I3.
Qed.
Lemma ne_finish p z po : finish dbg p z po <> Err.
Proof. apply ne_canon. Qed.
Lemma finish_settled p z po : settled (finish dbg p z po) -> exists r, finish dbg p z po = Ok r /\ finish dbg p z po = Ok r.
Proof. intros S. pose proof (ne_finish p z po). destruct (finish dbg p z po); try contradiction. eauto. Qed.

Context (hf : byte * word -> byte * word -> M (option (option (byte * word)))) (pf : blob -> blob -> res (option blob)).
Context (Hf : nf_ok hf pf) (Hz : forall x y z, pf x y = Ok z -> zdata z).

Lemma nvals a n b m av bv R B h G : inv h G (R ++ B) -> bor h G B a n -> bor h G B b m ->
  blob_opt (n_value n) = Some av -> blob_opt (n_value m) = Some bv -> settled (pf av bv) ->
  wpk (hf (c_vh a, c_v a) (c_vh b, c_v b)) R B (may R B (vpost R B) (pf av bv)) h G.
Proof.
  intros I Ha Hb Ea Eb E. destruct (bor_value _ _ _ _ _ Ha) as [Va Da]. destruct (bor_value _ _ _ _ _ Hb) as [Vb Db].
  pose proof (value_opt_ok _ _ _ (proj1 Ha)) as Oa. rewrite Ea in Oa. destruct Oa as [_ ->].
  pose proof (value_opt_ok _ _ _ (proj1 Hb)) as Ob. rewrite Eb in Ob. destruct Ob as [_ ->].
  apply (Hf _ _ E R B h G _ _ I Va Vb Da Db).
Qed.
Lemma nnovalue R B h G : inv h G (R ++ B) -> wpk (ret (Some (@None (byte * word)))) R B (may R B (vpost R B) (Ok None)) h G.
Proof. intros I. apply wpk_ret. split; [exact I|exact Logic.I]. Qed.

(** The end of every branch: [pk] gives the children. *)
Lemma nchildren p mv mk zo (pk : res (option (list node))) R B h G :
  wpk mv R B (may R B (vpost R B) zo) h G ->
  settled (z <- zo ;; ks <- pk ;; finish dbg p z ks) ->
  (settled pk -> forall R' h' G', keeps B h G h' G' -> inv h' G' (R' ++ B) -> wpk mk R' B (may R' B (cpost R' B) pk) h' G') ->
  (forall ks, pk = Ok ks -> solid False ks) ->
  wpk (hn_finish dbg p mv mk) R B (may R B (owned R B) (z <- zo ;; ks <- pk ;; finish dbg p z ks)) h G.
Proof.
  intros Hv S Hk Hs. apply (nbranch p mv mk zo); [exact Hv|intros ->; reflexivity|]. intros z ->. cbn [bind] in *. exists pk. split.
  { apply Hk. destruct (settle _ _ S) as [(? & -> & _)| ->]; exact Logic.I. }
  split; [intros ->; reflexivity|]. intros ks ->. cbn [bind] in *. split; [now apply Hs|]. apply (finish_settled p z ks S).
Qed.

Ltac pre Ea Eb La Lb := match goal with I : inv _ _ _, Ha : bor _ _ _ ?a ?n, Hb : bor _ _ _ ?b ?m |- _ =>
  destruct (both_prefixes _ _ _ _ _ _ _ _ _ _ I Ha Hb Ea Eb) as [La Lb];
  apply (wpk_read _ _ _ _ _ _ _ _ La); apply (wpk_read _ _ _ _ _ _ _ _ Lb) end.
Lemma settled_first {A C} (r : res A) (k : A -> res C) : settled (bind r k) -> settled r.
Proof. intros S. destruct (settle _ _ S) as [(? & -> & _)| ->]; exact Logic.I. Qed.
Lemma bind_kids {A C D} (z : res A) (x : res C) (y : C) (k : A -> C -> res D) : x = Ok y -> bind z (fun z => bind x (k z)) = bind z (fun z => k z y).
Proof. intros ->. destruct z; reflexivity. Qed.
(** Reading the children cannot fail, so it may as well be done first. *)
Lemma second_read {A C D} (z : res A) (x : res C) (k : A -> C -> res D) : x <> Err -> settled (bind z (fun z => bind x (k z))) ->
  z = Err \/ exists y, x = Ok y.
Proof. intros N S. destruct z as [z| | |]; try contradiction; [|now left]. right. cbn in S. destruct (settle_ne x _ N S) as (y & -> & _). eauto. Qed.
Lemma nerr p mv mk R B h G : wpk mv R B (may R B (vpost R B) Err) h G -> wpk (hn_finish dbg p mv mk) R B (may R B (owned R B) Err) h G.
Proof. intros W. apply (nbranch p mv mk Err); [exact W|auto|discriminate]. Qed.

Lemma outer_nok : forall fuel, njoin_ok (hn_outer dbg hf fuel) (outer_combine dbg mem mem pf fuel).
Proof.
  induction fuel as [|fuel IH]; intros n m E R B h G a b I Ha Hb; [contradiction E|].
  pose proof (outer_nkids _ _ fuel IH) as Hk. pose proof (outer_kids2 False _ fuel (outer_sound False dbg pf Hz fuel)) as Hs.
  cbn [outer_combine r_prefix] in *. setl E ap Ea (ne_prefix (n_prefix n)). setl E bp Eb (ne_prefix (n_prefix m)). cbn [hn_outer].
  pre Ea Eb La Lb. cbv zeta in *.
  destruct (Nat.eqb_spec (common_prefix ap bp) (length ap)) as [Ta|Ta], (Nat.eqb_spec (common_prefix ap bp) (length bp)) as [Tb|Tb];
    cbn [andb r_value_opt r_load_children r_clone_shortened] in *.
  - match type of E with settled (bind ?z _) => set (zo := z) in * end.
    match goal with |- wpk (hn_finish dbg ?p ?v ?k) _ _ _ _ _ => assert (wpk v R B (may R B (vpost R B) zo) h G) as Wv end.
    { pose proof (settled_first _ _ E) as Sz. unfold zo in *. pose proof (value_opt_ok _ _ _ (proj1 Ha)) as Oa. pose proof (value_opt_ok _ _ _ (proj1 Hb)) as Ob.
      destruct (blob_opt (n_value m)) as [bv|] eqn:Em.
      * destruct Ob as [Ob1 Ob2]. rewrite Ob1. destruct (blob_opt (n_value n)) as [av|] eqn:En.
        -- destruct Oa as [-> _]. apply (nvals a n b m av bv R B h G I Ha Hb En Em Sz).
        -- destruct Oa as [-> _]. rewrite <- Ob1. pose proof (nopt_value b m R B h G I Hb) as W. rewrite Em in W. apply W. exact Sz.
      * destruct Ob as [-> _]. apply (nopt_value a n R B h G I Ha Sz). }
    destruct (second_read _ _ _ (ne_kids n) E) as [Ez|(ac & Eac)]; [rewrite Ez in *; apply nerr; exact Wv|].
    rewrite (bind_kids _ _ ac _ Eac) in *.
    destruct (second_read _ _ _ (ne_kids m) E) as [Ez|(bc & Ebc)]; [rewrite Ez in *; apply nerr; exact Wv|].
    rewrite (bind_kids _ _ bc _ Ebc) in *.
    apply nchildren; [exact Wv|exact E| |].
    + intros Sp R' h' G' K I'. apply (nboth_ok _ _ Hk a n b m ac bc R' B h' G' I'); eauto using bor_keeps.
    + intros ks Ek. apply (Hs ac bc ks); [apply (load_ocl2 False n _ (noT n) Eac)|apply (load_ocl2 False m _ (noT m) Ebc)|exact Ek].
  - pose proof (settled_first _ _ E) as Sz. pose proof (nopt_value a n R B h G I Ha Sz) as Wv.
    destruct (second_read _ _ _ (ne_kids n) E) as [Ez|(ac & Eac)]; [now apply ne_opt_detached in Ez|]. rewrite (bind_kids _ _ ac _ Eac) in *.
    destruct (second_read _ _ _ (ne_short m (common_prefix ap bp)) E) as [Ez|(m' & Em)]; [now apply ne_opt_detached in Ez|]. rewrite (bind_kids _ _ m' _ Em) in *.
    apply nchildren; [exact Wv|exact E| |].
    + intros Sp R' h' G' K I'. apply (nsecond_short _ _ Hk _ a n b m m' ac R' B h' G' I'); eauto using bor_keeps.
    + intros ks Ek. apply (Hs _ _ ks) in Ek; [exact Ek|apply (load_ocl2 False n _ (noT n) Eac)|]. intros [].
  - pose proof (settled_first _ _ E) as Sz. pose proof (nopt_value b m R B h G I Hb Sz) as Wv.
    destruct (second_read _ _ _ (ne_short n (common_prefix ap bp)) E) as [Ez|(n' & En)]; [now apply ne_opt_detached in Ez|]. rewrite (bind_kids _ _ n' _ En) in *.
    destruct (second_read _ _ _ (ne_kids m) E) as [Ez|(bc & Ebc)]; [now apply ne_opt_detached in Ez|]. rewrite (bind_kids _ _ bc _ Ebc) in *.
    apply nchildren; [exact Wv|exact E| |].
    + intros Sp R' h' G' K I'. apply (nfirst_short _ _ Hk _ a n b m n' bc R' B h' G' I'); eauto using bor_keeps.
    + intros ks Ek. apply (Hs _ _ ks) in Ek; [exact Ek| |apply (load_ocl2 False m _ (noT m) Ebc)]. intros [].
  - setl E a' E1 (proj1 (proj2 ne_detach) fuel n (common_prefix ap bp)). setl E b' E2 (proj1 (proj2 ne_detach) fuel m (common_prefix ap bp)).
    destruct (finish_settled _ _ _ E) as (r & Er & _). rewrite Er. apply wpk_made.
    eapply wpk_bind; [apply (proj1 (proj2 detach_ok) fuel (common_prefix ap bp) n a' E1 R B h G a I Ha)|].
    intros ca h1 G1 [I1 C1] K1.
    assert (inv h1 G1 ((node_items ca ++ R) ++ B)) as J1 by rearr I1.
    eapply wpk_bind.
    { eapply (wpk_frame _ _ (node_items ca ++ R) R B B _ h1 G1 J1); [occ_solve|occ_solve|occ_solve|].
      apply (proj1 (proj2 detach_ok) fuel (common_prefix ap bp) m b' E2 _ B h1 G1 b J1 (bor_keeps _ _ _ _ _ _ _ K1 Hb)). }
    cbn beta. intros cb h2 G2 ([I2 C2] & S2) K2. pose proof (crep_keep _ _ _ _ _ _ _ S2 C1) as C1'.
    eapply wpk_bind.
    { apply (vec_ok _ (match cmp_ob (nth_error ap (common_prefix ap bp)) (nth_error bp (common_prefix ap bp)) with Gt => [b'; a'] | _ => [a'; b'] end) R B h2 G2).
      - destruct (cmp_ob _ _); cbn [flat_map]; rewrite app_nil_r; rearr I2.
      - destruct (cmp_ob _ _); repeat (constructor; try assumption). }
    intros o h3 G3 [I3 C3] K3.
    apply (finish_ok dbg _ None None _ o r R B h3 G3 I3 Logic.I C3); [|].
    + apply nonempty_solid. apply (disjoint_sound False fuel n m ap bp _ a' b' (noT n) (noT m) Ea Eb eq_refl Ta Tb E1 E2).
    + destruct (cmp_ob _ _); exact Er.
Qed.
Lemma inner_nok : forall fuel, njoin_ok (hn_inner dbg hf fuel) (inner_combine dbg mem mem pf fuel).
Proof.
  induction fuel as [|fuel IH]; intros n m E R B h G a b I Ha Hb; [contradiction E|].
  pose proof (inner_nkids _ _ fuel IH) as Hk. pose proof (inner_kids2 False _ fuel (inner_sound False dbg pf Hz fuel)) as Hs.
  cbn [inner_combine r_prefix] in *. setl E ap Ea (ne_prefix (n_prefix n)). setl E bp Eb (ne_prefix (n_prefix m)). cbn [hn_inner].
  pre Ea Eb La Lb. cbv zeta in *.
  destruct (Nat.eqb_spec (common_prefix ap bp) (length ap)) as [Ta|Ta], (Nat.eqb_spec (common_prefix ap bp) (length bp)) as [Tb|Tb];
    cbn [andb r_value_opt r_load_children r_clone_shortened] in *.
  - match type of E with settled (bind ?z _) => set (zo := z) in * end.
    match goal with |- wpk (hn_finish dbg ?p ?v ?k) _ _ _ _ _ => assert (wpk v R B (may R B (vpost R B) zo) h G) as Wv end.
    { pose proof (settled_first _ _ E) as Sz. unfold zo in *. pose proof (value_opt_ok _ _ _ (proj1 Ha)) as Oa. pose proof (value_opt_ok _ _ _ (proj1 Hb)) as Ob.
      destruct (blob_opt (n_value m)) as [bv|] eqn:Em.
      * destruct Ob as [-> _]. destruct (blob_opt (n_value n)) as [av|] eqn:En.
        -- destruct Oa as [-> _]. apply (nvals a n b m av bv R B h G I Ha Hb En Em Sz).
        -- destruct Oa as [-> _]. apply (nnovalue R B h G I).
      * destruct Ob as [-> _]. apply (nnovalue R B h G I). }
    destruct (second_read _ _ _ (ne_kids n) E) as [Ez|(ac & Eac)]; [rewrite Ez in *; apply nerr; exact Wv|].
    rewrite (bind_kids _ _ ac _ Eac) in *.
    destruct (second_read _ _ _ (ne_kids m) E) as [Ez|(bc & Ebc)]; [rewrite Ez in *; apply nerr; exact Wv|].
    rewrite (bind_kids _ _ bc _ Ebc) in *.
    apply nchildren; [exact Wv|exact E| |].
    + intros Sp R' h' G' K I'. apply (nboth_ok _ _ Hk a n b m ac bc R' B h' G' I'); eauto using bor_keeps.
    + intros ks Ek. apply (Hs ac bc ks); [apply (load_ocl2 False n _ (noT n) Eac)|apply (load_ocl2 False m _ (noT m) Ebc)|exact Ek].
  - setl E ac Eac (ne_kids n). setl E m' Em (ne_short m (common_prefix ap bp)).
    apply (nchildren _ _ _ (Ok None) (inner_children (inner_combine dbg mem mem pf fuel) fuel ac (it_single m'))); [apply (nnovalue R B h G I)|exact E| |].
    + intros Sp R' h' G' K I'. apply (nsecond_short _ _ Hk _ a n b m m' ac R' B h' G' I'); eauto using bor_keeps.
    + intros ks Ek. apply (Hs _ _ ks) in Ek; [exact Ek|apply (load_ocl2 False n _ (noT n) Eac)|]. intros [].
  - setl E n' En (ne_short n (common_prefix ap bp)). setl E bc Ebc (ne_kids m).
    apply (nchildren _ _ _ (Ok None) (inner_children (inner_combine dbg mem mem pf fuel) fuel (it_single n') bc)); [apply (nnovalue R B h G I)|exact E| |].
    + intros Sp R' h' G' K I'. apply (nfirst_short _ _ Hk _ a n b m n' bc R' B h' G' I'); eauto using bor_keeps.
    + intros ks Ek. apply (Hs _ _ ks) in Ek; [exact Ek| |apply (load_ocl2 False m _ (noT m) Ebc)]. intros [].
  - destruct (finish_settled _ _ _ E) as (r & Er & _). rewrite Er. apply wpk_made.
    apply (finish_ok dbg _ None None None None r R B h G I Logic.I Logic.I Logic.I Er).
Qed.
Lemma left_nok : forall fuel, njoin_ok (hn_left dbg hf fuel) (left_combine dbg mem mem pf fuel).
Proof.
  induction fuel as [|fuel IH]; intros n m E R B h G a b I Ha Hb; [contradiction E|].
  pose proof (left_nkids _ _ fuel IH) as Hk. pose proof (left_kids2 False _ fuel (left_sound False dbg pf Hz fuel)) as Hs.
  cbn [left_combine r_prefix] in *. setl E ap Ea (ne_prefix (n_prefix n)). setl E bp Eb (ne_prefix (n_prefix m)). cbn [hn_left].
  pre Ea Eb La Lb. cbv zeta in *.
  destruct (Nat.eqb_spec (common_prefix ap bp) (length ap)) as [Ta|Ta], (Nat.eqb_spec (common_prefix ap bp) (length bp)) as [Tb|Tb];
    cbn [andb r_value_opt r_load_children r_clone_shortened] in *.
  - match type of E with settled (bind ?z _) => set (zo := z) in * end.
    match goal with |- wpk (hn_finish dbg ?p ?v ?k) _ _ _ _ _ => assert (wpk v R B (may R B (vpost R B) zo) h G) as Wv end.
    { pose proof (settled_first _ _ E) as Sz. unfold zo in *. pose proof (value_opt_ok _ _ _ (proj1 Ha)) as Oa. pose proof (value_opt_ok _ _ _ (proj1 Hb)) as Ob.
      destruct (blob_opt (n_value n)) as [av|] eqn:En.
      * destruct Oa as [Oa1 Oa2]. rewrite Oa1. destruct (blob_opt (n_value m)) as [bv|] eqn:Em.
        -- destruct Ob as [-> _]. apply (nvals a n b m av bv R B h G I Ha Hb En Em Sz).
        -- destruct Ob as [-> _]. rewrite <- Oa1. pose proof (nopt_value a n R B h G I Ha) as W. rewrite En in W. apply W. exact Sz.
      * destruct Oa as [-> _]. apply (nnovalue R B h G I). }
    destruct (second_read _ _ _ (ne_kids n) E) as [Ez|(ac & Eac)]; [rewrite Ez in *; apply nerr; exact Wv|].
    rewrite (bind_kids _ _ ac _ Eac) in *.
    destruct (second_read _ _ _ (ne_kids m) E) as [Ez|(bc & Ebc)]; [rewrite Ez in *; apply nerr; exact Wv|].
    rewrite (bind_kids _ _ bc _ Ebc) in *.
    apply nchildren; [exact Wv|exact E| |].
    + intros Sp R' h' G' K I'. apply (nboth_ok _ _ Hk a n b m ac bc R' B h' G' I'); eauto using bor_keeps.
    + intros ks Ek. apply (Hs ac bc ks); [apply (load_ocl2 False n _ (noT n) Eac)|apply (load_ocl2 False m _ (noT m) Ebc)|exact Ek].
  - pose proof (settled_first _ _ E) as Sz. pose proof (nopt_value a n R B h G I Ha Sz) as Wv.
    destruct (second_read _ _ _ (ne_kids n) E) as [Ez|(ac & Eac)]; [now apply ne_opt_detached in Ez|]. rewrite (bind_kids _ _ ac _ Eac) in *.
    destruct (second_read _ _ _ (ne_short m (common_prefix ap bp)) E) as [Ez|(m' & Em)]; [now apply ne_opt_detached in Ez|]. rewrite (bind_kids _ _ m' _ Em) in *.
    apply nchildren; [exact Wv|exact E| |].
    + intros Sp R' h' G' K I'. apply (nsecond_short _ _ Hk _ a n b m m' ac R' B h' G' I'); eauto using bor_keeps.
    + intros ks Ek. apply (Hs _ _ ks) in Ek; [exact Ek|apply (load_ocl2 False n _ (noT n) Eac)|]. intros [].
  - setl E n' En (ne_short n (common_prefix ap bp)). setl E bc Ebc (ne_kids m).
    apply (nchildren _ _ _ (Ok None) (left_children mem (left_combine dbg mem mem pf fuel) fuel (it_single n') bc)); [apply (nnovalue R B h G I)|exact E| |].
    + intros Sp R' h' G' K I'. apply (nfirst_short _ _ Hk _ a n b m n' bc R' B h' G' I'); eauto using bor_keeps.
    + intros ks Ek. apply (Hs _ _ ks) in Ek; [exact Ek| |apply (load_ocl2 False m _ (noT m) Ebc)]. intros [].
  - pose proof (ne_detached fuel n) as N. destruct (r_detached mem fuel (ROwned n)) as [r| | |] eqn:Er; try contradiction.
    apply wpk_made. apply (wpk_detached fuel n r Er R B h G a I Ha).
Qed.
End Ops.
