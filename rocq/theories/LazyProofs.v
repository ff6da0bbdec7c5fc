(** Which blocks of the store a call needs. *)
From Verif Require Import Base BaseLemmas Header Node Combine Iter Api Tree Entries Rep Sim Store StoreSpec Spec Client
  Top TopOps MemLemmas JoinBase PrefixProofs FindProofs World WorldProofs HeapMerge CostSpec CostProofs CostTop LazySpec.

Section Lazy.
Context (dbg ids : bool) (rd0 : reader).

Definition dep {A} (n : nat) (g : reader -> res A) : Prop :=
  exists l, length l <= n /\ forall rd', agree l rd0 rd' -> g rd' = g rd0.

Lemma dep_const {A} n (r : res A) : dep n (fun _ => r).
Proof. exists []. split; [cbn; lia|]. reflexivity. Qed.
Lemma dep_same {A} n (g : reader -> res A) : (forall rd, g rd = g rd0) -> dep n g.
Proof. intros E. exists []. split; [cbn; lia|]. intros rd' _. apply E. Qed.
Ltac dc := solve [apply dep_const | apply dep_same; intros ?rd; reflexivity].
Lemma dep_weaken {A} n m (g : reader -> res A) : dep n g -> n <= m -> dep m g.
Proof. intros (l & H & E) L. exists l. split; [lia|exact E]. Qed.
Lemma dep_bind {A B} n m (g : reader -> res A) (k : reader -> A -> res B) : dep n g ->
  (forall a, g rd0 = Ok a -> dep m (fun rd => k rd a)) -> dep (n + m) (fun rd => x <- g rd ;; k rd x).
Proof.
  intros (l & H & E) Hk. destruct (g rd0) as [a| | |] eqn:Eg.
  - destruct (Hk a eq_refl) as (l' & H' & E'). exists (l ++ l'). split; [rewrite app_length; lia|].
    intros rd' Ha. rewrite E by (intros id Hi; apply Ha, in_or_app; auto). rewrite Eg. cbn [bind]. apply E'.
    intros id Hi. apply Ha, in_or_app; auto.
  - exists l. split; [lia|]. intros rd' Ha. now rewrite E, Eg.
  - exists l. split; [lia|]. intros rd' Ha. now rewrite E, Eg.
  - exists l. split; [lia|]. intros rd' Ha. now rewrite E, Eg.
Qed.
Lemma dep_bind_le {A B} N n m (g : reader -> res A) (k : reader -> A -> res B) : dep n g -> n + m <= N ->
  (forall a, g rd0 = Ok a -> dep m (fun rd => k rd a)) -> dep N (fun rd => x <- g rd ;; k rd x).
Proof. intros H L Hk. eapply dep_weaken; [exact (dep_bind n m g k H Hk)|exact L]. Qed.
Lemma dep_read id : dep 1 (fun rd => rd id).
Proof. exists [id]. split; [cbn; lia|]. intros rd' H. apply H. now left. Qed.

Lemma dep_prefix b : dep 1 (fun rd => load_prefix rd b).
Proof. destruct b as [|[|c id]]; cbn [load_prefix]; try dc. apply dep_read. Qed.
Lemma dep_value b : dep 1 (fun rd => value_load rd b).
Proof. destruct b as [|id]; cbn [value_load]; [dc|apply dep_read]. Qed.
Lemma dep_it_load id : dep 1 (fun rd => it_load rd id).
Proof.
  destruct id as [|c id]; cbn [it_load]; [dc|]. apply (dep_bind_le 1 1 0); [apply dep_read|lia|]. intros; dc.
Qed.
Lemma dep_children r : dep 1 (fun rd => r_load_children rd r).
Proof.
  destruct r as [n|b]; cbn [r_load_children].
  - unfold load_children. destruct (n_kids n) as [[|]|]; try dc. apply dep_it_load.
  - unfold b_load_children. destruct (b_children b) as [|[|]]; try dc. apply dep_it_load.
Qed.
Lemma dep_kids_mut n : dep 1 (fun rd => load_children_mut rd n).
Proof.
  unfold load_children_mut. destruct (n_kids n) as [|[|c id]]; try dc.
  apply (dep_bind_le 1 1 0); [apply dep_read|lia|]. intros; dc.
Qed.
Lemma dep_split n k : dep 1 (fun rd => split rd n k).
Proof. unfold split. apply (dep_bind_le 1 1 0); [apply dep_prefix|lia|]. intros; dc. Qed.

(** ** Searching *)
Lemma NRep_prefix' r p v cs : NRep ids rd0 True r (T p v cs) -> load_prefix rd0 (r_prefix r) = Ok p.
Proof. apply NRep_prefix. Qed.

Lemma find_dep : forall fuel r g k N, NRep ids rd0 True r g -> croot g -> 2 * (length k + 1) <= N + 2 * common_prefix (tp g) k ->
  dep N (fun rd => find rd fuel r k).
Proof.
  induction fuel as [|fuel IH]; intros r [p v cs] k N H Hc L; [dc|]. cbn [find]. cbn [tp] in L.
  destruct (croot_kids _ Hc) as [So C]. cbn [tc] in *.
  pose proof (common_prefix_le_r p k) as Lr. unfold bytes in *.
  apply (dep_bind_le N 1 (N - 1)); [apply dep_prefix|lia|]. intros p' E. rewrite (NRep_prefix' _ _ _ _ H) in E. injection E as <-.
  cbn zeta. set (n := common_prefix p k) in *.
  destruct ((length k - n =? 0) && _); [dc|]. destruct (Nat.eqb_spec (length k - n) 0); [dc|].
  destruct (length p - n =? 0); [|dc]. destruct (nth_error k n) as [c|] eqn:Ec; [|dc].
  apply (dep_bind_le (N - 1) 1 (N - 2)); [apply dep_children|lia|]. intros o Eo.
  destruct (NRep_children_T _ _ _ _ _ _ H) as (o' & Eo' & Ho). rewrite Eo' in Eo. injection Eo as ->.
  destruct o as [it|]; [|dc]. cbn in Ho. destruct Ho as [_ Hi]. pose proof (it_find_ok _ _ _ _ c Hi So C) as Hh.
  destruct (it_find it c) as [r'|]; [|dc]. cbn in Hh. destruct Hh as (a & q & Hin & Et & Hr).
  pose proof (proj1 (Forall_forall _ _) C a Hin) as Ca.
  apply (IH r' a); [exact Hr|exact (cc_croot _ Ca)|]. rewrite skipn_length.
  assert (1 <= common_prefix (tp a) (skipn n k)); [|unfold bytes in *; lia].
  destruct (skipn_cons_nth n k) as (c' & Ec' & Es); [unfold bytes in *; lia|]. rewrite Ec in Ec'. injection Ec' as <-. rewrite Et, Es. cbn. rewrite byte_eqb_refl. lia.
Qed.

(** ** In-place operations with an in-memory tree *)
Notation RA := (Rep ids rd0).
Notation RB := (Rep false detached_read).
Notation kidA := (kidA ids rd0).

(** [q]: reads per visited node. *)
Context (q : nat).
Definition dep_rec (rec : reader -> node -> noderef -> res node) : Prop :=
  forall a ga b gb N, RA a ga -> edges ga -> RB b gb -> edges gb ->
  q * psum gb + q <= N + q * common_prefix (tp ga) (tp gb) -> dep N (fun rd => rec rd a (ROwned b)).

Lemma pmerge_dep keep ins rec : dep_rec rec ->
  forall fuel ac bs ys N, Forall kidA ac -> Forall2 kidB bs ys -> q * psums ys <= N ->
  dep N (fun rd => pmerge keep ins (rec rd) fuel ac (IOwned bs)).
Proof.
  intros Hr. induction fuel as [|fuel IH]; intros ac bs ys N Fa Fb L; [dc|]. cbn [pmerge].
  destruct (cmp_with ac (IOwned bs)) as [[| |]|] eqn:Ec.
  - destruct ac as [|x ac]; [dc|]. destruct Fb as [|y g bs ys (Ry & Ny & Ey) Fb]; [dc|]. cbn [it_next].
    inversion Fa as [|? ? (gx & Rx & Nx & Ex) Fa']; subst. pose proof (cmp_eq_common ids rd0 _ _ _ _ _ _ Rx Nx Ry Ny Ec) as Lc.
    rewrite psums_cons, Nat.mul_add_distr_l in L.
    apply (dep_bind_le N (q * psum g) (q * psums ys)); [apply (Hr x gx y g); auto; nia|lia|]. intros r _.
    apply (dep_bind_le _ (q * psums ys) 0); [apply (IH ac bs ys); auto|lia|]. intros; dc.
  - destruct ac as [|x ac]; [dc|]. inversion Fa; subst. destruct keep.
    + apply (dep_bind_le N N 0); [apply (IH ac bs ys); auto|lia|]. intros; dc.
    + apply (IH ac bs ys); auto.
  - destruct Fb as [|y g bs ys (Ry & Ny & Ey) Fb]; [dc|]. cbn [it_next]. rewrite psums_cons, Nat.mul_add_distr_l in L.
    destruct ins as [c|].
    + apply (dep_bind_le N 0 N); [dc|lia|]. intros x _.
      apply (dep_bind_le N N 0); [apply (IH ac bs ys); auto; lia|lia|]. intros; dc.
    + apply (IH ac bs ys); auto. lia.
  - dc.
Qed.

Definition kids_dep (cf : reader -> list node -> option iter -> res (list node)) : Prop :=
  forall ac bs ys N, Forall kidA ac -> Forall2 kidB bs ys -> q * psums ys <= N ->
  dep N (fun rd => cf rd ac (match bs with [] => None | _ => Some (IOwned bs) end)).

Lemma dep_ext {A} N (f g : reader -> res A) : (forall rd, f rd = g rd) -> dep N g -> dep N f.
Proof. intros E (l & H & D). exists l. split; [exact H|]. intros rd' Ha. now rewrite !E, D. Qed.

Lemma left_kids_dep rec fuel : dep_rec rec -> kids_dep (fun rd => left_children_with (rec rd) fuel).
Proof.
  intros Hr ac bs ys N Fa Fb L. destruct bs as [|y bs]; cbn [left_children_with]; [dc|]. destruct ac as [|x ac]; [dc|].
  eapply dep_ext; [intros rd; cbn [left_children_with]; apply left_merge|]. eapply pmerge_dep; eauto.
Qed.
Lemma inner_kids_dep rec fuel : dep_rec rec -> kids_dep (fun rd => inner_children_with (rec rd) fuel).
Proof.
  intros Hr ac bs ys N Fa Fb L. destruct bs as [|y bs]; cbn [inner_children_with]; [dc|]. destruct ac as [|x ac]; [dc|].
  eapply dep_ext; [intros rd; cbn [inner_children_with]; apply inner_merge|]. eapply pmerge_dep; eauto.
Qed.
Lemma outer_kids_dep c rec fuel : dep_rec rec -> kids_dep (fun rd => outer_children_with c (rec rd) fuel).
Proof.
  intros Hr ac bs ys N Fa Fb L. destruct bs as [|y bs]; cbn [outer_children_with]; [dc|]. destruct ac as [|x ac]; [dc|].
  eapply dep_ext; [intros rd; cbn [outer_children_with]; apply outer_merge|]. eapply pmerge_dep; eauto.
Qed.

(** The end of each operation. *)
Lemma finish_dep a cf ac bs ys N : kids_dep cf -> Forall kidA ac -> Forall2 kidB bs ys -> q * psums ys <= N ->
  dep N (fun rd => ac' <- cf rd ac (match bs with [] => None | _ => Some (IOwned bs) end) ;; canonicalize dbg (set_kids a (KArc ac'))).
Proof.
  intros Hf Fa Fb L. apply (dep_bind_le N N 0); [exact (Hf ac bs ys N Fa Fb L)|lia|]. intros; dc.
Qed.
Lemma case_load_dep a p v xs cf bs ys v' N : RA a (T p v xs) -> edges (T p v xs) -> kids_dep cf -> Forall2 kidB bs ys ->
  1 + q * psums ys <= N ->
  dep N (fun rd => ac <- load_children_mut rd (set_value a v') ;;
    ac' <- cf rd ac (match bs with [] => None | _ => Some (IOwned bs) end) ;; canonicalize dbg (set_kids (set_value a v') (KArc ac'))).
Proof.
  intros Ra Ea Hf Fb L. destruct (a_load ids rd0 _ _ _ _ Ra Ea) as (ac & E & Fa & _).
  apply (dep_bind_le N 1 (q * psums ys)); [apply dep_kids_mut|lia|]. intros ac' E'. rewrite set_value_load, E in E'. injection E' as <-.
  eapply finish_dep; eauto.
Qed.
Lemma case_load_dep' a p v xs cf bs ys N : RA a (T p v xs) -> edges (T p v xs) -> kids_dep cf -> Forall2 kidB bs ys ->
  1 + q * psums ys <= N ->
  dep N (fun rd => ac <- load_children_mut rd a ;;
    ac' <- cf rd ac (match bs with [] => None | _ => Some (IOwned bs) end) ;; canonicalize dbg (set_kids a (KArc ac'))).
Proof.
  intros Ra Ea Hf Fb L. pose proof (case_load_dep a p v xs cf bs ys (n_value a) N Ra Ea Hf Fb L) as P. now rewrite set_same in P.
Qed.
Lemma psum_shorten k p v cs : psum (shorten k (T p v cs)) = length p - k + psums cs.
Proof. rewrite shorten_T, psum_T, skipn_length. reflexivity. Qed.
Lemma case_short_dep a p v xs cf b r w ys n v' N : RA a (T p v xs) -> edges (T p v xs) -> kids_dep cf ->
  RB b (T r w ys) -> edges (T r w ys) -> n < length r -> 1 + q * (length r - n + psums ys) <= N ->
  dep N (fun rd => ac <- load_children_mut rd (set_value a v') ;; b' <- r_clone_shortened detached_read (ROwned b) n ;;
    ac' <- cf rd ac (it_single b') ;; canonicalize dbg (set_kids (set_value a v') (KArc ac'))).
Proof.
  intros Ra Ea Hf Rb Eb Hn L. destruct (a_load ids rd0 _ _ _ _ Ra Ea) as (ac & E & Fa & _).
  destruct (b_short _ _ _ _ n Rb Eb Hn) as (b' & Eb' & Kb).
  apply (dep_bind_le N 1 (q * (length r - n + psums ys))); [apply dep_kids_mut|lia|]. intros ac' E'. rewrite set_value_load, E in E'. injection E' as <-.
  rewrite Eb'. cbn [bind]. apply (finish_dep _ cf ac [b'] [shorten n (T r w ys)]); auto.
  rewrite psums_cons, psum_shorten. change (psums []) with 0. now rewrite Nat.add_0_r.
Qed.
Lemma case_short_dep' a p v xs cf b r w ys n N : RA a (T p v xs) -> edges (T p v xs) -> kids_dep cf ->
  RB b (T r w ys) -> edges (T r w ys) -> n < length r -> 1 + q * (length r - n + psums ys) <= N ->
  dep N (fun rd => ac <- load_children_mut rd a ;; b' <- r_clone_shortened detached_read (ROwned b) n ;;
    ac' <- cf rd ac (it_single b') ;; canonicalize dbg (set_kids a (KArc ac'))).
Proof.
  intros Ra Ea Hf Rb Eb Hn L. pose proof (case_short_dep a p v xs cf b r w ys n (n_value a) N Ra Ea Hf Rb Eb Hn L) as P. now rewrite set_same in P.
Qed.
(** After splitting a node its children are in memory. *)
Lemma split_mut n k a1 : split rd0 n k = Ok a1 -> exists m, forall rd, load_children_mut rd a1 = Ok [m].
Proof.
  unfold split. destruct (load_prefix rd0 _) as [p| | |]; cbn [bind]; try discriminate. destruct (slice_from k p); cbn [bind]; try discriminate.
  destruct (slice_to k p); cbn [bind]; try discriminate. intros [= <-]. eexists. reflexivity.
Qed.
Lemma case_split_dep a p v xs cf bs ys n N : RA a (T p v xs) -> edges (T p v xs) -> kids_dep cf -> Forall2 kidB bs ys -> n < length p ->
  1 + q * psums ys <= N ->
  dep N (fun rd => a1 <- split rd a n ;; ac <- load_children_mut rd a1 ;;
    ac' <- cf rd ac (match bs with [] => None | _ => Some (IOwned bs) end) ;; canonicalize dbg (set_kids a1 (KArc ac'))).
Proof.
  intros Ra Ea Hf Fb Hn L. destruct (a_split ids rd0 _ _ _ _ n Ra Ea Hn) as (a1 & m & Es & Lm & Km & Vm & _).
  apply (dep_bind_le N 1 (q * psums ys)); [apply dep_split|lia|]. intros a1' E'. rewrite Es in E'. injection E' as <-.
  destruct (split_mut _ _ _ Es) as (m' & Em). eapply dep_ext; [intros rd; rewrite Em; reflexivity|]. cbn [bind].
  rewrite Em in Lm. injection Lm as <-. apply (finish_dep a1 cf [m'] bs ys); auto.
Qed.

Ltac start H := intros a ga b gb N Ra Ea Rb Eb H; destruct ga as [p v xs], gb as [r w ys]; cbn [tp] in H;
  pose proof (proj1 (Rep_inv _ _ _ _ _ _ Ra)) as RP; pose proof (b_view _ _ _ _ Rb Eb) as (Pb & bs & Fb & Lb);
  pose proof (common_prefix_le_l p r) as L1; pose proof (common_prefix_le_r p r) as L2;
  rewrite psum_T, Nat.mul_add_distr_l in H; unfold bytes in *.
Ltac opened RP Pb := cbn [bind r_prefix]; rewrite Pb; cbn [load_prefix bind].

Lemma left_dep (f : reader -> blob -> blob -> res blob) fc : (forall x y, dep fc (fun rd => f rd x y)) -> 2 + fc <= q ->
  forall fuel, dep_rec (fun rd => left_combine_with dbg rd detached_read (f rd) fuel).
Proof.
  intros Hf Hq. induction fuel as [|fuel IH]; [intros a ga b gb N _ _ _ _ _; dc|]. start L. cbn [left_combine_with].
  pose proof (left_kids_dep _ fuel IH) as Hk.
  assert (q * common_prefix p r <= q * length r) as Lq by (apply Nat.mul_le_mono_l; exact L2).
  apply (dep_bind_le N 1 (N - 1)); [apply dep_prefix|lia|]. intros p' Ep. rewrite (RepP_load _ _ _ _ RP) in Ep. injection Ep as <-.
  opened RP Pb. set (n := common_prefix p r) in *. cbn zeta.
  destruct ((n =? length p) && (n =? length r)) eqn:E1.
  - apply andb_true_iff in E1 as [E1 E2]. apply Nat.eqb_eq in E1, E2. rewrite E2 in L.
    cbn [r_load_children]. rewrite Lb.
    assert (forall a1 v', a1 = set_value a v' -> dep (1 + q * psums ys) (fun rd => ac <- load_children_mut rd a1 ;;
      bc <- Ok (match bs with [] => None | _ => Some (IOwned bs) end) ;;
      ac' <- left_children_with (left_combine_with dbg rd detached_read (f rd) fuel) fuel ac bc ;; canonicalize dbg (set_kids a1 (KArc ac')))) as A.
    { intros a1 v' ->. cbn [bind]. apply (case_load_dep a p v xs _ bs ys v' _ Ra Ea Hk Fb). lia. }
    apply (dep_bind_le (N - 1) fc (1 + q * psums ys)); [|lia|].
    + destruct (r_value_opt (ROwned b)) as [bv|]; [|dc]. destruct (blob_opt (n_value a)) as [av|]; [|dc].
      apply (dep_bind_le fc fc 0); [apply Hf|lia|]. intros; dc.
    + intros a1 E. assert (exists v', a1 = set_value a v') as (v' & ->).
      { destruct (r_value_opt (ROwned b)) as [bv|]; [|exists (n_value a); rewrite set_same; congruence].
        destruct (blob_opt (n_value a)) as [av|]; [|exists (n_value a); rewrite set_same; congruence].
        destruct (f rd0 av bv) as [u| | |]; cbn [bind] in E; try discriminate. exists u. congruence. }
      now apply (A _ v').
  - destruct (Nat.eqb_spec n (length p)) as [E2|E2].
    + assert (n < length r) by (destruct (Nat.eqb_spec n (length r)); cbn in E1; [discriminate|lia]).
      apply (case_short_dep' a p v xs _ b r w ys n _ Ra Ea Hk Rb Eb); [lia|]. rewrite Nat.mul_add_distr_l, Nat.mul_sub_distr_l. lia.
    + destruct (Nat.eqb_spec n (length r)) as [E3|E3].
      * cbn [r_load_children]. rewrite Lb. cbn [bind]. rewrite E3 in L. apply (case_split_dep a p v xs _ bs ys n _ Ra Ea Hk Fb); lia.
      * dc.
Qed.

Lemma inner_dep (f : reader -> blob -> blob -> res blob) fc : (forall x y, dep fc (fun rd => f rd x y)) -> 2 + fc <= q ->
  forall fuel, dep_rec (fun rd => inner_combine_with dbg rd detached_read (f rd) fuel).
Proof.
  intros Hf Hq. induction fuel as [|fuel IH]; [intros a ga b gb N _ _ _ _ _; dc|]. start L. cbn [inner_combine_with].
  pose proof (inner_kids_dep _ fuel IH) as Hk.
  assert (q * common_prefix p r <= q * length r) as Lq by (apply Nat.mul_le_mono_l; exact L2).
  apply (dep_bind_le N 1 (N - 1)); [apply dep_prefix|lia|]. intros p' Ep. rewrite (RepP_load _ _ _ _ RP) in Ep. injection Ep as <-.
  opened RP Pb. set (n := common_prefix p r) in *. cbn zeta.
  destruct ((n =? length p) && (n =? length r)) eqn:E1.
  - apply andb_true_iff in E1 as [E1 E2]. apply Nat.eqb_eq in E1, E2. rewrite E2 in L.
    cbn [r_load_children]. rewrite Lb.
    assert (forall a1 v', a1 = set_value a v' -> dep (1 + q * psums ys) (fun rd => ac <- load_children_mut rd a1 ;;
      bc <- Ok (match bs with [] => None | _ => Some (IOwned bs) end) ;;
      ac' <- inner_children_with (inner_combine_with dbg rd detached_read (f rd) fuel) fuel ac bc ;; canonicalize dbg (set_kids a1 (KArc ac')))) as A.
    { intros a1 v' ->. cbn [bind]. apply (case_load_dep a p v xs _ bs ys v' _ Ra Ea Hk Fb). lia. }
    apply (dep_bind_le (N - 1) fc (1 + q * psums ys)); [|lia|].
    + destruct (blob_opt (n_value a)) as [av|]; [|dc]. destruct (r_value_opt (ROwned b)) as [bv|]; [|dc].
      apply (dep_bind_le fc fc 0); [apply Hf|lia|]. intros; dc.
    + intros a1 E. assert (exists v', a1 = set_value a v') as (v' & ->).
      { destruct (blob_opt (n_value a)) as [av|]; [|exists bnone; congruence].
        destruct (r_value_opt (ROwned b)) as [bv|]; [|exists bnone; congruence].
        destruct (f rd0 av bv) as [u| | |]; cbn [bind] in E; try discriminate. exists u. congruence. }
      now apply (A _ v').
  - destruct (Nat.eqb_spec n (length p)) as [E2|E2].
    + assert (n < length r) by (destruct (Nat.eqb_spec n (length r)); cbn in E1; [discriminate|lia]).
      apply (case_short_dep a p v xs _ b r w ys n bnone _ Ra Ea Hk Rb Eb); [lia|]. rewrite Nat.mul_add_distr_l, Nat.mul_sub_distr_l. lia.
    + destruct (Nat.eqb_spec n (length r)) as [E3|E3].
      * cbn [r_load_children]. rewrite Lb. cbn [bind]. rewrite E3 in L. apply (case_split_dep a p v xs _ bs ys n _ Ra Ea Hk Fb); lia.
      * dc.
Qed.

Lemma retain_dep f : 2 <= q -> forall fuel, dep_rec (fun rd => retain_prefix_with dbg rd detached_read f fuel).
Proof.
  intros Hq. induction fuel as [|fuel IH]; [intros a ga b gb N _ _ _ _ _; dc|]. start L. cbn [retain_prefix_with].
  pose proof (inner_kids_dep _ fuel IH) as Hk.
  assert (q * common_prefix p r <= q * length r) as Lq by (apply Nat.mul_le_mono_l; exact L2).
  apply (dep_bind_le N 1 (N - 1)); [apply dep_prefix|lia|]. intros p' Ep. rewrite (RepP_load _ _ _ _ RP) in Ep. injection Ep as <-.
  opened RP Pb. set (n := common_prefix p r) in *. cbn zeta.
  destruct ((n =? length p) && (n =? length r)) eqn:E1.
  - apply andb_true_iff in E1 as [E1 E2]. apply Nat.eqb_eq in E1, E2. rewrite E2 in L.
    apply (dep_bind_le (N - 1) 0 (N - 1)); [dc|lia|]. intros [|] _; [dc|]. cbn [r_load_children]. rewrite Lb. cbn [bind].
    apply (case_load_dep a p v xs _ bs ys bnone _ Ra Ea Hk Fb). lia.
  - destruct (Nat.eqb_spec n (length r)) as [E3|E3].
    + assert (n < length p) by (destruct (Nat.eqb_spec n (length p)); cbn in E1; [discriminate|lia]).
      destruct (r_value_opt (ROwned b)) as [bv|].
      * apply (dep_bind_le (N - 1) 0 (N - 1)); [dc|lia|]. intros [|] _; dc.
      * cbn [r_load_children]. rewrite Lb. cbn [bind]. rewrite E3 in L. apply (case_split_dep a p v xs _ bs ys n _ Ra Ea Hk Fb); lia.
    + destruct (Nat.eqb_spec n (length p)) as [E2|E2]; [|dc].
      apply (case_short_dep a p v xs _ b r w ys n bnone _ Ra Ea Hk Rb Eb); [lia|]. rewrite Nat.mul_add_distr_l, Nat.mul_sub_distr_l. lia.
Qed.

Lemma remove_dep f : 2 <= q -> forall fuel, dep_rec (fun rd => remove_prefix_with dbg rd detached_read f fuel).
Proof.
  intros Hq. induction fuel as [|fuel IH]; [intros a ga b gb N _ _ _ _ _; dc|]. start L. cbn [remove_prefix_with].
  pose proof (left_kids_dep _ fuel IH) as Hk.
  assert (q * common_prefix p r <= q * length r) as Lq by (apply Nat.mul_le_mono_l; exact L2).
  apply (dep_bind_le N 1 (N - 1)); [apply dep_prefix|lia|]. intros p' Ep. rewrite (RepP_load _ _ _ _ RP) in Ep. injection Ep as <-.
  opened RP Pb. set (n := common_prefix p r) in *. cbn zeta.
  destruct ((n =? length p) && (n =? length r)) eqn:E1.
  - apply andb_true_iff in E1 as [E1 E2]. apply Nat.eqb_eq in E1, E2. rewrite E2 in L.
    apply (dep_bind_le (N - 1) 0 (N - 1)); [dc|lia|]. intros [|] _; [dc|]. cbn [r_load_children]. rewrite Lb. cbn [bind].
    apply (case_load_dep' a p v xs _ bs ys _ Ra Ea Hk Fb). lia.
  - destruct (Nat.eqb_spec n (length r)) as [E3|E3].
    + assert (n < length p) by (destruct (Nat.eqb_spec n (length p)); cbn in E1; [discriminate|lia]).
      apply (dep_bind_le (N - 1) 0 (N - 1)); [dc|lia|]. intros [|] _; [dc|].
      cbn [r_load_children]. rewrite Lb. cbn [bind]. rewrite E3 in L. apply (case_split_dep a p v xs _ bs ys n _ Ra Ea Hk Fb); lia.
    + destruct (Nat.eqb_spec n (length p)) as [E2|E2]; [|dc].
      apply (case_short_dep' a p v xs _ b r w ys n _ Ra Ea Hk Rb Eb); [lia|]. rewrite Nat.mul_add_distr_l, Nat.mul_sub_distr_l. lia.
Qed.

Lemma outer_value_dep c (f : reader -> blob -> blob -> res blob) fc a1 o : (forall x y, dep fc (fun rd => f rd x y)) -> dep fc (fun rd =>
  match o with
   | Some bv => match blob_opt (n_value a1) with
                | Some av => v <- f rd av bv ;; Ok (set_value a1 v)
                | None => v <- conv_value c bv ;; Ok (set_value a1 v)
                end
   | None => Ok a1
   end).
Proof.
  intros Hf. destruct o as [bv|]; [|dc]. destruct (blob_opt _); [|dc]. apply (dep_bind_le fc fc 0); [apply Hf|lia|]. intros; dc.
Qed.
Lemma outer_value_is c (f : blob -> blob -> res blob) a1 o a2 :
  match o with
   | Some bv => match blob_opt (n_value a1) with
                | Some av => v <- f av bv ;; Ok (set_value a1 v)
                | None => v <- conv_value c bv ;; Ok (set_value a1 v)
                end
   | None => Ok a1
   end = Ok a2 -> exists v', a2 = set_value a1 v'.
Proof.
  assert (forall r, (v <- r ;; Ok (set_value a1 v)) = Ok a2 -> exists v', a2 = set_value a1 v') as A.
  { intros [v'| | |]; cbn [bind]; try discriminate. intros [= <-]. eauto. }
  destruct o as [bv|]; [destruct (blob_opt _); apply A|]. intros [= <-]. exists (n_value a1). now rewrite set_same.
Qed.

Lemma outer_dep c (f : reader -> blob -> blob -> res blob) fc : (forall x y, dep fc (fun rd => f rd x y)) -> 2 + fc <= q ->
  forall fuel, dep_rec (fun rd => outer_combine_with dbg rd detached_read c (f rd) fuel).
Proof.
  intros Hf Hq. induction fuel as [|fuel IH]; [intros a ga b gb N _ _ _ _ _; dc|]. start L. cbn [outer_combine_with].
  pose proof (outer_kids_dep c _ fuel IH) as Hk.
  assert (q * common_prefix p r <= q * length r) as Lq by (apply Nat.mul_le_mono_l; exact L2).
  apply (dep_bind_le N 1 (N - 1)); [apply dep_prefix|lia|]. intros p' Ep. rewrite (RepP_load _ _ _ _ RP) in Ep. injection Ep as <-.
  opened RP Pb. set (n := common_prefix p r) in *. cbn zeta.
  destruct (Nat.eqb_spec n (length r)) as [E1|E1].
  - cbn [r_load_children]. rewrite Lb. rewrite E1 in L.
    destruct (Nat.eqb_spec n (length p)) as [E2|E2]; cbn [negb].
    + cbn [bind]. apply (dep_bind_le (N - 1) fc (1 + q * psums ys)); [apply outer_value_dep; exact Hf|lia|].
      intros a2 E. destruct (outer_value_is _ _ _ _ _ E) as (v' & ->).
      apply (case_load_dep a p v xs _ bs ys v' _ Ra Ea Hk Fb). lia.
    + destruct (a_split ids rd0 _ _ _ _ n Ra Ea ltac:(lia)) as (a1 & m & Es & Lm & Km & Vm & _).
      apply (dep_bind_le (N - 1) 1 (N - 2)); [apply dep_split|lia|]. intros a1' E'. rewrite Es in E'. injection E' as <-.
      apply (dep_bind_le (N - 2) fc (q * psums ys)); [apply outer_value_dep; exact Hf|lia|].
      intros a2 E. destruct (outer_value_is _ _ _ _ _ E) as (v' & ->).
      destruct (split_mut _ _ _ Es) as (m' & Em). eapply dep_ext; [intros rd; rewrite set_value_load, Em; reflexivity|]. cbn [bind].
      rewrite Em in Lm. injection Lm as <-. apply (finish_dep _ _ [m'] bs ys _ Hk); auto.
  - destruct (Nat.eqb_spec n (length p)) as [E2|E2].
    + apply (case_short_dep' a p v xs _ b r w ys n _ Ra Ea Hk Rb Eb); [lia|]. rewrite Nat.mul_add_distr_l, Nat.mul_sub_distr_l. lia.
    + destruct (a_split ids rd0 _ _ _ _ n Ra Ea ltac:(lia)) as (a1 & m & Es & _).
      apply (dep_bind_le (N - 1) 1 0); [apply dep_split|lia|]. intros a1' E'. rewrite Es in E'. injection E' as <-.
      destruct (split_mut _ _ _ Es) as (m' & Em). eapply dep_ext; [intros rd; rewrite Em; reflexivity|]. dc.
Qed.
End Lazy.
