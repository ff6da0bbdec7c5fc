(** Searching a borrowed tree, and taking values and subtrees from it. *)
From Verif Require Import Base BaseLemmas Header Node Combine Iter Store Heap HeapSpec HeapProofs HeapOps HeapIter HeapTree HeapBorrow HeapMerge HeapClean.

Lemma h_bsearch_ok h G Z B cs ms : inv h G Z -> (forall a, occ a B <= occ a Z) -> Forall2 (bor h G B) cs ms ->
  forall c fuel l r,
  match bsearch ms c fuel l r with
  | Some m => exists b, h_bsearch cs c fuel l r h = Done (Some b, h) /\ bor h G B b m
  | None => h_bsearch cs c fuel l r h = Done (None, h)
  end.
Proof.
  intros I L F c. induction fuel as [|fuel IH]; intros l r; [reflexivity|]. cbn [bsearch h_bsearch].
  destruct (l <? r); [|reflexivity]. cbv zeta. set (mid := l + (r - l) / 2).
  assert (match nth_error ms mid with Some m => exists b, nth_error cs mid = Some b /\ bor h G B b m | None => nth_error cs mid = None end) as Hn.
  { clearbody mid. clear -F. revert mid. induction F as [|b m cs ms Hb F IH]; intros [|i]; cbn [nth_error]; [reflexivity|reflexivity|eauto|apply IH]. }
  destruct (nth_error ms mid) as [m|] eqn:Em; [|now rewrite Hn]. destruct Hn as (b & -> & Hb).
  unfold mbind. rewrite (first_ok _ _ _ _ _ I (proj1 Hb) (bor_live _ _ _ _ _ _ I L Hb)).
  destruct (cmp_ob (n_first m) (Some c)); [|apply IH|apply IH]. exists b. split; [reflexivity|exact Hb].
Qed.
Lemma bi_find_ok h G Z B it ms c : inv h G Z -> (forall a, occ a B <= occ a Z) -> irep h G B it ms ->
  match find_owned ms c with
  | Some m => exists b, bi_find it c h = Done (Some b, h) /\ bor h G B b m
  | None => bi_find it c h = Done (None, h)
  end.
Proof.
  intros I L H. pose proof (bi_check_ok _ _ _ _ _ H) as E. destruct H as [F _].
  unfold bi_find, mbind. rewrite E. cbv zeta. unfold find_owned. rewrite (Forall2_len _ _ _ F).
  destruct (length ms =? 256); [|apply (h_bsearch_ok h G Z B _ _ I L F)].
  generalize (N.to_nat (bnum c)). clear -F. induction F as [|b m cs ms Hb F IH]; intros [|i]; cbn [nth_error]; [reflexivity|reflexivity|exists b; split; [reflexivity|exact Hb]|apply IH].
Qed.

Definition frep (h : heap) (G : ghost) (B : list item) (y : hfound) (x : find_result) : Prop :=
  match y, x with
  | HFound c, Found (ROwned m) => bor h G B c m
  | HPrefix c n, Prefix (ROwned m) n' => n = n' /\ bor h G B c m
  | HNotFound, NotFound => True
  | _, _ => False
  end.
Lemma h_find_ok h G Z B : inv h G Z -> (forall a, occ a B <= occ a Z) ->
  forall fuel m k x, find mem fuel (ROwned m) k = Ok x -> forall c, bor h G B c m ->
  exists y, h_find fuel c k h = Done (y, h) /\ frep h G B y x.
Proof.
  intros I L. induction fuel as [|fuel IH]; intros m k x E c Hc; [discriminate E|]. cbn [find r_prefix] in E.
  destruct (load_prefix mem (n_prefix m)) as [p| | |] eqn:Ep; try discriminate E. cbn [bind] in E.
  destruct (load_prefix_ok _ _ _ _ _ _ I (proj1 Hc) (bor_live _ _ _ _ _ _ I L Hc) Ep) as [_ El].
  cbn [h_find]. unfold mbind at 1. rewrite El. cbv zeta in E |- *.
  destruct ((length k - common_prefix p k =? 0) && (length p - common_prefix p k =? 0)).
  { exists (HFound c). split; [reflexivity|]. injection E as <-. exact Hc. }
  destruct (length k - common_prefix p k =? 0).
  { eexists. split; [reflexivity|]. injection E as <-. split; [reflexivity|exact Hc]. }
  destruct (length p - common_prefix p k =? 0).
  2: { exists HNotFound. split; [reflexivity|]. injection E as <-. exact Logic.I. }
  destruct (nth_error k (common_prefix p k)) as [b|]; [|discriminate E]. cbn [r_load_children] in E.
  destruct (load_children mem m) as [po| | |] eqn:Eo; try discriminate E. cbn [bind] in E.
  destruct (slice_ok h G Z B c m po I L Hc Eo) as (o & Es & Ho). unfold mbind at 1. rewrite Es.
  destruct o as [it|], po as [[ms|d]|]; cbn [orep] in Ho; try (now destruct Ho).
  - pose proof (bi_find_ok h G Z B it ms b I L Ho) as Hf. cbn [it_find] in E. unfold mbind.
    destruct (find_owned ms b) as [child|]; cbn [option_map] in E.
    + destruct Hf as (c' & -> & Hc'). apply (IH _ _ _ E c' Hc').
    + rewrite Hf. exists HNotFound. split; [reflexivity|]. injection E as <-. exact Logic.I.
  - exists HNotFound. split; [reflexivity|]. injection E as <-. exact Logic.I.
Qed.

Lemma wpk_set_prefix d c n R B h G r : inv h G (node_items c ++ R ++ B) -> crep G c n -> set_prefix_slice n d = r ->
  wpk (h_set_prefix d c) R B (owned R B r) h G.
Proof.
  intros I C E. apply (wpk_owned _ (node_items c)); [exact I|].
  eapply wp_weaken; [apply (wp_set_p (Data d) (hdr_data (length d)) c n _ h G eq_refl I C)|].
  cbn beta. intros c' h2 G2 [I2 C2]. split; [exact I2|]. unfold set_prefix_slice in E. rewrite <- E. exact C2.
Qed.
Lemma filter_ok fuel m k s r R B h G c : filter_prefix mem fuel m k s = Ok r -> inv h G (R ++ B) -> bor h G B c m ->
  wpk (h_filter_prefix fuel k s c) R B (owned R B r) h G.
Proof.
  intros E I Hc. unfold filter_prefix in E. destruct (find mem fuel (ROwned m) k) as [x| | |] eqn:Ex; try discriminate E. cbn [bind] in E.
  destruct (h_find_ok h G (R ++ B) B I ltac:(occ_solve) _ _ _ _ Ex c Hc) as (y & Ey & Hy).
  unfold h_filter_prefix. apply (wpk_read _ _ _ _ _ _ _ _ Ey).
  destruct y as [c1|c1 n1|], x as [[t|]|[t|] n2|]; cbn [frep] in Hy; try tauto; cbn [r_to_owned bind] in E.
  - eapply wpk_bind; [apply (wpk_clone c1 t [] R B h G I Hy)|]. cbn beta. intros c' h1 G1 (-> & -> & I1) K1. cbn [app] in I1.
    apply (wpk_set_prefix s c1 t R B h1 G r I1 (proj1 Hy)). congruence.
  - destruct Hy as [<- Hy]. cbn [r_prefix] in E. destruct (load_prefix mem (n_prefix t)) as [p| | |] eqn:Ep; try discriminate E. cbn [bind] in E.
    destruct (slice_from n1 p) as [q| | |] eqn:Eq; try discriminate E. cbn [bind] in E.
    unfold slice_from in Eq. destruct (n1 <=? length p) eqn:Ek; try discriminate Eq. assert (q = skipn n1 p) as -> by congruence.
    assert (live h (node_items c1)) as L by (refine (bor_live _ _ _ _ _ _ I _ Hy); occ_solve).
    destruct (load_prefix_ok _ _ _ _ _ _ I (proj1 Hy) L Ep) as [_ El]. apply (wpk_read _ _ _ _ _ _ _ _ El).
    eapply wpk_bind; [apply (wpk_clone c1 t [] R B h G I Hy)|]. cbn beta. intros c' h1 G1 (-> & -> & I1) K1. cbn [app] in I1.
    rewrite Ek. apply (wpk_set_prefix _ c1 t R B h1 G r I1 (proj1 Hy)). congruence.
  - apply wpk_ret. assert (r = n_empty) as -> by congruence. split; [rewrite empty_items; exact I|apply empty_crep].
Qed.
(** The value that [get] clones. *)
Definition gpost (R B : list item) (o : option blob) (s : slot) (h : heap) (G : ghost) : Prop :=
  inv h G (slot_items s ++ R ++ B) /\
  match o, s with Some b, SValue hd w => brep G hd w b | None, SGone => True | _, _ => False end.
Lemma get_ok fuel m k o R B h G c : get mem fuel m k = Ok o -> inv h G (R ++ B) -> bor h G B c m ->
  wpk (h_get fuel k c) R B (gpost R B o) h G.
Proof.
  intros E I Hc. unfold get in E. destruct (find mem fuel (ROwned m) k) as [x| | |] eqn:Ex; try discriminate E. cbn [bind] in E.
  destruct (h_find_ok h G (R ++ B) B I ltac:(occ_solve) _ _ _ _ Ex c Hc) as (y & Ey & Hy).
  unfold h_get. apply (wpk_read _ _ _ _ _ _ _ _ Ey).
  assert (o = None -> wpk (ret SGone) R B (gpost R B o) h G) as A.
  { intros ->. apply wpk_ret. split; [exact I|exact Logic.I]. }
  destruct y as [c1|c1 n1|], x as [[t|]|[t|] n2|]; cbn [frep] in Hy; try tauto; try (apply A; congruence).
  cbn [r_value_opt] in E. unfold r_value_opt in E. pose proof (value_opt_ok _ _ _ (proj1 Hy)) as V.
  destruct (blob_opt (n_value t)) as [b|]; [|destruct V as [-> _]; apply A; congruence].
  destruct V as [-> ->]. cbn [fst snd].
  destruct Hy as [(Hp & Hv & Hk) D].
  eapply wpk_bind; [apply (wpk_clone_value (c_vh c1) (c_v c1) (n_value t) [] R B h G I Hv)|].
  { intros a Ha. apply D. unfold node_items. rewrite !occ_app. lia. }
  cbn beta. intros w h1 G1 (-> & -> & I1) K1. apply wpk_ret. assert (o = Some (n_value t)) as -> by congruence.
  split; [exact I1|exact Hv].
Qed.

(** ** Results are clean *)
Lemma bsearch_in l b t : forall f i j, bsearch l b f i j = Some t -> In t l.
Proof.
  induction f as [|f IHf]; intros i j; cbn [bsearch]; [intros F; discriminate F|].
  destruct (i <? j); [|intros F; discriminate F]. cbv zeta. destruct (nth_error l (i + (j - i) / 2)) as [y|] eqn:Ey; [|intros F; discriminate F].
  destruct (cmp_ob (n_first y) (Some b)); [|apply IHf|apply IHf]. intros F. injection F as <-. now apply nth_error_In in Ey.
Qed.
Lemma find_clean : forall fuel m k x, clean m -> find mem fuel (ROwned m) k = Ok x ->
  match x with Found (ROwned t) | Prefix (ROwned t) _ => clean t | NotFound => True | _ => False end.
Proof.
  induction fuel as [|fuel IH]; intros m k x Hm E; [discriminate E|]. cbn [find r_prefix] in E.
  destruct (load_prefix mem (n_prefix m)) as [p| | |] eqn:Ep; try discriminate E. cbn [bind] in E. cbv zeta in E.
  destruct ((length k - common_prefix p k =? 0) && (length p - common_prefix p k =? 0)); [injection E as <-; exact Hm|].
  destruct (length k - common_prefix p k =? 0); [injection E as <-; exact Hm|].
  destruct (length p - common_prefix p k =? 0); [|injection E as <-; exact Logic.I].
  destruct (nth_error k (common_prefix p k)) as [b|]; [|discriminate E]. cbn [r_load_children] in E.
  destruct (load_children mem m) as [po| | |] eqn:Eo; try discriminate E. cbn [bind] in E.
  pose proof (clean_iter _ _ (or_intror Hm) Eo) as Hp. destruct po as [it|]; [|injection E as <-; exact Logic.I].
  unfold load_children in Eo. destruct (n_kids m) as [ms|id]; [|destruct id; discriminate Eo].
  destruct ms as [|m0 ms]; [discriminate Eo|]. injection Eo as <-. cbn [ocl] in Hp. cbn [it_find] in E.
  destruct (find_owned (m0 :: ms) b) as [t|] eqn:Ef; cbn [option_map] in E; [|injection E as <-; exact Logic.I].
  refine (IH t _ x _ E). rewrite Forall_forall in Hp. apply Hp.
  unfold find_owned in Ef. destruct (length (m0 :: ms) =? 256); [now apply nth_error_In in Ef|].
  apply (bsearch_in _ _ _ _ _ _ Ef).
Qed.
Lemma filter_clean fuel m k s r : clean0 m -> (clean m \/ k <> [] \/ s = []) -> filter_prefix mem fuel m k s = Ok r -> clean0 r.
Proof.
  intros H0 Hk E. unfold filter_prefix in E. destruct (find mem fuel (ROwned m) k) as [x| | |] eqn:Ex; try discriminate E. cbn [bind] in E.
  assert (clean m -> clean0 r) as A.
  { intros Hm. pose proof (find_clean _ _ _ _ Hm Ex) as Hx. destruct x as [[t|]|[t|] n|]; try tauto; cbn [r_to_owned bind r_prefix] in E.
    - injection E as <-. right. unfold set_prefix_slice. destruct t. apply (clean_prefix _ _ _ _ Hx).
    - destruct (load_prefix mem (n_prefix t)); try discriminate E. cbn [bind] in E. destruct (slice_from n a); try discriminate E. cbn [bind] in E.
      injection E as <-. right. unfold set_prefix_slice. destruct t. apply (clean_prefix _ _ _ _ Hx).
    - injection E as <-. now left. }
  destruct H0 as [->|Hm]; [|auto]. destruct Hk as [Hk|Hk]; [auto|].
  destruct fuel as [|fuel]; [discriminate Ex|]. cbn in Ex. destruct k as [|b k].
  - destruct Hk as [Hk| ->]; [congruence|]. cbn in Ex. injection Ex as <-. cbn in E. injection E as <-. now left.
  - cbn in Ex. injection Ex as <-. injection E as <-. now left.
Qed.
