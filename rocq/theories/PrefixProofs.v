(** Correctness of [retain_prefix_with] and [remove_prefix_with]. *)
From Verif Require Import Base BaseLemmas Header Node Combine Tree Rep JoinBase JoinProofs WithProofs.

Section Cov.
(** [s]: is a value selected? *)
Context (s : bytes -> bool).

Definition selv (v : option bytes) : bool := match v with Some x => s x | None => false end.

(** Some key of the tree that is a prefix of [k] has a selected value. *)
Fixpoint cov (t : tree) (k : bytes) {struct t} : bool :=
  match t with
  | T p v cs =>
      match strip p k with
      | None => false
      | Some r =>
          selv v ||
          (fix ckids (cs : list tree) : bool :=
             match cs with
             | [] => false
             | c :: cs' => if starts c r then cov c r else ckids cs'
             end) cs
      end
  end.

Definition ckids := okids false cov.

Definition rawcov (p : bytes) (v : option bytes) (cs : list tree) (k : bytes) : bool :=
  match strip p k with
  | None => false
  | Some r => selv v || ckids cs r
  end.

Lemma cov_raw p v cs k : cov (T p v cs) k = rawcov p v cs k.
Proof.
  unfold rawcov, ckids. cbn. destruct (strip p k) as [r|]; [|reflexivity]. f_equal.
  induction cs as [|c cs IH]; [reflexivity|]. cbn. destruct (starts c r); auto.
Qed.
Global Arguments cov : simpl never.

Lemma ckids_nil_key cs : ckids cs [] = false.
Proof. unfold ckids. induction cs; cbn; [reflexivity|]. now rewrite starts_nil. Qed.

Lemma cov_not_starts b k x q : tp b = x :: q -> starts b k = false -> cov b k = false.
Proof.
  destruct b as [p v cs]. cbn [tp]. intros -> H. rewrite cov_raw. unfold rawcov. cbn.
  unfold starts in H. cbn in H. destruct k as [|y k]; [reflexivity|]. now rewrite H.
Qed.

Lemma ckids_singleton t k : tp t <> [] -> ckids [t] k = cov t k.
Proof.
  intros H. unfold ckids. cbn. destruct (starts t k) eqn:S; [reflexivity|].
  destruct (tp t) as [|x q] eqn:E; [congruence|]. symmetry. now apply cov_not_starts with x q.
Qed.

Lemma rawcov_shorten t k n : n < length (tp t) ->
  cov t k = rawcov (firstn n (tp t)) None [shorten n t] k.
Proof.
  intros Hn. destruct t as [p v cs]. cbn [tp] in *. rewrite cov_raw. unfold rawcov.
  rewrite <- (firstn_skipn n p) at 1. rewrite strip_app_l.
  destruct (strip (firstn n p) k) as [r|]; [|reflexivity]. cbn [selv orb].
  rewrite ckids_singleton.
  - unfold shorten. now rewrite cov_raw.
  - cbn. destruct (skipn_cons_nth n p Hn) as (x & _ & ->). discriminate.
Qed.

(** [cov] means what it says. *)
Lemma cov_spec t k : cov t k = true <->
  exists q r x, k = q ++ r /\ lookup t q = Some x /\ s x = true.
Proof.
  revert k. induction t as [p v cs IH] using tree_ind'. intros k. rewrite cov_raw. unfold rawcov.
  assert (forall r, ckids cs r = true <->
    exists q r' x, r = q ++ r' /\ lkids cs q = Some x /\ s x = true) as Hk.
  { clear -IH. induction IH as [|c cs Hc _ IHc]; intros r.
    - cbn. split; [discriminate|]. intros (q & r' & x & _ & H & _). discriminate.
    - unfold ckids. cbn. destruct (starts c r) eqn:S.
      + rewrite Hc. split; intros (q & r' & x & -> & H1 & H2).
        * exists q, r', x. split; [reflexivity|]. split; [|exact H2].
          destruct (starts c q) eqn:S'; [exact H1|]. exfalso.
          unfold starts in S. destruct (tp c) as [|y z] eqn:E; [discriminate|].
          rewrite (lookup_not_starts c y z q E S') in H1. discriminate.
        * exists q, r', x. split; [reflexivity|]. split; [|exact H2].
          destruct (starts c q) eqn:S'; [exact H1|]. exfalso.
          destruct q as [|y q]; [now rewrite lkids_nil_key in H1|].
          assert (starts c ((y :: q) ++ r') = starts c (y :: q)) as E by (unfold starts; now destruct (tp c)).
          congruence.
      + change (okids false cov cs r) with (ckids cs r). rewrite IHc.
        split; intros (q & r' & x & -> & H1 & H2).
        * exists q, r', x. split; [reflexivity|]. split; [|exact H2].
          destruct q as [|y q]; [now rewrite lkids_nil_key in H1|].
          replace (starts c (y :: q)) with (starts c ((y :: q) ++ r')); [now rewrite S|].
          unfold starts. now destruct (tp c).
        * exists q, r', x. split; [reflexivity|]. split; [|exact H2].
          destruct q as [|y q]; [now rewrite starts_nil, lkids_nil_key in H1|].
          replace (starts c (y :: q)) with (starts c ((y :: q) ++ r')) in H1; [now rewrite S in H1|].
          unfold starts. now destruct (tp c). }
  destruct (strip p k) as [r|] eqn:E.
  - apply strip_spec in E. subst k. rewrite orb_true_iff, Hk. split.
    + intros [H|(q & r' & x & -> & H1 & H2)].
      * destruct v as [x|]; [|discriminate]. exists p, r, x. split; [reflexivity|]. split; [|exact H].
        rewrite lookup_raw. unfold rawlook. rewrite <- (app_nil_r p) at 2. now rewrite strip_app.
      * exists (p ++ q), r', x. rewrite app_assoc. split; [reflexivity|]. split; [|exact H2].
        rewrite lookup_raw. unfold rawlook. rewrite strip_app.
        destruct q; [now rewrite lkids_nil_key in H1|exact H1].
    + intros (q & r' & x & E & H1 & H2). rewrite lookup_raw in H1. unfold rawlook in H1.
      destruct (strip p q) as [q'|] eqn:E'; [|discriminate]. apply strip_spec in E'. subst q.
      rewrite <- app_assoc in E. apply app_inv_head in E. subst r.
      destruct q' as [|y q']; [left; subst v; exact H2|]. right. exists (y :: q'), r', x. auto.
  - split; [discriminate|]. intros (q & r' & x & -> & H1 & H2). exfalso.
    rewrite lookup_raw in H1. unfold rawlook in H1.
    destruct (strip p q) as [q'|] eqn:E'; [|discriminate]. apply strip_spec in E'. subst q.
    rewrite <- app_assoc, strip_app in E. discriminate.
Qed.

(** If an entry is not selected, its extensions are not selected either. *)
Definition hered (t : tree) : Prop :=
  forall q r x y, lookup t q = Some x -> lookup t (q ++ r) = Some y -> s x = false -> s y = false.
End Cov.

Definition gRm (x : option bytes) (b : bool) : option bytes := if b then None else x.
Definition gRt (x : option bytes) (b : bool) : option bytes := if b then x else None.

Lemma hered_shorten s n t : n <= length (tp t) -> hered s t -> hered s (shorten n t).
Proof.
  intros Hn H q r x y Hq Hr Hs. destruct t as [p v cs]. cbn [tp] in Hn.
  unfold shorten in *. cbn [tp tv tc] in *.
  assert (forall z, lookup (T (skipn n p) v cs) z = lookup (T p v cs) (firstn n p ++ z)) as L.
  { intros z. rewrite !lookup_raw. unfold rawlook.
    rewrite <- (firstn_skipn n p) at 2. rewrite strip_app_l, strip_app. reflexivity. }
  rewrite L in Hq, Hr. rewrite app_assoc in Hr. exact (H _ _ _ _ Hq Hr Hs).
Qed.

Lemma lkids_in cs c k : ksorted cs -> Forall cc cs -> In c cs -> starts c k = true ->
  lkids cs k = lookup c k.
Proof.
  induction cs as [|a cs IH]; [intros _ _ []|]. intros S C Hin St. inversion C; subst.
  destruct (cc_nonempty_prefix _ H1) as (x & q & E).
  apply (ksorted_cons _ _ _ _ E) in S as [A S]. cbn. destruct Hin as [->|Hin]; [now rewrite St|].
  destruct (starts a k) eqn:Sa; [|auto]. exfalso.
  destruct k as [|y k]; [now rewrite starts_nil in St|].
  unfold starts in Sa. rewrite E in Sa. destruct (byte_eqb_spec x y); [subst|discriminate].
  eapply Forall_forall in A; [|exact Hin]. unfold starts in St. destruct (tp c); [discriminate|].
  destruct (byte_eqb_spec b y); [subst; lia|discriminate].
Qed.

Lemma lookup_some_starts t k x y q : tp t = y :: q -> lookup t k = Some x -> starts t k = true.
Proof.
  intros E H. destruct (starts t k) eqn:S; [reflexivity|].
  now rewrite (lookup_not_starts _ _ _ _ E S) in H.
Qed.

Lemma lookup_child p v cs c k x : ksorted cs -> Forall cc cs -> In c cs -> lookup c k = Some x ->
  lookup (T p v cs) (p ++ k) = Some x.
Proof.
  intros S C Hin H. pose proof (proj1 (Forall_forall _ _) C c Hin) as Hc.
  destruct (cc_nonempty_prefix _ Hc) as (y & q & E).
  pose proof (lookup_some_starts _ _ _ _ _ E H) as St.
  rewrite lookup_raw. unfold rawlook. rewrite strip_app.
  destruct k as [|z k]; [now rewrite starts_nil in St|]. now rewrite (lkids_in cs c).
Qed.

Lemma hered_kids s p v cs : ksorted cs -> Forall cc cs -> hered s (T p v cs) -> Forall (hered s) cs.
Proof.
  intros S C H. apply Forall_forall. intros c Hin q r x y Hq Hr Hs.
  eapply (H (p ++ q) r x y); auto.
  - eapply lookup_child; eauto.
  - rewrite <- app_assoc. eapply lookup_child; eauto.
Qed.

Section Prefixes.
Context (dbg : bool) (idsA idsB : bool) (rdA rdB : reader) (al : Prop).
Context (HdB : det rdB \/ al).
Context (Hids : idsA = false) (Hdbg : dbg = true -> det rdA \/ al).
Context (f : blob -> res bool) (s : bytes -> bool).
Context (Hf : forall bv y, RepV rdB bv (Some y) -> okp al (f bv) (fun b => b = s y)).

Notation NB := (NRep idsB rdB al).
Notation OB := (ORep idsB rdB al).
Notation RA := (Rep idsA rdA).

Lemma selected_ok rb p v cs : NB rb (T p v cs) ->
  okp al (selected f (r_value_opt rb)) (fun b => b = selv s v).
Proof.
  intros H. apply NRep_value in H. destruct v as [x|].
  - destruct H as (b & -> & RV). cbn. now apply Hf.
  - rewrite H. now apply okp_ok.
Qed.

(** Pointwise result below a common prefix when the node's own value of the
    right operand is not selected. *)
Lemma raw_cov g p va vb v xs ys rs ta tb :
  g None false = None -> v = g va false -> selv s vb = false ->
  KJ false (cov s) g xs ys rs ->
  (forall k, lookup ta k = rawlook p va xs k) ->
  (forall k, cov s tb k = rawcov s p vb ys k) ->
  forall k, rawlook p v rs k = g (lookup ta k) (cov s tb k).
Proof.
  intros G E Sv K Ha Hb k. rewrite Ha, Hb. unfold rawlook, rawcov.
  destruct (strip p k) as [r|]; [|auto]. rewrite Sv. cbn [orb]. destruct r as [|y r].
  - now rewrite ckids_nil_key.
  - rewrite (KJ_look _ _ _ _ _ _ K) by discriminate. reflexivity.
Qed.

Lemma disjoint_cov ap bp va vb xs ys n x y k :
  n < length ap -> n < length bp -> firstn n ap = firstn n bp ->
  nth_error ap n = Some x -> nth_error bp n = Some y -> x <> y ->
  lookup (T ap va xs) k <> None -> cov s (T bp vb ys) k = false.
Proof.
  intros E1 E2 E3 Ex Ey Nxy H.
  rewrite (rawlook_shorten (T ap va xs) k n E1) in H. cbn [tp] in H.
  rewrite (rawcov_shorten s (T bp vb ys) k n E2). cbn [tp]. rewrite <- E3.
  unfold rawlook in H. unfold rawcov.
  destruct (strip (firstn n ap) k) as [[|c r]|]; auto; [congruence|]. cbn [selv orb].
  destruct (tp_shorten_nth (T ap va xs) n x Ex) as [qa Eqa].
  destruct (tp_shorten_nth (T bp vb ys) n y Ey) as [qb Eqb].
  unfold ckids. cbn [lkids okids] in *. unfold starts in *. rewrite Eqa in H. rewrite Eqb.
  destruct (byte_eqb_spec x c); [subst|congruence].
  destruct (byte_eqb_spec y c); [congruence|reflexivity].
Qed.

Lemma under_cov p va xs vb ys k : selv s vb = true -> lookup (T p va xs) k <> None ->
  cov s (T p vb ys) k = true.
Proof.
  intros Sv H. rewrite lookup_raw in H. rewrite cov_raw. unfold rawlook in H. unfold rawcov.
  destruct (strip p k); [|congruence]. now rewrite Sv.
Qed.

Lemma under_cov' ap va xs bp vb ys k n : n = length bp -> firstn n ap = bp ->
  selv s vb = true -> lookup (T ap va xs) k <> None -> cov s (T bp vb ys) k = true.
Proof.
  intros -> E Sv H. rewrite lookup_raw in H. rewrite cov_raw. unfold rawlook in H. unfold rawcov.
  rewrite <- (firstn_skipn (length bp) ap), E, strip_app_l in H.
  destruct (strip bp k); [|congruence]. now rewrite Sv.
Qed.

Theorem remove_prefix_with_ok : forall fuel,
  recw idsA idsB rdA rdB al (cov s) gRm anyt (remove_prefix_with dbg rdA rdB f fuel) (fuel - 2).
Proof.
  set (g := gRm).
  assert (gR : forall o, g o false = o) by reflexivity.
  assert (gl : forall o, g None o = None) by (intros [|]; reflexivity).
  assert (g0 : g None false = None) by reflexivity.
  induction fuel as [|fuel IH]; intros na rb ta tb Ra Rb Ca Cb _ Hs;
    [pose proof (size_pos ta); cbn in Hs; lia|].
  destruct ta as [ap va xs], tb as [bp vb ys]. cbn [remove_prefix_with].
  pose proof (Rep_inv _ _ _ _ _ _ Ra) as (RP & RV & nx & RK & RF).
  rewrite (RepP_load _ _ _ _ RP), (NRep_prefix _ _ _ _ _ _ _ Rb). cbn [bind].
  destruct (croot_kids _ Ca) as [Sa Ka]. destruct (croot_kids _ Cb) as [Sb Kb]. cbn [tc] in *.
  rewrite !size_T in Hs.
  destruct (NRep_children _ _ _ HdB _ _ _ _ Rb) as (ob & Eb & Ob).
  pose proof (selected_ok _ _ _ _ Rb) as SB.
  destruct (edges_cases ap bp) as [E1 E2 E3|E1 E2 E3|E1 E2 E3|x y E1 E2 E3 Ex Ey Nxy];
    set (n := common_prefix ap bp) in *; edge_tests.
  - subst bp. eapply okp_bind; [exact SB|]. cbv beta. intros b ->. destruct (selv s vb) eqn:Sv.
    + eapply emptyw with (ob := cov s). intros k. destruct (lookup (T ap va xs) k) eqn:El; [|apply gl].
      rewrite (under_cov ap va xs vb ys k Sv); [reflexivity|congruence].
    + rewrite (load_children_mut_ok rdA na nx RK). cbn [bind]. rewrite Eb. cbn [bind].
      eapply okp_bind; [eapply left_children_with_ok with (ob := cov s) (M := fuel - 2) (xs := xs) (ys := ys) (Q := anyt);
        eauto using anyts, cov_not_starts; lia|].
      intros ns (rs & Fn & K). rewrite set_kids_eta.
      eapply finishw with (ob := cov s) (rs := rs); eauto.
      * intros _. eapply noids_merge with (idsA := idsA); eauto.
      * eapply raw_cov with (va := va) (vb := vb); eauto; intros; [apply lookup_raw|apply cov_raw].
  - rewrite (load_children_mut_ok rdA na nx RK). cbn [bind].
    eapply okp_bind; [eapply r_clone_shortened_ok with (t := T bp vb ys); cbn; eauto; lia|].
    intros b' [Rb' _].
    eapply okp_bind; [eapply left_children_with_ok with (ob := cov s) (M := fuel - 2) (xs := xs) (Q := anyt)
      (ys := [shorten n (T bp vb ys)]);
      eauto using anyts, cov_not_starts, OB_single, cc_single_sorted;
      rewrite ?sizes_single, ?size_shorten, ?size_T; try lia|].
    { constructor; [now apply shorten_cc|constructor]. }
    intros ns (rs & Fn & K). rewrite set_kids_eta.
    eapply finishw with (ob := cov s) (rs := rs); eauto.
    + intros _. eapply noids_merge with (idsA := idsA); eauto.
    + eapply raw_cov with (va := va) (vb := None); eauto.
      * intros; apply lookup_raw.
      * intros k. rewrite (rawcov_shorten s (T bp vb ys) k n E2). cbn [tp]. now rewrite E3.
  - eapply okp_bind; [exact SB|]. cbv beta. intros b ->. destruct (selv s vb) eqn:Sv.
    + eapply emptyw with (ob := cov s). intros k. destruct (lookup (T ap va xs) k) eqn:El; [|apply gl].
      rewrite (under_cov' ap va xs bp vb ys k n E1 E3 Sv); [reflexivity|congruence].
    + destruct (split_ok idsA rdA na (T ap va xs) n Ra) as (n1 & m & -> & K1 & Rm & _ & P1 & V1); [cbn; lia|].
      cbn [bind]. rewrite (load_children_mut_ok rdA n1 [m]) by (left; exact K1). cbn [bind].
      rewrite Eb. cbn [bind].
      eapply okp_bind; [eapply left_children_with_ok with (ob := cov s) (M := fuel - 2) (Q := anyt)
        (xs := [shorten n (T ap va xs)]) (ys := ys);
        eauto using anyts, cov_not_starts, OB_single, cc_single_sorted;
        rewrite ?sizes_single, ?size_shorten, ?size_T; try lia|].
      { constructor; [now apply shorten_cc|constructor]. }
      intros ns (rs & Fn & K). rewrite set_kids_eta, P1, V1. cbn [tp].
      eapply finishw with (ob := cov s) (rs := rs) (p := bp) (v := None); eauto.
      * rewrite E3. now left.
      * reflexivity.
      * intros _. eapply noids_merge with (idsA := idsA) (p := bp) (v := None); eauto; [rewrite E3; now left|reflexivity].
      * eapply raw_cov with (va := None) (vb := vb); eauto.
        -- intros k. rewrite (rawlook_shorten (T ap va xs) k n E2). cbn [tp]. now rewrite E3.
        -- intros; apply cov_raw.
  - eapply okp_weaken; [eapply canonicalize_same with (t := T ap va xs) (al := al); eauto|auto|].
    intros n' [R' Em]. exists (T ap va xs). split; [exact R'|]. split; [exact Em|].
    split; [exact Ca|]. intros k. destruct (lookup (T ap va xs) k) eqn:El; [|now rewrite gl].
    rewrite (disjoint_cov ap bp va vb xs ys n x y k); auto; congruence.
Qed.

(** Nothing is covered below an entry that is not selected. *)
Lemma hered_cov p v x cs k : v = Some x -> s x = false -> hered s (T p v cs) -> cov s (T p v cs) k = false.
Proof.
  intros -> Hx H. destruct (cov s (T p (Some x) cs) k) eqn:E; [|reflexivity].
  apply cov_spec in E as (q & r & y & -> & H1 & H2).
  assert (exists q', q = p ++ q') as [q' ->].
  { rewrite lookup_raw in H1. unfold rawlook in H1. destruct (strip p q) as [q'|] eqn:E; [|discriminate].
    apply strip_spec in E. eauto. }
  assert (lookup (T p (Some x) cs) p = Some x) as Hp.
  { rewrite lookup_raw. unfold rawlook. rewrite <- (app_nil_r p) at 2. now rewrite strip_app. }
  rewrite (H p q' x y Hp H1 Hx) in H2. discriminate.
Qed.

Theorem retain_prefix_with_ok : forall fuel,
  recw idsA idsB rdA rdB al (cov s) gRt (hered s) (retain_prefix_with dbg rdA rdB f fuel) (fuel - 2).
Proof.
  set (g := gRt).
  assert (gR : forall o, g o false = None) by reflexivity.
  assert (gl : forall o, g None o = None) by (intros [|]; reflexivity).
  assert (g0 : g None false = None) by reflexivity.
  induction fuel as [|fuel IH]; intros na rb ta tb Ra Rb Ca Cb HQ Hs;
    [pose proof (size_pos ta); cbn in Hs; lia|].
  destruct ta as [ap va xs], tb as [bp vb ys]. cbn [retain_prefix_with].
  pose proof (Rep_inv _ _ _ _ _ _ Ra) as (RP & RV & nx & RK & RF).
  rewrite (RepP_load _ _ _ _ RP), (NRep_prefix _ _ _ _ _ _ _ Rb). cbn [bind].
  destruct (croot_kids _ Ca) as [Sa Ka]. destruct (croot_kids _ Cb) as [Sb Kb]. cbn [tc] in *.
  rewrite !size_T in Hs.
  destruct (NRep_children _ _ _ HdB _ _ _ _ Rb) as (ob & Eb & Ob).
  pose proof (selected_ok _ _ _ _ Rb) as SB. pose proof (NRep_value _ _ _ _ _ _ _ Rb) as VB.
  pose proof (hered_kids _ _ _ _ Sb Kb HQ) as HQk.
  destruct (edges_cases ap bp) as [E1 E2 E3|E1 E2 E3|E1 E2 E3|x y E1 E2 E3 Ex Ey Nxy];
    set (n := common_prefix ap bp) in *; edge_tests.
  - subst bp. eapply okp_bind; [exact SB|]. cbv beta. intros b ->. destruct (selv s vb) eqn:Sv.
    + eapply okp_weaken; [eapply canonicalize_same with (t := T ap va xs) (al := al); eauto|auto|].
      intros n' [R' Em]. exists (T ap va xs). split; [exact R'|]. split; [exact Em|].
      split; [exact Ca|]. intros k. destruct (lookup (T ap va xs) k) eqn:El; [|now rewrite gl].
      rewrite (under_cov ap va xs vb ys k Sv); [reflexivity|congruence].
    + rewrite (load_children_mut_ok rdA (set_value na bnone) nx RK). cbn [bind]. rewrite Eb. cbn [bind].
      eapply okp_bind; [eapply inner_children_with_ok with (ob := cov s) (M := fuel - 2) (xs := xs) (ys := ys) (Q := hered s);
        eauto using cov_not_starts; lia|].
      intros ns (rs & Fn & K). rewrite set_kids_eta. cbn [set_value n_prefix n_value].
      eapply finishw with (ob := cov s) (rs := rs) (v := None); eauto.
      * reflexivity.
      * intros _. eapply noids_merge with (idsA := idsA) (v := None); eauto. reflexivity.
      * eapply raw_cov with (va := va) (vb := vb); eauto; intros; [apply lookup_raw|apply cov_raw].
  - rewrite (load_children_mut_ok rdA (set_value na bnone) nx RK). cbn [bind].
    eapply okp_bind; [eapply r_clone_shortened_ok with (t := T bp vb ys); cbn; eauto; lia|].
    intros b' [Rb' _].
    eapply okp_bind; [eapply inner_children_with_ok with (ob := cov s) (M := fuel - 2) (xs := xs) (Q := hered s)
      (ys := [shorten n (T bp vb ys)]);
      eauto using cov_not_starts, OB_single, cc_single_sorted;
      rewrite ?sizes_single, ?size_shorten, ?size_T; try lia|].
    { constructor; [now apply shorten_cc|constructor]. }
    { constructor; [apply hered_shorten; [cbn; lia|exact HQ]|constructor]. }
    intros ns (rs & Fn & K). rewrite set_kids_eta. cbn [set_value n_prefix n_value].
    eapply finishw with (ob := cov s) (rs := rs) (v := None); eauto.
    + reflexivity.
    + intros _. eapply noids_merge with (idsA := idsA) (v := None); eauto. reflexivity.
    + eapply raw_cov with (va := va) (vb := None); eauto.
      * intros; apply lookup_raw.
      * intros k. rewrite (rawcov_shorten s (T bp vb ys) k n E2). cbn [tp]. now rewrite E3.
  - destruct vb as [v|].
    + destruct VB as (bv & -> & RVb). eapply okp_bind; [eapply Hf; eauto|]. cbv beta. intros b ->.
      destruct (s v) eqn:Sv.
      * eapply okp_weaken; [eapply canonicalize_same with (t := T ap va xs) (al := al); eauto|auto|].
        intros n' [R' Em]. exists (T ap va xs). split; [exact R'|]. split; [exact Em|].
        split; [exact Ca|]. intros k. destruct (lookup (T ap va xs) k) eqn:El; [|now rewrite gl].
        rewrite (under_cov' ap va xs bp (Some v) ys k n E1 E3 Sv); [reflexivity|congruence].
      * eapply emptyw with (ob := cov s). intros k. rewrite (hered_cov _ _ v _ _ eq_refl Sv HQ). apply gR.
    + rewrite VB.
      destruct (split_ok idsA rdA na (T ap va xs) n Ra) as (n1 & m & -> & K1 & Rm & _ & P1 & V1); [cbn; lia|].
      cbn [bind]. rewrite (load_children_mut_ok rdA n1 [m]) by (left; exact K1). cbn [bind].
      rewrite Eb. cbn [bind].
      eapply okp_bind; [eapply inner_children_with_ok with (ob := cov s) (M := fuel - 2) (Q := hered s)
        (xs := [shorten n (T ap va xs)]) (ys := ys);
        eauto using cov_not_starts, OB_single, cc_single_sorted;
        rewrite ?sizes_single, ?size_shorten, ?size_T; try lia|].
      { constructor; [now apply shorten_cc|constructor]. }
      intros ns (rs & Fn & K). rewrite set_kids_eta, P1, V1. cbn [tp].
      eapply finishw with (ob := cov s) (rs := rs) (p := bp) (v := None); eauto.
      * rewrite E3. now left.
      * reflexivity.
      * intros _. eapply noids_merge with (idsA := idsA) (p := bp) (v := None); eauto; [rewrite E3; now left|reflexivity].
      * eapply raw_cov with (va := None) (vb := None); eauto.
        -- intros k. rewrite (rawlook_shorten (T ap va xs) k n E2). cbn [tp]. now rewrite E3.
        -- intros; apply cov_raw.
  - eapply emptyw with (ob := cov s). intros k. destruct (lookup (T ap va xs) k) eqn:El; [|now rewrite gl].
    rewrite (disjoint_cov ap bp va vb xs ys n x y k); auto; congruence.
Qed.
End Prefixes.
