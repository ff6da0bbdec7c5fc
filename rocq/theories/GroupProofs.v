(** [group_by] yields the groups of GroupSpec.v. *)
From Verif Require Import Base BaseLemmas Header Node Combine Iter Api Tree Rep JoinBase PrefixProofs FindProofs Entries
  IterProofs Sim Spec Client Top GroupSpec.
From Coq Require Import Sorting.Sorted.

Section Groups.
Context (d : bytes -> option bytes -> bool).

(** The groups of a tree. *)
Fixpoint groups (path : bytes) (t : tree) : list (list (bytes * bytes)) :=
  match t with
  | T p v cs =>
      if d (path ++ p) v then
        match v with Some x => [[(path ++ p, x)]] | None => [] end ++ flat_map (groups (path ++ p)) cs
      else [entries path t]
  end.

Lemma groups_concat t : forall path, concat (groups path t) = entries path t.
Proof.
  induction t as [p v cs IH] using tree_ind'. intros path. cbn [groups].
  destruct (d (path ++ p) v); [|cbn; apply app_nil_r].
  rewrite entries_T, concat_app. f_equal; [now destruct v|]. unfold entriesl.
  induction IH as [|c cs Hc _ IHcs]; [reflexivity|]. cbn [flat_map]. rewrite concat_app, Hc. f_equal. exact IHcs.
Qed.

(** [c] is a subtree of [g], and the edges above it spell [q]; [a]: the paths of the
    nodes above it, with their values. *)
Inductive Sub (g : tree) : bytes -> list (bytes * option bytes) -> tree -> Prop :=
| Sub_root : Sub g [] [] g
| Sub_kid q a p v cs c : Sub g q a (T p v cs) -> In c cs -> Sub g (q ++ p) ((q ++ p, v) :: a) c.

Lemma groups_in g e : forall t q a, Sub g q a t -> Forall (fun x => d (fst x) (snd x) = true) a ->
  In e (groups q t) ->
  exists q' a' p v cs, Sub g q' a' (T p v cs) /\ Forall (fun x => d (fst x) (snd x) = true) a' /\
    ((d (q' ++ p) v = false /\ e = entries q' (T p v cs)) \/
     (d (q' ++ p) v = true /\ exists x, v = Some x /\ e = [(q' ++ p, x)])).
Proof.
  induction t as [p v cs IH] using tree_ind'. intros q a HS Ha Hin. cbn [groups] in Hin.
  destruct (d (q ++ p) v) eqn:Ed.
  - apply in_app_iff in Hin as [Hin|Hin].
    + destruct v as [x|]; [|destruct Hin]. destruct Hin as [<-|[]].
      exists q, a, p, (Some x), cs. split; [exact HS|]. split; [exact Ha|]. right. eauto.
    + apply in_flat_map in Hin as (c & Hc & Hin). eapply Forall_forall in IH; [|exact Hc].
      eapply (IH (q ++ p) ((q ++ p, v) :: a)); [econstructor; eauto| |exact Hin]. constructor; auto.
  - destruct Hin as [<-|[]]. exists q, a, p, v, cs. split; [exact HS|]. split; [exact Ha|]. left. auto.
Qed.

Lemma Sub_croot g q a c : croot g -> Sub g q a c -> c = g \/ cc c.
Proof.
  intros C H. induction H as [|q a p v cs c H IH Hin]; [now left|]. right.
  assert (Forall cc cs) as F.
  { destruct IH as [<-|IH]; [exact (proj2 (croot_kids _ C))|now inversion IH]. }
  eapply Forall_forall in F; eauto.
Qed.
Lemma Sub_kids g q a p v cs : croot g -> Sub g q a (T p v cs) -> ksorted cs /\ Forall cc cs.
Proof.
  intros C H. destruct (Sub_croot _ _ _ _ C H) as [<-|H']; [exact (croot_kids _ C)|].
  inversion H'; subst; auto.
Qed.

Lemma Sub_cc g q x a c : croot g -> Sub g q (x :: a) c -> cc c.
Proof.
  intros C H. inversion H as [|q0 a0 p v cs c0 H0 Hin]; subst.
  destruct (Sub_kids _ _ _ _ _ _ C H0) as [_ F]. eapply Forall_forall in F; eauto.
Qed.

(** Keys below a subtree. *)
Lemma Sub_lookup g q a c : croot g -> Sub g q a c -> forall w, (a = [] \/ starts c w = true) ->
  lookup g (q ++ w) = lookup c w.
Proof.
  intros C H. induction H as [|q a p v cs c H IH Hin]; intros w Hw; [reflexivity|].
  destruct Hw as [Hw|Hw]; [discriminate|]. destruct (Sub_kids _ _ _ _ _ _ C H) as [So Fc].
  rewrite <- app_assoc, IH.
  - rewrite lookup_raw. unfold rawlook. rewrite strip_app. destruct w as [|y w]; [now rewrite starts_nil in Hw|].
    now apply lkids_in.
  - destruct a as [|a' a]; [now left|right].
    destruct (cc_nonempty_prefix _ (Sub_cc _ _ _ _ _ C H)) as (y & r & Er). cbn [tp] in Er. subst p.
    now apply (starts_self _ y r).
Qed.

Lemma starts_tp c w : cc c -> starts c (tp c ++ w) = true.
Proof. intros H. destruct (cc_nonempty_prefix _ H) as (y & r & Er). rewrite Er. cbn. now apply (starts_self c y r). Qed.

Lemma Sub_here g q a c w : croot g -> Sub g q a c -> lookup g (q ++ tp c ++ w) = lookup c (tp c ++ w).
Proof.
  intros C H. eapply Sub_lookup; eauto. destruct a as [|x a]; [now left|right].
  apply starts_tp. exact (Sub_cc _ _ _ _ _ C H).
Qed.

(** Nodes are forks. *)
Lemma live_forks p v cs : live v cs -> ksorted cs -> Forall cc cs -> forks (lookup (T p v cs)) p.
Proof.
  intros [L|L] So C.
  - left. now rewrite lookup_here.
  - right. destruct cs as [|c1 [|c2 cs]]; cbn in L; try lia. inversion C as [|? ? C1 C']; subst.
    inversion C' as [|? ? C2 _]; subst. inversion So as [|? ? _ F]; subst. inversion F as [|? ? K _]; subst.
    destruct (cc_has_key _ C1) as [k1 H1]. destruct (cc_has_key _ C2) as [k2 H2].
    destruct (lookup c1 k1) as [x1|] eqn:E1; [|congruence]. destruct (lookup c2 k2) as [x2|] eqn:E2; [|congruence].
    destruct (lookup_some_prefix _ _ _ E1) as (r1 & ->). destruct (lookup_some_prefix _ _ _ E2) as (r2 & ->).
    pose proof (lookup_child p v (c1 :: c2 :: cs) c1 _ _ So C (or_introl eq_refl) E1) as L1.
    pose proof (lookup_child p v (c1 :: c2 :: cs) c2 _ _ So C (or_intror (or_introl eq_refl)) E2) as L2.
    unfold klt in K. destruct (tp c1) as [|y1 q1]; [destruct K|]. destruct (tp c2) as [|y2 q2]; [destruct K|].
    cbn [app] in *. exists y1, y2, (q1 ++ r1), (q2 ++ r2). split; [intros ->; lia|]. split; congruence.
Qed.
Lemma Sub_forks g q a p v cs : croot g -> g <> tempty -> Sub g q a (T p v cs) -> forks (lookup g) (q ++ p).
Proof.
  intros C N H.
  assert (live v cs) as L.
  { destruct (Sub_croot _ _ _ _ C H) as [E|H'].
    - destruct C as [->|(L & _)]; [congruence|]. now rewrite <- E in L.
    - now inversion H'. }
  destruct (Sub_kids _ _ _ _ _ _ C H) as [So F].
  pose proof (fun w => Sub_here _ _ _ _ w C H) as E. cbn [tp] in E.
  destruct (live_forks p v cs L So F) as [X|(c1 & c2 & z1 & z2 & Nc & X1 & X2)].
  - left. specialize (E []). rewrite app_nil_r in E. now rewrite E.
  - right. exists c1, c2, z1, z2. rewrite <- !app_assoc, !E. auto.
Qed.

(** Inside of an edge there is no fork. *)
Lemma edge_no_fork g q a c r z : croot g -> Sub g q a c -> tp c = r ++ z -> z <> [] -> (a = [] \/ r <> []) ->
  ~ forks (lookup g) (q ++ r).
Proof.
  intros C H E Nz Nr. assert (a = [] \/ exists y r', r = y :: r') as Nr' by (destruct Nr as [|Nr]; [now left|right; destruct r; [congruence|eauto]]).
  assert (forall w x, lookup g (q ++ r ++ w) = Some x -> exists w', r ++ w = tp c ++ w') as A.
  { intros w x Hw. rewrite (Sub_lookup _ _ _ _ C H) in Hw.
    - apply lookup_some_prefix in Hw as (w' & ->). eauto.
    - destruct Nr' as [|(y & r' & ->)]; [now left|right]. cbn. eapply starts_self. rewrite E. reflexivity. }
  destruct z as [|y z]; [congruence|]. intros [X|(c1 & c2 & z1 & z2 & Nc & X1 & X2)].
  - destruct (lookup g (q ++ r)) as [x|] eqn:El; [|congruence].
    destruct (A [] x) as (w' & Ew); [now rewrite app_nil_r|]. rewrite E, <- app_assoc in Ew.
    apply app_inv_head in Ew. discriminate.
  - destruct (lookup g ((q ++ r) ++ c1 :: z1)) as [x1|] eqn:E1; [|congruence].
    destruct (lookup g ((q ++ r) ++ c2 :: z2)) as [x2|] eqn:E2; [|congruence]. rewrite <- app_assoc in E1, E2.
    destruct (A _ _ E1) as (w1 & Ew1). destruct (A _ _ E2) as (w2 & Ew2). rewrite E, <- app_assoc in Ew1, Ew2.
    apply app_inv_head in Ew1, Ew2. cbn in Ew1, Ew2. congruence.
Qed.

Lemma prefix_cases (a b c e : bytes) : a ++ b = c ++ e -> (exists z, c = a ++ z /\ b = z ++ e) \/ (exists z, z <> [] /\ a = c ++ z /\ e = z ++ b).
Proof.
  revert c. induction a as [|x a IH]; intros c H.
  - left. exists c. auto.
  - destruct c as [|y c]; cbn in H.
    + right. exists (x :: a). split; [discriminate|]. auto.
    + injection H as -> H. destruct (IH _ H) as [(z & -> & ->)|(z & N & -> & ->)]; [left|right]; exists z; auto.
Qed.

(** The forks above a node are the nodes above it. *)
Lemma forks_above g q a c : croot g -> Sub g q a c ->
  forall q' z, z <> [] -> q ++ tp c = q' ++ z -> forks (lookup g) q' -> In (q', lookup g q') a.
Proof.
  intros C H. induction H as [|q a p v cs c H IH Hin]; intros q' z Nz E F.
  - cbn in E. exfalso. eapply (edge_no_fork g [] [] g q' z); eauto. apply Sub_root.
  - pose proof (Sub_kid _ _ _ _ _ _ _ H Hin) as Hs.
    destruct (prefix_cases _ _ _ _ E) as [(y & -> & Ey)|(y & Ny & Ey & ->)].
    + destruct y as [|y0 y].
      * rewrite app_nil_r. left. f_equal. pose proof (Sub_here _ _ _ _ [] C H) as X. cbn [tp] in X.
        rewrite !app_nil_r in X. rewrite X. symmetry. apply lookup_here.
      * exfalso. eapply (edge_no_fork g (q ++ p) _ c (y0 :: y) z); eauto. right. discriminate.
    + right. eapply IH; eauto.
Qed.

Lemma groups_of g m : croot g -> same m (lookup g) -> Forall (group_of d m) (groups [] g).
Proof.
  intros C Em. apply Forall_forall. intros e Hin.
  destruct (groups_in g e g [] [] (Sub_root g) (Forall_nil _) Hin) as (q & a & p & v & cs & HS & Ha & Hd).
  assert (lookup g (q ++ p) = v) as Hv.
  { pose proof (Sub_here _ _ _ _ [] C HS) as X. cbn [tp] in X. rewrite !app_nil_r in X. rewrite X. apply lookup_here. }
  assert (forall x, forks (lookup g) x -> forks m x) as F1.
  { intros x [X|(c1 & c2 & z1 & z2 & X)]; [left|right; exists c1, c2, z1, z2]; now rewrite !Em. }
  assert (forall x, forks m x -> forks (lookup g) x) as F2.
  { intros x [X|(c1 & c2 & z1 & z2 & X)]; [left|right; exists c1, c2, z1, z2]; rewrite !Em in X; auto. }
  exists (q ++ p). split; [|split].
  - assert (g = tempty \/ g <> tempty) as [->|N].
    { destruct (croot_cases g C) as [->|[k Hk]]; [now left|right]. intros ->. now rewrite tempty_lookup in Hk. }
    + right. intros k. now rewrite Em, tempty_lookup.
    + left. eapply F1, Sub_forks; eauto.
  - intros q' z Nz E Hf. apply F2 in Hf.
    pose proof (forks_above g q a _ C HS q' z Nz E Hf) as X. rewrite Forall_forall in Ha.
    apply Ha in X. cbn in X. now rewrite Em.
  - rewrite Em, Hv. destruct Hd as [[Hd ->]|[Hd (x & -> & ->)]]; [left|right; eauto].
    split; [exact Hd|]. destruct (Sub_kids _ _ _ _ _ _ C HS) as [So Fc]. split.
    + pose proof (entries_sorted (T p v cs) (conj So Fc) q) as S. induction S; constructor; auto.
    + intros k x. rewrite (entries_in (T p v cs) (conj So Fc)), Em, starts_with_spec. split.
      * intros (z & -> & L). destruct (lookup_some_prefix _ _ _ L) as (r & ->). cbn [tp] in *.
        rewrite <- L. split; [|exists r; now rewrite app_assoc]. exact (Sub_here _ _ _ _ r C HS).
      * intros [L [z ->]]. exists (p ++ z). rewrite app_assoc. split; [reflexivity|].
        rewrite <- app_assoc in L. pose proof (Sub_here _ _ _ _ z C HS) as X. cbn [tp] in X. now rewrite <- X.
Qed.

(** The iterator. *)
Section Iterator.
Context (ids : bool) (rd : reader).

Lemma by_path_ok r p v cs path : NRep ids rd True r (T p v cs) -> by_path rd d path r = Ok (d path v).
Proof.
  intros Hr. pose proof (NRep_value _ _ _ _ _ _ _ Hr) as HV. unfold by_path. destruct v as [x|].
  - destruct HV as (b & -> & RV). cbn. now rewrite (RepV_value_load _ _ _ RV).
  - now rewrite HV.
Qed.

Lemma gb_next0_groups : forall fuel path stack es m, St ids rd groups path stack es m -> m < fuel ->
  match es with
  | [] => exists s, gb_next0 rd (by_path rd d) fuel (KV path stack) = Ok (None, s)
  | e :: es' => exists n path' stack' m',
      gb_next0 rd (by_path rd d) fuel (KV path stack) = Ok (Some n, KV path' stack') /\
      grel ids rd n e /\ St ids rd groups path' stack' es' m' /\ m' < m
  end.
Proof.
  induction fuel as [|fuel IH]; intros path stack es m HS Hf; [lia|].
  cbn [gb_next0]. cbn [kv_stack kv_path].
  assert (forall path' stack' es' m', St ids rd groups path' stack' es' m' -> es' = es -> m' < m ->
    match es with
    | [] => exists s, gb_next0 rd (by_path rd d) fuel (KV path' stack') = Ok (None, s)
    | e :: es' => exists n path2 stack2 m2,
        gb_next0 rd (by_path rd d) fuel (KV path' stack') = Ok (Some n, KV path2 stack2) /\
        grel ids rd n e /\ St ids rd groups path2 stack2 es' m2 /\ m2 < m
    end) as Rec.
  { intros path' stack' es' m' HS' -> Hm. specialize (IH _ _ _ _ HS' ltac:(lia)).
    destruct es; [exact IH|].
    destruct IH as (n & path2 & stack2 & m2 & E1 & E2 & E3 & E4).
    exists n, path2, stack2, m2. repeat split; auto; lia. }
  destruct stack as [|[len [it|]] rest].
  - inversion HS; subst. eauto.
  - apply St_frame in HS as [(-> & m' & HS & Hm)|(r & it' & c & es' & m' & -> & Hr & Hc & -> & HS & ->)].
    + eapply Rec; eauto.
    + destruct c as [p v cs]. rewrite (NRep_prefix _ _ _ _ _ _ _ Hr). cbn [bind].
      rewrite (by_path_ok _ _ _ _ _ Hr). cbn [bind]. cbn [groups] in *.
      destruct (NR_to_owned _ _ _ _ Hr) as (n & En & Rn).
      destruct (d (path ++ p) v).
      * destruct (NRep_children_owned ids rd True (or_intror I) _ _ _ _ Hr) as (o & -> & Ho). cbn [bind].
        assert (frame ids rd o cs) as HF by (destruct o; auto).
        inversion Hc as [? ? ? _ _ _ C]; subst.
        pose proof (St_push ids rd groups path p o cs _ _ _ HF C HS) as HS'.
        pose proof (cost_le o cs) as CL. rewrite size_T in *.
        pose proof (NRep_value _ _ _ _ _ _ _ Hr) as HV. destruct v as [x|].
        -- destruct HV as (b & -> & RV). rewrite En. cbn [bind app].
           exists (set_kids (set_prefix_slice n (path ++ p)) (KId [])).
           do 3 eexists. split; [reflexivity|].
           split; [eapply setv_grel; eauto|]. split; [exact HS'|lia].
        -- rewrite HV. eapply Rec; [exact HS'|reflexivity|lia].
      * rewrite En. cbn [bind app]. rewrite key_pop_app.
        exists (set_prefix_slice n (path ++ p)), path.
        do 2 eexists. split; [reflexivity|].
        split; [exact (setp_grel _ _ n _ path Rn Hc)|]. split; [exact HS|]. rewrite size_T. lia.
  - apply St_pop in HS as (m' & HS & Hm). eapply Rec; eauto.
Qed.

Lemma gb_collect_groups : forall es fuel path stack m, St ids rd groups path stack es m -> length es + m + 1 < fuel ->
  exists l, collect (gb_next rd (by_path rd d)) fuel (KV path stack) = Ok l /\ Forall2 (grel ids rd) l es.
Proof.
  induction es as [|e es IH]; intros fuel path stack m HS Hf; (destruct fuel as [|fuel]; [lia|]);
    cbn [collect length] in *; unfold gb_next at 1.
  - destruct (gb_next0_groups fuel _ _ _ _ HS ltac:(lia)) as (s & ->). cbn [bind]. eauto.
  - destruct (gb_next0_groups fuel _ _ _ _ HS ltac:(lia)) as (b & path' & stack' & m' & -> & V & HS' & Hm).
    cbn [bind]. destruct (IH fuel _ _ _ HS' ltac:(lia)) as (l & -> & F). cbn [bind].
    eexists. split; [reflexivity|]. constructor; [|exact F]. exact V.
Qed.

Lemma groups_len t : forall path, length (groups path t) <= size t.
Proof.
  induction t as [p v cs IH] using tree_ind'. intros path. cbn [groups]. rewrite size_T.
  destruct (d (path ++ p) v); [|cbn; lia].
  assert (length (flat_map (groups (path ++ p)) cs) <= sizes cs).
  { induction IH as [|c cs Hc _ IHcs]; [cbn; lia|]. cbn [flat_map]. rewrite app_length, sizes_cons.
    specialize (Hc (path ++ p)). lia. }
  rewrite app_length. destruct v; cbn [length].
  - exact (le_n_S _ _ H).
  - exact (le_S _ _ H).
Qed.

Lemma gb_root fuel n t : Rep ids rd n t -> croot t -> 4 * size t + 10 < fuel ->
  exists l, collect (gb_next rd (by_path rd d)) fuel (kv_new n) = Ok l /\ Forall2 (grel ids rd) l (groups [] t).
Proof.
  intros H Hc Hf. pose proof (groups_len t []) as GL. destruct fuel as [|fuel]; [lia|]. destruct t as [p v cs].
  pose proof (Rep_NRep _ _ True _ _ H) as Hr.
  assert (St ids rd groups [] [(0, Some (IOwned []))] [] 2) as H0.
  { apply (St_cons ids rd groups [] 0 (Some (IOwned [])) [] [] [] 0); [|constructor|constructor].
    split; [left; eauto|]. exists []. cbn. auto. }
  assert (exists fuel', fuel = S fuel') as (fuel' & ->) by (destruct fuel; [lia|eauto]).
  rewrite collect_S. unfold gb_next at 1. cbn [gb_next0 kv_new it_next kv_stack kv_path app].
  rewrite (NRep_prefix _ _ _ _ _ _ _ Hr). cbn [bind].
  rewrite (by_path_ok _ _ _ _ _ Hr). cbn [bind]. cbn [groups app] in *.
  destruct (d p v).
  - destruct (NRep_children_owned ids rd True (or_intror I) _ _ _ _ Hr) as (o & -> & Ho). cbn [bind].
    assert (frame ids rd o cs) as HF by (destruct o; auto).
    destruct (croot_kids _ Hc) as [_ C]. cbn [tc] in C.
    pose proof (St_push ids rd groups [] p o cs _ _ _ HF C H0) as HS'. rewrite app_nil_r in HS'. cbn [app] in HS'.
    pose proof (cost_le o cs) as CL. rewrite size_T in *. unfold El in HS'.
    assert (GE : length (flat_map (groups p) cs) <= S (sizes cs)).
    { rewrite app_length in GL. etransitivity; [|exact GL]. apply Nat.le_add_l. }
    clear GL. revert GE HS'. generalize (flat_map (groups p) cs) as E. intros E GE HS'.
    pose proof (NRep_value _ _ _ _ _ _ _ Hr) as HV. destruct v as [x|].
    + destruct HV as (b & -> & RV). cbn [bind r_to_owned].
      destruct (gb_collect_groups _ (S fuel') _ _ _ HS') as (l & -> & F); [cbn [length] in *; lia|].
      cbn [bind]. eexists. split; [reflexivity|]. constructor; [|exact F]. eapply setv_grel; eauto.
    + rewrite HV. cbn [app length] in *.
      pose proof (gb_next0_groups fuel' _ _ _ _ HS' ltac:(lia)) as HN.
      destruct E as [|e es].
      * destruct HN as (s & ->). cbn [bind]. eauto.
      * destruct HN as (m & path' & stack' & m' & -> & G & HS2 & Hm). cbn [bind length] in *.
        destruct (gb_collect_groups _ (S fuel') _ _ _ HS2) as (l & -> & F); [lia|].
        cbn [bind]. eauto.
  - cbn [bind r_to_owned].
    assert (key_pop p (length p) = []) as -> by (unfold key_pop; now rewrite Nat.sub_diag).
    destruct (gb_collect_groups _ (S fuel') _ _ _ H0) as (l & -> & F); [cbn; lia|].
    cbn [bind]. eexists. split; [reflexivity|]. constructor; [|exact F].
    exists (T p v cs). split; [|split; [exact Hc|reflexivity]].
    apply Rep_inv in H as (RP & RV & ns & RK & F'). eapply Rep_mk; cbn; eauto. now left.
Qed.

Lemma g_groups t g m : Rep ids rd t g -> croot g -> holds rd t m ->
  exists ts ls, t_group_by rd t (by_path rd d) ⇓ Ok ts /\
    Forall2 (fun u l => exists mu, holds rd u mu /\ lists l mu) ts ls /\ lists (concat ls) m /\
    Forall (group_of d m) ls.
Proof.
  intros R C H. pose proof (holds_lookup ids rd t g m R C H) as Em.
  destruct (conv_ok (t_group_by rd t (by_path rd d)) (4 * size g + 11)
    (fun l => Forall2 (grel ids rd) l (groups [] g))) as (ts & Ct & F).
  - apply mono_collect. intros. apply gb_next_sim; [apply rsim_refl| |assumption].
    intros. apply sim_refl.
  - apply gb_root; auto; lia.
  - exists ts, (groups [] g). split; [exact Ct|].
    split; [|split; [rewrite groups_concat; now apply lists_entries|now apply groups_of]].
    clear Ct. induction F as [|u l ts ess (gu & Ru & Cu & <-) _ IH]; constructor; auto.
    exists (lookup gu). split; [now apply good_holds with (ids := ids)|]. apply lists_entries; auto. intros k. reflexivity.
Qed.
End Iterator.
End Groups.
