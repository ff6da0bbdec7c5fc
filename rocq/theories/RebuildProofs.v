(** Taking a tree apart and putting it together again (C97). *)
From Verif Require Import Base BaseLemmas Header Node Combine Iter Api Tree Canon Rep Entries IterProofs Sim Spec Client Store StoreSpec MergeSpec MergeProofs
  MemLemmas Top TopOps ShapeProofs StoreProofs World StoreLemmas StoreTop Bulk BulkProofs BulkMix.

Lemma rep_alike t u g : Rep false mem t g -> Rep false mem u g -> croot g -> alike t u.
Proof.
  intros Rt Ru C. pose proof (good_holds false mem t g Rt C) as Ht. pose proof (good_holds false mem u g Ru C) as Hu.
  split; [|split].
  - intros k. exists (lookup g k). split; [apply Ht|apply Hu].
  - destruct (g_iter false mem t g _ Rt C Ht) as (l & Cl & Sl). destruct (g_iter false mem u g _ Ru C Hu) as (l' & Cl' & Sl').
    pose proof (lists_where_unique _ _ _ _ Sl Sl') as <-. exists l. auto.
  - intros S s. unfold t_attached, t_reattach, wbind. now rewrite (save_same S g t u Rt Ru s).
Qed.

(** Collecting a listing of a map. *)
Lemma only_one l k v : NoDup (map fst l) -> In (k, v) l -> filter (fun e : bytes * bytes => beq (fst e) k) l = [(k, v)].
Proof.
  induction l as [|[k' v'] l IH]; intros Nd Hin; [contradiction|]. cbn [map fst] in Nd. inversion Nd as [|? ? Nk Nd']; subst.
  cbn [filter fst]. destruct Hin as [[= -> ->]|Hin].
  - destruct (beq_spec k k); [|tauto]. f_equal. clear - Nk. induction l as [|[a b] l IH]; [reflexivity|].
    cbn in *. destruct (beq_spec a k); [tauto|]. apply IH. tauto.
  - destruct (beq_spec k' k) as [->|]; [|now apply IH]. exfalso. apply Nk. now apply (in_map fst) in Hin.
Qed.
Lemma none_of l k : ~ In k (map fst l) -> filter (fun e : bytes * bytes => beq (fst e) k) l = [].
Proof.
  induction l as [|[a b] l IH]; intros H; [reflexivity|]. cbn in *. destruct (beq_spec a k); [tauto|]. apply IH. tauto.
Qed.
Lemma collect_lists dbg l m : lists l m ->
  exists y, t_from_pairs dbg mem n_empty l ⇓ Ok y /\ reachable dbg y /\ holds mem y m.
Proof.
  intros L. destruct (mem_collect dbg l) as (y & Cy & Ry & Hy). exists y. split; [exact Cy|]. split; [exact Ry|].
  eapply holds_ext; [|exact Hy]. intros k. destruct (m k) as [v|] eqn:E.
  - rewrite (only_one l k v); [reflexivity|exact (lists_nodup _ _ L)|now apply (proj2 L)].
  - rewrite none_of; [reflexivity|]. rewrite (lists_keys _ _ _ L). congruence.
Qed.

Lemma collect_back dbg t m : reachable dbg t -> holds mem t m ->
  exists l y, iter_bytes mem t ⇓ Ok l /\ t_from_pairs dbg mem n_empty l ⇓ Ok y /\ alike t y.
Proof.
  intros R H. destruct (mem_iter dbg t m R H) as (l & Cl & L).
  destruct (collect_lists dbg l m L) as (y & Cy & Ry & Hy).
  exists l, y. split; [exact Cl|]. split; [exact Cy|].
  eapply same_alike; [exact R|exact Ry|exact H|exact Hy|intros k; reflexivity].
Qed.

(** A tree in memory that is collected from a listing is alike every tree that represents the same map. *)
Lemma collected_alike dbg y z g m : reachable dbg y -> holds mem y m -> DRep z g -> croot g -> same (lookup g) m -> alike z y.
Proof.
  intros Ry Hy Rz C E. destruct (reachable_good dbg y Ry) as (gy & Ry' & Cy & _).
  pose proof (holds_lookup _ _ _ _ _ Ry' Cy Hy) as Em.
  assert (g = gy) as ->. { apply canon_unique; auto. intros k. now rewrite <- Em, E. }
  now apply (rep_alike z y gy).
Qed.

Lemma at_collect_back dbg S inv s t m : lawful S inv -> attached dbg S inv s t m ->
  exists l y z, iter_bytes (st_read S s) t ⇓ Ok l /\ t_from_pairs dbg mem n_empty l ⇓ Ok y /\
    t_detached (st_read S s) t ⇓ Ok z /\ alike z y.
Proof.
  intros L A. destruct (at_iter dbg S inv L s t m A) as (l & Cl & Ll).
  destruct (collect_lists dbg l m Ll) as (y & Cy & Ry & Hy).
  destruct (at_good dbg S inv L s t m A) as (ids & g & G & H). destruct (detach_good ids _ t g G) as (z & Cz & Rz).
  exists l, y, z. split; [exact Cl|]. split; [exact Cy|]. split; [exact Cz|].
  eapply (collected_alike dbg y z g m); [exact Ry|exact Hy|exact Rz|apply G|].
  intros k. symmetry. apply (holds_lookup ids (st_read S s) t g m); auto; apply G.
Qed.

(** The groups, each read with its own iterator. *)
Lemma g_group_iters ids rd t g m d : Rep ids rd t g -> croot g -> holds rd t m -> (forall path r, exists b, d path r = Ok b) ->
  exists ts ls, t_group_by rd t d ⇓ Ok ts /\ Forall2 (fun u l => iter_bytes rd u ⇓ Ok l) ts ls /\ lists (concat ls) m.
Proof.
  intros R C H Hd. pose proof (holds_lookup ids rd t g m R C H) as Em.
  destruct (conv_ok (t_group_by rd t d) (4 * size g + 10)
    (fun l => exists ess, Forall2 (grel ids rd) l ess /\ concat ess = entries [] g)) as (ts & Ct & ess & F & Ec).
  - apply mono_collect. intros. apply gb_next_sim; [apply rsim_refl| |assumption].
    intros. apply sim_refl.
  - destruct (gb_collect_ok ids rd d Hd (4 * size g + 10) t g R C) as (l & ess & E & F & Ec).
    + pose proof (entries_le g). lia.
    + eauto.
  - exists ts, ess. split; [exact Ct|]. split; [|rewrite Ec; now apply lists_entries].
    clear Ct Ec. induction F as [|u l ts ess (gu & Ru & Cu & <-) _ IH]; constructor; auto.
    destruct (g_iter ids rd u gu (lookup gu) Ru Cu (good_holds ids rd u gu Ru Cu)) as (l & Cl & Ll).
    assert (lists (entries [] gu) (lookup gu)) as L2 by (apply lists_entries; auto; intros k; reflexivity).
    now rewrite (lists_where_unique _ _ _ _ L2 Ll).
Qed.

Lemma groups_back dbg t m d : reachable dbg t -> holds mem t m -> (forall path r, exists b, d path r = Ok b) ->
  exists ts ls y, t_group_by mem t d ⇓ Ok ts /\ Forall2 (fun u l => iter_bytes mem u ⇓ Ok l) ts ls /\
    t_from_pairs dbg mem n_empty (concat ls) ⇓ Ok y /\ alike t y.
Proof.
  intros R H Hd. destruct (reachable_good dbg t R) as (g & Rg & C & _).
  destruct (g_group_iters false mem t g m d Rg C H Hd) as (ts & ls & Ct & F & L).
  destruct (collect_lists dbg _ m L) as (y & Cy & Ry & Hy). exists ts, ls, y.
  split; [exact Ct|]. split; [exact F|]. split; [exact Cy|].
  eapply same_alike; [exact R|exact Ry|exact H|exact Hy|intros k; reflexivity].
Qed.

Lemma at_groups_back dbg S inv s t m d : lawful S inv -> attached dbg S inv s t m -> (forall path r, exists b, d path r = Ok b) ->
  exists ts ls y z, t_group_by (st_read S s) t d ⇓ Ok ts /\ Forall2 (fun u l => iter_bytes (st_read S s) u ⇓ Ok l) ts ls /\
    t_from_pairs dbg mem n_empty (concat ls) ⇓ Ok y /\ t_detached (st_read S s) t ⇓ Ok z /\ alike z y.
Proof.
  intros L A Hd. destruct (at_good dbg S inv L s t m A) as (ids & g & G & H).
  destruct (g_group_iters ids _ t g m d (proj1 G) (proj1 (proj2 G)) H Hd) as (ts & ls & Ct & F & Ll).
  destruct (collect_lists dbg _ m Ll) as (y & Cy & Ry & Hy). destruct (detach_good ids _ t g G) as (z & Cz & Rz).
  exists ts, ls, y, z. split; [exact Ct|]. split; [exact F|]. split; [exact Cy|]. split; [exact Cz|].
  eapply (collected_alike dbg y z g m); [exact Ry|exact Hy|exact Rz|apply G|].
  intros k. symmetry. apply (holds_lookup ids (st_read S s) t g m); auto; apply G.
Qed.

(** What starts with a prefix, and the rest. *)
Lemma split_back dbg t m p h : reachable dbg t -> holds mem t m ->
  exists a b x y, t_filter_prefix mem t p p ⇓ Ok a /\ t_remove_prefix dbg mem t p ⇓ Ok b /\
    t_outer_combine_with dbg mem mem (detach_converter mem) b a (combiner_with mem mem h) ⇓ Ok x /\ alike t x /\
    t_outer_combine_with dbg mem mem (detach_converter mem) a b (combiner_with mem mem h) ⇓ Ok y /\ alike t y.
Proof.
  intros R H.
  destruct (mem_filter_prefix dbg t m R H p p) as (a & Ca & Ra & Ha).
  { destruct p; [right; now left|left; discriminate]. }
  destruct (mem_remove_prefix dbg t m R H p) as (b & Cb & Rb & Hb).
  destruct (mem_outer_with dbg b _ Rb Hb a _ Ra Ha h) as (x & Cx & Rx & Hx).
  destruct (mem_outer_with dbg a _ Ra Ha b _ Rb Hb h) as (y & Cy & Ry & Hy).
  exists a, b, x, y. split; [exact Ca|]. split; [exact Cb|].
  assert (forall k, (m_filter_prefix m p p k = m k /\ m_remove_prefix m p k = None) \/
                    (m_filter_prefix m p p k = None /\ m_remove_prefix m p k = m k)) as Hk.
  { intros k. unfold m_filter_prefix, m_remove_prefix. destruct (starts_with p k) eqn:E.
    - left. split; [|reflexivity]. apply starts_with_spec in E as [z ->]. rewrite strip_prefix_strip, strip_app. reflexivity.
    - right. split; [|reflexivity]. rewrite strip_prefix_strip. destruct (strip p k) as [z|] eqn:Es; [|reflexivity].
      apply strip_spec in Es as ->. assert (starts_with p (p ++ z) = true) by (apply starts_with_spec; eauto). congruence. }
  split; [exact Cx|]. split; [|split; [exact Cy|]].
  - eapply same_alike; [exact R|exact Rx|exact H|exact Hx|]. intros k. unfold m_outer.
    destruct (Hk k) as [[-> ->]|[-> ->]]; destruct (m k); reflexivity.
  - eapply same_alike; [exact R|exact Ry|exact H|exact Hy|]. intros k. unfold m_outer.
    destruct (Hk k) as [[-> ->]|[-> ->]]; destruct (m k); reflexivity.
Qed.
