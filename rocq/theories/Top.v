(** From the proofs about nodes to the calls of the API. *)
From Verif Require Import Base BaseLemmas Header Node Combine Iter Api Tree Rep JoinBase JoinProofs
  WithProofs PrefixProofs PredProofs FindProofs Entries IterProofs Canon ScanProofs Sim Spec Client.
From Coq Require Import Sorting.Sorted.

(* ------------------------------------------------------------------ *)
(** Convergence. *)

Lemma rsim_refl e rd : rsim e rd rd.
Proof. intros id. right; right; reflexivity. Qed.
Lemma sim_refl e {A} (x : res A) : sim e x x.
Proof. right; right; reflexivity. Qed.

Definition mono {A} (f : nat -> res A) : Prop := forall n m, n <= m -> sim false (f n) (f m).

Lemma conv_mono {A} (f : nat -> res A) n x : mono f -> f n = Ok x -> f ⇓ Ok x.
Proof.
  intros M E. split; [discriminate|]. exists n. intros m Hm.
  destruct (M n m Hm) as [H|[[H _]|H]]; congruence.
Qed.

Lemma conv_ok {A} (f : nat -> res A) n (P : A -> Prop) : mono f ->
  (exists x, f n = Ok x /\ P x) -> exists x, f ⇓ Ok x /\ P x.
Proof. intros M (x & E & H). exists x. split; [|exact H]. eapply conv_mono; eauto. Qed.

Lemma conv_unique {A} (f : nat -> res A) r r' : f ⇓ r -> f ⇓ r' -> r = r'.
Proof.
  intros (_ & n & H) (_ & m & H'). specialize (H (max n m)). specialize (H' (max n m)).
  rewrite <- H, <- H'; auto; lia.
Qed.

Lemma conv_bind {A B} (f : nat -> res A) (g : A -> nat -> res B) x r :
  f ⇓ Ok x -> g x ⇓ r -> (fun n => a <- f n ;; g a n) ⇓ r.
Proof.
  intros (_ & n & H) (N & m & H'). split; [exact N|]. exists (max n m). intros k Hk.
  rewrite H by lia. cbn. apply H'. lia.
Qed.

Lemma conv_const {A} (r : res A) : r <> Fuel -> (fun _ => r) ⇓ r.
Proof. intros H. split; [exact H|]. exists 0. reflexivity. Qed.

Lemma conv_from {A} (f : nat -> res A) n x : (forall m, n <= m -> f m = Ok x) -> f ⇓ Ok x.
Proof. intros H. split; [discriminate|]. exists n. exact H. Qed.

(* ------------------------------------------------------------------ *)
(** Specification functions. *)

Lemma beq_spec a b : reflect (a = b) (beq a b).
Proof. unfold beq. destruct list_eq_dec; constructor; auto. Qed.
Lemma beq_refl a : beq a a = true.
Proof. now destruct (beq_spec a a). Qed.
Lemma beq_neq a b : a <> b -> beq a b = false.
Proof. now destruct (beq_spec a b). Qed.

Lemma strip_prefix_strip p : forall k, strip_prefix p k = strip p k.
Proof. induction p as [|x p IH]; intros [|y k]; cbn; auto. Qed.

Lemma starts_with_spec p k : starts_with p k = true <-> exists z, k = p ++ z.
Proof.
  unfold starts_with. rewrite strip_prefix_strip. destruct (strip p k) as [r|] eqn:E.
  - apply strip_spec in E. split; eauto.
  - split; [discriminate|]. intros [z ->]. rewrite strip_app in E. discriminate.
Qed.

Lemma lex_lt_lexlt a : forall b, lex_lt a b <-> lexlt a b.
Proof.
  induction a as [|x a IH]; intros [|y b]; cbn; unfold bnum; tauto.
Qed.

Lemma below_selected_spec s b k : below_selected s b k = true <->
  exists q r x, k = q ++ r /\ b q = Some x /\ s x = true.
Proof.
  unfold below_selected. rewrite existsb_exists. split.
  - intros (n & Hn & H). destruct (b (firstn n k)) as [v|] eqn:E; [|discriminate].
    exists (firstn n k), (skipn n k), v. now rewrite firstn_skipn.
  - intros (q & r & x & -> & E & H). exists (length q). split.
    + apply in_seq. rewrite app_length. lia.
    + rewrite firstn_app, Nat.sub_diag, firstn_all. cbn. now rewrite app_nil_r, E.
Qed.

Lemma cov_below s t k : cov s t k = below_selected s (lookup t) k.
Proof.
  apply eq_true_iff_eq. rewrite cov_spec, below_selected_spec. reflexivity.
Qed.

Lemma below_selected_ext s a b k : same a b -> below_selected s a k = below_selected s b k.
Proof.
  intros H. apply eq_true_iff_eq. rewrite !below_selected_spec.
  split; intros (q & r & x & E & F & G); exists q, r, x; [rewrite <- H|rewrite H]; auto.
Qed.

Lemma lists_entries t m : croot t -> same m (lookup t) -> lists (entries [] t) m.
Proof.
  intros C E. pose proof (croot_kids _ C) as K. split.
  - pose proof (entries_sorted t K []) as H. induction H; constructor; auto.
  - intros k v. rewrite (entries_in t K). cbn. rewrite E. split.
    + intros (z & -> & L). auto.
    + intros [L _]. eauto.
Qed.

Lemma lists_under t m k : croot t -> same m (lookup t) ->
  lists_where (fun x => starts_with k x = true) (under k t) m.
Proof.
  intros C E. split.
  - pose proof (under_sorted k t C) as H. induction H; constructor; auto.
  - intros z x. rewrite (under_in k t z x C), E, starts_with_spec. split.
    + intros (w & -> & L). eauto.
    + intros [L [w ->]]. eauto.
Qed.

(* ------------------------------------------------------------------ *)
(** A listing is determined by the contents. *)

Lemma lex_lt_irrefl a : ~ lex_lt a a.
Proof. induction a; cbn; [tauto|]. intros [H|[_ H]]; [lia|auto]. Qed.
Lemma lex_lt_trans a : forall b c, lex_lt a b -> lex_lt b c -> lex_lt a c.
Proof.
  induction a as [|x a IH]; intros [|y b] [|z c]; cbn; try tauto.
  intros [H|[-> H]] [H'|[-> H']]; eauto; left; lia.
Qed.

Lemma lists_where_unique P m l : forall l', lists_where P l m -> lists_where P l' m -> l = l'.
Proof.
  assert (forall (l l' : list (bytes * bytes)), StronglySorted (fun a b => lex_lt (fst a) (fst b)) l ->
    StronglySorted (fun a b => lex_lt (fst a) (fst b)) l' -> (forall e, In e l <-> In e l') -> l = l') as A.
  { clear. induction l as [|e l IH]; intros [|e' l'] So So' I; auto.
    - destruct (proj2 (I e')); left; auto.
    - destruct (proj1 (I e)); left; auto.
    - inversion So as [|? ? S1 F1]; inversion So' as [|? ? S2 F2]; subst.
      rewrite Forall_forall in F1, F2.
      assert (e = e') as ->.
      { destruct (proj1 (I e) (or_introl eq_refl)) as [|H1]; auto.
        destruct (proj2 (I e') (or_introl eq_refl)) as [|H2]; auto.
        destruct (lex_lt_irrefl (fst e)). eapply lex_lt_trans; [apply F1, H2|apply F2, H1]. }
      f_equal. apply IH; auto. intros x. split; intros Hx.
      + destruct (proj1 (I x) (or_intror Hx)) as [<-|]; auto. destruct (lex_lt_irrefl (fst e')). now apply F1.
      + destruct (proj2 (I x) (or_intror Hx)) as [<-|]; auto. destruct (lex_lt_irrefl (fst e')). now apply F2. }
  intros l' [So I] [So' I']. apply A; auto. intros [k v]. now rewrite I, I'.
Qed.

(* ------------------------------------------------------------------ *)
(** Trees with their ghost. *)

Lemma croot_cases g : croot g -> g = tempty \/ exists k, lookup g k <> None.
Proof.
  intros [->|(L & So & F)]; [now left|right]. destruct g as [p v cs]. cbn in *.
  destruct v as [x|].
  - exists p. rewrite lookup_here. discriminate.
  - destruct L as [L|L]; [congruence|]. destruct cs as [|c cs]; [cbn in L; lia|].
    inversion F as [|? ? Hc Hcs]; subst. destruct (cc_has_key _ Hc) as [k Hk]. exists (p ++ k).
    destruct (lookup c k) as [x|] eqn:El; [|congruence].
    rewrite (lookup_child p None (c :: cs) c k x So F (or_introl eq_refl) El). discriminate.
Qed.

Definition good (ids : bool) (rd : reader) (t : node) (g : tree) : Prop :=
  Rep ids rd t g /\ croot g /\ is_empty t = tnil g.

Section Reads.
Context (ids : bool) (rd : reader).

Lemma load_opt_ok o o' : orel (vrel rd) o o' -> load_opt rd o = Ok o'.
Proof.
  destruct o, o'; cbn; try tauto. intros H. now rewrite (RepV_value_load _ _ _ H).
Qed.
Lemma load_entry_ok o o' : orel (erel rd) o o' -> load_entry rd o = Ok o'.
Proof.
  destruct o as [[k b]|], o' as [[k' x]|]; cbn; try tauto. intros [E H]. cbn in *. subst.
  now rewrite (RepV_value_load _ _ _ H).
Qed.
Lemma load_entries_ok l l' : Forall2 (erel rd) l l' -> load_entries rd l = Ok l'.
Proof.
  induction 1 as [|[k b] [k' x] l l' [E H] _ IH]; [reflexivity|]. cbn in *. subst.
  now rewrite (RepV_value_load _ _ _ H), IH.
Qed.
Lemma load_values_ok l l' : Forall2 (vrel rd) l l' -> load_values rd l = Ok l'.
Proof.
  induction 1 as [|b x l l' H _ IH]; [reflexivity|]. cbn in *.
  now rewrite (RepV_value_load _ _ _ H), IH.
Qed.

Lemma good_holds t g : Rep ids rd t g -> croot g -> holds rd t (lookup g).
Proof.
  intros R C k. apply conv_from with (n := S (size g)). intros m Hm.
  destruct (get_ok ids rd m t g k R C Hm) as (o & E & H). unfold get_bytes, t_get. rewrite E. cbn.
  apply load_opt_ok. destruct (lookup g k); [|now subst]. destruct H as (b' & -> & H). exact H.
Qed.

Lemma holds_same t m m' : holds rd t m -> holds rd t m' -> same m m'.
Proof. intros H H' k. specialize (H k). specialize (H' k). pose proof (conv_unique _ _ _ H H'). congruence. Qed.

Lemma holds_ext t m m' : same m m' -> holds rd t m -> holds rd t m'.
Proof. intros E H k. rewrite <- E. apply H. Qed.

Lemma holds_lookup t g m : Rep ids rd t g -> croot g -> holds rd t m -> same m (lookup g).
Proof. intros R C H. eapply holds_same; eauto. eapply good_holds; eauto. Qed.

Context (t : node) (g : tree) (m : kmap) (R : Rep ids rd t g) (C : croot g) (H : holds rd t m).

Let Em : same m (lookup g) := holds_lookup t g m R C H.

Lemma g_contains k : t_contains_key rd t k ⇓ Ok (match m k with Some _ => true | None => false end).
Proof.
  apply conv_from with (n := S (size g)). intros n Hn. unfold t_contains_key.
  rewrite (contains_key_ok ids rd n t g k R C Hn). now rewrite Em.
Qed.

Lemma mono_has_prefix k : mono (t_has_prefix rd t k).
Proof. intros a b L. apply has_prefix_sim; [apply rsim_refl|exact L]. Qed.

Lemma g_has_prefix k : (k <> [] \/ exists x, m x <> None) ->
  exists b, t_has_prefix rd t k ⇓ Ok b /\ (b = true <-> exists x, m x <> None /\ starts_with k x = true).
Proof.
  intros Hk. apply conv_ok with (n := S (size g)); [apply mono_has_prefix|].
  destruct (has_prefix_ok ids rd (S (size g)) t g k R C ltac:(lia)) as (b & E & A & _).
  exists b. split; [exact E|].
  assert (g <> tempty \/ k <> []) as Hk'.
  { destruct Hk as [Hk|[x Hx]]; [now right|]. left. intros ->. now rewrite Em, tempty_lookup in Hx. }
  rewrite (A Hk'). split.
  - intros [z Hz]. exists (k ++ z). rewrite Em. split; [exact Hz|]. apply starts_with_spec. eauto.
  - intros (x & Hx & Hs). apply starts_with_spec in Hs as [z ->]. exists z. now rewrite <- Em.
Qed.

Lemma g_has_prefix_nil : t_has_prefix rd t [] ⇓ Ok true.
Proof.
  destruct (has_prefix_ok ids rd (S (size g)) t g [] R C ltac:(lia)) as (b & E & A & B).
  eapply conv_mono; [apply mono_has_prefix|].
  assert (b = true) as <-; [|exact E].
  destruct (croot_cases g C) as [Eg|[k Hk]]; [auto|].
  apply A; [|eauto]. left. intros E'. now rewrite E', tempty_lookup in Hk.
Qed.

Lemma mono_collect {S A} (next : nat -> S -> res (yielded A * S)) s :
  (forall fuel fuel' s, fuel <= fuel' -> ysim false (next fuel s) (next fuel' s)) ->
  mono (fun n => collect next n s).
Proof. intros Hn a b L. now apply collect_sim. Qed.

Lemma entries_le : length (entries [] g) <= size g.
Proof. apply entries_size. Qed.

Lemma g_iter : exists l, iter_bytes rd t ⇓ Ok l /\ lists l m.
Proof.
  destruct (conv_ok (t_iter rd t) (4 * size g + 10)
    (fun l => Forall2 (erel rd) l (entries [] g))) as (l & Cl & Hl).
  - apply mono_collect. intros. apply kv_next_sim; [apply rsim_refl|assumption].
  - apply kv_collect_ok with (ids := ids); auto. pose proof entries_le. lia.
  - exists (entries [] g). split.
    + eapply conv_bind; [exact Cl|]. cbv beta. rewrite (load_entries_ok _ _ Hl).
      apply conv_const. discriminate.
    + apply lists_entries; auto.
Qed.

Lemma g_values : exists l, lists l m /\ values_bytes rd t ⇓ Ok (map snd l).
Proof.
  destruct (conv_ok (t_values rd t) (4 * size g + 10)
    (fun l => Forall2 (vrel rd) l (vals g))) as (l & Cl & Hl).
  - apply mono_collect. intros. apply vi_next_sim; [apply rsim_refl|assumption].
  - apply vi_collect_ok with (ids := ids); auto. pose proof (vals_size g). lia.
  - exists (entries [] g). split; [apply lists_entries; auto|].
    eapply conv_bind; [exact Cl|]. cbv beta. rewrite (load_values_ok _ _ Hl), (vals_entries g []).
    apply conv_const. discriminate.
Qed.

Lemma mono_scan k : mono (t_scan_prefix rd t k).
Proof.
  intros a b L. unfold t_scan_prefix. apply sim_bind.
  - apply scan_prefix_sim; [apply rsim_refl|exact L].
  - intros s. apply collect_sim; [|exact L]. intros. apply kv_next_sim; [apply rsim_refl|assumption].
Qed.

Lemma g_scan k : (k = [] \/ (m k = None /\ forall c1 c2 z1 z2, m (k ++ c1 :: z1) <> None ->
    m (k ++ c2 :: z2) <> None -> c1 = c2)) ->
  exists l, scan_bytes rd t k ⇓ Ok l /\ lists_where (fun x => starts_with k x = true) l m.
Proof.
  intros Hk. destruct (conv_ok (t_scan_prefix rd t k) (4 * size g + 10)
    (fun l => Forall2 (erel rd) l (under k g))) as (l & Cl & Hl).
  - apply mono_scan.
  - apply scan_ok with (ids := ids); auto; [lia|]. destruct Hk as [Hk|[Hk Hk']]; [now left|right].
    split; [now rewrite <- Em|]. intros c1 c2 z1 z2. rewrite <- !Em. apply Hk'.
  - exists (under k g). split.
    + eapply conv_bind; [exact Cl|]. cbv beta. rewrite (load_entries_ok _ _ Hl).
      apply conv_const. discriminate.
    + apply lists_under; auto.
Qed.

Lemma g_scan_values k : exists l l' e, scan_bytes rd t k ⇓ Ok l' /\
  lists_where (fun x => starts_with k x = true) l m /\
  Forall2 (fun a b => snd a = snd b /\ exists z, fst a = k ++ z /\ fst b = k ++ e ++ z) l l'.
Proof.
  destruct (scan_values_ok ids rd (4 * size g + 10) t g k R C ltac:(lia)) as (l & e & E & F).
  exists (under k g), (map (fun a => (k ++ e ++ skipn (length k) (fst a), snd a)) (under k g)), e.
  split; [|split].
  - eapply conv_bind; [eapply conv_mono; [apply mono_scan|exact E]|]. cbv beta.
    rewrite (load_entries_ok l (map (fun a => (k ++ e ++ skipn (length k) (fst a), snd a)) (under k g))).
    + apply conv_const. discriminate.
    + clear E. induction F as [|a b l l' [(z & Hz & Ha) Hv] _ IH]; cbn; constructor; auto.
      split; cbn [fst snd]; [|exact Hv]. unfold bytes in *. rewrite Ha, Hz, skipn_app, skipn_all, Nat.sub_diag. reflexivity.
  - apply lists_under; auto.
  - assert (Forall (fun a => exists z, fst a = k ++ z) (under k g)) as A.
    { apply Forall_forall. intros [z x] Hin. apply (under_in k g z x C) in Hin as (w & -> & _). cbn; eauto. }
    clear F E. induction A as [|a l' (z & Hz) _ IH]; cbn; constructor; auto. split; auto. exists z. split; auto.
    unfold bytes in *. rewrite Hz, skipn_app, skipn_all, Nat.sub_diag. reflexivity.
Qed.

Lemma entries_path_map path : entries path g = map (fun e => (path ++ fst e, snd e)) (entries [] g).
Proof. apply entries_path. Qed.

Lemma last_of_map {A B} (f : A -> B) l : last_of (map f l) = option_map f (last_of l).
Proof. unfold last_of. rewrite <- map_rev. destruct (rev l); reflexivity. Qed.
Lemma last_error_last_of {A} (l : list A) : last_error l = last_of l.
Proof.
  reflexivity.
Qed.

Lemma NR : NRep ids rd True (ROwned t) g.
Proof. split; [now right|]. exists t. auto. Qed.

Definition push (p : bytes) (e : bytes * bytes) : bytes * bytes := (p ++ fst e, snd e).

Lemma g_first_last p : exists l, lists l m /\
  first_entry_bytes rd t p ⇓ Ok (option_map (push p) (first_of l)) /\
  last_entry_bytes rd t p ⇓ Ok (option_map (push p) (last_of l)) /\
  first_value_bytes rd t ⇓ Ok (option_map snd (first_of l)) /\
  last_value_bytes rd t ⇓ Ok (option_map snd (last_of l)).
Proof.
  exists (entries [] g). split; [now apply lists_entries|]. pose proof NR as N. repeat split.
  all: try discriminate.
  - exists (S (size g)). intros n Hn. unfold first_entry_bytes, t_first_entry.
    destruct (first_entry_ok ids rd n p _ g N C Hn) as (o & -> & Ho). cbn. rewrite (load_entry_ok _ _ Ho).
    rewrite (entries_path_map p). unfold first_of. destruct (entries [] g); reflexivity.
  - exists (S (size g)). intros n Hn. unfold last_entry_bytes, t_last_entry.
    destruct (last_entry_ok ids rd n p _ g N C Hn) as (o & -> & Ho). cbn. rewrite (load_entry_ok _ _ Ho).
    rewrite (entries_path_map p), last_error_last_of, last_of_map. reflexivity.
  - exists (S (size g)). intros n Hn. unfold first_value_bytes, t_first_value.
    destruct (first_value_ok ids rd n [] _ g N C Hn) as (o & -> & Ho). cbn. now rewrite (load_opt_ok _ _ Ho).
  - exists (S (size g)). intros n Hn. unfold last_value_bytes, t_last_value.
    destruct (last_value_ok ids rd n [] _ g N C Hn) as (o & -> & Ho). cbn. rewrite (load_opt_ok _ _ Ho).
    now rewrite last_error_last_of.
Qed.

Lemma g_group_by d : (forall path r, exists b, d path r = Ok b) ->
  exists ts ls, t_group_by rd t d ⇓ Ok ts /\
    Forall2 (fun u l => exists mu, holds rd u mu /\ lists l mu) ts ls /\ lists (concat ls) m.
Proof.
  intros Hd. destruct (conv_ok (t_group_by rd t d) (4 * size g + 10)
    (fun l => exists ess, Forall2 (grel ids rd) l ess /\ concat ess = entries [] g)) as (ts & Ct & ess & F & Ec).
  - apply mono_collect. intros. apply gb_next_sim; [apply rsim_refl| |assumption].
    intros. apply sim_refl.
  - destruct (gb_collect_ok ids rd d Hd (4 * size g + 10) t g R C) as (l & ess & E & F & Ec).
    + pose proof entries_le. lia.
    + eauto.
  - exists ts, ess. split; [exact Ct|]. split; [|rewrite Ec; now apply lists_entries].
    clear Ct Ec. induction F as [|u l ts ess (gu & Ru & Cu & <-) _ IH]; constructor; auto.
    exists (lookup gu). split; [now apply good_holds|]. apply lists_entries; auto. intros k. reflexivity.
Qed.

Lemma g_filter_prefix k s : (k <> [] \/ s = [] \/ exists x, m x <> None) -> is_empty t = tnil g ->
  exists t' g', t_filter_prefix rd t k s ⇓ Ok t' /\ good ids rd t' g' /\ holds rd t' (m_filter_prefix m k s).
Proof.
  intros Hk He.
  destruct (conv_ok (t_filter_prefix rd t k s) (S (size g))
    (fun t' => exists g', good ids rd t' g' /\ same (lookup g') (m_filter_prefix m k s))) as (t' & Ct & g' & G & Es).
  - intros a b L. apply filter_prefix_sim; [apply rsim_refl|exact L].
  - destruct (filter_prefix_ok ids rd (S (size g)) t g k s R C ltac:(lia)) as (n' & t' & E & R' & C' & L1 & L2 & Ee).
    + destruct Hk as [Hk|[Hk|[x Hx]]]; auto. left. intros ->. now rewrite Em, tempty_lookup in Hx.
    + exists n'. split; [exact E|]. exists t'. split; [repeat split; auto|]. intros x. unfold m_filter_prefix.
      rewrite strip_prefix_strip. destruct (strip s x) as [r|] eqn:Es.
      * apply strip_spec in Es as ->. now rewrite L1, Em.
      * destruct (lookup t' x) eqn:El; [|reflexivity].
        destruct (L2 x) as [z ->]; [congruence|]. now rewrite strip_app in Es.
  - exists t', g'. split; [exact Ct|]. split; [exact G|]. eapply holds_ext; [exact Es|].
    destruct G as (R' & C' & _). eapply good_holds; eauto.
Qed.
End Reads.
