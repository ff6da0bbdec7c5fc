(** What programs with iterators guarantee. *)
From Verif Require Import Base BaseLemmas Header Node Tree Entries Rep Store Spec Client Top TopOps Heap HeapSpec HeapIter HeapIterSpec HeapProofs HeapOps HeapRun HeapTop HeapIterProofs HeapIterRun.

Lemma x_run_ok dbg p : forall x f f' l lk h G, inv h G (items (x_env x) ++ x_rest x ++ lk) -> xrep h G x f -> leaks_ok G lk ->
  fx_run dbg p f = Some (f', l) ->
  exists fuel x' h' G' lk', x_run fuel dbg p x h = Done (x', h') /\ inv h' G' (items (x_env x') ++ x_rest x' ++ lk') /\
    xrep h' G' x' f' /\ leaks_ok G' lk' /\ length lk' = length lk + l.
Proof.
  induction p as [|i p IH]; intros x f f' l lk h G I Hx Lk F; cbn [fx_run x_run] in *.
  - assert (f' = f /\ l = 0) as [-> ->] by (split; congruence). exists 0, x, h, G, lk. rewrite Nat.add_0_r. auto 6.
  - destruct (fx_step dbg i f) as [[f1 l1]|] eqn:F1; [|congruence].
    destruct (fx_run dbg p f1) as [[f2 l2]|] eqn:F2; [|congruence].
    assert (f' = f2 /\ l = l1 + l2) as [-> ->] by (split; congruence).
    destruct (x_step_ok dbg i x f f1 l1 lk h G I Hx F1) as (n1 & x1 & h1 & G1 & D & (X & _) & (lk1 & I1 & Hx1 & Hl & Lk1)).
    destruct (IH x1 f1 f2 l2 (lk1 ++ lk) h1 G1 I1 Hx1) as (n2 & x2 & h2 & G2 & lk2 & D2 & I2 & Hx2 & Lk2 & Hl2).
    + apply Forall_app. split; [exact Lk1|apply (leaks_ext _ _ _ Lk X)].
    + exact F2.
    + exists (n1 + n2), x2, h2, G2, lk2. split; [|rewrite app_length in Hl2; split; [exact I2|split; [exact Hx2|split; [exact Lk2|lia]]]].
      rewrite (bind_eq _ _ _ _ _ (step_more dbg i n1 (n1 + n2) _ _ _ (Nat.le_add_r _ _) D)).
      apply (run_more dbg p n2 (n1 + n2)); [lia|exact D2].
Qed.
Lemma x_run_start dbg p f l : fx_run dbg p fx_start = Some (f, l) ->
  exists fuel x h G lk, (forall fuel', fuel <= fuel' -> x_run fuel' dbg p x_start [] = Done (x, h)) /\
    inv h G (items (x_env x) ++ x_rest x ++ lk) /\ xrep h G x f /\ leaks_ok G lk /\ length lk = l.
Proof.
  intros F. destruct (x_run_ok dbg p x_start fx_start f l [] [] G0) as (fuel & x & h & G & lk & D & R).
  - apply inv_empty.
  - constructor; constructor.
  - constructor.
  - exact F.
  - exists fuel, x, h, G, lk. split; [|exact R]. intros fuel' L. apply (run_more _ _ _ _ _ _ _ L D).
Qed.

Lemma x_shows_ok h G x f lk : inv h G (items (x_env x) ++ x_rest x ++ lk) -> xrep h G x f -> x_shows h f x.
Proof.
  intros I [He _ _ Hk]. split.
  - assert (live h (items (x_env x))) as L. { apply (inv_live_roots _ _ _ _ I). occ_solve. }
    clear Hk. induction He as [|s0 f0 e0 fe0 H1 H2 IH] in L |- *; [constructor|].
    cbn [flat_map] in L. rewrite live_app in L. destruct L as [L1 L2].
    constructor; [apply (slot_shows_ok _ _ _ _ _ I H1 L1)|auto].
  - assert (live h (oits key_items (x_keys x))) as L. { apply (inv_live_roots _ _ _ _ I). unfold x_rest. occ_solve. }
    clear He. unfold keys_rep in Hk. induction Hk as [|a k l fl H1 H2 IH]; [constructor|].
    unfold oits in L. cbn [flat_map] in L. rewrite live_app in L. destruct L as [L1 L2]. constructor; [|exact (IH L2)].
    destruct a as [a|], k as [k|]; cbn [orel key_shows] in *; try tauto.
    assert (0 < cnt h a) as Ca. { apply L1. cbn. rewrite Nat.eqb_refl. lia. }
    unfold cnt in Ca. destruct (nth_error h a) as [[[n c]|]|] eqn:En; cbn [count_of] in Ca; try lia.
    destruct (i_cell _ _ _ I _ _ _ En) as [_ Hg]. rewrite H1 in Hg. destruct c as [b|]; cbn [grep] in Hg; [|tauto].
    exists (n, CBytes b). unfold arc_get. rewrite En. split; [reflexivity|]. cbn. now rewrite Hg.
Qed.
Lemma x_values dbg p f l : fx_run dbg p fx_start = Some (f, l) ->
  exists fuel x h, (forall fuel', fuel <= fuel' -> x_run fuel' dbg p x_start [] = Done (x, h)) /\ x_shows h f x.
Proof.
  intros F. destruct (x_run_start _ _ _ _ F) as (fuel & x & h & G & lk & D & I & Hx & _).
  exists fuel, x, h. split; [exact D|apply (x_shows_ok _ _ _ _ _ I Hx)].
Qed.

(** ** Dropping everything *)
Lemma fx_run_app dbg p q : forall f f1 f2 l1 l2, fx_run dbg p f = Some (f1, l1) -> fx_run dbg q f1 = Some (f2, l2) ->
  fx_run dbg (p ++ q) f = Some (f2, l1 + l2).
Proof.
  induction p as [|i p IH]; intros f f1 f2 l1 l2 F1 F2; cbn [fx_run app] in *.
  - assert (f1 = f /\ l1 = 0) as [-> ->] by (split; congruence). exact F2.
  - destruct (fx_step dbg i f) as [[f' l']|]; [|congruence]. destruct (fx_run dbg p f') as [[f'' l'']|] eqn:E; [|congruence].
    assert (f1 = f'' /\ l1 = l' + l'') as [-> ->] by (split; congruence).
    rewrite (IH f' f'' f2 l'' l2 E F2). now rewrite Nat.add_assoc.
Qed.
Lemma fx_run_ops dbg p its vs ks : forall e e' l, f_run dbg p e = Some (e', l) ->
  fx_run dbg (map XOp p) (FX e its vs ks) = Some (FX e' its vs ks, l).
Proof.
  induction p as [|i p IH]; intros e e' l F; cbn [f_run map fx_run fx_step fx_env fx_iters fx_vals fx_keys] in *.
  - assert (e' = e /\ l = 0) as [-> ->] by (split; congruence). reflexivity.
  - destruct (f_step dbg i e) as [[e1 l1]|]; [|congruence]. destruct (f_run dbg p e1) as [[e2 l2]|] eqn:E; [|congruence].
    assert (e' = e2 /\ l = l1 + l2) as [-> ->] by (split; congruence). now rewrite (IH _ _ _ E).
Qed.
Fixpoint nones {A} (s n : nat) (l : list (option A)) : list (option A) :=
  match n with 0 => l | S n => nones (S s) n (upd s None l) end.
Lemma nones_all {A} n : forall s (l : list (option A)), length l = s + n -> Forall (eq None) (firstn s l) -> Forall (eq None) (nones s n l).
Proof.
  induction n as [|n IH]; intros s l Hl Hg; cbn [nones]; [rewrite firstn_all2 in Hg by lia; exact Hg|].
  apply IH; [rewrite upd_len; lia|]. assert (s < length l) as Hs by lia. clear Hl IH. revert l Hs Hg.
  induction s as [|s IH]; intros [|f l] Hs Hg; cbn [length] in Hs; try lia; cbn [upd firstn] in *.
  - constructor; [reflexivity|constructor].
  - inversion Hg; subst. constructor; [reflexivity|]. apply IH; [lia|assumption].
Qed.
Lemma fx_run_its dbg n : forall s e its vs ks,
  fx_run dbg (map XDropIter (seq s n)) (FX e its vs ks) = Some (FX e (nones s n its) vs ks, 0).
Proof. induction n as [|n IH]; intros; cbn [seq map fx_run fx_step fx_env fx_iters fx_vals fx_keys nones]; [reflexivity|]. now rewrite IH. Qed.
Lemma fx_run_vs dbg n : forall s e its vs ks,
  fx_run dbg (map XDropValues (seq s n)) (FX e its vs ks) = Some (FX e its (nones s n vs) ks, 0).
Proof. induction n as [|n IH]; intros; cbn [seq map fx_run fx_step fx_env fx_iters fx_vals fx_keys nones]; [reflexivity|]. now rewrite IH. Qed.
Lemma fx_run_ks dbg n : forall s e its vs ks,
  fx_run dbg (map XDropKey (seq s n)) (FX e its vs ks) = Some (FX e its vs (nones s n ks), 0).
Proof. induction n as [|n IH]; intros; cbn [seq map fx_run fx_step fx_env fx_iters fx_vals fx_keys nones]; [reflexivity|]. now rewrite IH. Qed.
Lemma x_drop_all_gone dbg f : exists f', fx_run dbg (x_drop_all f) f = Some (f', 0) /\
  Forall (eq FGone) (fx_env f') /\ Forall (eq None) (fx_iters f') /\ Forall (eq None) (fx_vals f') /\ Forall (eq None) (fx_keys f').
Proof.
  destruct f as [e its vs ks]. unfold x_drop_all. cbn [fx_env fx_iters fx_vals fx_keys].
  destruct (drop_all_gone dbg e) as (e' & F & Hg & _).
  exists (FX e' (nones 0 (length its) its) (nones 0 (length vs) vs) (nones 0 (length ks) ks)).
  split.
  - apply (fx_run_app _ _ _ _ _ _ 0 0 (fx_run_ops _ _ its vs ks _ _ _ F)).
    apply (fx_run_app _ _ _ _ _ _ 0 0 (fx_run_its _ _ _ _ _ _ _)).
    apply (fx_run_app _ _ _ _ _ _ 0 0 (fx_run_vs _ _ _ _ _ _ _)). apply fx_run_ks.
  - cbn. repeat split; [exact Hg|apply nones_all..]; auto; constructor.
Qed.
Lemma gone_oits {A B} (it : A -> list item) (P : A -> B -> Prop) l f : Forall2 (orel P) l f -> Forall (eq None) f -> oits it l = [].
Proof.
  induction 1 as [|a b l f H1 H2 IH]; intros F; [reflexivity|]. inversion F; subst. unfold oits in *. cbn [flat_map].
  rewrite IH by assumption. destruct a; cbn in *; tauto.
Qed.
Lemma x_freed dbg p f l : fx_run dbg p fx_start = Some (f, l) ->
  exists fuel x h, (forall fuel', fuel <= fuel' -> x_run fuel' dbg (p ++ x_drop_all f) x_start [] = Done (x, h)) /\
    Forall (fun e => snd e = CNodes []) (in_use h) /\ list_sum (map fst (in_use h)) = l /\ (l = 0 -> in_use h = []).
Proof.
  intros F. destruct (x_drop_all_gone dbg f) as (f' & F' & Ge & Gi & Gv & Gk).
  pose proof (fx_run_app _ _ _ _ _ _ _ _ F F') as F2. rewrite Nat.add_0_r in F2.
  destruct (x_run_start _ _ _ _ F2) as (fuel & x & h & G & lk & D & I & [He Hi Hv Hk] & Lk & Hl).
  exists fuel, x, h. split; [exact D|]. unfold x_rest in I. rewrite (gone_items _ (f_gone _ _ _ He Ge)) in I.
  rewrite (gone_oits _ _ _ _ Hi Gi), (gone_oits _ _ _ _ Hv Gv), (gone_oits _ _ _ _ Hk Gk) in I. cbn [app] in I.
  destruct (left_over _ _ _ I Lk) as [L1 L2]. split; [exact L1|]. split; [congruence|].
  intros ->. destruct lk; [|discriminate Hl]. destruct (in_use h) as [|[n y] u] eqn:E; [reflexivity|].
  destruct (in_use_in h (n, y)) as (a & Ea); [rewrite E; now left|].
  destruct (all_leaked _ _ _ I Lk a n y Ea) as [Ho _]. cbn in Ho. lia.
Qed.

(** ** Iterators are snapshots *)
Lemma fx_step_iter dbg i f f' l j : fx_step dbg i f = Some (f', l) -> leaves_iter j i -> j < length (fx_iters f) ->
  nth j (fx_iters f') None = nth j (fx_iters f) None /\ length (fx_iters f) <= length (fx_iters f').
Proof.
  intros F Hj L. destruct i as [i|r pre|j'|j'|r|j'|j'|k]; cbn [fx_step leaves_iter] in *.
  - destruct (f_step _ _ _) as [[e ?]|]; [|discriminate]. apply some_inj, (f_equal fst) in F. cbn in F. subst f'. cbn. auto.
  - destruct (fvar _ _); try discriminate. destruct (listing _ _); [|discriminate]. apply some_inj, (f_equal fst) in F. cbn in F. subst f'. cbn.
    rewrite app_nth1, app_length by exact L. split; [reflexivity|lia].
  - destruct (nth j' _ _) as [[|[? ?] ?]|]; try discriminate; apply some_inj, (f_equal fst) in F; cbn in F; subst f'; cbn; auto.
    rewrite upd_nth_other by congruence. rewrite upd_len. auto.
  - apply some_inj, (f_equal fst) in F; cbn in F; subst f'; cbn. rewrite upd_nth_other by congruence. rewrite upd_len. auto.
  - destruct (fvar _ _); try discriminate. destruct (listing _ _); [|discriminate]. apply some_inj, (f_equal fst) in F. cbn in F. subst f'. cbn. auto.
  - destruct (nth j' _ _) as [[|? ?]|]; try discriminate; apply some_inj, (f_equal fst) in F; cbn in F; subst f'; cbn; auto.
  - apply some_inj, (f_equal fst) in F; cbn in F; subst f'; cbn; auto.
  - apply some_inj, (f_equal fst) in F; cbn in F; subst f'; cbn; auto.
Qed.
Lemma fx_run_iter dbg q : forall f f' l j, fx_run dbg q f = Some (f', l) -> Forall (leaves_iter j) q -> j < length (fx_iters f) ->
  nth j (fx_iters f') None = nth j (fx_iters f) None /\ length (fx_iters f) <= length (fx_iters f').
Proof.
  induction q as [|i q IH]; intros f f' l j F Hq L; cbn [fx_run] in F.
  - assert (f' = f) as -> by congruence. auto.
  - inversion Hq; subst. destruct (fx_step dbg i f) as [[f1 l1]|] eqn:F1; [|discriminate].
    destruct (fx_run dbg q f1) as [[f2 l2]|] eqn:F2; [|discriminate]. assert (f' = f2) as -> by congruence.
    destruct (fx_step_iter _ _ _ _ _ _ F1 H1 L) as [E1 L1]. destruct (IH _ _ _ j F2 H2) as [E2 L2]; [lia|]. split; [congruence|lia].
Qed.
Lemma upd_last_nth {A} j (x : A) l d : j < length l -> nth j (upd j x l) d = x.
Proof. revert j. induction l as [|y l IH]; intros [|j] H; cbn in *; try lia; auto. apply IH. lia. Qed.
Lemma fx_nexts dbg es : forall f j, nth j (fx_iters f) None = Some es ->
  exists f', fx_run dbg (repeat (XNext j) (S (length es))) f = Some (f', 0) /\
    fx_env f' = fx_env f ++ map (fun e => FValue (snd e)) es ++ [FGone] /\
    fx_keys f' = fx_keys f ++ map (fun e => Some (fst e)) es ++ [None].
Proof.
  induction es as [|[k v] es IH]; intros f j E.
  - cbn [length repeat fx_run fx_step]. rewrite E. eexists. split; [reflexivity|]. split; reflexivity.
  - assert (j < length (fx_iters f)) as L.
    { destruct (Nat.lt_ge_cases j (length (fx_iters f))) as [|Hge]; [assumption|]. rewrite (nth_overflow _ _ Hge) in E. discriminate. }
    change (repeat (XNext j) (S (length ((k, v) :: es)))) with (XNext j :: repeat (XNext j) (S (length es))).
    cbn [fx_run fx_step]. rewrite E.
    destruct (IH (FX (fx_env f ++ [FValue v]) (upd j (Some es) (fx_iters f)) (fx_vals f) (fx_keys f ++ [Some k])) j) as (f' & F & E1 & E2).
    { cbn [fx_iters]. now apply upd_last_nth. }
    rewrite F. exists f'. split; [reflexivity|]. cbn [fx_env fx_keys map fst snd] in *. rewrite E1, E2, <- !app_assoc. auto.
Qed.

Lemma shows_end h e s es slots : Forall2 (slot_shows h) (e ++ es) s -> slots = skipn (length e) s -> Forall2 (slot_shows h) es slots.
Proof.
  intros H ->. apply Forall2_app_inv_l in H. destruct H as (s1 & s2 & H1 & H2 & ->).
  rewrite (Forall2_len _ _ _ H1), skipn_app, skipn_all, Nat.sub_diag. exact H2.
Qed.
Lemma keys_end h e s es slots : Forall2 (key_shows h) (e ++ es) s -> slots = skipn (length e) s -> Forall2 (key_shows h) es slots.
Proof.
  intros H ->. apply Forall2_app_inv_l in H. destruct H as (s1 & s2 & H1 & H2 & ->).
  rewrite (Forall2_len _ _ _ H1), skipn_app, skipn_all, Nat.sub_diag. exact H2.
Qed.

Lemma x_snapshot dbg p r pre q f l n es f1 l1 f2 l2 : fx_run dbg p fx_start = Some (f, l) ->
  fvar r (fx_env f) = FNode n -> listing pre n = Some es ->
  fx_step dbg (XIter r pre) f = Some (f1, l1) -> Forall (leaves_iter (length (fx_iters f))) q -> fx_run dbg q f1 = Some (f2, l2) ->
  exists fuel x h, (forall fuel', fuel <= fuel' ->
    x_run fuel' dbg (p ++ XIter r pre :: q ++ repeat (XNext (length (fx_iters f))) (S (length es))) x_start [] = Done (x, h)) /\
    Forall2 (key_shows h) (map (fun e => Some (fst e)) es ++ [None]) (skipn (length (fx_keys f2)) (x_keys x)) /\
    Forall2 (slot_shows h) (map (fun e => FValue (snd e)) es ++ [FGone]) (skipn (length (fx_env f2)) (x_env x)).
Proof.
  intros F Fv El F1 Hq F2. assert (length (fx_iters f) < length (fx_iters f1) /\ nth (length (fx_iters f)) (fx_iters f1) None = Some es) as [L1 E1].
  { cbn [fx_step] in F1. rewrite Fv, El in F1. apply some_inj, (f_equal fst) in F1. cbn in F1. subst f1. cbn.
    rewrite app_length, app_nth2, Nat.sub_diag by lia. cbn. split; [lia|reflexivity]. }
  destruct (fx_run_iter _ _ _ _ _ _ F2 Hq L1) as [E2 _]. rewrite E1 in E2.
  destruct (fx_nexts dbg es f2 _ E2) as (f3 & F3 & Ee & Ek).
  pose proof (fx_run_app _ _ _ _ _ _ _ _ F2 F3) as F23.
  assert (fx_run dbg (XIter r pre :: q ++ repeat (XNext (length (fx_iters f))) (S (length es))) f = Some (f3, l1 + (l2 + 0))) as F13.
  { cbn [fx_run]. rewrite F1, F23. reflexivity. }
  pose proof (fx_run_app _ _ _ _ _ _ _ _ F F13) as Fall.
  destruct (x_values _ _ _ _ Fall) as (fuel & x & h & D & Se & Sk). exists fuel, x, h. split; [exact D|].
  rewrite Ee in Se. rewrite Ek in Sk. split; [apply (keys_end _ _ _ _ _ Sk eq_refl)|apply (shows_end _ _ _ _ _ Se eq_refl)].
Qed.

(** ** What a tree lists is its map *)
Lemma listing_rep n g : Rep false detached_read n g -> forall pre,
  listing pre n = Some (map (fun e => (fst e, Data (snd e))) (entries pre g)).
Proof.
  revert g. induction n as [p v ns IH|p v id] using hnode_ind; intros g Rg pre; inversion Rg as [? ? ? p' v' ns' cs RP RV RK RC]; subst.
  - destruct RP as [->|[? _]]; [|discriminate]. rewrite entries_T.
    destruct RK as [E|[[E _]|(? & ? & ? & E & _)]]; try discriminate. injection E as <-.
    assert (listings (pre ++ p') ns = Some (map (fun e => (fst e, Data (snd e))) (entriesl (pre ++ p') cs))) as EL.
    { clear -IH RC. induction RC as [|n c ns cs H1 H2 IH2]; [reflexivity|]. inversion IH; subst. cbn [listings].
      rewrite (H3 _ H1), IH2 by assumption. unfold entriesl. cbn [flat_map]. now rewrite map_app. }
    cbn [listing]. match goal with |- context [match ?g ns with _ => _ end] => assert (forall x, g x = listings (pre ++ p') x) as -> end.
    { induction x as [|y x IHx]; [reflexivity|]. cbn [listings]. now rewrite IHx. }
    rewrite EL, map_app. f_equal. f_equal. destruct v' as [x|]; cbn [RepV] in RV.
    + destruct RV as [->|(? & ? & _ & D)]; [reflexivity|discriminate D].
    + subst v. reflexivity.
  - destruct RP as [->|[? _]]; [|discriminate]. rewrite entries_T.
    destruct RK as [E|[[E ->]|(? & ? & ? & E & D & _)]]; try discriminate. inversion E; subst. inversion RC; subst. cbn [listing].
    unfold entriesl. cbn [flat_map]. rewrite app_nil_r. f_equal. destruct v' as [x|]; cbn [RepV] in RV.
    + destruct RV as [->|(? & ? & _ & D)]; [reflexivity|discriminate D].
    + subst v. reflexivity.
Qed.
Lemma listing_map dbg n m : reachable dbg n -> holds detached_read n m ->
  exists l, lists l m /\ listing [] n = Some (map (fun e => (fst e, Data (snd e))) l).
Proof.
  intros R H. destruct (reachable_good dbg n R) as (g & Rg & C & _). exists (entries [] g). split.
  - apply lists_entries; [exact C|]. apply (holds_lookup false detached_read n g m Rg C H).
  - apply (listing_rep _ _ Rg).
Qed.
