(** Programs with iterators: the heap invariant holds throughout. *)
From Verif Require Import Base BaseLemmas Header Node Store Heap HeapSpec HeapIter HeapIterSpec HeapProofs HeapOps HeapRun HeapTop HeapIterProofs.

(** ** More fuel changes nothing *)
Lemma bind_done {A B} (m : M A) (k : A -> M B) h r : mbind m k h = Done r ->
  exists a h', m h = Done (a, h') /\ k a h' = Done r.
Proof. unfold mbind. destruct (m h) as [[a h']| | |] eqn:E; try discriminate. eauto. Qed.
Lemma bind_eq {A B} (m : M A) (k : A -> M B) h a h' : m h = Done (a, h') -> mbind m k h = k a h'.
Proof. unfold mbind. now intros ->. Qed.
Lemma kv_more : forall fuel fuel' k h r, fuel <= fuel' -> h_kv_next fuel k h = Done r -> h_kv_next fuel' k h = Done r.
Proof.
  induction fuel as [|fuel IH]; intros [|fuel'] k h r L E; try discriminate; [lia|]. apply le_S_n in L. cbn [h_kv_next] in *.
  destruct (kv_stack k) as [|[n [it|]] rest]; [exact E| |].
  - apply bind_done in E. destruct E as (x & h1 & E1 & E). rewrite (bind_eq _ _ _ _ _ E1). destruct (fst x) as [c|].
    + apply bind_done in E. destruct E as (v & h2 & E2 & E). rewrite (bind_eq _ _ _ _ _ E2).
      apply bind_done in E. destruct E as (p & h3 & E3 & E). rewrite (bind_eq _ _ _ _ _ E3).
      apply bind_done in E. destruct E as (ch & h4 & E4 & E). rewrite (bind_eq _ _ _ _ _ E4).
      apply bind_done in E. destruct E as (a & h5 & E5 & E). rewrite (bind_eq _ _ _ _ _ E5).
      cbv zeta in *. destruct v; [exact E|]. now apply IH.
    + apply bind_done in E. destruct E as (v & h2 & E2 & E). rewrite (bind_eq _ _ _ _ _ E2). now apply IH.
  - apply bind_done in E. destruct E as (v & h2 & E2 & E). rewrite (bind_eq _ _ _ _ _ E2). now apply IH.
Qed.
Lemma vals_more : forall fuel fuel' s h r, fuel <= fuel' -> h_vals_next fuel s h = Done r -> h_vals_next fuel' s h = Done r.
Proof.
  induction fuel as [|fuel IH]; intros [|fuel'] s h r L E; try discriminate; [lia|]. apply le_S_n in L. cbn [h_vals_next] in *.
  destruct s as [|it rest]; [exact E|].
  apply bind_done in E. destruct E as (x & h1 & E1 & E). rewrite (bind_eq _ _ _ _ _ E1). destruct (fst x) as [c|].
  - apply bind_done in E. destruct E as (v & h2 & E2 & E). rewrite (bind_eq _ _ _ _ _ E2).
    apply bind_done in E. destruct E as (ch & h4 & E4 & E). rewrite (bind_eq _ _ _ _ _ E4).
    cbv zeta in *. destruct v; [exact E|]. now apply IH.
  - apply bind_done in E. destruct E as (v & h2 & E2 & E). rewrite (bind_eq _ _ _ _ _ E2). now apply IH.
Qed.
Lemma step_more dbg i fuel fuel' x h r : fuel <= fuel' -> x_step fuel dbg i x h = Done r -> x_step fuel' dbg i x h = Done r.
Proof.
  intros L E. destruct i as [i|r0 pre|j|j|r0|j|j|k]; cbn [x_step] in *; try exact E.
  - destruct (nth j (x_iters x) None); [|exact E].
    apply bind_done in E. destruct E as (y & h1 & E1 & E). now rewrite (bind_eq _ _ _ _ _ (kv_more _ _ _ _ _ L E1)).
  - destruct (nth j (x_vals x) None); [|exact E].
    apply bind_done in E. destruct E as (y & h1 & E1 & E). now rewrite (bind_eq _ _ _ _ _ (vals_more _ _ _ _ _ L E1)).
Qed.
Lemma run_more dbg p : forall fuel fuel' x h r, fuel <= fuel' -> x_run fuel dbg p x h = Done r -> x_run fuel' dbg p x h = Done r.
Proof.
  induction p as [|i p IH]; intros fuel fuel' x h r L E; cbn [x_run] in *; [exact E|].
  apply bind_done in E. destruct E as (y & h1 & E1 & E). rewrite (bind_eq _ _ _ _ _ (step_more _ _ _ _ _ _ _ L E1)).
  apply (IH _ _ _ _ _ L E).
Qed.

(** ** Lists of things that may be gone *)
Section Opt.
Context {A B : Type} (it : A -> list item).
Definition oit (o : option A) : list item := match o with Some a => it a | None => [] end.
Definition oits (l : list (option A)) : list item := flat_map oit l.
Definition orel (P : A -> B -> Prop) (o : option A) (f : option B) : Prop :=
  match o, f with Some a, Some b => P a b | None, None => True | _, _ => False end.
Lemma occ_oupd l j o b : occ b (oits (upd j o l)) + (if j <? length l then occ b (oit (nth j l None)) else 0) =
  occ b (oits l) + (if j <? length l then occ b (oit o) else 0).
Proof.
  unfold oits. revert j. induction l as [|x l IH]; intros [|j]; cbn; try lia.
  - rewrite !occ_app. lia.
  - rewrite !occ_app. specialize (IH j). cbn in IH. lia.
Qed.
Lemma nth_some_lt (l : list (option A)) j a : nth j l None = Some a -> j < length l.
Proof. intros E. destruct (Nat.lt_ge_cases j (length l)) as [|H]; [assumption|]. rewrite nth_overflow in E by exact H. discriminate. Qed.
Lemma occ_owned l j a b : nth j l None = Some a -> occ b (oits l) = occ b (it a) + occ b (oits (upd j None l)).
Proof.
  intros E. pose proof (occ_oupd l j None b) as H. pose proof (nth_some_lt _ _ _ E) as L. apply Nat.ltb_lt in L. rewrite L, E in H.
  cbn [oit occ] in H. lia.
Qed.
Lemma occ_back l j a o b : nth j l None = Some a -> occ b (oits (upd j o l)) = occ b (oit o) + occ b (oits (upd j None l)).
Proof.
  intros E. pose proof (occ_oupd l j o b) as H. pose proof (occ_owned l j a b E) as H'.
  pose proof (nth_some_lt _ _ _ E) as L. apply Nat.ltb_lt in L. rewrite L, E in H. cbn [oit] in H. lia.
Qed.
Lemma orel_nth P l f j : Forall2 (orel P) l f -> orel P (nth j l None) (nth j f None).
Proof. intros H. revert j. induction H; intros [|j]; cbn; auto. Qed.
Lemma orel_upd P l f j o o' : Forall2 (orel P) l f -> orel P o o' -> Forall2 (orel P) (upd j o l) (upd j o' f).
Proof. intros H Ho. revert j. induction H; intros [|j]; cbn; constructor; auto. Qed.
Lemma orel_map (P P' : A -> B -> Prop) l f : Forall2 (orel P) l f ->
  (forall a b, In (Some a) l -> P a b -> P' a b) -> Forall2 (orel P') l f.
Proof.
  induction 1 as [|o o' l f H1 H IH]; intros K; [constructor|]. constructor.
  - destruct o, o'; cbn in *; auto.
  - apply IH. intros a b Hin. apply K. now right.
Qed.
Lemma occ_in_oits l a b : In (Some a) l -> occ b (it a) <= occ b (oits l).
Proof.
  unfold oits. induction l as [|o l IH]; cbn; [tauto|]. rewrite occ_app. intros [->|H]; cbn [oit]; [lia|]. specialize (IH H). lia.
Qed.
Lemma oits_app l l' : oits (l ++ l') = oits l ++ oits l'.
Proof. apply flat_map_app. Qed.
Lemma oits_incl l j o : incl (oits (upd j o l)) (oits l ++ oit o).
Proof.
  unfold oits. revert j. induction l as [|x l IH]; intros [|j] y; cbn; rewrite ?in_app_iff; try tauto.
  intros [H|H]; [tauto|]. apply IH in H. rewrite in_app_iff in H. tauto.
Qed.
Lemma oits_in l j a : nth j l None = Some a -> incl (it a) (oits l).
Proof.
  unfold oits. revert j. induction l as [|x l IH]; intros [|j] E y Hy; cbn in *; try discriminate; apply in_app_iff.
  - subst x. now left.
  - right. apply (IH j E y Hy).
Qed.
End Opt.

Definition key_items (a : addr) : list item := [(BytesK, Ptr a)].
Definition x_rest (x : xst) : list item :=
  oits kv_items (x_iters x) ++ oits vals_items (x_vals x) ++ oits key_items (x_keys x).
Definition its_rep h G := Forall2 (orel (kv_rep h G)).
Definition vls_rep h G := Forall2 (orel (fun s vs => exists nss, vals_rep h G s nss vs)).
Definition keys_rep (G : ghost) := Forall2 (orel (fun a k => G a = GB k)).
Record xrep (h : heap) (G : ghost) (x : xst) (f : fxst) : Prop := XRep {
  xr_env : Forall2 (srep G) (x_env x) (fx_env f);
  xr_its : its_rep h G (x_iters x) (fx_iters f);
  xr_vals : vls_rep h G (x_vals x) (fx_vals f);
  xr_keys : keys_rep G (x_keys x) (fx_keys f) }.
Lemma its_rep_kept h G l f h' G' : its_rep h G l f -> kept (oits kv_items l) h G h' G' -> its_rep h' G' l f.
Proof.
  intros H K. apply (orel_map _ _ _ _ H). intros a b Hin Hr. apply (kv_kept _ _ _ _ _ _ Hr), (kept_le _ _ _ _ _ _ K).
  intros c. now apply occ_in_oits.
Qed.
Lemma vls_rep_kept h G l f h' G' : vls_rep h G l f -> kept (oits vals_items l) h G h' G' -> vls_rep h' G' l f.
Proof.
  intros H K. apply (orel_map _ _ _ _ H). intros a b Hin (nss & Hr). exists nss. apply (vals_kept _ _ _ _ _ _ _ Hr), (kept_le _ _ _ _ _ _ K).
  intros c. now apply occ_in_oits.
Qed.
Lemma keys_rep_kept h G l f h' G' : keys_rep G l f -> kept (oits key_items l) h G h' G' -> keys_rep G' l f.
Proof.
  intros H [K _]. apply (orel_map _ _ _ _ H). intros a b Hin Hr. rewrite K; [exact Hr|].
  pose proof (occ_in_oits key_items l a a Hin) as O. cbn in O. rewrite Nat.eqb_refl in O. lia.
Qed.
Lemma env_kept h G e fe h' G' : Forall2 (srep G) e fe -> kept (items e) h G h' G' -> Forall2 (srep G') e fe.
Proof. intros H [K _]. apply (env_ext _ _ _ _ H K). Qed.

Definition x_post (lk : list item) (f : fxst) (l : nat) (x : xst) (h : heap) (G : ghost) : Prop :=
  exists lk', inv h G (items (x_env x) ++ x_rest x ++ lk' ++ lk) /\ xrep h G x f /\ length lk' = l /\ leaks_ok G lk'.

Lemma wp_iter_of c n Z R h G : inv h G Z -> crep G c n -> live h (node_items c) -> above R G h (node_items c) ->
  (forall a, occ a R <= occ a Z) ->
  wp (h_iter_of c) R (fun it h' G' => inv h' G' (iter_items it ++ Z) /\ it_rep h' G' it [n] /\ ext G G' Z) h G.
Proof.
  intros I C L A LZ. unfold h_iter_of.
  eapply wp_bind; [apply (wp_clone c n Z R h G I C L A)|].
  cbn beta. intros c' h1 G1 (-> & -> & I1 & M1).
  eapply wp_bind.
  { eapply (wp_frame _ _ Z R _ h1 G I1); [occ_solve|auto|].
    apply (wp_new (CNodes [c]) (GN [n]) Z h1 G); [cbn [cell_items flat_map]; rewrite app_nil_r; exact I1|].
    constructor; [exact C|constructor]. }
  cbn beta. intros a h2 G2 ((-> & I2 & C2 & _) & X & _). cbn [gkind] in I2.
  destruct (iter_new_ok h2 _ _ a [n] I2) as (it & Hn & Ea & Ir); [lia|apply gset_eq|].
  apply (wp_pure _ it R _ h2 _ Hn). split; [|split; [exact Ir|exact X]]. unfold iter_items. rewrite Ea. exact I2.
Qed.
Lemma env_node x f h G lk r n : inv h G (items (x_env x) ++ lk) -> Forall2 (srep G) (x_env x) (fx_env f) ->
  fvar r (fx_env f) = FNode n -> exists c, var r (x_env x) = SNode c /\ crep G c n /\ live h (node_items c) /\
    above lk G h (node_items c).
Proof.
  intros I He F. pose proof (env_var _ _ _ r He) as V. rewrite F in V. destruct (var r (x_env x)) as [c| | |] eqn:Er; cbn [srep] in V; try tauto.
  exists c. split; [reflexivity|]. split; [exact V|]. pose proof (occ_var (x_env x) r) as O. rewrite Er in O. cbn [slot_items] in O.
  split; intros a Ha; specialize (O a); pose proof (i_cnt _ _ _ I a) as Ca; rewrite occ_app in Ca; lia.
Qed.

Ltac root_solve I := pose proof (i_root _ _ _ I) as Rt; unfold x_rest in *; rewrite ?Forall_app in *; tauto.

Lemma listings_one pre n es : listing pre n = Some es -> listings pre [n] = Some es.
Proof. cbn [listings]. intros ->. now rewrite app_nil_r. Qed.

Lemma x_step_ok dbg i x f f' l lk h G : inv h G (items (x_env x) ++ x_rest x ++ lk) -> xrep h G x f ->
  fx_step dbg i f = Some (f', l) -> exists fuel, wp (x_step fuel dbg i x) lk (x_post lk f' l) h G.
Proof.
  intros I [He Hi Hv Hk] F. destruct i as [i|r pre|j|j|r|j|j|k]; cbn [fx_step] in F.
  - exists 0. cbn [x_step]. destruct (f_step dbg i (fx_env f)) as [[e' l']|] eqn:Fs; [|discriminate].
    apply some_inj in F. injection F as <- <-.
    eapply wp_bind.
    { eapply (wp_frame _ _ (x_rest x ++ lk) lk _ h G I); [occ_solve|occ_solve|].
      apply (step_ok dbg i _ _ _ _ (x_rest x ++ lk) h G I He Fs). }
    cbn beta. intros e1 h1 G1 ((lk' & I1 & He1 & Hl & Lk) & S). apply kept_stp in S. apply wp_ret.
    exists lk'. cbn [x_env]. split; [|split; [|auto]].
    + unfold x_rest in *. cbn [x_iters x_vals x_keys]. rearr I1.
    + unfold x_rest in S. constructor; cbn [x_env x_iters x_vals x_keys fx_env fx_iters fx_vals fx_keys].
      * exact He1.
      * apply (its_rep_kept _ _ _ _ _ _ Hi), (kept_le _ _ _ _ _ _ S). occ_solve.
      * apply (vls_rep_kept _ _ _ _ _ _ Hv), (kept_le _ _ _ _ _ _ S). occ_solve.
      * apply (keys_rep_kept h G _ _ h1 G1 Hk), (kept_le _ _ _ _ _ _ S). occ_solve.
  - exists 0. cbn [x_step]. destruct (fvar r (fx_env f)) as [n| | |] eqn:Fv; try discriminate.
    destruct (listing pre n) as [es|] eqn:El; [|discriminate]. apply some_inj in F. injection F as <- <-.
    destruct (env_node x f h G (x_rest x ++ lk) r n I He Fv) as (c & -> & C & L & A).
    eapply wp_bind.
    { eapply (wp_frame _ _ (x_rest x ++ lk) lk _ h G I); [occ_solve|occ_solve|].
      apply (wp_iter_of c n (items (x_env x) ++ x_rest x ++ lk) (x_rest x ++ lk) h G I C L A). occ_solve. }
    cbn beta. intros it h1 G1 ((I1 & Ir & X1) & S1). apply kept_stp in S1.
    eapply wp_bind.
    { eapply (wp_frame _ _ (iter_items it ++ items (x_env x) ++ x_rest x ++ lk) lk _ h1 G1 I1); [auto|occ_solve|].
      apply (wp_new (CBytes pre) (GB pre) _ h1 G1 I1). reflexivity. }
    cbn beta. intros p h2 G2 ((-> & I2 & _) & S2). apply kept_stp in S2. cbn [gkind] in I2. apply wp_ret.
    exists []. split; [|split; [|split; [reflexivity|constructor]]].
    + unfold x_rest in *. cbn [x_env x_iters x_vals x_keys]. rewrite oits_app. 
      replace (oits kv_items [Some (HKv p [(0, Some it)])]) with ((BytesK, Ptr p) :: iter_items it) by (cbn; now rewrite ?app_nil_r). rearr I2.
    + unfold x_rest in S1, S2. constructor; cbn [x_env x_iters x_vals x_keys fx_env fx_iters fx_vals fx_keys].
      * apply (env_kept h1 G1 _ _ h2); [|apply (kept_le _ _ _ _ _ _ S2); occ_solve]. apply (env_ext _ _ _ _ He). rewrite ext_app in X1. apply X1.
      * apply Forall2_app.
        -- apply (its_rep_kept h1 G1); [|apply (kept_le _ _ _ _ _ _ S2); occ_solve].
           apply (its_rep_kept _ _ _ _ _ _ Hi), (kept_le _ _ _ _ _ _ S1). occ_solve.
        -- constructor; [|constructor]. exists pre, [(0, Some [n])]. cbn [kv_path kv_stack].
           split; [apply gset_eq|]. split; [|cbn [remaining]; rewrite (listings_one _ _ _ El); cbn; now rewrite app_nil_r].
           constructor; [|constructor]. split; [reflexivity|]. cbn [snd ch_rep].
           apply (it_kept _ _ _ _ _ _ Ir), (kept_le _ _ _ _ _ _ S2). occ_solve.
      * apply (vls_rep_kept h1 G1); [|apply (kept_le _ _ _ _ _ _ S2); occ_solve].
        apply (vls_rep_kept _ _ _ _ _ _ Hv), (kept_le _ _ _ _ _ _ S1). occ_solve.
      * apply (keys_rep_kept h1 G1 _ _ h2); [|apply (kept_le _ _ _ _ _ _ S2); occ_solve].
        apply (keys_rep_kept h G _ _ h1 G1 Hk), (kept_le _ _ _ _ _ _ S1). occ_solve.
  - pose proof (orel_nth _ _ _ j Hi) as Hj. destruct (nth j (fx_iters f) None) as [es|] eqn:Ef; [|discriminate].
    destruct (nth j (x_iters x) None) as [kv|] eqn:Ej; cbn [orel] in Hj; [|tauto].
    destruct Hj as (path & fr & Gp & Hf & Hr). exists (S (fweight fr)). cbn [x_step]. rewrite Ej.
    set (R := items (x_env x) ++ oits kv_items (upd j None (x_iters x)) ++ oits vals_items (x_vals x) ++ oits key_items (x_keys x) ++ lk).
    assert (inv h G (kv_items kv ++ R)) as J.
    { apply (inv_perm _ _ _ _ I).
      - intros b. unfold R, x_rest. rewrite !occ_app, (occ_owned kv_items _ _ _ b Ej). lia.
      - intros y Hy. unfold R, x_rest in *. rewrite !in_app_iff in *. 
        pose proof (oits_in kv_items _ _ _ Ej y). pose proof (oits_incl kv_items (x_iters x) j None y) as Hu.
        rewrite in_app_iff in Hu. cbn [oit In] in Hu. tauto. }
    eapply wp_bind.
    { eapply (wp_frame _ _ R lk _ h G J); [occ_solve|unfold R; occ_solve|].
      apply (kv_next_ok (S (fweight fr)) kv path fr es R h G J Gp Hf Hr). lia. }
    cbn beta. intros [kv' out] h1 G1 ((I1 & Rk & Ro) & S1). cbn [fst snd] in *. apply kept_stp in S1.
    assert (its_rep h1 G1 (upd j (Some kv') (x_iters x)) (upd j (Some (tl es)) (fx_iters f))) as Hi1.
    { assert (its_rep h1 G1 (upd j None (x_iters x)) (upd j None (fx_iters f))) as H0.
      { apply (its_rep_kept h G); [apply orel_upd; [exact Hi|exact Logic.I]|]. apply (kept_le _ _ _ _ _ _ S1). unfold R. occ_solve. }
      pose proof (orel_upd _ _ _ j (Some kv') (Some (tl es)) H0 Rk) as H1. now rewrite !upd_upd in H1. }
    assert (Forall2 (srep G1) (x_env x) (fx_env f)) as He1.
    { apply (env_kept h G _ _ h1 _ He), (kept_le _ _ _ _ _ _ S1). unfold R. occ_solve. }
    assert (vls_rep h1 G1 (x_vals x) (fx_vals f)) as Hv1.
    { apply (vls_rep_kept _ _ _ _ _ _ Hv), (kept_le _ _ _ _ _ _ S1). unfold R. occ_solve. }
    assert (keys_rep G1 (x_keys x) (fx_keys f)) as Hk1.
    { apply (keys_rep_kept h G _ _ h1 _ Hk), (kept_le _ _ _ _ _ _ S1). unfold R. occ_solve. }
    destruct es as [|[key v] es], out as [[a [hd w]]|]; try tauto.
    + apply some_inj in F. injection F as <- <-. apply wp_ret. exists []. split; [|split; [|split; [reflexivity|constructor]]].
      * apply (inv_perm _ _ _ _ I1).
        -- intros b. unfold x_rest, R. cbn [x_env x_iters x_vals x_keys]. rewrite items_app, oits_app. cbn [flat_map slot_items oits oit out_items].
           rewrite !occ_app, (occ_back kv_items _ _ _ (Some kv') b Ej). cbn [oit occ]. unfold oits. lia.
        -- intros y Hy. unfold x_rest, R in *. cbn [x_env x_iters x_vals x_keys] in Hy. rewrite items_app, oits_app in Hy.
           cbn [flat_map slot_items oits oit app] in Hy. rewrite !in_app_iff in *.
           pose proof (oits_incl kv_items (upd j None (x_iters x)) j (Some kv') y) as Hu. rewrite upd_upd, in_app_iff in Hu. cbn [oit In] in *. tauto.
      * constructor; cbn [x_env x_iters x_vals x_keys fx_env fx_iters fx_vals fx_keys]; auto.
        -- apply Forall2_app; [exact He1|]. constructor; [exact Logic.I|constructor].
        -- cbn [tl] in Hi1. replace (fx_iters f) with (upd j (Some (@nil (bytes * blob))) (fx_iters f)); [exact Hi1|].
           clear -Ef. revert j Ef. induction (fx_iters f) as [|o l IH]; intros [|j] Ef; cbn in *; try congruence. now rewrite IH.
        -- apply Forall2_app; [exact Hk1|]. constructor; [exact Logic.I|constructor].
    + destruct Ro as [Ga Rv]. apply some_inj in F. injection F as <- <-. apply wp_ret. exists []. split; [|split; [|split; [reflexivity|constructor]]].
      * apply (inv_perm _ _ _ _ I1).
        -- intros b. unfold x_rest, R. cbn [x_env x_iters x_vals x_keys]. rewrite items_app, oits_app. cbn [flat_map slot_items oits oit out_items].
           rewrite !occ_app, (occ_back kv_items _ _ _ (Some kv') b Ej). cbn [oit occ key_items app]. unfold oits. lia.
        -- intros y Hy. unfold x_rest, R in *. cbn [x_env x_iters x_vals x_keys] in Hy. rewrite items_app, oits_app in Hy.
           cbn [flat_map slot_items oits oit app key_items] in Hy. cbn [out_items]. rewrite ?in_app_iff in *. cbn [In app] in *. rewrite ?in_app_iff in *.
           pose proof (oits_incl kv_items (upd j None (x_iters x)) j (Some kv') y) as Hu. rewrite upd_upd, in_app_iff in Hu. cbn [oit In] in *. tauto.
      * constructor; cbn [x_env x_iters x_vals x_keys fx_env fx_iters fx_vals fx_keys]; auto.
        -- apply Forall2_app; [exact He1|]. constructor; [exact Rv|constructor].
        -- apply Forall2_app; [exact Hk1|]. constructor; [exact Ga|constructor].
  - exists 0. cbn [x_step]. apply some_inj in F. injection F as <- <-.
    pose proof (orel_nth _ _ _ j Hi) as Hj. destruct (nth j (x_iters x) None) as [kv|] eqn:Ej.
    + set (R := items (x_env x) ++ oits kv_items (upd j None (x_iters x)) ++ oits vals_items (x_vals x) ++ oits key_items (x_keys x) ++ lk).
      assert (inv h G (kv_items kv ++ R)) as J.
      { apply (inv_perm _ _ _ _ I).
        - intros b. unfold R, x_rest. rewrite !occ_app, (occ_owned kv_items _ _ _ b Ej). lia.
        - intros y Hy. unfold R, x_rest in *. rewrite !in_app_iff in *. 
          pose proof (oits_in kv_items _ _ _ Ej y). pose proof (oits_incl kv_items (x_iters x) j None y) as Hu.
          rewrite in_app_iff in Hu. cbn [oit In] in Hu. tauto. }
      eapply wp_bind.
      { eapply (wp_frame _ _ R lk _ h G J); [occ_solve|unfold R; occ_solve|]. apply (wp_drop _ R _ _ J). }
      cbn beta. intros _ h1 G1 ((-> & I1 & _) & S1). apply kept_stp in S1. apply wp_ret.
      exists []. split; [|split; [|split; [reflexivity|constructor]]].
      * unfold x_rest. cbn [x_env x_iters x_vals x_keys]. unfold R in I1. rearr I1.
      * constructor; cbn [x_env x_iters x_vals x_keys fx_env fx_iters fx_vals fx_keys].
        -- exact He.
        -- apply (its_rep_kept h G); [apply orel_upd; [exact Hi|exact Logic.I]|]. apply (kept_le _ _ _ _ _ _ S1). unfold R. occ_solve.
        -- apply (vls_rep_kept _ _ _ _ _ _ Hv), (kept_le _ _ _ _ _ _ S1). unfold R. occ_solve.
        -- exact Hk.
    + apply wp_ret. exists []. split; [cbn [app]; exact I|]. split; [|split; [reflexivity|constructor]].
      constructor; cbn [fx_env fx_iters fx_vals fx_keys]; auto.
      destruct (nth j (fx_iters f) None) eqn:Ef; cbn [orel] in Hj; [tauto|].
      replace (upd j None (fx_iters f)) with (fx_iters f); [exact Hi|].
      clear -Ef. revert j Ef. induction (fx_iters f) as [|o l IH]; intros [|j] Ef; cbn in *; try congruence. now rewrite <- IH.
  - exists 0. cbn [x_step]. destruct (fvar r (fx_env f)) as [n| | |] eqn:Fv; try discriminate.
    destruct (listing [] n) as [es|] eqn:El; [|discriminate]. apply some_inj in F. injection F as <- <-.
    destruct (env_node x f h G (x_rest x ++ lk) r n I He Fv) as (c & -> & C & L & A).
    eapply wp_bind.
    { eapply (wp_frame _ _ (x_rest x ++ lk) lk _ h G I); [occ_solve|occ_solve|].
      apply (wp_iter_of c n (items (x_env x) ++ x_rest x ++ lk) (x_rest x ++ lk) h G I C L A). occ_solve. }
    cbn beta. intros it h1 G1 ((I1 & Ir & X1) & S1). apply kept_stp in S1. apply wp_ret.
    exists []. split; [|split; [|split; [reflexivity|constructor]]].
    + unfold x_rest in *. cbn [x_env x_iters x_vals x_keys]. rewrite oits_app.
      replace (oits vals_items [Some [it]]) with (iter_items it) by (cbn; now rewrite ?app_nil_r). rearr I1.
    + unfold x_rest in S1. constructor; cbn [x_env x_iters x_vals x_keys fx_env fx_iters fx_vals fx_keys].
      * apply (env_ext _ _ _ _ He). rewrite ext_app in X1. apply X1.
      * apply (its_rep_kept _ _ _ _ _ _ Hi), (kept_le _ _ _ _ _ _ S1). occ_solve.
      * apply Forall2_app; [apply (vls_rep_kept _ _ _ _ _ _ Hv), (kept_le _ _ _ _ _ _ S1); occ_solve|].
        constructor; [|constructor]. exists [[n]]. split; [constructor; [exact Ir|constructor]|].
        exists [es]. split; [constructor; [exists []; now apply listings_one|constructor]|]. cbn. now rewrite app_nil_r.
      * apply (keys_rep_kept h G _ _ h1 G1 Hk), (kept_le _ _ _ _ _ _ S1). occ_solve.
  - pose proof (orel_nth _ _ _ j Hv) as Hj. destruct (nth j (fx_vals f) None) as [vs|] eqn:Ef; [|discriminate].
    destruct (nth j (x_vals x) None) as [s|] eqn:Ej; cbn [orel] in Hj; [|tauto].
    destruct Hj as (nss & Hr). exists (S (vweight nss)). cbn [x_step]. rewrite Ej.
    set (R := items (x_env x) ++ oits kv_items (x_iters x) ++ oits vals_items (upd j None (x_vals x)) ++ oits key_items (x_keys x) ++ lk).
    assert (inv h G (vals_items s ++ R)) as J.
    { apply (inv_perm _ _ _ _ I).
      - intros b. unfold R, x_rest. rewrite !occ_app, (occ_owned vals_items _ _ _ b Ej). lia.
      - intros y Hy. unfold R, x_rest in *. rewrite !in_app_iff in *. 
        pose proof (oits_in vals_items _ _ _ Ej y). pose proof (oits_incl vals_items (x_vals x) j None y) as Hu.
        rewrite in_app_iff in Hu. cbn [oit In] in Hu. tauto. }
    eapply wp_bind.
    { eapply (wp_frame _ _ R lk _ h G J); [occ_solve|unfold R; occ_solve|].
      apply (vals_next_ok (S (vweight nss)) s nss vs R h G J Hr). lia. }
    cbn beta. intros [s' out] h1 G1 ((I1 & (nss' & Rk) & Ro) & S1). cbn [fst snd] in *. apply kept_stp in S1.
    assert (vls_rep h1 G1 (upd j (Some s') (x_vals x)) (upd j (Some (tl vs)) (fx_vals f))) as Hv1.
    { assert (vls_rep h1 G1 (upd j None (x_vals x)) (upd j None (fx_vals f))) as H0.
      { apply (vls_rep_kept h G); [apply orel_upd; [exact Hv|exact Logic.I]|]. apply (kept_le _ _ _ _ _ _ S1). unfold R. occ_solve. }
      pose proof (orel_upd _ _ _ j (Some s') (Some (tl vs)) H0) as H1. rewrite !upd_upd in H1. apply H1. exists nss'. exact Rk. }
    assert (Forall2 (srep G1) (x_env x) (fx_env f)) as He1.
    { apply (env_kept h G _ _ h1 _ He), (kept_le _ _ _ _ _ _ S1). unfold R. occ_solve. }
    assert (its_rep h1 G1 (x_iters x) (fx_iters f)) as Hi1.
    { apply (its_rep_kept _ _ _ _ _ _ Hi), (kept_le _ _ _ _ _ _ S1). unfold R. occ_solve. }
    assert (keys_rep G1 (x_keys x) (fx_keys f)) as Hk1.
    { apply (keys_rep_kept h G _ _ h1 _ Hk), (kept_le _ _ _ _ _ _ S1). unfold R. occ_solve. }
    destruct vs as [|v vs], out as [[hd w]|]; cbn [hd_error val_rep] in Ro; try tauto.
    + apply some_inj in F. injection F as <- <-. apply wp_ret. exists []. split; [|split; [|split; [reflexivity|constructor]]].
      * apply (inv_perm _ _ _ _ I1).
        -- intros b. unfold x_rest, R. cbn [x_env x_iters x_vals x_keys]. rewrite items_app. cbn [flat_map slot_items val_items].
           rewrite !occ_app, (occ_back vals_items _ _ _ (Some s') b Ej). cbn [oit occ]. lia.
        -- intros y Hy. unfold x_rest, R in *. cbn [x_env x_iters x_vals x_keys] in Hy. rewrite items_app in Hy.
           cbn [flat_map slot_items app] in Hy. rewrite !in_app_iff in *.
           pose proof (oits_incl vals_items (upd j None (x_vals x)) j (Some s') y) as Hu. rewrite upd_upd, in_app_iff in Hu. cbn [oit In] in *. tauto.
      * constructor; cbn [x_env x_iters x_vals x_keys fx_env fx_iters fx_vals fx_keys]; auto.
        -- apply Forall2_app; [exact He1|]. constructor; [exact Logic.I|constructor].
        -- cbn [tl] in Hv1. replace (fx_vals f) with (upd j (Some (@nil blob)) (fx_vals f)); [exact Hv1|].
           clear -Ef. revert j Ef. induction (fx_vals f) as [|o l IH]; intros [|j] Ef; cbn in *; try congruence. now rewrite IH.
    + apply some_inj in F. injection F as <- <-. apply wp_ret. exists []. split; [|split; [|split; [reflexivity|constructor]]].
      * apply (inv_perm _ _ _ _ I1).
        -- intros b. unfold x_rest, R. cbn [x_env x_iters x_vals x_keys]. rewrite items_app. cbn [flat_map slot_items val_items].
           rewrite !occ_app, (occ_back vals_items _ _ _ (Some s') b Ej). cbn [oit occ app]. lia.
        -- intros y Hy. unfold x_rest, R in *. cbn [x_env x_iters x_vals x_keys] in Hy. rewrite items_app in Hy.
           cbn [flat_map slot_items app val_items] in *. rewrite ?in_app_iff in *. cbn [In] in *.
           pose proof (oits_incl vals_items (upd j None (x_vals x)) j (Some s') y) as Hu. rewrite upd_upd, in_app_iff in Hu. cbn [oit In] in *. tauto.
      * constructor; cbn [x_env x_iters x_vals x_keys fx_env fx_iters fx_vals fx_keys]; auto.
        apply Forall2_app; [exact He1|]. constructor; [exact Ro|constructor].
  - exists 0. cbn [x_step]. apply some_inj in F. injection F as <- <-.
    pose proof (orel_nth _ _ _ j Hv) as Hj. destruct (nth j (x_vals x) None) as [s|] eqn:Ej.
    + set (R := items (x_env x) ++ oits kv_items (x_iters x) ++ oits vals_items (upd j None (x_vals x)) ++ oits key_items (x_keys x) ++ lk).
      assert (inv h G (vals_items s ++ R)) as J.
      { apply (inv_perm _ _ _ _ I).
        - intros b. unfold R, x_rest. rewrite !occ_app, (occ_owned vals_items _ _ _ b Ej). lia.
        - intros y Hy. unfold R, x_rest in *. rewrite !in_app_iff in *. 
          pose proof (oits_in vals_items _ _ _ Ej y). pose proof (oits_incl vals_items (x_vals x) j None y) as Hu.
          rewrite in_app_iff in Hu. cbn [oit In] in Hu. tauto. }
      eapply wp_bind.
      { eapply (wp_frame _ _ R lk _ h G J); [occ_solve|unfold R; occ_solve|]. apply (wp_drop _ R _ _ J). }
      cbn beta. intros _ h1 G1 ((-> & I1 & _) & S1). apply kept_stp in S1. apply wp_ret.
      exists []. split; [|split; [|split; [reflexivity|constructor]]].
      * unfold x_rest. cbn [x_env x_iters x_vals x_keys]. unfold R in I1. rearr I1.
      * constructor; cbn [x_env x_iters x_vals x_keys fx_env fx_iters fx_vals fx_keys].
        -- exact He.
        -- apply (its_rep_kept _ _ _ _ _ _ Hi), (kept_le _ _ _ _ _ _ S1). unfold R. occ_solve.
        -- apply (vls_rep_kept h G); [apply orel_upd; [exact Hv|exact Logic.I]|]. apply (kept_le _ _ _ _ _ _ S1). unfold R. occ_solve.
        -- exact Hk.
    + apply wp_ret. exists []. split; [cbn [app]; exact I|]. split; [|split; [reflexivity|constructor]].
      constructor; cbn [fx_env fx_iters fx_vals fx_keys]; auto.
      destruct (nth j (fx_vals f) None) eqn:Ef; cbn [orel] in Hj; [tauto|].
      replace (upd j None (fx_vals f)) with (fx_vals f); [exact Hv|].
      clear -Ef. revert j Ef. induction (fx_vals f) as [|o l IH]; intros [|j] Ef; cbn in *; try congruence. now rewrite <- IH.
  - exists 0. cbn [x_step]. apply some_inj in F. injection F as <- <-.
    pose proof (orel_nth _ _ _ k Hk) as Hj. destruct (nth k (x_keys x) None) as [a|] eqn:Ej.
    + set (R := items (x_env x) ++ oits kv_items (x_iters x) ++ oits vals_items (x_vals x) ++ oits key_items (upd k None (x_keys x)) ++ lk).
      assert (inv h G (key_items a ++ R)) as J.
      { apply (inv_perm _ _ _ _ I).
        - intros b. unfold R, x_rest. rewrite !occ_app, (occ_owned key_items _ _ _ b Ej). lia.
        - intros y Hy. unfold R, x_rest in *. rewrite !in_app_iff in *. 
          pose proof (oits_in key_items _ _ _ Ej y). pose proof (oits_incl key_items (x_keys x) k None y) as Hu.
          rewrite in_app_iff in Hu. cbn [oit In] in Hu. tauto. }
      eapply wp_bind.
      { eapply (wp_frame _ _ R lk _ h G J); [occ_solve|unfold R; occ_solve|]. apply (wp_drop _ R _ _ J). }
      cbn beta. intros _ h1 G1 ((-> & I1 & _) & S1). apply kept_stp in S1. apply wp_ret.
      exists []. split; [|split; [|split; [reflexivity|constructor]]].
      * unfold x_rest. cbn [x_env x_iters x_vals x_keys]. unfold R in I1. rearr I1.
      * constructor; cbn [x_env x_iters x_vals x_keys fx_env fx_iters fx_vals fx_keys].
        -- exact He.
        -- apply (its_rep_kept _ _ _ _ _ _ Hi), (kept_le _ _ _ _ _ _ S1). unfold R. occ_solve.
        -- apply (vls_rep_kept _ _ _ _ _ _ Hv), (kept_le _ _ _ _ _ _ S1). unfold R. occ_solve.
        -- apply orel_upd; [exact Hk|exact Logic.I].
    + apply wp_ret. exists []. split; [cbn [app]; exact I|]. split; [|split; [reflexivity|constructor]].
      constructor; cbn [fx_env fx_iters fx_vals fx_keys]; auto.
      destruct (nth k (fx_keys f) None) eqn:Ef; cbn [orel] in Hj; [tauto|].
      replace (upd k None (fx_keys f)) with (fx_keys f); [exact Hk|].
      clear -Ef. revert k Ef. induction (fx_keys f) as [|o l IH]; intros [|k] Ef; cbn in *; try congruence. now rewrite <- IH.
Qed.
