(** [==] and [is_leaf] of trees made by insertions. *)
From Verif Require Import Base BaseLemmas Header Node Combine Iter Api Spec Client Tree Rep Canon Top TopOps Entries PrefixProofs MemLemmas PrefixExact JoinBase EqSpec MarkProofs.
From Coq Require Import Sorting.Sorted.

Notation DR := (Rep false detached_read).

Lemma value_slice b o : RepV detached_read b o -> blob_slice b = match o with Some x => x | None => [] end.
Proof. destruct o as [x|]; cbn; [intros [->|(c & id & -> & X)]; [reflexivity|discriminate]|now intros ->]. Qed.

Lemma outermost_child p v cs c z : ksorted cs -> Forall cc cs -> In c cs -> outermost (lookup c) z -> outermost (lookup (T p v cs)) (p ++ z).
Proof.
  intros So Cs Hc [Hz Ho]. assert (cc c) as Cc by (rewrite Forall_forall in Cs; auto).
  destruct (lookup c z) as [x|] eqn:E; [|congruence]. clear Hz.
  split; [rewrite (lookup_child p v cs c z x So Cs Hc E); discriminate|].
  intros s Ns. rewrite <- app_assoc.
  assert (exists b q, tp c = b :: q) as (b & q & Eb). { inversion Cc; subst. cbn. destruct p0; [congruence|eauto]. }
  destruct c as [p' v' ds]. cbn in Eb. subst p'. apply lookup_below in E as [u ->]. cbn in *.
  rewrite lookup_under by discriminate. rewrite (lkids_in cs (T (b :: q) v' ds) _ So Cs Hc) by (eapply starts_self; reflexivity).
  now apply (Ho s).
Qed.

Lemma outermost_inv p v cs k : ksorted cs -> Forall cc cs -> cs <> [] -> outermost (lookup (T p v cs)) k ->
  exists c z, In c cs /\ k = p ++ z /\ outermost (lookup c) z.
Proof.
  intros So Cs Ne [Hk Ho]. destruct (lookup (T p v cs) k) as [x|] eqn:E; [|congruence]. clear Hk.
  pose proof (lookup_below _ _ _ _ _ E) as [z ->]. destruct z as [|b z].
  - exfalso. destruct cs as [|c cs]; [congruence|]. destruct (lkids_has_key (c :: cs) c So Cs ltac:(now left)) as (kc & Kc & _).
    rewrite app_nil_r in *. specialize (Ho kc). destruct kc as [|b kc].
    { inversion Cs as [|? ? Cc _]; subst. inversion Cc; subst. cbn in Kc. unfold starts in Kc. destruct p0; cbn in Kc; [congruence|].
      revert Kc. clear. intros Kc. apply Kc. clear Kc. induction cs as [|d cs IH]; [reflexivity|]. cbn. unfold starts. now destruct (tp d). }
    rewrite lookup_under in Ho by discriminate. now rewrite Ho in Kc by discriminate.
  - rewrite lookup_under in E by discriminate. destruct (lkids_some_in _ _ _ E) as (c & Hc & St & El).
    exists c, (b :: z). split; [exact Hc|]. split; [reflexivity|]. split; [congruence|]. intros s Ns.
    specialize (Ho s Ns). rewrite <- app_assoc, lookup_under in Ho by discriminate.
    rewrite <- (lkids_in cs c ((b :: z) ++ s) So Cs Hc); [exact Ho|]. revert St. unfold starts. destruct (tp c); cbn; auto.
Qed.

Lemma eq_marks n : forall n' g w w', DR n g -> DR n' g -> croot g -> g <> tempty -> marks w n -> marks w' n' ->
  (n_eq n n' = true <-> forall k, outermost (lookup g) k -> w k = w' k).
Proof.
  induction n as [p v l IH|p v i] using node_ind'; intros [p' v' k'] [q o cs] w w' R R' C Ne M M';
    destruct (Rep_inv _ _ _ _ _ _ R) as (RP & RV & ns & RK & RF); destruct (Rep_inv _ _ _ _ _ _ R') as (RP' & RV' & ns' & RK' & RF');
    cbn [n_prefix n_value n_kids] in *; destruct RP as [->|[? _]]; try discriminate; destruct RP' as [->|[? _]]; try discriminate;
    destruct (croot_kids _ C) as [So Cs]; cbn [tc] in So, Cs.
  all: assert (live o cs) as Lv by (destruct C as [C|[C _]]; [congruence|exact C]).
  all: assert (cs = [] -> forall k, outermost (lookup (T q o cs)) k <-> k = q) as Leaf.
  1,3: intros ->; destruct Lv as [Lv|Lv]; [|cbn in Lv; lia]; intros k; split;
      [intros [Hk _]; destruct (lookup (T q o []) k) eqn:E; [|congruence]; pose proof (lookup_below _ _ _ _ _ E) as [z ->];
       destruct z; [now rewrite app_nil_r|rewrite lookup_under in E by discriminate; discriminate]
      |intros ->; split; [now rewrite lookup_at|intros s Ns; now rewrite lookup_under]].
  - (* a vector *)
    destruct RK as [[= <-]|[[? _]|(? & ? & ? & ? & _)]]; try discriminate.
    destruct l as [|m l].
    + inversion RF; subst. specialize (Leaf eq_refl).
      inversion M; subst; [|congruence].
      destruct k' as [l'|i'].
      * destruct RK' as [[= <-]|[[? _]|(? & ? & ? & ? & _)]]; try discriminate. inversion RF'; subst.
        inversion M'; subst; [|congruence]. rewrite n_eq_eqs. cbn [blob_slice]. rewrite (value_slice _ _ RV), (value_slice _ _ RV').
        destruct (list_eq_dec _ q q) as [_|]; [|congruence]. destruct (list_eq_dec _ _ _) as [_|]; [|congruence]. cbn.
        split; [|reflexivity]. intros _ k Hk. apply Leaf in Hk as ->. congruence.
      * inversion M'; subst. cbn. rewrite andb_false_r. split; [discriminate|]. intros H. exfalso.
        specialize (H q (proj2 (Leaf q) eq_refl)). congruence.
    + assert (cs <> []) as Ncs by (intros ->; inversion RF).
      destruct k' as [l'|i'].
      * destruct RK' as [[= <-]|[[? _]|(? & ? & ? & ? & _)]]; try discriminate.
        inversion M as [| |? ? ? ? _ MK]; subst. inversion M' as [|? ? ? ? ?|? ? ? ? Nl MK']; subst; [inversion RF'; subst; congruence|].
        rewrite n_eq_eqs. cbn [blob_slice]. rewrite (value_slice _ _ RV), (value_slice _ _ RV').
        destruct (list_eq_dec _ q q) as [_|]; [|congruence]. destruct (list_eq_dec _ _ _) as [_|]; [|congruence]. cbn [andb].
        assert (n_eqs (m :: l) l' = true <-> forall c z, In c cs -> outermost (lookup c) z -> w (q ++ z) = w' (q ++ z)) as G.
        { clear - IH RF RF' MK MK' Cs. revert l' RF' MK'. set (ns := m :: l) in *. clearbody ns.
          induction RF as [|x c ns cs Rx F IHF]; intros l' RF' MK'; inversion RF' as [|x' ? l0 ? Rx' F']; subst.
          - cbn. split; [|reflexivity]. intros _ c z [].
          - inversion IH; subst. inversion MK; subst. inversion MK'; subst. inversion Cs as [|? ? Cc Cs']; subst.
            cbn [n_eqs]. rewrite andb_true_iff. rewrite (IHF ltac:(assumption) Cs' ltac:(assumption) l0 F' ltac:(assumption)).
            rewrite (H1 x' c (fun s => w (q ++ s)) (fun s => w' (q ++ s)) Rx Rx' (cc_croot _ Cc)); [|inversion Cc; subst; intros [=]; congruence|assumption|assumption].
            split; [intros [A B] d z [<-|Hd] Hz; eauto|]. intros A. split; [intros k Hk; apply (A c k); [now left|exact Hk]|]. intros d z Hd. apply A. now right. }
        rewrite G. split; intros H.
        -- intros k Hk. destruct (outermost_inv q o cs k So Cs Ncs Hk) as (c & z & Hc & -> & Hz). eauto.
        -- intros c z Hc Hz. apply H. now apply outermost_child with c.
      * inversion M'; subst. destruct RK' as [?|[[_ ->]|(? & ? & ? & ? & ? & _)]]; try discriminate. inversion RF'; subst. congruence.
  - (* no vector *)
    inversion M; subst. destruct RK as [?|[[_ ->]|(? & ? & ? & ? & ? & _)]]; try discriminate. inversion RF; subst. specialize (Leaf eq_refl).
    destruct k' as [l'|i'].
    + destruct RK' as [[= <-]|[[? _]|(? & ? & ? & ? & _)]]; try discriminate. inversion RF'; subst. inversion M'; subst; [|congruence].
      cbn. rewrite andb_false_r. split; [discriminate|]. intros H. exfalso.
      specialize (H q (proj2 (Leaf q) eq_refl)). congruence.
    + inversion M'; subst. cbn [n_eq blob_slice]. rewrite (value_slice _ _ RV), (value_slice _ _ RV').
      destruct (list_eq_dec _ q q) as [_|]; [|congruence]. destruct (list_eq_dec _ _ _) as [_|]; [|congruence]. cbn.
      split; [|reflexivity]. intros _ k Hk. apply Leaf in Hk as ->. congruence.
Qed.

Definition wof (l : list (bytes * bytes)) (k : bytes) : bool :=
  (2 <=? length (filter (fun e => beq (fst e) k) l)) || (beq k [] && match l with ([], _) :: _ => true | _ => false end).

Lemma wof_again l k : wof l k = true <-> again l k.
Proof.
  unfold wof, again. rewrite orb_true_iff, andb_true_iff, Nat.leb_le. split; (intros [H|[H1 H2]]; [now left|right]).
  - destruct (beq_spec k []); [|discriminate]. split; [assumption|]. destruct l as [|[[|c k0] v] l]; try discriminate. eauto.
  - subst k. destruct H2 as (v & l' & ->). auto.
Qed.

Lemma count_zero l (k : bytes) : ~ In k (map fst l) -> filter (fun e : bytes * bytes => beq (fst e) k) l = [].
Proof.
  induction l as [|e l IH]; cbn; [auto|]. intros N. rewrite beq_neq by tauto. apply IH. tauto.
Qed.
Lemma count_pos l (k : bytes) : In k (map fst l) -> 1 <= length (filter (fun e : bytes * bytes => beq (fst e) k) l).
Proof.
  induction l as [|e l IH]; cbn; [easy|]. intros [<-|H]; [rewrite beq_refl; cbn; lia|]. destruct (beq (fst e) k); cbn; [lia|auto].
Qed.

Lemma wof_off pre k v s : pre <> [] -> s <> k -> wof (pre ++ [(k, v)]) s = wof pre s.
Proof.
  intros N Ns. unfold wof. rewrite filter_app. cbn. rewrite (beq_neq k s) by congruence. rewrite app_nil_r.
  destruct pre; [congruence|reflexivity].
Qed.
Lemma wof_at pre k v o : pre <> [] -> (o <> None <-> In k (map fst pre)) -> wof (pre ++ [(k, v)]) k = flag o.
Proof.
  intros N Ho. unfold wof. rewrite filter_app, app_length.
  replace (filter _ [(k, v)]) with [(k, v)] by (cbn; now rewrite beq_refl). cbn [length].
  destruct o as [x|]; cbn [flag].
  - assert (In k (map fst pre)) as Hi by (apply Ho; discriminate). apply count_pos in Hi.
    rewrite (proj2 (Nat.leb_le 2 (length (filter (fun e : bytes * bytes => beq (fst e) k) pre) + 1))) by lia. reflexivity.
  - assert (~ In k (map fst pre)) as Hi. { intros X. apply Ho in X. congruence. }
    rewrite (count_zero _ _ Hi). cbn. destruct pre as [|[[|c k0] u] pre]; [congruence| |]; cbn.
    + destruct (beq_spec k []); [|reflexivity]. subst. cbn in Hi. tauto.
    + now rewrite andb_false_r.
Qed.

Definition keys_of (g : tree) (l : list (bytes * bytes)) : Prop := forall k, lookup g k <> None <-> In k (map fst l).

Lemma from_marks dbg l : forall pre t g, pre <> [] -> good false detached_read t g -> keys_of g pre -> marks (wof pre) t ->
  exists t' g', t_from_pairs dbg detached_read t l ⇓ Ok t' /\ good false detached_read t' g' /\ keys_of g' (pre ++ l) /\ marks (wof (pre ++ l)) t'.
Proof.
  induction l as [|[k v] l IH]; intros pre t g N G Kg M.
  - exists t, g. rewrite app_nil_r. split; [apply conv_const; discriminate|auto].
  - destruct (y_insert dbg false detached_read t g G k v) as (t1 & g1 & C1 & G1 & S1).
    assert (keys_of g1 (pre ++ [(k, v)])) as K1.
    { intros x. rewrite S1. unfold m_insert. rewrite map_app, in_app_iff. cbn. destruct (beq_spec x k) as [->|Nx].
      - split; [tauto|discriminate].
      - rewrite (Kg x). split; [tauto|]. intros [?|[?|[]]]; [assumption|congruence]. }
    assert (marks (wof (pre ++ [(k, v)])) t1) as M1.
    { destruct C1 as (_ & n0 & Cn). specialize (Cn n0 (le_n _)). destruct G as (R & C & E).
      assert (g <> tempty) as Ng.
      { intros ->. destruct pre as [|[k1 v1] pre]; [congruence|]. destruct (Kg k1) as [_ X]. apply X; [now left|]. now destruct k1. }
      eapply insert_marks; [exact R|exact C|exact Ng|exact M| | |exact Cn].
      - intros s Ns. now apply wof_off.
      - apply wof_at; [exact N|apply Kg]. }
    destruct (IH (pre ++ [(k, v)]) t1 g1) as (t' & g' & C' & G' & K' & M'); auto; [destruct pre; discriminate|].
    rewrite <- !app_assoc in *. cbn [app] in *. exists t', g'. split; [|auto]. cbn [t_from_pairs]. eapply conv_bind; eauto.
Qed.

Lemma first_insert dbg k v : exists t, t_insert dbg detached_read n_empty k v ⇓ Ok t /\ marks (wof [(k, v)]) t /\
  (k <> [] -> t = n_single k v).
Proof.
  destruct k as [|c k].
  - exists (Node (Data []) (Data v) (KArc [])). split; [|split; [|congruence]].
    + split; [discriminate|]. exists 1. intros [|n] Hn; [lia|]. unfold t_insert. cbn. unfold canonicalize. cbn. now rewrite andb_false_r.
    + apply marks_bare; [reflexivity|discriminate].
  - exists (n_single (c :: k) v). split; [|split; [|reflexivity]].
    + split; [discriminate|]. exists 3. intros [|[|[|n]]] Hn; try lia. unfold t_insert. cbn. unfold canonicalize. cbn. now rewrite !andb_false_r.
    + apply marks_leaf; [|discriminate]. unfold wof. cbn. rewrite beq_refl. reflexivity.
Qed.

Lemma collect_marks dbg l : exists t g, t_from_pairs dbg detached_read n_empty l ⇓ Ok t /\ good false detached_read t g /\ keys_of g l /\
  (l = [] /\ t = n_empty \/ l <> [] /\ marks (wof l) t).
Proof.
  destruct l as [|[k v] l].
  - exists n_empty, tempty. split; [apply conv_const; discriminate|]. split; [apply good_empty|]. split; [|now left].
    intros k. cbn. split; [|easy]. now destruct k.
  - destruct (first_insert dbg k v) as (t1 & C1 & M1 & _).
    destruct (y_insert dbg false detached_read n_empty tempty (good_empty _ _) k v) as (t2 & g1 & C2 & G1 & S1).
    pose proof (conv_unique _ _ _ C1 C2) as X. injection X as <-.
    destruct (from_marks dbg l [(k, v)] t1 g1) as (t & g & C & G & K & M); [discriminate|exact G1| |exact M1|].
    + intros x. rewrite S1. unfold m_insert. cbn. destruct (beq_spec x k) as [->|Nx]; [split; [auto|discriminate]|].
      split; [now destruct x|]. intros [?|[]]; congruence.
    + exists t, g. split; [|split; [exact G|split; [exact K|right; split; [discriminate|exact M]]]].
      cbn [t_from_pairs]. eapply conv_bind; eauto.
Qed.

Lemma collect_eq dbg dbg' l l' t u m mu :
  t_from_pairs dbg detached_read n_empty l ⇓ Ok t -> t_from_pairs dbg' detached_read n_empty l' ⇓ Ok u ->
  holds detached_read t m -> holds detached_read u mu -> (forall k, m k <> Some [] /\ mu k <> Some []) ->
  (n_eq t u = true <-> same m mu /\ forall k, outermost m k -> (again l k <-> again l' k)).
Proof.
  intros Ct Cu Ht Hu Hne.
  destruct (collect_marks dbg l) as (t0 & g & C0 & (Rg & Cg & _) & Kg & Mg).
  destruct (collect_marks dbg' l') as (u0 & gu & D0 & (Ru & Cgu & _) & Ku & Mu).
  pose proof (conv_unique _ _ _ C0 Ct) as X. injection X as ->. pose proof (conv_unique _ _ _ D0 Cu) as X. injection X as ->. clear C0 D0.
  pose proof (holds_lookup _ _ _ _ _ Rg Cg Ht) as Em. pose proof (holds_lookup _ _ _ _ _ Ru Cgu Hu) as Emu.
  assert (n_eq t u = true -> g = gu) as Eg.
  { intros E. destruct (croot_kids _ Cg), (croot_kids _ Cgu).
    eapply n_eq_sound; eauto; apply full_of; auto; intros k; [rewrite <- Em|rewrite <- Emu]; apply Hne. }
  assert (same m mu -> g = gu) as Eg'. { intros S. apply canon_unique; auto. intros k. now rewrite <- Em, <- Emu. }
  assert (g = gu -> (n_eq t u = true <-> forall k, outermost (lookup g) k -> (again l k <-> again l' k))) as G.
  { intros <-. destruct Mg as [[-> ->]|[Nl Ml]], Mu as [[-> ->]|[Nl' Ml']].
    - split; [|reflexivity]. intros _ k _. reflexivity.
    - exfalso. destruct l' as [|[k v] l']; [congruence|]. destruct (Ku k) as [_ X]. exact (proj1 (Kg k) (X (or_introl eq_refl))).
    - exfalso. destruct l as [|[k v] l]; [congruence|]. destruct (Kg k) as [_ X]. exact (proj1 (Ku k) (X (or_introl eq_refl))).
    - assert (g <> tempty) as Ng.
      { intros ->. destruct l as [|[k1 v1] l]; [congruence|]. destruct (Kg k1) as [_ X]. apply X; [now left|]. now destruct k1. }
      rewrite (eq_marks t u g _ _ Rg Ru Cg Ng Ml Ml'). split; intros H k Hk; specialize (H k Hk).
      + rewrite <- !wof_again. now rewrite H.
      + rewrite <- !wof_again in H. destruct (wof l k), (wof l' k); try reflexivity; [symmetry|]; apply H; reflexivity. }
  assert (forall k, outermost m k <-> outermost (lookup g) k) as Eo.
  { intros k. unfold outermost. rewrite Em. split; intros [A B]; (split; [exact A|]); intros s Ns; [rewrite <- Em|rewrite Em]; auto. }
  split.
  - intros E. specialize (Eg E). split; [|intros k Hk; apply (G Eg); [exact E|now apply Eo]].
    intros k. rewrite Em, Emu. now rewrite Eg.
  - intros [S H]. apply (G (Eg' S)). intros k Hk. apply H. now apply Eo.
Qed.

Lemma collect_leaf dbg l t : t_from_pairs dbg detached_read n_empty l ⇓ Ok t ->
  (is_leaf t = true <-> l = [] \/ exists k v, k <> [] /\ l = [(k, v)]).
Proof.
  intros Ct. destruct (collect_marks dbg l) as (t0 & g & C0 & (Rg & Cg & _) & Kg & Mg).
  pose proof (conv_unique _ _ _ C0 Ct) as X. injection X as ->. clear C0. split.
  - intros L. destruct Mg as [[-> ->]|[Nl Ml]]; [now left|right].
    inversion Ml as [w p v Hw Hv|w p v Hw Hv|w p v ns Hn F]; subst; try discriminate.
    destruct g as [q o cs]. destruct (Rep_inv _ _ _ _ _ _ Rg) as (RP & RV & ns & RK & RF). cbn in RP, RV, RK.
    destruct RP as [[= <-]|[? _]]; [|discriminate]. destruct RK as [?|[[_ ->]|(? & ? & ? & ? & ? & _)]]; try discriminate. inversion RF; subst.
    assert (forall k, In k (map fst l) -> k = p) as Only.
    { intros k Hk. apply Kg in Hk. destruct (lookup (T p o []) k) eqn:E; [|congruence]. pose proof (lookup_below _ _ _ _ _ E) as [z ->].
      destruct z; [now rewrite app_nil_r|rewrite lookup_under in E by discriminate; discriminate]. }
    destruct l as [|[k v1] l]; [congruence|]. assert (k = p) as -> by (apply Only; now left).
    destruct l as [|[k2 v2] l].
    + exists p, v1. split; [|reflexivity]. intros ->. unfold wof in Hw. cbn in Hw. congruence.
    + exfalso. assert (k2 = p) as -> by (apply Only; right; now left). unfold wof in Hw. cbn in Hw. rewrite beq_refl in Hw. cbn in Hw. discriminate.
  - intros [->|(k & v & Nk & ->)].
    + destruct Mg as [[_ ->]|[? _]]; [reflexivity|congruence].
    + destruct (first_insert dbg k v) as (t1 & C1 & _ & E1). specialize (E1 Nk). subst t1.
      assert (t_from_pairs dbg detached_read n_empty [(k, v)] ⇓ Ok (n_single k v)) as C2.
      { cbn [t_from_pairs]. eapply conv_bind; [exact C1|]. apply conv_const. discriminate. }
      pose proof (conv_unique _ _ _ Ct C2) as X. injection X as ->. reflexivity.
Qed.
