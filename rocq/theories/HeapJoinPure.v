(** The combines that make a new tree, on nodes as values: none of the nodes they make has
    an empty vector of children, and from clean trees they make clean ones. *)
From Verif Require Import Base BaseLemmas Header Node Combine Store HeapSpec HeapMerge HeapClean HeapTreeRec HeapTreeOuter.

Definition tight (n : node) : Prop := n_kids n <> KArc [].
Definition zdata (z : option blob) : Prop := match z with Some (Id _) => False | _ => True end.

Section Pure.
Context (T : Prop).
Definition sound (n : node) : Prop := tight n /\ (T -> clean n).
Definition sound0 (n : node) : Prop := tight n /\ (T -> clean0 n).
Definition solid (po : option (list node)) : Prop :=
  match po with Some rs => rs <> [] /\ Forall sound rs | None => True end.
Lemma sound_0 n : sound n -> sound0 n.
Proof. intros [H K]. split; [exact H|]. intros t. right. auto. Qed.
Lemma sound_ne n : sound0 n -> is_empty n = false -> sound n.
Proof. intros [H K] E. split; [exact H|]. intros t. destruct (K t) as [->|C]; [discriminate E|exact C]. Qed.

Lemma finish_sound dbg p z po r : zdata z -> solid po -> finish dbg p z po = Ok r ->
  forgets (Node (Data p) (opt_value z) (kids_opt po)) = 0 /\ sound0 r.
Proof.
  intros Hz Hs E. unfold finish in E. destruct z as [[d|id]|]; [|contradiction Hz|].
  - cbn [opt_value] in *. unfold canonicalize in E. cbn [n_kids n_value n_prefix blob_opt] in E.
    assert (dbg && negb match kids_opt po with KArc _ => true | KId [] => true | KId _ => false end = false) as F.
    { destruct po; cbn; now rewrite ?andb_false_r. }
    rewrite F in E. cbn [bind] in E. unfold has_value in E. cbn in E.
    assert (r = Node (Data p) (Data d) (kids_opt po)) as -> by congruence. split; [reflexivity|].
    destruct po as [rs|]; cbn [kids_opt].
    + destruct Hs as [Hne Hs]. split; [intros X; apply Hne; cbn in X; congruence|]. intros t. right.
      constructor; [left; discriminate|]. eapply Forall_impl; [|exact Hs]. intros x [_ Hx]. auto.
    + split; [discriminate|]. intros _. right. constructor. discriminate.
  - destruct po as [rs|]; cbn [kids_opt opt_value] in *.
    + destruct Hs as [Hne Hs]. unfold canonicalize in E. cbn [n_kids n_value n_prefix] in E. rewrite andb_false_r in E.
      change (blob_opt bnone) with (@None blob) in E. destruct rs as [|x [|y l]]; [congruence| |].
      * apply Forall_inv in Hs. destruct Hs as [Tx Cx].
        destruct (dbg && (blob_is_id (Data p) || blob_is_id (n_prefix x))); [discriminate E|]. cbn [bind] in E.
        unfold forgets. change (n_value (Node (Data p) bnone (KArc [x]))) with bnone.
        change (blob_opt bnone) with (@None blob). cbn [n_kids].
        unfold tight in Tx. destruct x as [px vx kx]. cbn [n_kids n_value n_prefix] in *.
        split; [destruct (blob_opt vx); [reflexivity|]; destruct kx as [[|]|]; congruence|].
        unfold has_value, child_count in E. cbn [n_value n_kids] in E.
        assert (T -> negb match blob_opt vx with Some _ => true | None => false end && (match kx with KArc l => length l | KId [] => 0 | KId _ => 2 end =? 0) = false) as F.
        { intros t. specialize (Cx t). destruct (blob_opt vx) eqn:Ev; [reflexivity|]. inversion Cx; subst; [congruence|].
          destruct l; [congruence|reflexivity]. }
        destruct (negb match blob_opt vx with Some _ => true | None => false end && (match kx with KArc l => length l | KId [] => 0 | KId _ => 2 end =? 0)) eqn:F0.
        -- match type of E with Ok ?a = _ => assert (r = a) as -> by congruence end. split; [discriminate|]. intros t. specialize (F t). congruence.
        -- match type of E with Ok ?a = _ => assert (r = a) as -> by congruence end. split; [exact Tx|]. intros t. right. apply (clean_prefix px). auto.
      * cbn [bind] in E. unfold child_count in E. cbn [n_kids length] in E. rewrite andb_false_r in E.
        assert (r = Node (Data p) bnone (KArc (x :: y :: l))) as -> by congruence. split; [reflexivity|]. split; [discriminate|].
        intros t. right. constructor; [right; discriminate|]. eapply Forall_impl; [|exact Hs]. intros z [_ Hz']. auto.
    + split; [reflexivity|]. unfold canonicalize in E. cbn in E. rewrite andb_false_r in E. cbn in E.
      assert (r = n_empty) as -> by (unfold n_empty; congruence). split; [discriminate|]. intros _. now left.
Qed.

(** Copies. *)
Lemma detach_loop_len pf : forall fuel ms rs, detach_loop pf fuel (IOwned ms) = Ok rs -> length rs = length ms.
Proof.
  induction fuel as [|fuel IH]; intros ms rs E; [discriminate E|]. cbn [detach_loop] in E. destruct ms as [|m ms]; cbn [it_next] in E.
  - now assert (rs = []) as -> by congruence.
  - stepE E x Ex. stepE E xs Exs. assert (rs = x :: xs) as -> by congruence. cbn. f_equal. eauto.
Qed.
Lemma detached_tight fuel m r : r_detached mem fuel (ROwned m) = Ok r -> tight r.
Proof.
  destruct fuel as [|fuel]; intros E; [discriminate E|]. cbn [r_detached r_to_owned bind] in E. stepE E p Ep. stepE E v Ev. stepE E c Ec.
  destruct c as [it|].
  - destruct (load_some _ _ Ec it eq_refl) as (l & -> & Hl). stepE E xs Ex. assert (r = Node (Data p) (opt_value (option_map Data v)) (KArc xs)) as -> by congruence.
    intros X. cbn in X. assert (xs = []) as -> by congruence. apply detach_loop_len in Ex. destruct l; [congruence|discriminate Ex].
  - assert (r = Node (Data p) (opt_value (option_map Data v)) (KId [])) as -> by congruence. discriminate.
Qed.
Lemma detached_sound fuel m r : (T -> clean m) -> r_detached mem fuel (ROwned m) = Ok r -> sound r.
Proof.
  intros Hc E. split; [apply (detached_tight _ _ _ E)|]. intros t. apply (proj1 detach_clean fuel m r (Hc t) E).
Qed.
Lemma short_sound fuel k m r : (T -> clean m) -> conv_node_shortened (detach_converter mem) fuel (ROwned m) k = Ok r -> sound r.
Proof.
  intros Hc E. cbn [conv_node_shortened detach_converter r_clone_shortened] in E. stepE E m' Em. apply (detached_sound fuel m'); [|exact E].
  intros t. apply (shortened_clean m k m' (Hc t) Em).
Qed.
Lemma it_detached_solid fuel ms po : (T -> Forall clean ms) -> it_detached mem fuel (IOwned ms) = Ok po -> solid po.
Proof.
  intros Hc E. unfold it_detached in E. destruct ms as [|m ms]; [now assert (po = None) as -> by congruence|]. stepE E xs Ex.
  assert (po = Some xs) as -> by congruence. split.
  - intros ->. apply detach_loop_len in Ex. discriminate Ex.
  - clear -Hc Ex. revert ms m xs Hc Ex.
    assert (forall n f ms xs, (T -> Forall clean ms) -> detach_loop (r_detached mem n) f (IOwned ms) = Ok xs -> Forall sound xs) as A.
    { intros n. induction f as [|f IH]; intros ms xs Hc E; [discriminate E|]. cbn [detach_loop] in E. destruct ms as [|m ms]; cbn [it_next] in E.
      - assert (xs = []) as -> by congruence. constructor.
      - stepE E x Ex. stepE E ys Eys. assert (xs = x :: ys) as -> by congruence. constructor.
        + apply (detached_sound n m); [|exact Ex]. intros t. specialize (Hc t). now inversion Hc.
        + apply (IH ms); [|exact Eys]. intros t. specialize (Hc t). now inversion Hc. }
    intros. eapply A; eauto.
Qed.

(** The three loops of Combine.v as one. *)
Fixpoint pjoin (ka kb : option bool) (rec : noderef -> noderef -> res node) (fuel : nat) (ns ms : list node) : res (list node) :=
  match fuel with
  | 0 => Fuel
  | S fuel' =>
      let keep (chk : bool) (r : node) (rs : list node) := if chk && is_empty r then rs else r :: rs in
      let first x ns' :=
        match ka with
        | Some chk => r <- r_detached mem fuel' (ROwned x) ;; rs <- pjoin ka kb rec fuel' ns' ms ;; Ok (keep chk r rs)
        | None => pjoin ka kb rec fuel' ns' ms
        end in
      let second y ms' :=
        match kb with
        | Some chk => r <- r_detached mem fuel' (ROwned y) ;; rs <- pjoin ka kb rec fuel' ns ms' ;; Ok (keep chk r rs)
        | None => pjoin ka kb rec fuel' ns ms'
        end in
      match ns, ms with
      | [], [] => Ok []
      | x :: ns', [] => first x ns'
      | [], y :: ms' => second y ms'
      | x :: ns', y :: ms' =>
          match cmp_ob (n_first x) (n_first y) with
          | Lt => first x ns'
          | Gt => second y ms'
          | Eq => r <- rec (ROwned x) (ROwned y) ;; rs <- pjoin ka kb rec fuel' ns' ms' ;; Ok (keep true r rs)
          end
      end
  end.
Lemma bind_ext' {A B} (m m' : res A) (f g : A -> res B) : m = m' -> (forall a, f a = g a) -> bind m f = bind m' g.
Proof. intros -> H. destruct m'; cbn; auto. Qed.
Ltac pj IH := repeat (first [reflexivity | rewrite IH | apply bind_ext'; [|intros ?] | match goal with |- context [cmp_ob ?a ?b] => destruct (cmp_ob a b) end]).
Lemma outer_pjoin rec : forall fuel ns ms, outer_loop mem mem rec fuel (IOwned ns) (IOwned ms) = pjoin (Some true) (Some true) rec fuel ns ms.
Proof.
  induction fuel as [|fuel IH]; intros ns ms; [reflexivity|]. cbn [outer_loop pjoin]. unfold oj_next.
  destruct ns as [|x ns], ms as [|y ms]; cbn [it_first it_next bind]; try reflexivity; pj IH; cbn [bind]; pj IH.
Qed.
Lemma inner_pjoin rec : forall fuel ns ms, inner_loop rec fuel (IOwned ns) (IOwned ms) = pjoin None None rec fuel ns ms.
Proof.
  induction fuel as [|fuel IH]; intros ns ms; [reflexivity|]. cbn [inner_loop pjoin]. unfold oj_next.
  destruct ns as [|x ns], ms as [|y ms]; cbn [it_first it_next bind]; try reflexivity; pj IH; cbn [bind]; pj IH.
Qed.
Lemma left_pjoin rec : forall fuel ns ms, left_loop mem rec fuel (IOwned ns) (IOwned ms) = pjoin (Some false) None rec fuel ns ms.
Proof.
  induction fuel as [|fuel IH]; intros ns ms; [reflexivity|]. cbn [left_loop pjoin]. unfold oj_next.
  destruct ns as [|x ns], ms as [|y ms]; cbn [it_first it_next bind]; try reflexivity; pj IH; cbn [bind]; pj IH.
Qed.

Definition ocl2 (o : option iter) : Prop :=
  match o with Some (IOwned ms) => T -> Forall clean ms | Some _ => False | None => True end.
Definition rec2 (rec : noderef -> noderef -> res node) : Prop :=
  forall x y r, (T -> clean0 x) -> (T -> clean0 y) -> rec (ROwned x) (ROwned y) = Ok r -> sound0 r.
Definition kids2 (pk : option iter -> option iter -> res (option (list node))) : Prop :=
  forall ac bc po, ocl2 ac -> ocl2 bc -> pk ac bc = Ok po -> solid po.
Lemma clean_0 x : clean x -> clean0 x.
Proof. now right. Qed.
Lemma keep_sound (chk : bool) r rs : (if chk then sound0 r else sound r) -> Forall sound rs -> Forall sound (if chk && is_empty r then rs else r :: rs).
Proof.
  intros H K. destruct chk; cbn [andb].
  - destruct (is_empty r) eqn:E; [exact K|]. constructor; [apply (sound_ne _ H E)|exact K].
  - now constructor.
Qed.
Lemma pjoin_sound ka kb rec : rec2 rec -> forall fuel ns ms rs, (T -> Forall clean ns) -> (T -> Forall clean ms) ->
  pjoin ka kb rec fuel ns ms = Ok rs -> Forall sound rs.
Proof.
  intros Hrec. induction fuel as [|fuel IH]; intros ns ms rs Hn Hm E; [discriminate E|]. cbn [pjoin] in E. cbv zeta in E.
  assert (forall x (l : list node) (P : list node -> Prop), (P l -> T -> Forall clean (x :: l)) -> P l -> (T -> clean x) /\ (T -> Forall clean l)) as Hd.
  { intros x l P Q p. split; intros t; specialize (Q p t); now inversion Q. }
  assert (forall x ns', ns = x :: ns' -> match ka with
        | Some chk => r <- r_detached mem fuel (ROwned x) ;; rs <- pjoin ka kb rec fuel ns' ms ;; Ok (if chk && is_empty r then rs else r :: rs)
        | None => pjoin ka kb rec fuel ns' ms end = Ok rs -> Forall sound rs) as A.
  { intros x ns' -> F. destruct (Hd x ns' (fun _ => True) (fun _ => Hn) Logic.I) as [Cx Cn]. destruct ka as [chk|].
    - stepE F r Er. stepE F rs' Ers. pose proof (detached_sound _ _ _ Cx Er) as Sr.
      assert (rs = if chk && is_empty r then rs' else r :: rs') as -> by congruence.
      apply keep_sound; [|apply (IH ns' ms rs' Cn Hm Ers)]. destruct chk; [apply sound_0|]; exact Sr.
    - apply (IH ns' ms rs Cn Hm F). }
  assert (forall y ms', ms = y :: ms' -> match kb with
        | Some chk => r <- r_detached mem fuel (ROwned y) ;; rs <- pjoin ka kb rec fuel ns ms' ;; Ok (if chk && is_empty r then rs else r :: rs)
        | None => pjoin ka kb rec fuel ns ms' end = Ok rs -> Forall sound rs) as A'.
  { intros y ms' -> F. destruct (Hd y ms' (fun _ => True) (fun _ => Hm) Logic.I) as [Cx Cn]. destruct kb as [chk|].
    - stepE F r Er. stepE F rs' Ers. pose proof (detached_sound _ _ _ Cx Er) as Sr.
      assert (rs = if chk && is_empty r then rs' else r :: rs') as -> by congruence.
      apply keep_sound; [|apply (IH ns ms' rs' Hn Cn Ers)]. destruct chk; [apply sound_0|]; exact Sr.
    - apply (IH ns ms' rs Hn Cn F). }
  destruct ns as [|x ns], ms as [|y ms].
  - assert (rs = []) as -> by congruence. constructor.
  - apply (A' y ms eq_refl E).
  - apply (A x ns eq_refl E).
  - destruct (cmp_ob (n_first x) (n_first y)); [|apply (A x ns eq_refl E)|apply (A' y ms eq_refl E)].
    stepE E r Er. stepE E rs' Ers.
    destruct (Hd x ns (fun _ => True) (fun _ => Hn) Logic.I) as [Cx Cn]. destruct (Hd y ms (fun _ => True) (fun _ => Hm) Logic.I) as [Cy Cm].
    assert (rs = if true && is_empty r then rs' else r :: rs') as -> by (cbv beta in E; congruence).
    apply keep_sound; [|apply (IH ns ms rs' Cn Cm Ers)]. apply (Hrec x y r); [| |exact Er]; intros t; apply clean_0; auto.
Qed.
Lemma nonempty_solid rs : Forall sound rs -> solid (nonempty_vec rs).
Proof. intros H. destruct rs; [exact Logic.I|]. split; [discriminate|exact H]. Qed.
Lemma outer_kids2 rec fuel : rec2 rec -> kids2 (outer_children mem mem rec fuel).
Proof.
  intros Hr ac bc po Ha Hb E. unfold outer_children in E. destruct ac as [[ns|]|], bc as [[ms|]|]; try contradiction.
  - stepE E rs Ers. assert (po = nonempty_vec rs) as -> by congruence. rewrite outer_pjoin in Ers.
    apply nonempty_solid. apply (pjoin_sound _ _ _ Hr _ _ _ _ Ha Hb Ers).
  - apply (it_detached_solid _ _ _ Ha E).
  - apply (it_detached_solid _ _ _ Hb E).
  - assert (po = None) as -> by congruence. exact Logic.I.
Qed.
Lemma inner_kids2 rec fuel : rec2 rec -> kids2 (inner_children rec fuel).
Proof.
  intros Hr ac bc po Ha Hb E. unfold inner_children in E. destruct ac as [[ns|]|], bc as [[ms|]|]; try contradiction;
    try (assert (po = None) as -> by congruence; exact Logic.I).
  stepE E rs Ers. assert (po = nonempty_vec rs) as -> by congruence. rewrite inner_pjoin in Ers.
  apply nonempty_solid. apply (pjoin_sound _ _ _ Hr _ _ _ _ Ha Hb Ers).
Qed.
Lemma left_kids2 rec fuel : rec2 rec -> kids2 (left_children mem rec fuel).
Proof.
  intros Hr ac bc po Ha Hb E. unfold left_children in E. destruct ac as [[ns|]|], bc as [[ms|]|]; try contradiction;
    try (assert (po = None) as -> by congruence; exact Logic.I).
  - stepE E rs Ers. assert (po = nonempty_vec rs) as -> by congruence. rewrite left_pjoin in Ers.
    apply nonempty_solid. apply (pjoin_sound _ _ _ Hr _ _ _ _ Ha Hb Ers).
  - apply (it_detached_solid _ _ _ Ha E).
Qed.
Lemma load_ocl2 m po : (T -> clean0 m) -> load_children mem m = Ok po -> ocl2 po.
Proof.
  intros Hc E. destruct po as [it|]; [|exact Logic.I]. destruct (load_some _ _ E it eq_refl) as (l & -> & _).
  intros t. exact (clean_iter _ _ (Hc t) E).
Qed.
Lemma short_ocl2 m k m' p q : (T -> clean0 m) -> load_prefix mem (n_prefix m) = Ok q -> k = common_prefix p q \/ k = common_prefix q p ->
  k <> length q -> clone_shortened mem m k = Ok m' -> ocl2 (it_single m').
Proof.
  intros Hc Ep Hk Ek E t. constructor; [|constructor]. apply (shortened_clean m k m'); [|exact E].
  assert (n_prefix m = Data q) as P. { destruct (n_prefix m) as [d|[|]]; try discriminate Ep. cbn in Ep. congruence. }
  apply (clean0_prefix _ _ (Hc t) P). destruct Hk as [Hk|Hk]; [apply (short_ne_r _ _ _ Hk Ek)|apply (short_ne _ _ _ Hk Ek)].
Qed.
Lemma v_detached_data v x : v_detached v = Ok x -> zdata (Some x).
Proof. destruct v; cbn; [|discriminate]. intros E. now assert (x = Data b) as -> by congruence. Qed.
Lemma opt_detached_data v z : opt_detached v = Ok z -> zdata z.
Proof.
  destruct v as [v|]; cbn [opt_detached]; intros E; [|now assert (z = None) as -> by congruence].
  stepE E x Ex. assert (z = Some x) as -> by congruence. apply (v_detached_data _ _ Ex).
Qed.
End Pure.

Section Ops.
Context (T : Prop) (dbg : bool) (f : blob -> blob -> res (option blob)) (Hf : forall x y z, f x y = Ok z -> zdata z).
Lemma disjoint_sound fuel n m ap bp k a' b' : (T -> clean0 n) -> (T -> clean0 m) ->
  load_prefix mem (n_prefix n) = Ok ap -> load_prefix mem (n_prefix m) = Ok bp ->
  k = common_prefix ap bp -> k <> length ap -> k <> length bp ->
  conv_node_shortened (detach_converter mem) fuel (ROwned n) k = Ok a' ->
  conv_node_shortened (detach_converter mem) fuel (ROwned m) k = Ok b' ->
  solid T (Some (match cmp_ob (nth_error ap k) (nth_error bp k) with Gt => [b'; a'] | _ => [a'; b'] end)).
Proof.
  intros Cn Cm Ea Eb Hk Ha Hb E1 E2.
  assert (n_prefix n = Data ap) as Pn. { destruct (n_prefix n) as [d|[|]]; try discriminate Ea. cbn in Ea. congruence. }
  assert (n_prefix m = Data bp) as Pm. { destruct (n_prefix m) as [d|[|]]; try discriminate Eb. cbn in Eb. congruence. }
  assert (sound T a') as Sa. { apply (short_sound T fuel k n a'); [|exact E1]. intros t. apply (clean0_prefix _ _ (Cn t) Pn (short_ne _ _ _ Hk Ha)). }
  assert (sound T b') as Sb. { apply (short_sound T fuel k m b'); [|exact E2]. intros t. apply (clean0_prefix _ _ (Cm t) Pm (short_ne_r _ _ _ Hk Hb)). }
  destruct (cmp_ob (nth_error ap k) (nth_error bp k)); (split; [discriminate|auto]).
Qed.
Ltac fin E := apply (finish_sound T) in E; [apply E| |].
Lemma outer_sound : forall fuel, rec2 T (outer_combine dbg mem mem f fuel).
Proof.
  induction fuel as [|fuel IH]; intros n m r Cn Cm E; [discriminate E|]. pose proof (outer_kids2 T _ fuel IH) as Hk.
  cbn [outer_combine r_prefix] in E. stepE E ap Ea. stepE E bp Eb. cbv zeta in E.
  destruct (Nat.eqb_spec (common_prefix ap bp) (length ap)) as [Ha|Ha], (Nat.eqb_spec (common_prefix ap bp) (length bp)) as [Hb|Hb];
    cbn [andb r_value_opt r_load_children r_clone_shortened] in E.
  - stepE E z Ez. stepE E ac Eac. stepE E bc Ebc. stepE E po Epo. fin E.
    + destruct (blob_opt (n_value m)); [|apply (opt_detached_data _ _ Ez)]. destruct (blob_opt (n_value n)); [apply (Hf _ _ _ Ez)|].
      stepE Ez x Ex. assert (z = Some x) as -> by congruence. apply (v_detached_data _ _ Ex).
    + apply (Hk ac bc po); [apply (load_ocl2 T n _ Cn Eac)|apply (load_ocl2 T m _ Cm Ebc)|exact Epo].
  - stepE E z Ez. stepE E ac Eac. stepE E m' Em. stepE E po Epo. fin E; [apply (opt_detached_data _ _ Ez)|].
    apply (Hk _ _ po) in Epo; [exact Epo|apply (load_ocl2 T n _ Cn Eac)|].
    apply (short_ocl2 T m _ m' ap bp Cm Eb (or_introl eq_refl) Hb Em).
  - stepE E z Ez. stepE E n' Em. stepE E bc Ebc. stepE E po Epo. fin E; [apply (opt_detached_data _ _ Ez)|].
    apply (Hk _ _ po) in Epo; [exact Epo| |apply (load_ocl2 T m _ Cm Ebc)].
    apply (short_ocl2 T n _ n' bp ap Cn Ea (or_intror eq_refl) Ha Em).
  - stepE E a' E1. stepE E b' E2. fin E; [exact Logic.I|].
    apply (disjoint_sound fuel n m ap bp _ a' b' Cn Cm Ea Eb eq_refl Ha Hb E1 E2).
Qed.
Lemma inner_sound : forall fuel, rec2 T (inner_combine dbg mem mem f fuel).
Proof.
  induction fuel as [|fuel IH]; intros n m r Cn Cm E; [discriminate E|]. pose proof (inner_kids2 T _ fuel IH) as Hk.
  cbn [inner_combine r_prefix] in E. stepE E ap Ea. stepE E bp Eb. cbv zeta in E.
  destruct (Nat.eqb_spec (common_prefix ap bp) (length ap)) as [Ha|Ha], (Nat.eqb_spec (common_prefix ap bp) (length bp)) as [Hb|Hb];
    cbn [andb r_value_opt r_load_children r_clone_shortened] in E.
  - stepE E z Ez. stepE E ac Eac. stepE E bc Ebc. stepE E po Epo. fin E.
    + destruct (blob_opt (n_value m)); [|now assert (z = None) as -> by congruence].
      destruct (blob_opt (n_value n)); [apply (Hf _ _ _ Ez)|now assert (z = None) as -> by congruence].
    + apply (Hk ac bc po); [apply (load_ocl2 T n _ Cn Eac)|apply (load_ocl2 T m _ Cm Ebc)|exact Epo].
  - stepE E ac Eac. stepE E m' Em. stepE E po Epo. fin E; [exact Logic.I|].
    apply (Hk _ _ po) in Epo; [exact Epo|apply (load_ocl2 T n _ Cn Eac)|].
    apply (short_ocl2 T m _ m' ap bp Cm Eb (or_introl eq_refl) Hb Em).
  - stepE E n' Em. stepE E bc Ebc. stepE E po Epo. fin E; [exact Logic.I|].
    apply (Hk _ _ po) in Epo; [exact Epo| |apply (load_ocl2 T m _ Cm Ebc)].
    apply (short_ocl2 T n _ n' bp ap Cn Ea (or_intror eq_refl) Ha Em).
  - fin E; exact Logic.I.
Qed.
Lemma left_sound : forall fuel, rec2 T (left_combine dbg mem mem f fuel).
Proof.
  induction fuel as [|fuel IH]; intros n m r Cn Cm E; [discriminate E|]. pose proof (left_kids2 T _ fuel IH) as Hk.
  cbn [left_combine r_prefix] in E. stepE E ap Ea. stepE E bp Eb. cbv zeta in E.
  destruct (Nat.eqb_spec (common_prefix ap bp) (length ap)) as [Ha|Ha], (Nat.eqb_spec (common_prefix ap bp) (length bp)) as [Hb|Hb];
    cbn [andb r_value_opt r_load_children r_clone_shortened] in E.
  - stepE E z Ez. stepE E ac Eac. stepE E bc Ebc. stepE E po Epo. fin E.
    + destruct (blob_opt (n_value n)); [|now assert (z = None) as -> by congruence].
      destruct (blob_opt (n_value m)); [apply (Hf _ _ _ Ez)|].
      stepE Ez x Ex. assert (z = Some x) as -> by congruence. apply (v_detached_data _ _ Ex).
    + apply (Hk ac bc po); [apply (load_ocl2 T n _ Cn Eac)|apply (load_ocl2 T m _ Cm Ebc)|exact Epo].
  - stepE E z Ez. stepE E ac Eac. stepE E m' Em. stepE E po Epo. fin E; [apply (opt_detached_data _ _ Ez)|].
    apply (Hk _ _ po) in Epo; [exact Epo|apply (load_ocl2 T n _ Cn Eac)|].
    apply (short_ocl2 T m _ m' ap bp Cm Eb (or_introl eq_refl) Hb Em).
  - stepE E n' Em. stepE E bc Ebc. stepE E po Epo. fin E; [exact Logic.I|].
    apply (Hk _ _ po) in Epo; [exact Epo| |apply (load_ocl2 T m _ Cm Ebc)].
    apply (short_ocl2 T n _ n' bp ap Cn Ea (or_intror eq_refl) Ha Em).
  - apply sound_0. apply (detached_sound T fuel n r); [|exact E]. intros t.
    assert (n_prefix n = Data ap) as Pn. { destruct (n_prefix n) as [d|[|]]; try discriminate Ea. cbn in Ea. congruence. }
    apply (clean0_prefix _ _ (Cn t) Pn (short_ne _ _ _ eq_refl Ha)).
Qed.
End Ops.
