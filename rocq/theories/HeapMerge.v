(** Converting borrowed nodes and merging lists of children, on the heap. *)
From Verif Require Import Base BaseLemmas Header Node Combine Store Heap HeapSpec HeapProofs HeapOps HeapIter HeapTree HeapBorrow.
Notation mem := detached_read (only parsing).

(** What an operation gives: the new node or list, and the vectors it forgot; none
    when [C] holds. *)
Definition npost (R B : list item) (r : node) (C : Prop) (c : cnode) (h : heap) (G : ghost) : Prop :=
  exists lk, inv h G (node_items c ++ lk ++ R ++ B) /\ crep G c r /\ leaks_ok G lk /\ (C -> lk = []).
Definition lpost (R B : list item) (rs : list node) (C : Prop) (cs : list cnode) (h : heap) (G : ghost) : Prop :=
  exists lk, inv h G (flat_map node_items cs ++ lk ++ R ++ B) /\ Forall2 (crep G) cs rs /\ leaks_ok G lk /\ (C -> lk = []).
Definition owned (R B : list item) (r : node) (c : cnode) (h : heap) (G : ghost) : Prop :=
  inv h G (node_items c ++ R ++ B) /\ crep G c r.

Lemma wp_set_value v c n R h G : inv h G (node_items c ++ R) -> crep G c n ->
  wp (h_set_value v c) R (fun c' h' G' => inv h' G' (node_items c' ++ R) /\
    crep G' c' (set_value n (opt_value (option_map Data v)))) h G.
Proof.
  intros I C. destruct v as [d|].
  - apply (wp_set_v (Data d) (hdr_data (length d)) c n R h G eq_refl I C).
  - apply (wp_set_v bnone hdr_none c n R h G eq_refl I C).
Qed.
Lemma wp_clear c n R h G : inv h G (node_items c ++ R) -> crep G c n ->
  wp (h_clear c) R (fun c' h' G' => inv h' G' (node_items c' ++ R) /\
    crep G' c' (set_kids (set_value n bnone) (KId []))) h G.
Proof.
  intros I C. eapply wp_bind; [apply (wp_set_value None c n R h G I C)|]. cbn beta. intros c1 h1 G1 [I1 C1].
  apply (wp_set_c [] hdr_none c1 _ R h1 G1 eq_refl I1 C1).
Qed.
Lemma wp_recast c n R h G : inv h G (node_items c ++ R) -> crep G c n ->
  wp (h_recast c) R (fun c' h' G' => inv h' G' (node_items c' ++ R) /\ crep G' c' n) h G.
Proof.
  intros I C. eapply wp_bind.
  { apply (wp_clone c n _ R h G I C).
    - apply (inv_live_roots _ _ _ _ I). occ_solve.
    - intros a Ha _. pose proof (i_cnt _ _ _ I a) as K. rewrite occ_app in K. lia. }
  cbn beta. intros c' h1 G1 (-> & -> & I1 & _).
  eapply wp_bind.
  { eapply (wp_frame _ _ (node_items c ++ R) R _ h1 G I1); [occ_solve|occ_solve|]. apply wp_drop. exact I1. }
  cbn beta. intros _ h2 G2 ((-> & I2 & _) & _). apply wp_ret. auto.
Qed.
Lemma wpk_owned (m : M cnode) Y R B r h G : inv h G (Y ++ R ++ B) ->
  wp m (R ++ B) (fun c' h' G' => inv h' G' (node_items c' ++ R ++ B) /\ crep G' c' r) h G ->
  wpk m R B (owned R B r) h G.
Proof.
  intros I W. eapply wpk_weaken; [eapply (wpk_of m _ (R ++ B) R B _ h G I); [occ_solve|occ_solve|occ_solve|exact W]|].
  cbn beta. intros c' h' G' (H & _) _. exact H.
Qed.
Lemma wpk_drop l Y R B h G : inv h G (l ++ Y ++ R ++ B) ->
  wpk (drop l) R B (fun _ h' G' => G' = G /\ inv h' G (Y ++ R ++ B)) h G.
Proof.
  intros I. eapply wpk_weaken.
  { eapply (wpk_of _ _ (Y ++ R ++ B) R B _ h G I); [occ_solve|occ_solve|occ_solve|]. apply wp_drop. exact I. }
  cbn beta. tauto.
Qed.

Lemma wpk_clone_shortened k b m r R B h G : clone_shortened mem m k = Ok r -> inv h G (R ++ B) -> bor h G B b m ->
  wpk (h_clone_shortened b k) R B (owned R B r) h G.
Proof.
  intros E I H. unfold clone_shortened in E. destruct (load_prefix mem (n_prefix m)) as [p| | |] eqn:Ep; try discriminate E.
  cbn [bind] in E. destruct (slice_from k p) as [q| | |] eqn:Eq; try discriminate E. cbn [bind] in E.
  unfold slice_from in Eq. destruct (k <=? length p) eqn:Ek; try discriminate Eq.
  assert (q = skipn k p) as -> by congruence.
  assert (live h (node_items b)) as L by (refine (bor_live _ _ _ _ _ _ I _ H); occ_solve).
  destruct (load_prefix_ok _ _ _ _ _ _ I (proj1 H) L Ep) as [Epm El].
  unfold h_clone_shortened. apply (wpk_read _ _ _ _ _ _ _ _ El).
  eapply wpk_bind; [apply (wpk_clone b m [] R B h G I H)|]. cbn beta. intros c' h1 G1 (-> & -> & I1) K1. rewrite Ek.
  apply (wpk_owned _ (node_items b)); [exact I1|].
  eapply wp_weaken; [apply (wp_set_p (Data (skipn k p)) (hdr_data (length (skipn k p))) b m _ h1 G eq_refl I1 (proj1 H))|].
  cbn beta. intros c' h2 G2 [I2 C2]. split; [exact I2|]. unfold set_prefix_slice in E. congruence.
Qed.

(** ** Detaching *)
Definition makes (f : cnode -> M cnode) (pf : noderef -> res node) : Prop :=
  forall m r, pf (ROwned m) = Ok r -> forall R B h G b, inv h G (R ++ B) -> bor h G B b m -> wpk (f b) R B (owned R B r) h G.
Lemma wpk_detach_loop f pf : makes f pf -> forall fuel ms rs, detach_loop pf fuel (IOwned ms) = Ok rs ->
  forall R B h G it, inv h G (R ++ B) -> irep h G B it ms ->
  wpk (h_detach_loop f fuel it) R B (lpost R B rs True) h G.
Proof.
  intros Hf. induction fuel as [|fuel IH]; intros ms rs E R B h G it I H; [discriminate E|]. cbn [detach_loop] in E.
  pose proof (bi_next_ok _ _ _ _ _ H) as Hn. cbn [h_detach_loop]. destruct ms as [|m ms]; cbn [it_next] in E.
  - assert (rs = []) as -> by congruence. apply (wpk_read _ _ _ _ _ _ _ _ Hn). apply wpk_ret. exists [].
    split; [exact I|]. split; [constructor|]. split; [constructor|auto].
  - destruct Hn as (b & it' & En & Hb & Hit). apply (wpk_read _ _ _ _ _ _ _ _ En).
    destruct (pf (ROwned m)) as [x| | |] eqn:Ex; try discriminate E. cbn [bind] in E.
    destruct (detach_loop pf fuel (IOwned ms)) as [xs| | |] eqn:Exs; try discriminate E. cbn [bind] in E.
    assert (rs = x :: xs) as -> by congruence.
    eapply wpk_bind; [apply (Hf m x Ex R B h G b I Hb)|]. cbn beta. intros c h1 G1 [I1 C1] K1.
    assert (inv h1 G1 ((node_items c ++ R) ++ B)) as J1 by rearr I1.
    eapply wpk_bind.
    { eapply (wpk_frame _ _ (node_items c ++ R) R B B _ h1 G1 J1); [occ_solve|occ_solve|occ_solve|].
      apply (IH ms xs Exs (node_items c ++ R) B h1 G1 it' J1 (irep_keeps _ _ _ _ _ _ _ K1 Hit)). }
    cbn beta. intros cs h2 G2 ((lk & I2 & C2 & L2 & Z2) & S2) K2. rewrite (Z2 Logic.I) in *.
    destruct S2 as (X2 & _). rewrite ext_app in X2. destruct X2 as [X2 _].
    apply wpk_ret. exists []. split; [|split; [|split; [constructor|auto]]].
    + cbn [flat_map]. rearr I2.
    + constructor; [apply (crep_ext _ _ _ _ C1 X2)|exact C2].
Qed.
Lemma load_value_ok h G Z c n v : inv h G Z -> crep G c n -> live h (node_items c) ->
  load_value mem (n_value n) = Ok v -> h_load_value c h = Done (v, h).
Proof.
  intros I (P & V & K) L E. unfold node_items in L. rewrite !live_app in L. destruct L as (_ & L & _).
  unfold h_load_value. rewrite (brep_is_id _ _ _ _ V), (brep_none _ _ _ _ V).
  destruct (n_value n) as [d|[|x id]] eqn:En; cbn in E; try discriminate E.
  - cbn [blob_is_id]. unfold mbind. rewrite (blob_read_ok _ _ _ _ _ _ I V L). cbn. unfold ret. congruence.
  - cbn. unfold ret. congruence.
Qed.
Lemma wpk_detached : forall fuel, makes (h_detached fuel) (r_detached mem fuel).
Proof.
  induction fuel as [|fuel IH]; intros m r E R B h G b I H; [discriminate E|]. cbn [r_detached r_to_owned bind] in E.
  destruct (load_prefix mem (n_prefix m)) as [p| | |] eqn:Ep; try discriminate E. cbn [bind] in E.
  destruct (load_value mem (n_value m)) as [v| | |] eqn:Ev; try discriminate E. cbn [bind] in E.
  destruct (load_children mem m) as [po| | |] eqn:Eo; try discriminate E. cbn [bind] in E.
  assert (live h (node_items b)) as L by (refine (bor_live _ _ _ _ _ _ I _ H); occ_solve).
  destruct (load_prefix_ok _ _ _ _ _ _ I (proj1 H) L Ep) as [Epm El].
  cbn [h_detached]. apply (wpk_read _ _ _ _ _ _ _ _ El).
  assert (inv h G (node_items c_empty ++ R ++ B)) as I0 by (rewrite empty_items; exact I).
  eapply wpk_bind.
  { eapply (wpk_owned _ (node_items c_empty) R B _ h G I0).
    apply (wp_set_p (Data p) (hdr_data (length p)) c_empty n_empty _ h G eq_refl I0 (empty_crep G)). }
  intros c1 h1 G1 [I1 C1] K1. pose proof (bor_keeps _ _ _ _ _ _ _ K1 H) as H1.
  assert (live h1 (node_items b)) as L1 by (refine (bor_live _ _ _ _ _ _ I1 _ H1); occ_solve).
  apply (wpk_read _ _ _ _ _ _ _ _ (load_value_ok _ _ _ _ _ _ I1 (proj1 H1) L1 Ev)).
  eapply wpk_bind.
  { eapply (wpk_owned _ (node_items c1) R B _ h1 G1 I1). apply (wp_set_value v c1 _ _ h1 G1 I1 C1). }
  intros c2 h2 G2 [I2 C2] K2. pose proof (bor_keeps _ _ _ _ _ _ _ K2 H1) as H2.
  destruct (slice_ok h2 G2 _ B b m po I2 ltac:(occ_solve) H2 Eo) as (o & Es & Ho).
  apply (wpk_read _ _ _ _ _ _ _ _ Es).
  destruct po as [[ms|]|], o as [it|]; try contradiction Ho.
  - destruct (detach_loop (r_detached mem fuel) fuel (IOwned ms)) as [xs| | |] eqn:Exs; try discriminate E. cbn [bind] in E.
    assert (inv h2 G2 ((node_items c2 ++ R) ++ B)) as J2 by rearr I2.
    eapply wpk_bind.
    { eapply (wpk_frame _ _ (node_items c2 ++ R) R B B _ h2 G2 J2); [occ_solve|occ_solve|occ_solve|].
      apply (wpk_detach_loop _ _ IH fuel ms xs Exs (node_items c2 ++ R) B h2 G2 it J2 Ho). }
    cbn beta. intros cs h3 G3 ((lk & I3 & C3 & L3 & Z3) & S3) K3. rewrite (Z3 Logic.I) in *. cbn [app] in I3.
    destruct S3 as (X3 & _). rewrite ext_app in X3. destruct X3 as [X3 _].
    pose proof (crep_ext _ _ _ _ C2 X3) as C2'.
    assert (inv h3 G3 (flat_map node_items cs ++ (node_items c2 ++ R ++ B))) as J3 by rearr I3.
    apply (wpk_owned _ (flat_map node_items cs ++ node_items c2)); [rearr I3|].
    eapply wp_bind.
    { eapply (wp_frame _ _ (node_items c2 ++ R ++ B) (R ++ B) _ h3 G3 J3); [occ_solve|occ_solve|].
      apply (wp_new (CNodes cs) (GN xs)); [exact J3|exact C3]. }
    cbn beta. intros a h4 G4 ((-> & I4 & _) & X4 & _). cbn [gkind] in I4. rewrite ext_app in X4. destruct X4 as [X4 _].
    eapply wp_weaken.
    + eapply (wp_set_arc a xs c2); [rearr I4|apply gset_eq|]. apply (crep_ext _ _ _ _ C2' X4).
    + cbn beta. intros c' h5 G5 [I5 C5]. split; [exact I5|].
      assert (r = Node (Data p) (opt_value (option_map Data v)) (KArc xs)) as -> by congruence. exact C5.
  - apply wpk_ret. split; [exact I2|].
    assert (r = Node (Data p) (opt_value (option_map Data v)) (KId [])) as -> by congruence. exact C2.
Qed.

(** ** Converters *)
Definition conv_ok (hc : hconv) (c : converter) : Prop :=
  (forall fuel, makes (hc_node hc fuel) (conv_node c fuel)) /\
  (forall fuel k, makes (fun b => hc_short hc fuel b k) (fun b => conv_node_shortened c fuel b k)) /\
  (forall v r, conv_value c v = Ok r -> r = v).
Lemma wpk_recast c n R B h G : inv h G (node_items c ++ R ++ B) -> crep G c n -> wpk (h_recast c) R B (owned R B n) h G.
Proof. intros I C. apply (wpk_owned _ (node_items c)); [exact I|]. apply (wp_recast c n _ h G I C). Qed.
Lemma clone_makes : makes h_clone (fun r => match r with ROwned n => Ok n | RBorrowed _ => Panic end).
Proof.
  intros m r E R B h G b I H. assert (m = r) as -> by congruence.
  eapply wpk_weaken; [apply (wpk_clone b r [] R B h G I H)|]. cbn beta. intros c h' G' (-> & -> & I') K. split; [exact I'|apply H].
Qed.
Lemma downcast_ok : conv_ok h_downcast downcast_converter.
Proof.
  split; [|split]; [| |intros [x|i] r E; cbn in E; congruence].
  - intros fuel. exact clone_makes.
  - intros fuel k m r E R B h G b I H. cbn in E. cbn [hc_short h_downcast].
    eapply wpk_bind; [apply (wpk_clone_shortened k b m r R B h G E I H)|]. intros c h1 G1 [I1 C1] _.
    apply (wpk_recast c r R B h1 G1 I1 C1).
Qed.
Lemma detach_ok : conv_ok h_detach (detach_converter mem).
Proof.
  split; [|split]; [| |intros [x|i] r E; cbn in E; congruence].
  - intros fuel m r E R B h G b I H. cbn in E. cbn [hc_node h_detach].
    eapply wpk_bind; [apply (wpk_detached fuel m r E R B h G b I H)|]. intros c h1 G1 [I1 C1] _.
    apply (wpk_recast c r R B h1 G1 I1 C1).
  - intros fuel k m r E R B h G b I H. cbn [conv_node_shortened detach_converter r_clone_shortened] in E. cbn [hc_short h_detach].
    destruct (clone_shortened mem m k) as [m'| | |] eqn:Em; try discriminate E. cbn [bind] in E.
    eapply wpk_bind; [apply (wpk_clone_shortened k b m m' R B h G Em I H)|]. intros b' h1 G1 [I1 C1] _.
    set (B' := node_items b' ++ B).
    assert (inv h1 G1 (R ++ B')) as J1. { unfold B'. rearr I1. }
    assert (forall a, occ a B <= occ a B') as LB by (unfold B'; occ_solve).
    eapply wpk_bind.
    { eapply (wpk_frame _ _ R R B' B _ h1 G1 J1); [occ_solve|occ_solve|exact LB|].
      apply (wpk_detached fuel m' r E R B' h1 G1 b' J1 (bor_own _ _ _ _ _ C1)). }
    cbn beta. intros d h2 G2 ([I2 C2] & _) _.
    eapply wpk_bind.
    { eapply (wpk_frame _ _ R R B' B _ h2 G2 I2); [occ_solve|occ_solve|exact LB|]. apply (wpk_recast d r R B' h2 G2 I2 C2). }
    cbn beta. intros d' h3 G3 ([I3 C3] & _) _.
    eapply wpk_bind.
    { eapply (wpk_frame _ _ R R B' B _ h3 G3 I3); [occ_solve|occ_solve|exact LB|]. apply (wpk_recast d' r R B' h3 G3 I3 C3). }
    cbn beta. intros d'' h4 G4 ([I4 C4] & _) _. unfold B' in I4.
    eapply wpk_bind; [apply (wpk_drop (node_items b') (node_items d'')); rearr I4|].
    cbn beta. intros _ h5 G5 (-> & I5) _. apply wpk_ret. split; [exact I5|exact C4].
Qed.

(** ** Merging *)
(** The three loops of Combine.v as one. *)
Fixpoint pmerge (keep : bool) (ins : option converter) (rec : node -> noderef -> res node) (fuel : nat)
    (ac : list node) (bc : iter) : res (list node) :=
  match fuel with
  | 0 => Fuel
  | S fuel' =>
      match cmp_with ac bc with
      | None => Ok []
      | Some Lt =>
          match ac with
          | x :: ac' =>
              if keep then rs <- pmerge keep ins rec fuel' ac' bc ;; Ok (x :: rs)
              else pmerge keep ins rec fuel' ac' bc
          | [] => Panic
          end
      | Some Eq =>
          match ac, it_next bc with
          | x :: ac', Some (y, bc') =>
              r <- rec x y ;;
              rs <- pmerge keep ins rec fuel' ac' bc' ;;
              Ok (if is_empty r then rs else r :: rs)
          | _, _ => Panic
          end
      | Some Gt =>
          match it_next bc with
          | Some (y, bc') =>
              match ins with
              | Some c => x <- conv_node c fuel' y ;; rs <- pmerge keep ins rec fuel' ac bc' ;; Ok (x :: rs)
              | None => pmerge keep ins rec fuel' ac bc'
              end
          | None => Panic
          end
      end
  end.
Lemma bind_ext {A B} (m : res A) (f g : A -> res B) : (forall a, f a = g a) -> bind m f = bind m g.
Proof. intros H. destruct m; cbn; auto. Qed.
Lemma outer_merge c rec : forall fuel ac bc, outer_with_loop c rec fuel ac bc = pmerge true (Some c) rec fuel ac bc.
Proof.
  induction fuel as [|fuel IH]; intros ac bc; [reflexivity|]. cbn [outer_with_loop pmerge].
  destruct (cmp_with ac bc) as [[| |]|]; [| | |reflexivity].
  - destruct ac as [|x ac]; [reflexivity|]. destruct (it_next bc) as [[y bc']|]; [|reflexivity].
    apply bind_ext. intros r. now rewrite IH.
  - destruct ac as [|x ac]; [reflexivity|]. now rewrite IH.
  - destruct (it_next bc) as [[y bc']|]; [|reflexivity]. apply bind_ext. intros r. now rewrite IH.
Qed.
Lemma inner_merge rec : forall fuel ac bc, inner_with_loop rec fuel ac bc = pmerge false None rec fuel ac bc.
Proof.
  induction fuel as [|fuel IH]; intros ac bc; [reflexivity|]. cbn [inner_with_loop pmerge].
  destruct (cmp_with ac bc) as [[| |]|]; [| | |reflexivity].
  - destruct ac as [|x ac]; [reflexivity|]. destruct (it_next bc) as [[y bc']|]; [|reflexivity].
    apply bind_ext. intros r. now rewrite IH.
  - destruct ac as [|x ac]; [reflexivity|]. now rewrite IH.
  - destruct (it_next bc) as [[y bc']|]; [|reflexivity]. apply IH.
Qed.
Lemma left_merge rec : forall fuel ac bc, left_with_loop rec fuel ac bc = pmerge true None rec fuel ac bc.
Proof.
  induction fuel as [|fuel IH]; intros ac bc; [reflexivity|]. cbn [left_with_loop pmerge].
  destruct (cmp_with ac bc) as [[| |]|]; [| | |reflexivity].
  - destruct ac as [|x ac]; [reflexivity|]. destruct (it_next bc) as [[y bc']|]; [|reflexivity].
    apply bind_ext. intros r. now rewrite IH.
  - destruct ac as [|x ac]; [reflexivity|]. now rewrite IH.
  - destruct (it_next bc) as [[y bc']|]; [|reflexivity]. apply IH.
Qed.

Lemma cmp_ok h G R B cs ns it ms : inv h G (flat_map node_items cs ++ R ++ B) -> Forall2 (crep G) cs ns -> irep h G B it ms ->
  h_cmp cs it h = Done (cmp_with ns (IOwned ms), h).
Proof.
  intros I C H. assert (bi_first it h = Done (it_first (IOwned ms), h)) as E by (refine (bi_first_ok _ _ _ _ _ _ I _ H); occ_solve).
  unfold h_cmp, cmp_with. inversion C as [|c n cs' ns' C1 C2]; subst.
  - unfold mbind. rewrite E. now destruct (it_first (IOwned ms)).
  - cbn [flat_map] in I. unfold mbind. rewrite (first_ok _ _ _ _ _ I C1).
    + rewrite E. now destruct (it_first (IOwned ms)).
    + apply (inv_live_roots _ _ _ _ I). occ_solve.
Qed.
Lemma creps_keep h G h' G' R cs ns : stp (flat_map node_items cs ++ R) h G h' G' -> Forall2 (crep G) cs ns -> Forall2 (crep G') cs ns.
Proof. intros (X & _) C. rewrite ext_app in X. apply (creps_ext _ _ _ _ C (proj1 X)). Qed.
Lemma crep_keep h G h' G' R c n : stp (node_items c ++ R) h G h' G' -> crep G c n -> crep G' c n.
Proof. intros (X & _) C. rewrite ext_app in X. apply (crep_ext _ _ _ _ C (proj1 X)). Qed.
Lemma leaks_app G l l' : leaks_ok G l -> leaks_ok G l' -> leaks_ok G (l ++ l').
Proof. intros H H'. apply Forall_app. auto. Qed.

Definition rec_ok (P : node -> node -> Prop) (hrec : cnode -> cnode -> M cnode) (prec : node -> noderef -> res node) : Prop :=
  forall n m r, prec n (ROwned m) = Ok r -> forall R B h G c b, inv h G (node_items c ++ R ++ B) -> crep G c n ->
    bor h G B b m -> wpk (hrec c b) R B (npost R B r (P n m)) h G.
Definition ins_ok (hi : option hconv) (i : option converter) : Prop :=
  match hi, i with
  | None, None => True
  | Some hc, Some c => forall fuel, makes (hc_node hc fuel) (conv_node c fuel)
  | _, _ => False
  end.

Section Merge.
Context (P : node -> node -> Prop) (cl : node -> Prop) (Hcl : forall x y, cl x -> cl y -> P x y).
Context (keep : bool) (hi : option hconv) (i : option converter) (Hi : ins_ok hi i).
Context (hrec : cnode -> cnode -> M cnode) (prec : node -> noderef -> res node) (Hrec : rec_ok P hrec prec).

Lemma merge_ok : forall fuel ns ms rs, pmerge keep i prec fuel ns (IOwned ms) = Ok rs ->
  forall R B h G cs it, inv h G (flat_map node_items cs ++ R ++ B) -> Forall2 (crep G) cs ns -> irep h G B it ms ->
  wpk (h_merge keep hi hrec fuel cs it) R B (lpost R B rs (Forall cl ns /\ Forall cl ms)) h G.
Proof.
  induction fuel as [|fuel IH]; intros ns ms rs E R B h G cs it I C H; [discriminate E|]. cbn [pmerge] in E.
  cbn [h_merge]. apply (wpk_read _ _ _ _ _ _ _ _ (cmp_ok _ _ _ _ _ _ _ _ I C H)).
  pose proof (bi_next_ok _ _ _ _ _ H) as Hn.
  destruct (cmp_with ns (IOwned ms)) as [[| |]|] eqn:Ecmp.
  - (* in both *)
    destruct ns as [|x ns]; [discriminate E|]. inversion C as [|cx ? cs' ? Cx Cs]; subst. clear C.
    destruct ms as [|y ms]; [discriminate E|]. cbn [it_next] in E. destruct Hn as (b & it' & En & Hb & Hit).
    destruct (prec x (ROwned y)) as [r| | |] eqn:Er; try discriminate E. cbn [bind] in E.
    destruct (pmerge keep i prec fuel ns (IOwned ms)) as [rs'| | |] eqn:Ers; try discriminate E. cbn [bind] in E.
    apply (wpk_read _ _ _ _ _ _ _ _ En). cbn [flat_map] in I.
    assert (inv h G (node_items cx ++ (flat_map node_items cs' ++ R) ++ B)) as J by rearr I.
    eapply wpk_bind.
    { eapply (wpk_frame _ _ (flat_map node_items cs' ++ R) R B B _ h G J); [occ_solve|occ_solve|occ_solve|].
      apply (Hrec x y r Er _ B h G cx b J Cx Hb). }
    cbn beta. intros cr h1 G1 ((lk & I1 & C1 & L1 & Z1) & S1) K1.
    pose proof (creps_keep _ _ _ _ _ _ _ S1 Cs) as Cs1. pose proof (irep_keeps _ _ _ _ _ _ _ K1 Hit) as Hit1.
    rewrite (is_empty_ok _ _ _ C1). destruct (is_empty r) eqn:Em.
    + eapply wpk_bind.
      { eapply (wpk_drop (node_items cr) (lk ++ flat_map node_items cs')). rearr I1. }
      cbn beta. intros _ h2 G2 (-> & I2) K2. pose proof (irep_keeps _ _ _ _ _ _ _ K2 Hit1) as Hit2.
      assert (inv h2 G1 (flat_map node_items cs' ++ (lk ++ R) ++ B)) as J2 by rearr I2.
      eapply wpk_weaken.
      { eapply (wpk_frame _ _ (lk ++ R) R B B _ h2 G1 J2); [occ_solve|occ_solve|occ_solve|].
        apply (IH ns ms rs' Ers (lk ++ R) B h2 G1 cs' it' J2 Cs1 Hit2). }
      cbn beta. intros cs3 h3 G3 ((lk3 & I3 & C3 & L3 & Z3) & S3) K3. destruct S3 as (X3 & _). rewrite ext_app in X3.
      exists (lk3 ++ lk). assert (rs = rs') as -> by congruence.
      split; [rearr I3|]. split; [exact C3|]. split; [apply leaks_app; [exact L3|apply (leaks_ext _ _ _ L1 (proj1 X3))]|].
      intros [D1 D2]. inversion D1; inversion D2; subst. rewrite Z1 by auto. rewrite Z3 by auto. reflexivity.
    + assert (inv h1 G1 (flat_map node_items cs' ++ (node_items cr ++ lk ++ R) ++ B)) as J1 by rearr I1.
      eapply wpk_bind.
      { eapply (wpk_frame _ _ (node_items cr ++ lk ++ R) R B B _ h1 G1 J1); [occ_solve|occ_solve|occ_solve|].
        apply (IH ns ms rs' Ers _ B h1 G1 cs' it' J1 Cs1 Hit1). }
      cbn beta. intros cs3 h3 G3 ((lk3 & I3 & C3 & L3 & Z3) & S3) K3. pose proof (crep_keep _ _ _ _ _ _ _ S3 C1) as C1'.
      destruct S3 as (X3 & _). rewrite !ext_app in X3. apply wpk_ret.
      exists (lk3 ++ lk). assert (rs = r :: rs') as -> by congruence. cbn [flat_map].
      split; [rearr I3|]. split; [constructor; assumption|].
      split; [apply leaks_app; [exact L3|apply (leaks_ext _ _ _ L1); tauto]|].
      intros [D1 D2]. inversion D1; inversion D2; subst. rewrite Z1 by auto. rewrite Z3 by auto. reflexivity.
  - (* only in the first *)
    destruct ns as [|x ns]; [discriminate E|]. inversion C as [|cx ? cs' ? Cx Cs]; subst. clear C. cbn [flat_map] in I.
    destruct keep.
    + destruct (pmerge true i prec fuel ns (IOwned ms)) as [rs'| | |] eqn:Ers; try discriminate E. cbn [bind] in E.
      assert (inv h G (flat_map node_items cs' ++ (node_items cx ++ R) ++ B)) as J by rearr I.
      eapply wpk_bind.
      { eapply (wpk_frame _ _ (node_items cx ++ R) R B B _ h G J); [occ_solve|occ_solve|occ_solve|].
        apply (IH ns ms rs' Ers _ B h G cs' it J Cs H). }
      cbn beta. intros cs3 h3 G3 ((lk3 & I3 & C3 & L3 & Z3) & S3) K3. pose proof (crep_keep _ _ _ _ _ _ _ S3 Cx) as Cx'.
      apply wpk_ret. exists lk3. assert (rs = x :: rs') as -> by congruence. cbn [flat_map].
      split; [rearr I3|]. split; [constructor; assumption|]. split; [exact L3|].
      intros [D1 D2]. inversion D1; subst. auto.
    + eapply wpk_bind; [eapply (wpk_drop (node_items cx) (flat_map node_items cs')); rearr I|].
      cbn beta. intros _ h2 G2 (-> & I2) K2. pose proof (irep_keeps _ _ _ _ _ _ _ K2 H) as H2.
      eapply wpk_weaken; [apply (IH ns ms rs E R B h2 G cs' it I2 Cs H2)|].
      cbn beta. intros cs3 h3 G3 (lk3 & I3 & C3 & L3 & Z3) K3. exists lk3. split; [exact I3|]. split; [exact C3|]. split; [exact L3|].
      intros [D1 D2]. inversion D1; subst. auto.
  - (* only in the second *)
    destruct ms as [|y ms]; [discriminate E|]. cbn [it_next] in E. destruct Hn as (b & it' & En & Hb & Hit).
    destruct hi as [hc|], i as [c|]; try contradiction Hi.
    + destruct (conv_node c fuel (ROwned y)) as [x| | |] eqn:Ex; try discriminate E. cbn [bind] in E.
      destruct (pmerge keep (Some c) prec fuel ns (IOwned ms)) as [rs'| | |] eqn:Ers; try discriminate E. cbn [bind] in E.
      apply (wpk_read _ _ _ _ _ _ _ _ En).
      assert (inv h G ((flat_map node_items cs ++ R) ++ B)) as J by rearr I.
      eapply wpk_bind.
      { eapply (wpk_frame _ _ (flat_map node_items cs ++ R) R B B _ h G J); [occ_solve|occ_solve|occ_solve|].
        apply (Hi fuel y x Ex _ B h G b J Hb). }
      cbn beta. intros cx h1 G1 ([I1 C1] & S1) K1.
      pose proof (creps_keep _ _ _ _ _ _ _ S1 C) as Cs1. pose proof (irep_keeps _ _ _ _ _ _ _ K1 Hit) as Hit1.
      assert (inv h1 G1 (flat_map node_items cs ++ (node_items cx ++ R) ++ B)) as J1 by rearr I1.
      eapply wpk_bind.
      { eapply (wpk_frame _ _ (node_items cx ++ R) R B B _ h1 G1 J1); [occ_solve|occ_solve|occ_solve|].
        apply (IH ns ms rs' Ers _ B h1 G1 cs it' J1 Cs1 Hit1). }
      cbn beta. intros cs3 h3 G3 ((lk3 & I3 & C3 & L3 & Z3) & S3) K3. pose proof (crep_keep _ _ _ _ _ _ _ S3 C1) as Cx'.
      apply wpk_ret. exists lk3. assert (rs = x :: rs') as -> by congruence. cbn [flat_map].
      split; [rearr I3|]. split; [constructor; assumption|]. split; [exact L3|].
      intros [D1 D2]. inversion D2; subst. auto.
    + apply (wpk_read _ _ _ _ _ _ _ _ En).
      eapply wpk_weaken; [apply (IH ns ms rs E R B h G cs it' I C Hit)|].
      cbn beta. intros cs3 h3 G3 (lk3 & I3 & C3 & L3 & Z3) K3. exists lk3. split; [exact I3|]. split; [exact C3|]. split; [exact L3|].
      intros [D1 D2]. inversion D2; subst. auto.
  - assert (rs = []) as -> by congruence. unfold cmp_with in Ecmp. destruct ns; [|destruct (it_first _); discriminate Ecmp].
    inversion C; subst. apply wpk_ret. exists []. split; [exact I|]. split; [constructor|]. split; [constructor|auto].
Qed.
End Merge.
