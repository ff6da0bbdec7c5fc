(** The in-place operations with closures that panic, on the heap, leave what they leave on
    nodes as values (InPlace.v). *)
From Verif Require Import Base BaseLemmas Header Node Combine InPlace Store Heap HeapSpec HeapProofs HeapOps HeapIter HeapTree HeapBorrow HeapMerge HeapClean
  HeapTreeOps HeapTreeRec HeapFail.

(** Whether an operation was completed. *)
Definition verdict (ok : bool) : res unit := if ok then Ok tt else Err.
Lemma verdict_ok ok : verdict ok = Ok tt -> ok = true.
Proof. destruct ok; [reflexivity|discriminate]. Qed.
Definition fpost (R B : list item) (n : node) (ok : bool) (x : cnode * bool) (h : heap) (G : ghost) : Prop :=
  npost R B n False (fst x) h G /\ snd x = ok.
Definition flpost (R B : list item) (rs : list node) (ok : bool) (x : list cnode * bool) (h : heap) (G : ghost) : Prop :=
  lpost R B rs False (fst x) h G /\ snd x = ok.

Lemma try_inv {X A} (s : X) (r : res A) k n ok : try s r k = (n, verdict ok) ->
  (exists x, r = Ok x /\ k x = (n, verdict ok)) \/ (r = Err /\ n = s /\ ok = false).
Proof.
  destruct r as [x| | |]; cbn; intros E.
  - left. exists x. auto.
  - right. injection E as -> E. destruct ok; [discriminate E|auto].
  - injection E as _ E. destruct ok; discriminate E.
  - injection E as _ E. destruct ok; discriminate E.
Qed.
(** Nothing can be read from a store that is not there, so only closures fail. *)
Lemma ne_prefix b : load_prefix mem b <> Err.
Proof. destruct b as [d|[|x id]]; cbn; discriminate. Qed.
Lemma ne_kids_mut n : load_children_mut mem n <> Err.
Proof. unfold load_children_mut. destruct (n_kids n) as [l|[|x id]]; cbn; discriminate. Qed.
Lemma ne_kids n : load_children mem n <> Err.
Proof. unfold load_children. destruct (n_kids n) as [[|]|[|x id]]; discriminate. Qed.
Lemma ne_slice {A} k (l : list A) : slice_from k l <> Err.
Proof. unfold slice_from. destruct (k <=? length l); discriminate. Qed.
Lemma ne_bind {A B} (r : res A) (k : A -> res B) : r <> Err -> (forall x, k x <> Err) -> bind r k <> Err.
Proof. destruct r; cbn; auto; discriminate. Qed.
Lemma ne_split n k : split mem n k <> Err.
Proof.
  unfold split. apply ne_bind; [apply ne_prefix|]. intros p. apply ne_bind; [apply ne_slice|]. intros q.
  apply ne_bind; [|intros; discriminate]. unfold slice_to. destruct (k <=? length p); discriminate.
Qed.
Lemma ne_short n k : clone_shortened mem n k <> Err.
Proof.
  unfold clone_shortened. apply ne_bind; [apply ne_prefix|]. intros p. apply ne_bind; [apply ne_slice|]. intros q H. discriminate H.
Qed.
Lemma ne_canon dbg n : canonicalize dbg n <> Err.
Proof.
  unfold canonicalize. cbv zeta. destruct (dbg && _); [discriminate|]. apply ne_bind.
  - destruct (blob_opt (n_value n)); [discriminate|]. destruct (n_kids n) as [[|x [|y l]]|]; try discriminate.
    destruct (dbg && _); discriminate.
  - intros n1. destruct (negb (has_value n1) && _); discriminate.
Qed.
Definition ne_conv (c : converter) : Prop :=
  (forall fuel m, conv_node c fuel (ROwned m) <> Err) /\
  (forall fuel m k, conv_node_shortened c fuel (ROwned m) k <> Err) /\ (forall v, conv_value c v <> Err).
Lemma kids_owned n po : load_children mem n = Ok po -> match po with Some (IBorrowed _) => False | _ => True end.
Proof.
  unfold load_children. destruct (n_kids n) as [[|x l]|[|x id]]; intros E.
  - injection E as <-. exact Logic.I.
  - injection E as <-. exact Logic.I.
  - injection E as <-. exact Logic.I.
  - discriminate E.
Qed.
Lemma ne_detach_loop rec : (forall m, rec (ROwned m) <> Err) -> forall fuel l, detach_loop rec fuel (IOwned l) <> Err.
Proof.
  intros Hr. induction fuel as [|fuel IH]; intros l; [discriminate|]. destruct l as [|x l]; cbn [detach_loop it_next]; [discriminate|].
  apply ne_bind; [apply Hr|]. intros y. apply ne_bind; [apply IH|]. intros; discriminate.
Qed.
Lemma ne_detached : forall fuel m, r_detached mem fuel (ROwned m) <> Err.
Proof.
  induction fuel as [|fuel IH]; intros m; cbn [r_detached r_to_owned bind]; [discriminate|].
  apply ne_bind; [apply ne_prefix|]. intros p. apply ne_bind; [destruct (n_value m) as [d|[|x id]]; cbn; discriminate|]. intros v.
  destruct (load_children mem m) as [po| | |] eqn:Ep; cbn [bind]; try discriminate; [|now apply ne_kids in Ep].
  pose proof (kids_owned _ _ Ep) as Ho. destruct po as [[ms|]|]; try discriminate; [|contradiction Ho].
  apply ne_bind; [now apply ne_detach_loop|]. intros; discriminate.
Qed.
Lemma ne_detach : ne_conv (detach_converter mem).
Proof.
  split; [apply ne_detached|]. split; [|intros [x|id]; discriminate].
  intros fuel m k. cbn [conv_node_shortened detach_converter r_clone_shortened]. apply ne_bind; [apply ne_short|]. intros; apply ne_detached.
Qed.

(** ** Merging *)
(** The three loops of InPlace.v as one. *)
Fixpoint pmerge_in (bk keep : bool) (ins : option converter) (rec : node -> noderef -> left_in node) (fuel : nat)
    (ac : list node) (bc : iter) : left_in (list node) :=
  match fuel with
  | 0 => (rest bk ac, Fuel)
  | S fuel' =>
      match cmp_with ac bc with
      | None => ([], Ok tt)
      | Some Lt =>
          match ac with
          | x :: ac' =>
              if keep then let (rs, r) := pmerge_in bk keep ins rec fuel' ac' bc in (x :: rs, r)
              else pmerge_in bk keep ins rec fuel' ac' bc
          | [] => ([], Panic)
          end
      | Some Eq =>
          match ac, it_next bc with
          | x :: ac', Some (y, bc') =>
              let (x', r) := rec x y in
              try (rest bk (x' :: ac')) r (fun _ =>
                let (rs, r) := pmerge_in bk keep ins rec fuel' ac' bc' in
                (if is_empty x' then rs else x' :: rs, r))
          | _, _ => (rest bk ac, Panic)
          end
      | Some Gt =>
          match it_next bc with
          | Some (y, bc') =>
              match ins with
              | Some c =>
                  try (rest bk ac) (conv_node c fuel' y) (fun x =>
                    let (rs, r) := pmerge_in bk keep ins rec fuel' ac bc' in (x :: rs, r))
              | None => pmerge_in bk keep ins rec fuel' ac bc'
              end
          | None => (rest bk ac, Panic)
          end
      end
  end.
Lemma try_ext {X A} (s : X) (r : res A) k k' : (forall x, k x = k' x) -> try s r k = try s r k'.
Proof. intros H. destruct r; cbn; auto. Qed.
Lemma outer_merge_in bk c rec : forall fuel ac bc, outer_loop_in bk rec c fuel ac bc = pmerge_in bk true (Some c) rec fuel ac bc.
Proof.
  induction fuel as [|fuel IH]; intros ac bc; [reflexivity|]. cbn [outer_loop_in pmerge_in].
  destruct (cmp_with ac bc) as [[| |]|]; [| | |reflexivity].
  - destruct ac as [|x ac]; [reflexivity|]. destruct (it_next bc) as [[y bc']|]; [|reflexivity]. destruct (rec x y).
    apply try_ext. intros _. now rewrite IH.
  - destruct ac as [|x ac]; [reflexivity|]. now rewrite IH.
  - destruct (it_next bc) as [[y bc']|]; [|reflexivity]. apply try_ext. intros z. now rewrite IH.
Qed.
Lemma inner_merge_in bk rec : forall fuel ac bc, inner_loop_in bk rec fuel ac bc = pmerge_in bk false None rec fuel ac bc.
Proof.
  induction fuel as [|fuel IH]; intros ac bc; [reflexivity|]. cbn [inner_loop_in pmerge_in].
  destruct (cmp_with ac bc) as [[| |]|]; [| | |reflexivity].
  - destruct ac as [|x ac]; [reflexivity|]. destruct (it_next bc) as [[y bc']|]; [|reflexivity]. destruct (rec x y).
    apply try_ext. intros _. now rewrite IH.
  - destruct ac as [|x ac]; [reflexivity|]. now rewrite IH.
  - destruct (it_next bc) as [[y bc']|]; [|reflexivity]. apply IH.
Qed.
Lemma left_merge_in bk rec : forall fuel ac bc, left_loop_in bk rec fuel ac bc = pmerge_in bk true None rec fuel ac bc.
Proof.
  induction fuel as [|fuel IH]; intros ac bc; [reflexivity|]. cbn [left_loop_in pmerge_in].
  destruct (cmp_with ac bc) as [[| |]|]; [| | |reflexivity].
  - destruct ac as [|x ac]; [reflexivity|]. destruct (it_next bc) as [[y bc']|]; [|reflexivity]. destruct (rec x y).
    apply try_ext. intros _. now rewrite IH.
  - destruct ac as [|x ac]; [reflexivity|]. now rewrite IH.
  - destruct (it_next bc) as [[y bc']|]; [|reflexivity]. apply IH.
Qed.

Definition frec_ok (hrec : cnode -> cnode -> M (cnode * bool)) (prec : node -> noderef -> left_in node) : Prop :=
  forall n m n' ok, prec n (ROwned m) = (n', verdict ok) -> forall R B h G c b, inv h G (node_items c ++ R ++ B) -> crep G c n ->
    bor h G B b m -> wpk (hrec c b) R B (fpost R B n' ok) h G.
Definition ins_ne (i : option converter) : Prop := match i with Some c => forall fuel m, conv_node c fuel (ROwned m) <> Err | None => True end.

Section Merge.
Context (bk keep : bool) (hi : option hconv) (i : option converter) (Hi : ins_ok hi i) (Hne : ins_ne i).
Context (hrec : cnode -> cnode -> M (cnode * bool)) (prec : node -> noderef -> left_in node) (Hrec : frec_ok hrec prec).

Lemma rest_ok ns cs R B h G : inv h G (flat_map node_items cs ++ R ++ B) -> Forall2 (crep G) cs ns ->
  wpk (hf_rest bk cs) R B (fun cs' h' G' => G' = G /\ inv h' G (flat_map node_items cs' ++ R ++ B) /\ Forall2 (crep G) cs' (rest bk ns)) h G.
Proof.
  intros I C. unfold hf_rest, rest. destruct bk.
  - apply wpk_ret. auto.
  - eapply wpk_bind; [apply (wpk_drop (flat_map node_items cs) [] R B h G I)|]. cbn beta. intros _ h1 G1 (-> & I1) _.
    apply wpk_ret. split; [reflexivity|]. split; [exact I1|constructor].
Qed.
Lemma fmerge_ok : forall fuel ns ms rs ok, pmerge_in bk keep i prec fuel ns (IOwned ms) = (rs, verdict ok) ->
  forall R B h G cs it, inv h G (flat_map node_items cs ++ R ++ B) -> Forall2 (crep G) cs ns -> irep h G B it ms ->
  wpk (hf_merge bk keep hi hrec fuel cs it) R B (flpost R B rs ok) h G.
Proof.
  induction fuel as [|fuel IH]; intros ns ms rs ok E R B h G cs it I C H; [injection E as _ E; destruct ok; discriminate E|].
  cbn [pmerge_in] in E.
  cbn [hf_merge]. apply (wpk_read _ _ _ _ _ _ _ _ (cmp_ok _ _ _ _ _ _ _ _ I C H)).
  pose proof (bi_next_ok _ _ _ _ _ H) as Hn.
  destruct (cmp_with ns (IOwned ms)) as [[| |]|] eqn:Ecmp.
  - (* in both *)
    destruct ns as [|x ns]; [injection E as _ E; destruct ok; discriminate E|]. inversion C as [|cx ? cs' ? Cx Cs]; subst. clear C.
    destruct ms as [|y ms]; [injection E as _ E; destruct ok; discriminate E|]. cbn [it_next] in E. destruct Hn as (b & it' & En & Hb & Hit).
    destruct (prec x (ROwned y)) as [x' r] eqn:Er.
    apply (wpk_read _ _ _ _ _ _ _ _ En). cbn [flat_map] in I.
    assert (inv h G (node_items cx ++ (flat_map node_items cs' ++ R) ++ B)) as J by rearr I.
    destruct (try_inv _ _ _ _ _ E) as [([] & -> & E1)|(-> & -> & ->)].
    + eapply wpk_bind.
      { eapply (wpk_frame _ _ (flat_map node_items cs' ++ R) R B B _ h G J); [occ_solve|occ_solve|occ_solve|].
        apply (Hrec x y x' true Er _ B h G cx b J Cx Hb). }
      cbn beta. intros [cr o] h1 G1 (((lk & I1 & C1 & L1 & _) & Eo) & S1) K1. cbn [fst snd] in *. subst o. cbv iota.
      pose proof (creps_keep _ _ _ _ _ _ _ S1 Cs) as Cs1. pose proof (irep_keeps _ _ _ _ _ _ _ K1 Hit) as Hit1.
      destruct (pmerge_in bk keep i prec fuel ns (IOwned ms)) as [rs' r'] eqn:Ers.
      assert (r' = verdict ok) as -> by congruence.
      rewrite (is_empty_ok _ _ _ C1). destruct (is_empty x') eqn:Em.
      * eapply wpk_bind.
        { eapply (wpk_drop (node_items cr) (lk ++ flat_map node_items cs')). rearr I1. }
        cbn beta. intros _ h2 G2 (-> & I2) K2. pose proof (irep_keeps _ _ _ _ _ _ _ K2 Hit1) as Hit2.
        assert (inv h2 G1 (flat_map node_items cs' ++ (lk ++ R) ++ B)) as J2 by rearr I2.
        eapply wpk_weaken.
        { eapply (wpk_frame _ _ (lk ++ R) R B B _ h2 G1 J2); [occ_solve|occ_solve|occ_solve|].
          apply (IH ns ms rs' ok Ers (lk ++ R) B h2 G1 cs' it' J2 Cs1 Hit2). }
        cbn beta. intros cs3 h3 G3 (((lk3 & I3 & C3 & L3 & _) & Eo) & S3) K3. destruct S3 as (X3 & _). rewrite ext_app in X3.
        split; [|exact Eo]. exists (lk3 ++ lk). assert (rs = rs') as -> by congruence.
        split; [rearr I3|]. split; [exact C3|]. split; [apply leaks_app; [exact L3|apply (leaks_ext _ _ _ L1 (proj1 X3))]|contradiction].
      * assert (inv h1 G1 (flat_map node_items cs' ++ (node_items cr ++ lk ++ R) ++ B)) as J1 by rearr I1.
        eapply wpk_bind.
        { eapply (wpk_frame _ _ (node_items cr ++ lk ++ R) R B B _ h1 G1 J1); [occ_solve|occ_solve|occ_solve|].
          apply (IH ns ms rs' ok Ers _ B h1 G1 cs' it' J1 Cs1 Hit1). }
        cbn beta. intros cs3 h3 G3 (((lk3 & I3 & C3 & L3 & _) & Eo) & S3) K3. pose proof (crep_keep _ _ _ _ _ _ _ S3 C1) as C1'.
        destruct S3 as (X3 & _). rewrite !ext_app in X3. apply wpk_ret. split; [|exact Eo]. cbn [fst].
        exists (lk3 ++ lk). assert (rs = x' :: rs') as -> by congruence. cbn [flat_map].
        split; [rearr I3|]. split; [constructor; assumption|].
        split; [apply leaks_app; [exact L3|apply (leaks_ext _ _ _ L1); tauto]|contradiction].
    + eapply wpk_bind.
      { eapply (wpk_frame _ _ (flat_map node_items cs' ++ R) R B B _ h G J); [occ_solve|occ_solve|occ_solve|].
        apply (Hrec x y x' false Er _ B h G cx b J Cx Hb). }
      cbn beta. intros [cr o] h1 G1 (((lk & I1 & C1 & L1 & _) & Eo) & S1) K1. cbn [fst snd] in *. subst o. cbv iota.
      pose proof (creps_keep _ _ _ _ _ _ _ S1 Cs) as Cs1.
      assert (inv h1 G1 (flat_map node_items (cr :: cs') ++ (lk ++ R) ++ B)) as J1 by (cbn [flat_map]; rearr I1).
      eapply wpk_bind.
      { eapply (wpk_frame _ _ (lk ++ R) R B B _ h1 G1 J1); [occ_solve|occ_solve|occ_solve|].
        apply (rest_ok (x' :: ns) (cr :: cs') (lk ++ R) B h1 G1 J1). constructor; assumption. }
      cbn beta. intros cs3 h3 G3 ((-> & I3 & C3) & _) _. apply wpk_ret. split; [|reflexivity]. cbn [fst]. exists lk.
      split; [rearr I3|]. split; [exact C3|]. split; [exact L1|contradiction].
  - (* only in the first *)
    destruct ns as [|x ns]; [injection E as _ E; destruct ok; discriminate E|]. inversion C as [|cx ? cs' ? Cx Cs]; subst. clear C. cbn [flat_map] in I.
    destruct keep.
    + destruct (pmerge_in bk true i prec fuel ns (IOwned ms)) as [rs' r'] eqn:Ers. assert (r' = verdict ok) as -> by congruence.
      assert (inv h G (flat_map node_items cs' ++ (node_items cx ++ R) ++ B)) as J by rearr I.
      eapply wpk_bind.
      { eapply (wpk_frame _ _ (node_items cx ++ R) R B B _ h G J); [occ_solve|occ_solve|occ_solve|].
        apply (IH ns ms rs' ok Ers _ B h G cs' it J Cs H). }
      cbn beta. intros cs3 h3 G3 (((lk3 & I3 & C3 & L3 & _) & Eo) & S3) K3. pose proof (crep_keep _ _ _ _ _ _ _ S3 Cx) as Cx'.
      apply wpk_ret. split; [|exact Eo]. cbn [fst]. exists lk3. assert (rs = x :: rs') as -> by congruence. cbn [flat_map].
      split; [rearr I3|]. split; [constructor; assumption|]. split; [exact L3|contradiction].
    + eapply wpk_bind; [eapply (wpk_drop (node_items cx) (flat_map node_items cs')); rearr I|].
      cbn beta. intros _ h2 G2 (-> & I2) K2. pose proof (irep_keeps _ _ _ _ _ _ _ K2 H) as H2.
      apply (IH ns ms rs ok E R B h2 G cs' it I2 Cs H2).
  - (* only in the second *)
    destruct ms as [|y ms]; [injection E as _ E; destruct ok; discriminate E|]. cbn [it_next] in E. destruct Hn as (b & it' & En & Hb & Hit).
    destruct hi as [hc|], i as [c|]; try contradiction Hi.
    + destruct (try_inv _ _ _ _ _ E) as [(x & Ex & E1)|(Ex & _)]; [|exfalso; apply (Hne _ _ Ex)].
      destruct (pmerge_in bk keep (Some c) prec fuel ns (IOwned ms)) as [rs' r'] eqn:Ers. assert (r' = verdict ok) as -> by congruence.
      apply (wpk_read _ _ _ _ _ _ _ _ En).
      assert (inv h G ((flat_map node_items cs ++ R) ++ B)) as J by rearr I.
      eapply wpk_bind.
      { eapply (wpk_frame _ _ (flat_map node_items cs ++ R) R B B _ h G J); [occ_solve|occ_solve|occ_solve|].
        apply (Hi fuel y x Ex _ B h G b J Hb). }
      cbn beta. intros cx h1 G1 ([I1 C1] & S1) K1.
      pose proof (creps_keep _ _ _ _ _ _ _ S1 C) as Cs1. pose proof (irep_keeps _ _ _ _ _ _ _ K1 Hit) as Hit1.
      assert (inv h1 G1 (flat_map node_items cs ++ (node_items cx ++ R) ++ B)) as J1 by rearr I1.
      eapply wpk_bind.
      { eapply (wpk_frame _ _ (node_items cx ++ R) R B B _ h1 G1 J1); [occ_solve|occ_solve|occ_solve|].
        apply (IH ns ms rs' ok Ers _ B h1 G1 cs it' J1 Cs1 Hit1). }
      cbn beta. intros cs3 h3 G3 (((lk3 & I3 & C3 & L3 & _) & Eo) & S3) K3. pose proof (crep_keep _ _ _ _ _ _ _ S3 C1) as Cx'.
      apply wpk_ret. split; [|exact Eo]. cbn [fst]. exists lk3. assert (rs = x :: rs') as -> by congruence. cbn [flat_map].
      split; [rearr I3|]. split; [constructor; assumption|]. split; [exact L3|contradiction].
    + apply (wpk_read _ _ _ _ _ _ _ _ En). apply (IH ns ms rs ok E R B h G cs it' I C Hit).
  - assert (rs = []) as -> by congruence. unfold cmp_with in Ecmp. destruct ns; [|destruct (it_first _); discriminate Ecmp].
    inversion C; subst. apply wpk_ret. split; [|destruct ok; [reflexivity|discriminate E]].
    exists []. split; [exact I|]. split; [constructor|]. split; [constructor|auto].
Qed.
End Merge.

(** ** Children *)
Definition fkids_ok (hk : list cnode -> option biter -> M (list cnode * bool))
    (pk : list node -> option iter -> left_in (list node)) : Prop :=
  forall ns po rs ok, pk ns po = (rs, verdict ok) -> forall R B h G cs o, inv h G (flat_map node_items cs ++ R ++ B) ->
    Forall2 (crep G) cs ns -> orep h G B o po -> wpk (hk cs o) R B (flpost R B rs ok) h G.
Lemma flpost_id R B cs ns ok h G : inv h G (flat_map node_items cs ++ R ++ B) -> Forall2 (crep G) cs ns -> Ok tt = verdict ok ->
  flpost R B ns ok (cs, true) h G.
Proof. intros I F E. split; [now apply lpost_id|]. destruct ok; [reflexivity|discriminate E]. Qed.
Lemma convert_in c : ne_conv c -> forall fuel ms rs ok, convert_loop_in c fuel (IOwned ms) = (rs, verdict ok) ->
  ok = true /\ convert_loop c fuel (IOwned ms) = Ok rs.
Proof.
  intros Hc. induction fuel as [|fuel IH]; intros ms rs ok E; [injection E as _ E; destruct ok; discriminate E|].
  destruct ms as [|m ms]; cbn [convert_loop_in convert_loop it_next] in *.
  - injection E as <- E. destruct ok; [auto|discriminate E].
  - destruct (try_inv _ _ _ _ _ E) as [(x & Ex & E1)|(Ex & _)]; [|exfalso; apply (proj1 Hc _ _ Ex)].
    destruct (convert_loop_in c fuel (IOwned ms)) as [xs r] eqn:Exs. injection E1 as <- ->.
    destruct (IH _ _ _ Exs) as [-> E2]. rewrite Ex. cbn [bind]. rewrite E2. auto.
Qed.

Section Kids.
Context (bk : bool) (hrec : cnode -> cnode -> M (cnode * bool)) (prec : node -> noderef -> left_in node) (Hrec : frec_ok hrec prec).

Lemma outer_fkids hc c fuel : conv_ok hc c -> ne_conv c ->
  fkids_ok (hf_outer_children bk hc hrec fuel) (outer_children_in bk prec c fuel).
Proof.
  intros Hc Hn ns po rs ok E R B h G cs o I C H. unfold outer_children_in in E. unfold hf_outer_children.
  destruct po as [[ms|]|], o as [it|]; try contradiction H.
  - destruct ns as [|n ns].
    + inversion C; subst. destruct (convert_in c Hn _ _ _ _ E) as [-> E1].
      eapply wpk_bind; [apply (wpk_convert_loop hc c Hc fuel ms rs E1 R B h G it I H)|].
      cbn beta. intros cs h' G' (lk & I' & C' & L' & Z') _. apply wpk_ret. split; [|reflexivity]. exists lk.
      split; [exact I'|]. split; [exact C'|]. split; [exact L'|contradiction].
    + inversion C as [|c0 ? cs0 ? ? ?]; subst. rewrite outer_merge_in in E.
      apply (fmerge_ok bk true (Some hc) (Some c) (proj1 Hc) (proj1 Hn) hrec prec Hrec fuel _ ms rs ok E R B h G _ it I C H).
  - injection E as -> E. apply wpk_ret. now apply flpost_id.
Qed.
Lemma inner_fkids fuel : fkids_ok (hf_inner_children bk hrec fuel) (inner_children_in bk prec fuel).
Proof.
  intros ns po rs ok E R B h G cs o I C H. unfold inner_children_in in E. unfold hf_inner_children.
  destruct po as [[ms|]|], o as [it|]; try contradiction H.
  - destruct ns as [|n ns].
    + inversion C; subst. injection E as <- E. apply wpk_ret. now apply flpost_id.
    + inversion C as [|c0 ? cs0 ? ? ?]; subst. rewrite inner_merge_in in E.
      apply (fmerge_ok bk false None None Logic.I Logic.I hrec prec Hrec fuel _ ms rs ok E R B h G _ it I C H).
  - injection E as <- E. eapply wpk_bind; [apply (wpk_drop (flat_map node_items cs) [] R B h G); exact I|].
    cbn beta. intros _ h1 G1 (-> & I1) _. apply wpk_ret. apply flpost_id; [exact I1|constructor|exact E].
Qed.
Lemma left_fkids fuel : fkids_ok (hf_left_children bk hrec fuel) (left_children_in bk prec fuel).
Proof.
  intros ns po rs ok E R B h G cs o I C H. unfold left_children_in in E. unfold hf_left_children.
  destruct po as [[ms|]|], o as [it|]; try contradiction H.
  - destruct ns as [|n ns].
    + inversion C; subst. injection E as <- E. apply wpk_ret. now apply flpost_id.
    + inversion C as [|c0 ? cs0 ? ? ?]; subst. rewrite left_merge_in in E.
      apply (fmerge_ok bk true None None Logic.I Logic.I hrec prec Hrec fuel _ ms rs ok E R B h G _ it I C H).
  - injection E as -> E. apply wpk_ret. now apply flpost_id.
Qed.
End Kids.

Definition fkpost (k : list cnode -> M (list cnode * bool)) (ns rs : list node) (ok : bool) R B h G : Prop :=
  forall cs, inv h G (flat_map node_items cs ++ R ++ B) -> Forall2 (crep G) cs ns ->
    wpk (k cs) R B (flpost R B rs ok) h G.
Lemma fkids_of hk pk : fkids_ok hk pk -> forall b m po ns rs ok R B h G, bor h G B b m -> load_children mem m = Ok po ->
  pk ns po = (rs, verdict ok) -> fkpost (hf_kids hk b) ns rs ok R B h G.
Proof.
  intros Hk b m po ns rs ok R B h G Hb Eo E cs I C. unfold hf_kids.
  destruct (slice_ok h G _ B b m po I ltac:(occ_solve) Hb Eo) as (o & Es & Ho).
  apply (wpk_read _ _ _ _ _ _ _ _ Es). apply (Hk ns po rs ok E R B h G cs o I C Ho).
Qed.
Lemma fkids_short_of hk pk : fkids_ok hk pk -> forall b m m' k ns rs ok R B h G, bor h G B b m -> clone_shortened mem m k = Ok m' ->
  pk ns (it_single m') = (rs, verdict ok) -> fkpost (hf_kids_short hk b k) ns rs ok R B h G.
Proof.
  intros Hk b m m' k ns rs ok R B h G Hb Em E cs I C. unfold hf_kids_short.
  assert (inv h G ((flat_map node_items cs ++ R) ++ B)) as I0 by rearr I.
  eapply wpk_bind.
  { eapply (wpk_frame _ _ (flat_map node_items cs ++ R) R B B _ h G I0); [occ_solve|occ_solve|occ_solve|].
    apply (wpk_clone_shortened k b m m' _ B h G Em I0 Hb). }
  cbn beta. intros b' h1 G1 ([I1 C1] & S1) K1. pose proof (creps_keep _ _ _ _ _ _ _ S1 C) as Cs1.
  set (B' := node_items b' ++ B).
  assert (inv h1 G1 (flat_map node_items cs ++ R ++ B')) as J1. { unfold B'. rearr I1. }
  assert (forall a, occ a B <= occ a B') as LB by (unfold B'; occ_solve).
  eapply wpk_bind.
  { eapply (wpk_frame _ _ R R B' B _ h1 G1 J1); [occ_solve|occ_solve|exact LB|].
    apply (Hk ns (it_single m') rs ok E R B' h1 G1 cs (Some (BIter None [b'])) J1 Cs1).
    split; [|exact Logic.I]. constructor; [|constructor]. apply (bor_own _ _ _ _ _ C1). }
  cbn beta. intros [cs2 o] h2 G2 (((lk & I2 & C2 & L2 & _) & Eo) & _) K2. unfold B' in I2. cbn [fst snd] in *.
  eapply wpk_bind; [apply (wpk_drop (node_items b') (flat_map node_items cs2 ++ lk)); rearr I2|].
  cbn beta. intros _ h3 G3 (-> & I3) _. apply wpk_ret. split; [|exact Eo]. exists lk. split; [cbn [fst]; rearr I3|].
  split; [exact C2|]. split; [exact L2|contradiction].
Qed.

(** ** Changing the children of a node *)
Lemma wpk_fwith_children c n ns rs ok k R B h G : inv h G (node_items c ++ R ++ B) -> crep G c n -> load_children_mut mem n = Ok ns ->
  (forall R' h' G', keeps B h G h' G' -> fkpost k ns rs ok R' B h' G') ->
  wpk (hf_with_children c k) R B (fpost R B (set_kids n (KArc rs)) ok) h G.
Proof.
  intros I Cr E Hk.
  assert (wpk (r <! (m <! h_load_children_mut c ;; cs <! vec_take (snd m) ;; ret (fst m, snd m, cs)) ;;
     x <! k (snd r) ;; _ <! vec_put (snd (fst r)) (fst x) ;; ret (fst (fst r), snd x)) R B (fpost R B (set_kids n (KArc rs)) ok) h G) as W.
  { eapply wpk_bind; [apply (wpk_load_kids c n ns R B h G I Cr E)|]. intros [[c1 a] cs] h1 G1. cbn [fst snd].
    intros (I1 & P1 & V1 & U1 & Ga & F1) K1.
    set (R' := (NodesK, Ptr a) :: p_items c1 ++ v_items c1 ++ R).
    assert (inv h1 G1 (flat_map node_items cs ++ R' ++ B)) as J1. { unfold R'. rearr I1. }
    assert (forall x, occ x R <= occ x R') as LR by (unfold R'; occ_solve).
    eapply wpk_bind.
    { eapply (wpk_frame _ _ R' R B B _ h1 G1 J1); [occ_solve|exact LR|occ_solve|]. apply (Hk R' h1 G1 K1 cs J1 F1). }
    cbn beta. intros [cs2 o] h2 G2 (((lk & I2 & C2 & L2 & _) & Eo) & S2) K2. cbn [fst snd] in *.
    destruct S2 as (X2 & U2 & _).
    assert (ext G1 G2 (p_items c1) /\ ext G1 G2 (v_items c1) /\ G2 a = G1 a) as (Xp & Xv & Xa).
    { unfold R' in X2. split; [|split].
      - intros x Hx. apply X2. cbn. rewrite !occ_app. lia.
      - intros x Hx. apply X2. cbn. rewrite !occ_app. lia.
      - apply X2. cbn. rewrite Nat.eqb_refl. lia. }
    assert (uniq h2 c1 a) as U2'.
    { destruct U1 as (A1 & A2 & A3). split; [exact A1|]. split; [exact A2|].
      pose proof (i_cnt _ _ _ J1 a) as Ct. rewrite !occ_app in Ct. unfold R' in Ct. cbn in Ct. rewrite Nat.eqb_refl in Ct.
      rewrite !occ_app in Ct. assert (occ a R' = 1) as Eq. { unfold R'. cbn. rewrite Nat.eqb_refl, !occ_app. lia. }
      rewrite (U2 a); [lia|lia|now rewrite Ga|lia]. }
    eapply wpk_bind.
    { eapply (wpk_of _ _ (lk ++ R ++ B) R B _ h2 G2 I2); [unfold R'; occ_solve|occ_solve|occ_solve|].
      eapply (wp_return c1 (n_prefix n) (n_value n) a cs2 rs).
      - unfold R' in I2. rearr I2.
      - apply (brep_ext _ _ _ _ _ P1 Xp).
      - apply (brep_ext _ _ _ _ _ V1 Xv).
      - exact U2'.
      - now rewrite Xa.
      - exact C2. }
    cbn beta. intros _ h3 G3 ((I3 & C3 & _) & X3 & _) K3. rewrite ext_app in X3. apply wpk_ret. split; [|exact Eo]. exists lk. split; [exact I3|].
    split; [exact C3|]. split; [apply (leaks_ext _ _ _ L2 (proj1 X3))|contradiction]. }
  destruct W as (x & h' & G' & D & W). exists x, h', G'. split; [|exact W]. rewrite <- D. unfold hf_with_children, mbind.
  destruct (h_load_children_mut c h) as [[? ?]| | |]; [|reflexivity..].
  destruct (vec_take (snd p) h0) as [[? ?]| | |]; reflexivity.
Qed.

(** ** Endings *)
Lemma finish_inv dbg a n' ok : finish_in dbg a = (n', verdict ok) -> ok = true /\ canonicalize dbg a = Ok n'.
Proof.
  intros E. destruct (try_inv _ _ _ _ _ E) as [(x & Ex & E1)|(Ex & _)]; [|now apply ne_canon in Ex].
  injection E1 as -> E1. destruct ok; [auto|discriminate E1].
Qed.
Lemma wpk_fcanon dbg c n n' ok R B h G : inv h G (node_items c ++ R ++ B) -> crep G c n -> finish_in dbg n = (n', verdict ok) ->
  wpk (hf_canon dbg c) R B (fpost R B n' ok) h G.
Proof.
  intros I C E. destruct (finish_inv _ _ _ _ E) as [-> E1].
  eapply wpk_bind; [apply (wpk_canon dbg c n n' R B h G I C E1)|]. cbn beta. intros c1 h1 G1 (lk & I1 & C1 & L1 & _) _.
  apply wpk_ret. split; [|reflexivity]. exists lk. split; [exact I1|]. split; [exact C1|]. split; [exact L1|contradiction].
Qed.
Lemma wpk_fclear dbg c n n' ok R B h G : inv h G (node_items c ++ R ++ B) -> crep G c n ->
  finish_in dbg (set_kids (set_value n bnone) (KId [])) = (n', verdict ok) ->
  wpk (a1 <! h_clear c ;; hf_canon dbg a1) R B (fpost R B n' ok) h G.
Proof.
  intros I C E. eapply wpk_bind; [apply (wpk_clear c n R B h G I C)|]. intros c1 h1 G1 [I1 C1] _.
  apply (wpk_fcanon dbg c1 _ n' ok R B h1 G1 I1 C1 E).
Qed.
Lemma recurse_inv dbg kids a bc n' ok : bc <> Err -> recurse dbg mem kids a bc = (n', verdict ok) ->
  exists ac po rs ok1, load_children_mut mem a = Ok ac /\ bc = Ok po /\ kids ac po = (rs, verdict ok1) /\
    if ok1 then finish_in dbg (set_kids a (KArc rs)) = (n', verdict ok) else n' = set_kids a (KArc rs) /\ ok = false.
Proof.
  intros Hb E. destruct (try_inv _ _ _ _ _ E) as [(ac & Ea & E1)|(Ea & _)]; [|now apply ne_kids_mut in Ea]. cbv zeta in E1.
  destruct (try_inv _ _ _ _ _ E1) as [(po & Eb & E2)|(Eb & _)]; [|contradiction]. destruct (kids ac po) as [rs r] eqn:Ek.
  assert (set_kids (set_kids a (KArc ac)) (KArc rs) = set_kids a (KArc rs)) as Es by (now destruct a). rewrite Es in E2.
  destruct (try_inv _ _ _ _ _ E2) as [([] & -> & E3)|(-> & -> & ->)].
  - exists ac, po, rs, true. auto.
  - exists ac, po, rs, false. auto.
Qed.
Lemma wpk_frecurse dbg k c n ns rs ok1 n' ok R B h G : inv h G (node_items c ++ R ++ B) -> crep G c n -> load_children_mut mem n = Ok ns ->
  (forall R' h' G', keeps B h G h' G' -> fkpost k ns rs ok1 R' B h' G') ->
  (if ok1 then finish_in dbg (set_kids n (KArc rs)) = (n', verdict ok) else n' = set_kids n (KArc rs) /\ ok = false) ->
  wpk (hf_recurse dbg c k) R B (fpost R B n' ok) h G.
Proof.
  intros I Cr E Hk Ec. eapply wpk_bind; [apply (wpk_fwith_children c n ns rs ok1 k R B h G I Cr E Hk)|].
  intros [c1 o] h1 G1 [(lk & I1 & C1 & L1 & Z1) Eo] K1. cbn [fst snd] in *. subst o. destruct ok1.
  - assert (inv h1 G1 (node_items c1 ++ (lk ++ R) ++ B)) as J1 by rearr I1.
    eapply wpk_weaken.
    { eapply (wpk_frame _ _ (lk ++ R) R B B _ h1 G1 J1); [occ_solve|occ_solve|occ_solve|].
      apply (wpk_fcanon dbg c1 _ n' ok (lk ++ R) B h1 G1 J1 C1 Ec). }
    cbn beta. intros [c2 o] h2 G2 (((lk2 & I2 & C2 & L2 & Z2) & Eo) & X2 & _) _. rewrite ext_app in X2. split; [|exact Eo].
    exists (lk2 ++ lk). cbn [fst] in *. split; [rearr I2|]. split; [exact C2|].
    split; [apply leaks_app; [exact L2|apply (leaks_ext _ _ _ L1 (proj1 X2))]|contradiction].
  - destruct Ec as [-> ->]. apply wpk_ret. split; [|reflexivity]. exists lk. auto.
Qed.
Section Branches.
Context (dbg : bool) (hk : list cnode -> option biter -> M (list cnode * bool)) (pk : list node -> option iter -> left_in (list node)).
Context (Hk : fkids_ok hk pk).
Lemma fbranch_kids c n b m n' ok R B h G : inv h G (node_items c ++ R ++ B) -> crep G c n -> bor h G B b m ->
  recurse dbg mem pk n (load_children mem m) = (n', verdict ok) ->
  wpk (hf_recurse dbg c (hf_kids hk b)) R B (fpost R B n' ok) h G.
Proof.
  intros I C Hb E. destruct (recurse_inv _ _ _ _ _ _ (ne_kids m) E) as (ac & po & rs & ok1 & Ea & Eo & Ek & Ef).
  apply (wpk_frecurse dbg _ c n ac rs ok1 n' ok R B h G I C Ea); [|exact Ef].
  intros R' h' G' K. apply (fkids_of hk pk Hk b m po ac rs ok1 R' B h' G' (bor_keeps _ _ _ _ _ _ _ K Hb) Eo Ek).
Qed.
Lemma fbranch_short c n b m k n' ok R B h G : inv h G (node_items c ++ R ++ B) -> crep G c n -> bor h G B b m ->
  recurse dbg mem pk n (shortened mem (ROwned m) k) = (n', verdict ok) ->
  wpk (hf_recurse dbg c (hf_kids_short hk b k)) R B (fpost R B n' ok) h G.
Proof.
  intros I C Hb E.
  assert (shortened mem (ROwned m) k <> Err) as Hn.
  { unfold shortened. cbn [r_clone_shortened]. apply ne_bind; [apply ne_short|]. intros; discriminate. }
  destruct (recurse_inv _ _ _ _ _ _ Hn E) as (ac & po & rs & ok1 & Ea & Eo & Ek & Ef).
  unfold shortened in Eo. cbn [r_clone_shortened] in Eo. stepE Eo m' Em. assert (po = it_single m') as -> by congruence.
  apply (wpk_frecurse dbg _ c n ac rs ok1 n' ok R B h G I C Ea); [|exact Ef].
  intros R' h' G' K. apply (fkids_short_of hk pk Hk b m m' k ac rs ok1 R' B h' G' (bor_keeps _ _ _ _ _ _ _ K Hb) Em Ek).
Qed.
End Branches.

(** ** Values *)
Definition ff_ok (hf : byte * word -> byte * word -> M ((byte * word) * bool)) (pf : blob -> blob -> res blob) : Prop :=
  forall x y R B h G av bv, inv h G (vitems av ++ R ++ B) -> vrep G av x -> vrep G bv y ->
    (forall a, 0 < occ a (vitems bv) -> deep h B a) ->
    (forall z, pf x y = Ok z -> wpk (hf av bv) R B (fun r h' G' => inv h' G' (vitems (fst r) ++ R ++ B) /\ vrep G' (fst r) z /\ snd r = true) h G) /\
    (pf x y = Err -> wpk (hf av bv) R B (fun r h' G' => inv h' G' (vitems (fst r) ++ R ++ B) /\ snd r = false) h G).
Definition fs_ok (hs : byte * word -> M (option bool)) (ps : blob -> res bool) : Prop :=
  forall y s, ps y = match s with Some b => Ok b | None => Err end -> forall Z B h G bv, inv h G Z -> (forall a, occ a B <= occ a Z) -> vrep G bv y ->
    (forall a, 0 < occ a (vitems bv) -> deep h B a) -> hs bv h = Done (s, h).

(** The closures of InPlace.v. *)
Definition shaky (panics : bytes -> bytes -> bool) (g : bytes -> bytes -> option bytes) (a b : blob) : res blob :=
  x <- value_load mem a ;; y <- value_load mem b ;;
  if panics x y then Err else Ok (match g x y with Some v => Data v | None => bnone end).
Definition shaky1 (panics : bytes -> bool) (s : bytes -> bool) (b : blob) : res bool :=
  y <- value_load mem b ;; if panics y then Err else Ok (s y).
Lemma fuser_ok panics g : ff_ok (hf_user panics g) (shaky panics g).
Proof.
  intros x y R B h G av bv I Va Vb D. unfold shaky.
  assert (live h (vitems av)) as La. { apply (inv_live_roots _ _ _ _ I). occ_solve. }
  assert (live h (vitems bv)) as Lb. { refine (deep_live _ _ _ _ _ I _ D). occ_solve. }
  destruct x as [x|[|? id]]; cbn [value_load bind]; [|split; [intros z|]; intros E; discriminate E..].
  destruct y as [y|[|? id]]; cbn [value_load bind]; [|split; [intros z|]; intros E; discriminate E..].
  assert (forall Q, (wpk (if panics x y then ret (av, false) else r <! h_user g av bv ;; completed r) R B Q h G) ->
    wpk (hf_user panics g av bv) R B Q h G) as W.
  { intros Q H. unfold hf_user. apply (wpk_read _ _ _ _ _ _ _ _ (vread_ok _ _ _ _ _ I Va La)).
    apply (wpk_read _ _ _ _ _ _ _ _ (vread_ok _ _ _ _ _ I Vb Lb)). exact H. }
  destruct (panics x y) eqn:Ep; split; [intros z|intros E|intros z E|]; try discriminate; apply W.
  - apply wpk_ret. auto.
  - eapply wpk_bind; [apply (user_ok g (Data x) (Data y) z E R B h G av bv I Va Vb D)|].
    cbn beta. intros av' h1 G1 [I1 V1] _. apply wpk_ret. auto.
Qed.
Lemma fpred_ok panics s : fs_ok (hf_pred panics s) (shaky1 panics s).
Proof.
  intros y o E Z B h G bv I L Vb D. unfold shaky1 in E.
  destruct y as [y|[|? id]]; cbn [value_load bind] in E; [|destruct o; discriminate E..].
  unfold hf_pred, mbind. rewrite (vread_ok _ _ _ _ _ I Vb (deep_live _ _ _ _ _ I L D)). unfold ret. cbn [blob_slice].
  destruct (panics y), o; congruence.
Qed.

Definition fowned (R B : list item) (n : node) (ok : bool) (x : cnode * bool) (h : heap) (G : ghost) : Prop :=
  owned R B n (fst x) h G /\ snd x = ok.
Lemma wpk_and_then m k n1 ok1 n' ok R B h G : wpk m R B (fowned R B n1 ok1) h G ->
  (ok1 = true -> forall c h' G', keeps B h G h' G' -> inv h' G' (node_items c ++ R ++ B) -> crep G' c n1 -> wpk (k c) R B (fpost R B n' ok) h' G') ->
  (ok1 = false -> n' = n1 /\ ok = false) ->
  wpk (and_then m k) R B (fpost R B n' ok) h G.
Proof.
  intros W H1 H2. eapply wpk_bind; [exact W|]. intros [c o] h1 G1 [[I1 C1] Eo] K1. cbn [fst snd] in *. subst o. destruct ok1.
  - apply (H1 eq_refl c h1 G1 K1 I1 C1).
  - destruct (H2 eq_refl) as [-> ->]. apply wpk_ret. split; [|reflexivity]. exists []. split; [exact I1|]. split; [exact C1|].
    split; [constructor|contradiction].
Qed.
Lemma wpk_completed m n R B h G : wpk m R B (owned R B n) h G -> wpk (c <! m ;; completed c) R B (fowned R B n true) h G.
Proof. intros W. eapply wpk_bind; [exact W|]. intros c h1 G1 O _. apply wpk_ret. split; [exact O|reflexivity]. Qed.
Lemma wpk_fret c n R B h G : inv h G (node_items c ++ R ++ B) -> crep G c n -> wpk (completed c) R B (fowned R B n true) h G.
Proof. intros I C. apply wpk_ret. split; [split; assumption|reflexivity]. Qed.
Lemma wpk_eq {A} (m m' : M A) R B Q h G : m h = m' h -> wpk m R B Q h G -> wpk m' R B Q h G.
Proof. intros E (x & h' & G' & D & W). exists x, h', G'. split; [congruence|exact W]. Qed.
Lemma bind_bind {A B C} (m : M A) (k : A -> M B) (l : B -> M C) h : mbind (mbind m k) l h = mbind m (fun x => mbind (k x) l) h.
Proof. unfold mbind. destruct (m h) as [[x h']| | |]; reflexivity. Qed.

Lemma wpk_fcombine hf pf : ff_ok hf pf -> forall c n y bv R B h G, inv h G (node_items c ++ R ++ B) -> crep G c n ->
  vrep G bv y -> (forall a, 0 < occ a (vitems bv) -> deep h B a) ->
  (forall z, pf (n_value n) y = Ok z -> wpk (hf_combine_value hf c bv) R B (fowned R B (set_value n z) true) h G) /\
  (pf (n_value n) y = Err -> wpk (hf_combine_value hf c bv) R B (fowned R B (set_value n bnone) false) h G).
Proof.
  intros Hf c n y bv R B h G I C Vb D. unfold hf_combine_value, h_take_value.
  set (c1 := with_v c hdr_none w_empty). set (av := (c_vh c, c_v c)).
  destruct C as (P & V & K).
  assert (crep G c1 (set_value n bnone)) as C1. { split; [exact P|]. split; [apply none_vrep|exact K]. }
  assert (node_items c1 = p_items c ++ c_items c) as E1. { reflexivity. }
  assert (inv h G (vitems av ++ (node_items c1 ++ R) ++ B)) as J.
  { rewrite E1. rewrite node_items_split in I. change (v_items c) with (vitems av) in I. rearr I. }
  destruct (Hf _ y (node_items c1 ++ R) B h G av bv J V Vb D) as [H1 H2]. split.
  - intros z E. eapply wpk_bind.
    { eapply (wpk_frame _ _ (node_items c1 ++ R) R B B _ h G J); [occ_solve|occ_solve|occ_solve|]. apply (H1 z E). }
    cbn beta. intros [av' o] h1 G1 ((I1 & V1 & Eo) & S1) K1. cbn [fst snd] in *. subst o. cbv iota.
    pose proof (crep_keep _ _ _ _ _ _ _ S1 C1) as C1'.
    eapply wpk_eq; [|apply (wpk_completed (c' <! h_set_value_owned (fst av') (snd av') c1 ;; _ <! drop_value av' ;; ret c') (set_value n z) R B h1 G1)].
    + unfold mbind. destruct (h_set_value_owned (fst av') (snd av') c1 h1) as [[x h2]| | |]; [|reflexivity..].
      destruct (drop_value av' h2) as [[? ?]| | |]; reflexivity.
    + eapply wpk_weaken.
      { apply (wpk_store c1 (set_value n bnone) av' z R B h1 G1); [rearr I1|exact C1'|exact V1]. }
      intros c' h' G' H _. destruct n; exact H.
  - intros E. eapply wpk_bind.
    { eapply (wpk_frame _ _ (node_items c1 ++ R) R B B _ h G J); [occ_solve|occ_solve|occ_solve|]. apply (H2 E). }
    cbn beta. intros [av' o] h1 G1 ((I1 & Eo) & S1) K1. cbn [fst snd] in *. subst o. cbv iota.
    pose proof (crep_keep _ _ _ _ _ _ _ S1 C1) as C1'.
    eapply wpk_bind; [apply (wpk_drop (vitems av') (node_items c1) R B h1 G1); rearr I1|].
    cbn beta. intros _ h2 G2 (-> & I2) _. apply wpk_ret. split; [split; assumption|reflexivity].
Qed.
Lemma fselected_ok hs ps b m s R B c h G : fs_ok hs ps -> inv h G (node_items c ++ R ++ B) -> bor h G B b m ->
  selected ps (blob_opt (n_value m)) = match s with Some b => Ok b | None => Err end -> hf_selected hs b h = Done (s, h).
Proof.
  intros Hs I Hb E. unfold hf_selected. destruct (bor_value _ _ _ _ _ Hb) as [Vb Db].
  pose proof (value_opt_ok _ _ _ (proj1 Hb)) as Ho. destruct (blob_opt (n_value m)) as [bv|].
  - destruct Ho as [-> ->]. cbn [selected] in E. refine (Hs _ _ E _ B _ _ _ I _ Vb Db). occ_solve.
  - destruct Ho as [-> _]. cbn [selected] in E. unfold ret. destruct s; congruence.
Qed.
