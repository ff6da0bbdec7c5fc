(** The operations on nodes keep the heap invariant and do what the values do. *)
From Verif Require Import Base BaseLemmas Header Node Store Heap HeapSpec HeapProofs.

Definition hdr_for (b : blob) (h : byte) : Prop :=
  match b with Data d => h = hdr_data (length d) | Id d => hdr_id (length d) = Ok h end.
Lemma hdr_data_back h : hdr_is_id h = false -> h = hdr_data (hdr_len h).
Proof. destruct h; cbn; intros H; try discriminate H; reflexivity. Qed.
Lemma hdr_id_back h : hdr_is_id h = true -> hdr_id (hdr_len h) = Ok h.
Proof. destruct h; cbn; intros H; try discriminate H; reflexivity. Qed.
Lemma borrowed_hdr h d b : borrowed h d = Some b -> hdr_for b h /\ blob_slice b = d.
Proof.
  unfold borrowed. destruct (Nat.eqb_spec (length d) (hdr_len h)) as [E|]; [|congruence].
  destruct (hdr_is_id h) eqn:Hi; intros H.
  - assert (b = Id d) as -> by congruence. cbn. rewrite E. auto using hdr_id_back.
  - assert (b = Data d) as -> by congruence. cbn. rewrite E. auto using hdr_data_back.
Qed.
Lemma brep_intro G h w b : hdr_for b h -> wrep G (blob_slice b) w -> brep G h w b.
Proof. destruct b; split; auto. Qed.

Lemma wp_set_p b hdr c n R h G : hdr_for b hdr -> inv h G (node_items c ++ R) -> crep G c n ->
  wp (_ <! drop (p_items c) ;; w <! blob_word (blob_slice b) ;; ret (with_p c hdr w)) R
    (fun c' h' G' => inv h' G' (node_items c' ++ R) /\ crep G' c' (Node b (n_value n) (n_kids n))) h G.
Proof.
  intros Hh I C. rewrite node_items_split in I.
  eapply wp_bind.
  { eapply (wp_frame _ _ (v_items c ++ c_items c ++ R) R _ h G I); [occ_solve|occ_solve|].
    apply wp_drop. rearr I. }
  cbn beta. intros _ h1 G1 ((-> & I1 & _) & _).
  eapply wp_bind.
  { eapply (wp_frame _ _ (v_items c ++ c_items c ++ R) R _ h1 G I1); [occ_solve|occ_solve|].
    apply wp_blob_word. exact I1. }
  cbn beta. intros w h2 G2 ((W & I2) & X & _). apply wp_ret.
  rewrite !ext_app in X. destruct X as (X1 & X2 & _). destruct C as (P & V & K).
  pose proof (brep_intro _ _ _ _ Hh W) as B. split.
  - rewrite node_items_split. flds. rewrite (brep_word_items _ _ _ _ B). rearr I2.
  - split; [exact B|]. split; [apply (brep_ext _ _ _ _ _ V X1)|apply (krep_ext _ _ _ _ _ K X2)].
Qed.
Lemma wp_set_v b hdr c n R h G : hdr_for b hdr -> inv h G (node_items c ++ R) -> crep G c n ->
  wp (_ <! drop (v_items c) ;; w <! blob_word (blob_slice b) ;; ret (with_v c hdr w)) R
    (fun c' h' G' => inv h' G' (node_items c' ++ R) /\ crep G' c' (set_value n b)) h G.
Proof.
  intros Hh I C. rewrite node_items_split in I.
  eapply wp_bind.
  { eapply (wp_frame _ _ (p_items c ++ c_items c ++ R) R _ h G I); [occ_solve|occ_solve|].
    apply wp_drop. rearr I. }
  cbn beta. intros _ h1 G1 ((-> & I1 & _) & _).
  eapply wp_bind.
  { eapply (wp_frame _ _ (p_items c ++ c_items c ++ R) R _ h1 G I1); [occ_solve|occ_solve|].
    apply wp_blob_word. exact I1. }
  cbn beta. intros w h2 G2 ((W & I2) & X & _). apply wp_ret.
  rewrite !ext_app in X. destruct X as (X1 & X2 & _). destruct C as (P & V & K).
  pose proof (brep_intro _ _ _ _ Hh W) as B. split.
  - rewrite node_items_split. flds. rewrite (brep_word_items _ _ _ _ B). rearr I2.
  - split; [apply (brep_ext _ _ _ _ _ P X1)|]. split; [exact B|apply (krep_ext _ _ _ _ _ K X2)].
Qed.
Lemma wp_set_c id hdr c n R h G : hdr_for (Id id) hdr -> inv h G (node_items c ++ R) -> crep G c n ->
  wp (_ <! drop (c_items c) ;; w <! blob_word id ;; ret (with_c c hdr w)) R
    (fun c' h' G' => inv h' G' (node_items c' ++ R) /\ crep G' c' (set_kids n (KId id))) h G.
Proof.
  intros Hh I C. rewrite node_items_split in I.
  eapply wp_bind.
  { eapply (wp_frame _ _ (p_items c ++ v_items c ++ R) R _ h G I); [occ_solve|occ_solve|].
    apply wp_drop. rearr I. }
  cbn beta. intros _ h1 G1 ((-> & I1 & _) & _).
  eapply wp_bind.
  { eapply (wp_frame _ _ (p_items c ++ v_items c ++ R) R _ h1 G I1); [occ_solve|occ_solve|].
    apply wp_blob_word. exact I1. }
  cbn beta. intros w h2 G2 ((W & I2) & X & _). apply wp_ret.
  rewrite !ext_app in X. destruct X as (X1 & X2 & _). destruct C as (P & V & K).
  pose proof (brep_intro _ _ _ (Id id) Hh W) as B. split.
  - rewrite node_items_split. flds. unfold kids_kind. rewrite (brep_is_id _ _ _ _ B). cbn [blob_is_id].
    rewrite (brep_word_items _ _ _ _ B). cbn [blob_slice]. rearr I2.
  - split; [apply (brep_ext _ _ _ _ _ P X1)|]. split; [apply (brep_ext _ _ _ _ _ V X2)|exact B].
Qed.
Lemma wp_set_arc a ns c n R h G : inv h G (node_items c ++ [(NodesK, Ptr a)] ++ R) -> G a = GN ns -> crep G c n ->
  wp (h_set_children_arc a c) R
    (fun c' h' G' => inv h' G' (node_items c' ++ R) /\ crep G' c' (set_kids n (KArc ns))) h G.
Proof.
  intros I Ha C. rewrite node_items_split in I. unfold h_set_children_arc.
  eapply wp_bind.
  { eapply (wp_frame _ _ (p_items c ++ v_items c ++ [(NodesK, Ptr a)] ++ R) R _ h G I); [occ_solve|occ_solve|].
    apply wp_drop. rearr I. }
  cbn beta. intros _ h1 G1 ((-> & I1 & _) & _). apply wp_ret. destruct C as (P & V & K). split.
  - rewrite (node_items_arc (with_c c (hdr_data 127) (Ptr a)) a eq_refl eq_refl). flds. rearr I1.
  - split; [exact P|]. split; [exact V|]. split; [reflexivity|]. exists a. auto.
Qed.

Lemma wrep_nil G : wrep G [] w_empty.
Proof. reflexivity. Qed.
Lemma none_brep G : brep G hdr_none w_empty bnone.
Proof. split; [reflexivity|apply wrep_nil]. Qed.
Lemma none_krep G : krep G hdr_none w_empty (KId []).
Proof. apply none_brep. Qed.
Lemma empty_crep G : crep G c_empty n_empty.
Proof. split; [|split; [apply none_brep|apply none_krep]]. split; [reflexivity|apply wrep_nil]. Qed.
Lemma empty_items : node_items c_empty = [].
Proof. reflexivity. Qed.
Lemma none_items k : field_items k hdr_none w_empty = [].
Proof. reflexivity. Qed.

(** ** Operations in general *)
Definition leaks_ok (G : ghost) (lk : list item) : Prop :=
  Forall (fun it => exists a, it = (NodesK, Ptr a) /\ G a = GN []) lk.
Lemma leaks_ext G G' lk : leaks_ok G lk -> ext G G' lk -> leaks_ok G' lk.
Proof.
  intros L X. unfold leaks_ok in *. rewrite Forall_forall in *. intros it Hin.
  destruct (L it Hin) as (a & -> & E). exists a. split; [reflexivity|]. rewrite <- E. apply X.
  apply (occ_in _ _ _ Hin).
Qed.
Lemma leaks_items G lk : leaks_ok G lk -> Forall (item_ok G) lk.
Proof. apply Forall_impl. intros it (a & -> & E). exists a. cbn. now rewrite E. Qed.

Definition post (R : list item) (n' : node) (outs : list fslot) (l : nat)
    (y : cnode * list slot) (h' : heap) (G' : ghost) : Prop :=
  exists lk, inv h' G' (node_items (fst y) ++ flat_map slot_items (snd y) ++ lk ++ R) /\
    crep G' (fst y) n' /\ Forall2 (srep G') (snd y) outs /\ length lk = l /\ leaks_ok G' lk.

(** [X] is what the operation takes over, [R0] what it may look at. *)
Definition op_ok (f : cnode -> M (cnode * list slot)) (X R0 : list item) (Pre : ghost -> Prop)
    (n n' : node) (outs : list fslot) (l : nat) : Prop :=
  forall R h G c, (forall a, occ a R0 <= occ a R) -> inv h G (node_items c ++ X ++ R) -> Pre G -> crep G c n ->
    wp (f c) R (post R n' outs l) h G.

Lemma wp_simple (m : M cnode) R n' h G :
  wp m R (fun c' h' G' => inv h' G' (node_items c' ++ R) /\ crep G' c' n') h G ->
  wp (c' <! m ;; ret (c', [])) R (post R n' [] 0) h G.
Proof.
  intros W. eapply wp_bind; [exact W|]. cbn beta. intros c' h' G' [I C]. apply wp_ret.
  exists []. split; [exact I|]. split; [exact C|]. split; [constructor|]. split; [reflexivity|constructor].
Qed.

Lemma upd_split {A} i (y x : A) l : nth_error l i = Some x -> upd i y l = firstn i l ++ y :: skipn (S i) l.
Proof.
  revert l. induction i as [|i IH]; intros [|z l] H; cbn in *; try congruence.
  now rewrite (IH l H).
Qed.
Lemma nth_split {A} i (x : A) l : nth_error l i = Some x -> l = firstn i l ++ x :: skipn (S i) l.
Proof.
  revert l. induction i as [|i IH]; intros [|z l] H; cbn in *; try congruence.
  now rewrite (IH l H) at 1.
Qed.
Lemma Forall2_nth {A B} (P : A -> B -> Prop) l l' i y : Forall2 P l l' -> nth_error l' i = Some y ->
  exists x, nth_error l i = Some x /\ P x y.
Proof.
  intros H. revert i. induction H as [|a b l l' H0 H IH]; intros [|i] E; cbn in *; try congruence.
  - exists a. split; [reflexivity|]. now assert (y = b) as -> by congruence.
  - apply (IH i E).
Qed.
Lemma Forall2_firstn {A B} (P : A -> B -> Prop) l l' i : Forall2 P l l' -> Forall2 P (firstn i l) (firstn i l').
Proof. intros H. revert i. induction H; intros [|i]; cbn; constructor; auto. Qed.
Lemma Forall2_skipn {A B} (P : A -> B -> Prop) l l' i : Forall2 P l l' -> Forall2 P (skipn i l) (skipn i l').
Proof. intros H. revert i. induction H; intros [|i]; cbn; try constructor; auto. Qed.

(** Getting hold of the children: the vector is unique and its elements are moved
    out. *)
Lemma wp_borrow c n ns R h G : inv h G (node_items c ++ R) -> crep G c n -> n_kids n = KArc ns ->
  wp (m <! h_make_mut c ;; cs <! vec_take (snd m) ;; ret (fst m, snd m, cs)) R
    (fun r h' G' => let c' := fst (fst r) in let a := snd (fst r) in let cs := snd r in
      inv h' G' ((NodesK, Ptr a) :: p_items c' ++ v_items c' ++ flat_map node_items cs ++ R) /\
      brep G' (c_ph c') (c_p c') (n_prefix n) /\ brep G' (c_vh c') (c_v c') (n_value n) /\
      uniq h' c' a /\ G' a = GN [] /\ Forall2 (crep G') cs ns) h G.
Proof.
  intros I C E. eapply wp_bind; [apply (wp_make_mut c n ns R h G I C E)|].
  cbn beta. intros [c1 a] h1 G1. cbn [fst snd]. intros (I1 & C1 & U).
  destruct U as (U1 & U2 & U3). destruct C1 as (P & V & K). rewrite E in K. destruct K as (_ & a' & Ea & Ga).
  assert (a' = a) as -> by congruence.
  rewrite (node_items_arc c1 a U1 U2) in I1.
  eapply wp_bind.
  { eapply (wp_frame _ _ (p_items c1 ++ v_items c1 ++ R) R _ h1 G1 I1); [occ_solve|occ_solve|].
    apply (wp_vec_take a ns); [|exact U3|exact Ga]. rearr I1. }
  cbn beta. intros cs h2 G2 ((Hcs & I2 & E2 & C2) & X & _). apply wp_ret. cbn [fst snd].
  rewrite !ext_app in X. destruct X as (X1 & X2 & _). split; [rearr I2|].
  split; [apply (brep_ext _ _ _ _ _ P X1)|]. split; [apply (brep_ext _ _ _ _ _ V X2)|].
  repeat split; auto.
Qed.

(** Putting elements back. *)
Lemma wp_return c p v a cs ns R h G :
  inv h G ((NodesK, Ptr a) :: p_items c ++ v_items c ++ flat_map node_items cs ++ R) ->
  brep G (c_ph c) (c_p c) p -> brep G (c_vh c) (c_v c) v -> uniq h c a -> G a = GN [] ->
  Forall2 (crep G) cs ns ->
  wp (vec_put a cs) R (fun _ h' G' => inv h' G' (node_items c ++ R) /\ crep G' c (Node p v (KArc ns)) /\
    uniq h' c a) h G.
Proof.
  intros I P V (U1 & U2 & U3) Ga Hcs.
  eapply wp_weaken.
  { eapply (wp_frame _ _ (p_items c ++ v_items c ++ R) R _ h G I); [occ_solve|occ_solve|].
    apply (wp_vec_put a cs ns); auto. rearr I. }
  cbn beta. intros _ h1 G1 ((I1 & E1 & C1) & X & _).
  rewrite !ext_app in X. destruct X as (X1 & X2 & _). split.
  - rewrite (node_items_arc c a U1 U2). rearr I1.
  - split; [|repeat split; auto]. split; [apply (brep_ext _ _ _ _ _ P X1)|].
    split; [apply (brep_ext _ _ _ _ _ V X2)|]. split; [exact U1|]. exists a. auto.
Qed.

Lemma mbind_assoc {A B C} (m : M A) (k : A -> M B) (k' : B -> M C) h :
  mbind (mbind m k) k' h = mbind m (fun a => mbind (k a) k') h.
Proof. unfold mbind. destruct (m h) as [[? ?]| | |]; reflexivity. Qed.

(** Code that borrows the children, stated with [wp_borrow]. *)
Lemma wp_with_children {A} c n ns Z R h G (k : cnode -> addr -> list cnode -> M A) Q :
  inv h G (node_items c ++ Z) -> (forall a, occ a R <= occ a Z) -> crep G c n -> n_kids n = KArc ns ->
  (forall c' a cs h' G', ext G G' Z ->
     inv h' G' ((NodesK, Ptr a) :: p_items c' ++ v_items c' ++ flat_map node_items cs ++ Z) ->
     brep G' (c_ph c') (c_p c') (n_prefix n) -> brep G' (c_vh c') (c_v c') (n_value n) ->
     uniq h' c' a -> G' a = GN [] -> Forall2 (crep G') cs ns -> wp (k c' a cs) R Q h' G') ->
  wp (m <! h_make_mut c ;; cs <! vec_take (snd m) ;; k (fst m) (snd m) cs) R Q h G.
Proof.
  intros I L C E H.
  assert (wp ((r <! (m <! h_make_mut c ;; cs <! vec_take (snd m) ;; ret (fst m, snd m, cs)) ;;
               k (fst (fst r)) (snd (fst r)) (snd r))) R Q h G) as W.
  { eapply wp_bind.
    { eapply (wp_frame _ _ Z R _ h G I); [occ_solve|exact L|]. apply (wp_borrow c n ns Z h G I C E). }
    cbn beta. intros [[c' a] cs] h' G'. cbn [fst snd]. intros ((I' & P & V & U & Ga & Hcs) & X & _). auto. }
  destruct W as (x & h' & G' & D & W). exists x, h', G'. split; [|exact W]. rewrite <- D.
  unfold mbind. destruct (h_make_mut c h) as [[[? ?] ?]| | |]; try reflexivity. cbn [fst snd].
  destruct (vec_take a h0) as [[? ?]| | |]; reflexivity.
Qed.

Lemma mut_ok f ff X R0 (Pre : ghost -> Prop) :
  (forall G G', ext G G' (X ++ R0) -> Pre G -> Pre G') ->
  (forall m m' o k, ff m = Some (m', o, k) -> op_ok f X R0 Pre m m' o k) ->
  forall path n n' outs l, f_mut ff path n = Some (n', outs, l) ->
    op_ok (h_mut f path) X R0 Pre n n' outs l.
Proof.
  intros HP Hf. induction path as [|i path IH]; intros n n' outs l E; [now apply Hf|].
  cbn [f_mut] in E. destruct (n_kids n) as [ns|] eqn:Ek; [|congruence].
  destruct (nth_error ns i) as [x|] eqn:Ex; [|congruence].
  destruct (f_mut ff path x) as [[[y s] l']|] eqn:Ey; [|congruence].
  assert (n' = set_kids n (KArc (upd i y ns)) /\ s = outs /\ l' = l) as (-> & -> & ->) by (repeat split; congruence).
  clear E. intros R h G c L I HPre C. cbn [h_mut].
  apply (wp_with_children c n ns (X ++ R) R h G (fun c' a cs =>
    match nth_error cs i with
    | None => panic
    | Some x => y <! h_mut f path x ;; _ <! vec_put a (upd i (fst y) cs) ;; ret (c', snd y)
    end)); [exact I|occ_solve|exact C|exact Ek|].
  intros c1 a cs h1 G1 X1 I1 P V (U1 & U2 & U3) Ga Hcs.
  destruct (Forall2_nth _ _ _ _ _ Hcs Ex) as (cx & Ecx & Cx). rewrite Ecx.
  set (A := firstn i cs) in *. set (B := skipn (S i) cs) in *.
  assert (Forall2 (crep G1) A (firstn i ns)) as HA by now apply Forall2_firstn.
  assert (Forall2 (crep G1) B (skipn (S i) ns)) as HB by now apply Forall2_skipn.
  rewrite (nth_split _ _ _ Ecx) in I1. fold A B in I1. rewrite flat_map_app in I1. cbn [flat_map] in I1.
  set (R1 := (NodesK, Ptr a) :: p_items c1 ++ v_items c1 ++ flat_map node_items A ++ flat_map node_items B ++ R).
  assert (inv h1 G1 (node_items cx ++ X ++ R1)) as J1. { unfold R1. rearr I1. }
  eapply wp_bind.
  { eapply (wp_frame _ _ R1 R _ h1 G1 J1); [occ_solve|unfold R1; occ_solve|].
    eapply (IH x y outs l Ey R1 h1 G1 cx); [|exact J1| |exact Cx].
    - intros b. specialize (L b). unfold R1. cbn [occ]. rewrite !occ_app. lia.
    - apply (HP G G1); [|exact HPre]. intros b Hb. apply X1. specialize (L b). rewrite !occ_app in *. lia. }
  cbn beta. intros [y' so] h2 G2. cbn [fst snd]. intros ((lk & I2 & Cy & So & Ll & Lk) & X2 & S2). cbn [fst snd] in *.
  assert (cnt h2 a = 1 /\ G2 a = GN []) as [U4 Ga2].
  { pose proof (i_cnt _ _ _ J1 a) as Ca. rewrite !occ_app in Ca.
    assert (0 < occ a R1) as Oa. { unfold R1. cbn [occ]. rewrite Nat.eqb_refl. lia. }
    split.
    - rewrite ((proj1 S2) a Oa); [lia| |lia]. now rewrite Ga.
    - now rewrite (X2 a Oa). }
  assert (ext G1 G2 (p_items c1) /\ ext G1 G2 (v_items c1) /\ ext G1 G2 (flat_map node_items A) /\
          ext G1 G2 (flat_map node_items B)) as (Xp & Xv & XA & XB).
  { change R1 with ([(NodesK, Ptr a)] ++ p_items c1 ++ v_items c1 ++ flat_map node_items A ++ flat_map node_items B ++ R) in X2.
    rewrite !ext_app in X2. tauto. }
  rewrite (upd_split _ _ _ _ Ecx). fold A B.
  assert (inv h2 G2 ((NodesK, Ptr a) :: p_items c1 ++ v_items c1 ++ flat_map node_items (A ++ y' :: B) ++
    (flat_map slot_items so ++ lk ++ R))) as J2.
  { rewrite flat_map_app. cbn [flat_map]. unfold R1 in I2. rearr I2. }
  eapply wp_bind.
  { eapply (wp_frame _ _ (flat_map slot_items so ++ lk ++ R) R _ h2 G2 J2); [occ_solve|occ_solve|].
    apply (wp_return c1 (n_prefix n) (n_value n) a _ (firstn i ns ++ y :: skipn (S i) ns) _ h2 G2 J2).
    - apply (brep_ext _ _ _ _ _ P Xp).
    - apply (brep_ext _ _ _ _ _ V Xv).
    - repeat split; auto.
    - exact Ga2.
    - apply Forall2_app; [apply (creps_ext _ _ _ _ HA XA)|]. constructor; [exact Cy|].
      apply (creps_ext _ _ _ _ HB XB). }
  cbn beta. intros _ h3 G3 ((I3 & C3 & _) & X3 & _). apply wp_ret. exists lk. cbn [fst snd].
  rewrite !ext_app in X3. destruct X3 as (Xo & Xl & _).
  split; [exact I3|]. split; [now rewrite (upd_split _ _ _ _ Ex)|]. split; [|split; [exact Ll|apply (leaks_ext _ _ _ Lk Xl)]].
  clear -So Xo. induction So as [|s1 f1 so fo H1 H2 IH]; [constructor|]. cbn [flat_map] in Xo.
  rewrite ext_app in Xo. constructor; [apply (srep_ext _ _ _ _ H1)|apply IH]; tauto.
Qed.

(** ** The operations one by one *)
Lemma wp_pure {A} (m : M A) (x : A) R (Q : A -> heap -> ghost -> Prop) h G :
  m h = Done (x, h) -> Q x h G -> wp m R Q h G.
Proof. intros E HQ. exists x, h, G. split; [exact E|]. split; [apply stp_refl|exact HQ]. Qed.

Lemma Forall2_len {A B} (P : A -> B -> Prop) l l' : Forall2 P l l' -> length l = length l'.
Proof. induction 1; cbn; congruence. Qed.
Lemma child_count_ok G R h c n : inv h G R -> crep G c n -> live h (node_items c) ->
  h_child_count c h = Done (child_count n, h).
Proof.
  intros I C L. pose proof (h_children_ok _ _ _ _ _ I C L) as K. unfold h_child_count, child_count, mbind.
  destruct (n_kids n) as [ns|id] eqn:E.
  - destruct K as (a & Ec & Ga & ->).
    assert (0 < cnt h a) as Ca.
    { apply L. destruct C as (_ & _ & C). rewrite E in C. destruct C as [Hh _].
      rewrite (node_items_arc c a Hh Ec), !occ_app. cbn. rewrite Nat.eqb_refl. lia. }
    destruct (vec_get_ok _ _ _ _ _ I Ca Ga) as (m & cs & _ & _ & -> & Hcs). unfold ret. now rewrite (Forall2_len _ _ _ Hcs).
  - rewrite K. now destruct id.
Qed.
Lemma has_value_ok G c n : crep G c n -> h_has_value c = has_value n.
Proof.
  intros (_ & V & _). unfold h_has_value, has_value. rewrite (brep_none _ _ _ _ V).
  destruct (n_value n) as [|[|]]; reflexivity.
Qed.
Lemma kids_loaded G c n : crep G c n ->
  negb (hdr_is_id (c_ch c)) || hdr_is_none (c_ch c) =
  match n_kids n with KArc _ => true | KId [] => true | KId _ => false end.
Proof.
  intros (_ & _ & K). destruct (n_kids n) as [ns|id].
  - destruct K as [-> _]. reflexivity.
  - cbn [krep] in K. rewrite (brep_is_id _ _ _ _ K), (brep_none _ _ _ _ K). now destruct id.
Qed.

Lemma none_field k G h w : brep G h w bnone -> field_items k h w = [].
Proof. intros B. unfold field_items. now rewrite (brep_arc _ _ _ _ B). Qed.
Lemma wp_split p k c n R h G : k <= length p -> inv h G (node_items c ++ R) -> crep G c n ->
  wp (h_split p k c) R (fun c' h' G' => inv h' G' (node_items c' ++ R) /\
    crep G' c' (Node (Data (firstn k p)) bnone (KArc [Node (Data (skipn k p)) (n_value n) (n_kids n)]))) h G.
Proof.
  intros Hk I C. unfold h_split. rewrite (proj2 (Nat.leb_le _ _) Hk).
  eapply wp_bind.
  { eapply (wp_frame _ _ (node_items c ++ R) R _ h G I); [occ_solve|occ_solve|].
    apply (wp_set_p (Data (skipn k p)) (hdr_data (length (skipn k p))) c_empty n_empty); [reflexivity| |apply empty_crep].
    rewrite empty_items. exact I. }
  cbn beta. intros child h1 G1 ((I1 & C1) & X1 & _). rewrite ext_app in X1. destruct X1 as [X1 _].
  pose proof (crep_ext _ _ _ _ C X1) as C'.
  destruct C1 as (P1 & V1 & K1). cbn [n_value n_kids n_empty] in V1, K1.
  pose proof (none_field BytesK _ _ _ V1) as EV. pose proof (none_field (kids_kind (c_ch child)) _ _ _ K1) as EK.
  rewrite node_items_split in I1. unfold v_items, c_items in I1. rewrite EV, EK in I1.
  assert (inv h1 G1 (node_items c ++ (p_items child ++ R))) as J1 by rearr I1.
  eapply wp_bind.
  { eapply (wp_frame _ _ (p_items child ++ R) R _ h1 G1 J1); [occ_solve|occ_solve|].
    apply (wp_set_p (Data (firstn k p)) (hdr_data (length (firstn k p))) c n); [reflexivity|exact J1|exact C']. }
  cbn beta zeta. intros c1 h2 G2 ((I2 & P2 & V2 & K2) & X2 & _). rewrite ext_app in X2. destruct X2 as [X2 _].
  pose proof (brep_ext _ _ _ _ _ P1 X2) as P3.
  set (ch := with_v (with_c child (c_ch c1) (c_c c1)) (c_vh c1) (c_v c1)).
  set (c2 := with_v (with_c c1 hdr_none w_empty) hdr_none w_empty).
  assert (crep G2 ch (Node (Data (skipn k p)) (n_value n) (n_kids n))) as Cch by (split; [exact P3|split; [exact V2|exact K2]]).
  assert (crep G2 c2 (Node (Data (firstn k p)) bnone (KId []))) as Cc2
    by (split; [exact P2|split; [apply none_brep|apply none_krep]]).
  assert (node_items c2 = p_items c1) as E2.
  { rewrite node_items_split. unfold c2. flds. rewrite !none_items. now rewrite !app_nil_r. }
  assert (inv h2 G2 (cell_items (CNodes [ch]) ++ (node_items c2 ++ R))) as J2.
  { cbn [cell_items flat_map]. rewrite E2, (node_items_split ch). unfold ch. flds. rewrite (node_items_split c1) in I2.
    unfold v_items, c_items in I2. flds. rearr I2. }
  eapply wp_bind.
  { eapply (wp_frame _ _ (node_items c2 ++ R) R _ h2 G2 J2); [occ_solve|occ_solve|].
    apply (wp_new (CNodes [ch]) (GN [Node (Data (skipn k p)) (n_value n) (n_kids n)]) _ h2 G2 J2).
    constructor; [exact Cch|constructor]. }
  cbn beta. intros a h3 G3 ((-> & I3 & _) & X3 & _). cbn [gkind] in I3. rewrite ext_app in X3. destruct X3 as [X3 _].
  eapply wp_weaken.
  - eapply (wp_set_arc a [Node (Data (skipn k p)) (n_value n) (n_kids n)] c2); [rearr I3|apply gset_eq|].
    apply (crep_ext _ _ _ _ Cc2 X3).
  - cbn beta. intros c' h' G' H. exact H.
Qed.

Lemma wp_canon1 dbg c n n1 R h G : inv h G (node_items c ++ R) -> crep G c n ->
  (match blob_opt (n_value n), n_kids n with
   | None, KArc [x] =>
       if dbg && (blob_is_id (n_prefix n) || blob_is_id (n_prefix x)) then Panic
       else Ok (Node (Data (blob_slice (n_prefix n) ++ blob_slice (n_prefix x))) (n_value x) (n_kids x))
   | _, _ => Ok n
   end = Ok n1) ->
  wp (if negb (has_value n) && (child_count n =? 1) then
        m <! h_make_mut c ;;
        let c := fst m in
        cs <! vec_take (snd m) ;;
        match rev cs with
        | [] => panic
        | child :: rest =>
            _ <! vec_put (snd m) (rev rest) ;;
            if dbg && (hdr_is_id (c_ph c) || hdr_is_id (c_ph child)) then panic
            else
              p <! blob_read (c_ph c) (c_p c) ;;
              q <! blob_read (c_ph child) (c_p child) ;;
              c1 <! h_set_prefix (p ++ q) c ;;
              let c2 := with_c (with_v c1 (c_vh child) (c_v child)) (c_ch child) (c_c child) in
              let child := with_c (with_v child (c_vh c1) (c_v c1)) (c_ch c1) (c_c c1) in
              _ <! drop (node_items child) ;;
              ret c2
        end
      else ret c) R (fun c' h' G' => inv h' G' (node_items c' ++ R) /\ crep G' c' n1) h G.
Proof.
  intros I C E. unfold has_value, child_count. destruct (blob_opt (n_value n)) as [b|] eqn:Ev.
  { cbn [negb andb]. apply wp_ret. assert (n1 = n) as -> by congruence. auto. }
  cbn [negb andb]. destruct (n_kids n) as [[|x [|x' xs]]|id] eqn:Ek.
  1,3,4: cbn [length Nat.eqb]; try (destruct id; cbn [Nat.eqb]); apply wp_ret; assert (n1 = n) as -> by congruence; auto.
  cbn [length Nat.eqb].
  destruct (dbg && (blob_is_id (n_prefix n) || blob_is_id (n_prefix x))) eqn:Ed; [congruence|].
  assert (n1 = Node (Data (blob_slice (n_prefix n) ++ blob_slice (n_prefix x))) (n_value x) (n_kids x)) as -> by congruence.
  clear E.
  apply (wp_with_children c n [x] R R h G (fun c a cs =>
    match rev cs with
    | [] => panic
    | child :: rest =>
        _ <! vec_put a (rev rest) ;;
        if dbg && (hdr_is_id (c_ph c) || hdr_is_id (c_ph child)) then panic
        else
          p <! blob_read (c_ph c) (c_p c) ;;
          q <! blob_read (c_ph child) (c_p child) ;;
          c1 <! h_set_prefix (p ++ q) c ;;
          let c2 := with_c (with_v c1 (c_vh child) (c_v child)) (c_ch child) (c_c child) in
          let child := with_c (with_v child (c_vh c1) (c_v c1)) (c_ch c1) (c_c c1) in
          _ <! drop (node_items child) ;;
          ret c2
    end)); [exact I|occ_solve|exact C|exact Ek|].
  intros c1 a cs h0 G0 _ I0 P V U Ga Hcs. clear h G I C. rename h0 into h, G0 into G, I0 into I.
  inversion Hcs as [|cx ? ? ? Cx Hn]; subst. inversion Hn; subst. cbn [rev app].
  assert (inv h G ((NodesK, Ptr a) :: p_items c1 ++ v_items c1 ++ flat_map node_items [] ++ (node_items cx ++ R))) as I1.
  { cbn [flat_map] in *. rearr I. }
  eapply wp_bind.
  { eapply (wp_frame _ _ (node_items cx ++ R) R _ h G I1); [occ_solve|occ_solve|].
    apply (wp_return c1 (n_prefix n) (n_value n) a [] [] _ h G I1 P V U Ga). constructor. }
  cbn beta. intros _ h1 G1 ((I2 & C2 & _) & X & _). rewrite ext_app in X. destruct X as [X _].
  pose proof (crep_ext _ _ _ _ Cx X) as Cx1. clear X.
  rewrite (brep_is_id _ _ _ _ (proj1 C2)), (brep_is_id _ _ _ _ (proj1 Cx1)). cbn [n_prefix]. rewrite Ed.
  assert (live h1 (p_items c1) /\ live h1 (p_items cx)) as [L1 L2].
  { rewrite (node_items_split c1), (node_items_split cx) in I2. split; apply (inv_live_roots _ _ _ _ I2); occ_solve. }
  eapply wp_bind.
  { apply (wp_pure _ (blob_slice (n_prefix n)) R (fun p h' G' => p = blob_slice (n_prefix n) /\ h' = h1 /\ G' = G1));
      [apply (blob_read_ok _ _ _ _ _ _ I2 (proj1 C2) L1)|auto]. }
  cbn beta. intros p h' G' (-> & -> & ->).
  eapply wp_bind.
  { apply (wp_pure _ (blob_slice (n_prefix x)) R (fun p h' G' => p = blob_slice (n_prefix x) /\ h' = h1 /\ G' = G1));
      [apply (blob_read_ok _ _ _ _ _ _ I2 (proj1 Cx1) L2)|auto]. }
  cbn beta. intros q h' G' (-> & -> & ->).
  eapply wp_bind.
  { eapply (wp_frame _ _ (node_items cx ++ R) R _ h1 G1 I2); [occ_solve|occ_solve|].
    apply (wp_set_p (Data (blob_slice (n_prefix n) ++ blob_slice (n_prefix x))) _ c1 (Node (n_prefix n) (n_value n) (KArc [])));
      [reflexivity|exact I2|exact C2]. }
  cbn beta zeta. intros c2 h2 G2 ((I3 & C3) & X & _). rewrite ext_app in X. destruct X as [X _].
  pose proof (crep_ext _ _ _ _ Cx1 X) as Cx2. clear X.
  set (c3 := with_c (with_v c2 (c_vh cx) (c_v cx)) (c_ch cx) (c_c cx)).
  set (ch := with_c (with_v cx (c_vh c2) (c_v c2)) (c_ch c2) (c_c c2)).
  assert (inv h2 G2 (node_items ch ++ (node_items c3 ++ R))) as I4.
  { rewrite (node_items_split c2), (node_items_split cx) in I3. unfold v_items, c_items in I3.
    rewrite (node_items_split c3), (node_items_split ch). unfold c3, ch. flds. flds. rearr I3. }
  eapply wp_bind.
  { eapply (wp_frame _ _ (node_items c3 ++ R) R _ h2 G2 I4); [occ_solve|occ_solve|]. apply (wp_drop _ _ _ _ I4). }
  cbn beta. intros _ h3 G3 ((-> & I5 & _) & _). apply wp_ret. split; [exact I5|].
  split; [apply C3|]. split; [apply (proj1 (proj2 Cx2))|apply (proj2 (proj2 Cx2))].
Qed.

Lemma wp_canonicalize dbg c n n' R h G : inv h G (node_items c ++ R) -> crep G c n -> canonicalize dbg n = Ok n' ->
  wp (c' <! h_canonicalize dbg c ;; ret (c', [])) R (post R n' [] (forgets n)) h G.
Proof.
  intros I C E. unfold canonicalize in E. unfold h_canonicalize. rewrite (kids_loaded _ _ _ C).
  destruct (dbg && negb match n_kids n with KArc _ => true | KId [] => true | KId _ => false end); [congruence|].
  set (s1 := match blob_opt (n_value n) with None => _ | _ => _ end) in E.
  destruct s1 as [n1|e| |] eqn:E1; try discriminate E. unfold bind in E. unfold s1 in E1. clear s1.
  assert (live h (node_items c)) as L. { apply (inv_live_roots _ _ _ _ I). occ_solve. }
  assert (forgets n = match blob_opt (n_value n1), n_kids n1 with None, KArc [] => 1 | _, _ => 0 end) as ->.
  { unfold forgets. destruct (blob_opt (n_value n)) eqn:Ev; [now assert (n1 = n) as -> by congruence|].
    destruct (n_kids n) as [[|x [|]]|] eqn:Ek; try (now assert (n1 = n) as -> by congruence).
    destruct (dbg && _); [congruence|]. now assert (n1 = Node (Data (blob_slice (n_prefix n) ++ blob_slice (n_prefix x))) (n_value x) (n_kids x)) as -> by congruence. }
  eapply wp_bind.
  2:{ cbn beta. intros c' h' G' H. apply wp_ret. exact H. }
  eapply wp_bind.
  { apply (wp_pure _ (child_count n) R (fun p h' G' => p = child_count n /\ h' = h /\ G' = G)); [|auto].
    apply (child_count_ok _ _ _ _ _ I C L). }
  cbn beta. intros cc h' G' (-> & -> & ->). rewrite (has_value_ok _ _ _ C).
  eapply wp_bind; [apply (wp_canon1 dbg c n n1 R h G I C E1)|].
  cbn beta. clear h G I C L. intros c1 h G [I C].
  assert (live h (node_items c1)) as L. { apply (inv_live_roots _ _ _ _ I). occ_solve. }
  eapply wp_bind.
  { apply (wp_pure _ (child_count n1) R (fun p h' G' => p = child_count n1 /\ h' = h /\ G' = G)); [|auto].
    apply (child_count_ok _ _ _ _ _ I C L). }
  cbn beta. intros cc h' G' (-> & -> & ->). rewrite (has_value_ok _ _ _ C).
  destruct (negb (has_value n1) && (child_count n1 =? 0)) eqn:Ez.
  - apply andb_prop in Ez. destruct Ez as [Ez1 Ez2]. apply Nat.eqb_eq in Ez2.
    assert (n' = Node (Data []) (n_value n1) (KId [])) as -> by congruence.
    rewrite node_items_split in I.
    eapply wp_bind.
    { eapply (wp_frame _ _ (v_items c1 ++ c_items c1 ++ R) R _ h G I); [occ_solve|occ_solve|]. apply wp_drop. rearr I. }
    cbn beta. intros _ h2 G2 ((-> & I2 & _) & _). apply wp_ret. exists (c_items c1). cbn [fst snd flat_map app].
    destruct C as (P & V & K). split; [|split; [|split; [constructor|]]].
    + rewrite node_items_split. flds. rewrite (none_items (kids_kind hdr_none)). change (field_items BytesK (hdr_data 0) w_empty) with (@nil item).
      rearr I2.
    + split; [split; [reflexivity|apply wrep_nil]|]. split; [exact V|apply none_krep].
    + unfold has_value in Ez1. destruct (blob_opt (n_value n1)); [discriminate Ez1|].
      unfold child_count in Ez2. destruct (n_kids n1) as [[|]|[|]]; try discriminate Ez2.
      * destruct K as (Hh & a & Ea & Ga). unfold c_items. rewrite Hh, Ea.
        change (field_items (kids_kind (hdr_data 127)) (hdr_data 127) (Ptr a)) with [(NodesK, Ptr a)].
        split; [reflexivity|]. constructor; [|constructor]. exists a. auto.
      * unfold c_items. rewrite (none_field _ _ _ _ K). split; [reflexivity|constructor].
  - assert (n' = n1) as -> by congruence. apply wp_ret. exists []. cbn [fst snd flat_map app].
    split; [exact I|]. split; [exact C|]. split; [constructor|]. split; [|constructor].
    unfold has_value, child_count in Ez. destruct (blob_opt (n_value n1)); [reflexivity|].
    destruct (n_kids n1) as [[|]|]; try reflexivity. discriminate Ez.
Qed.
