(** Proofs about the memory representation: an invariant on reference counts and a
    ghost map from addresses to values. *)
From Verif Require Import Base BaseLemmas Header Node Store Heap HeapSpec.

(** ** Ghost values *)
Inductive gcell : Type := GB (b : bytes) | GN (ns : list node).
Definition ghost := addr -> gcell.
Definition gkind (g : gcell) : kind := match g with GB _ => BytesK | GN _ => NodesK end.
Definition gset (G : ghost) (a : addr) (g : gcell) : ghost := fun b => if b =? a then g else G b.
Lemma gset_eq G a g : gset G a g a = g.
Proof. unfold gset. now rewrite Nat.eqb_refl. Qed.
Lemma gset_neq G a g b : b <> a -> gset G a g b = G b.
Proof. intros H. unfold gset. now apply Nat.eqb_neq in H as ->. Qed.

Definition wrep (G : ghost) (d : bytes) (w : word) : Prop :=
  if PTR_SIZE <? length d then exists a, w = Ptr a /\ G a = GB d else w = Inline (pad d).
Definition brep (G : ghost) (h : byte) (w : word) (b : blob) : Prop :=
  match b with
  | Data d => h = hdr_data (length d)
  | Id d => hdr_id (length d) = Ok h
  end /\ wrep G (blob_slice b) w.
Definition krep (G : ghost) (h : byte) (w : word) (k : kids) : Prop :=
  match k with
  | KId id => brep G h w (Id id)
  | KArc ns => h = hdr_data 127 /\ exists a, w = Ptr a /\ G a = GN ns
  end.
Definition crep (G : ghost) (c : cnode) (n : node) : Prop :=
  brep G (c_ph c) (c_p c) (n_prefix n) /\ brep G (c_vh c) (c_v c) (n_value n) /\
  krep G (c_ch c) (c_c c) (n_kids n).
Definition grep (G : ghost) (x : cell) (g : gcell) : Prop :=
  match x, g with
  | CBytes b, GB b' => b = b'
  | CNodes cs, GN ns => Forall2 (crep G) cs ns
  | _, _ => False
  end.
Definition srep (G : ghost) (s : slot) (f : fslot) : Prop :=
  match s, f with
  | SNode c, FNode n => crep G c n
  | SValue h w, FValue b => brep G h w b
  | SArc a, FArc ns => G a = GN ns
  | SGone, FGone => True
  | _, _ => False
  end.
Definition item_ok (G : ghost) (it : item) : Prop := exists a, snd it = Ptr a /\ gkind (G a) = fst it.

(** ** Counting *)
Fixpoint occ (a : addr) (l : list item) : nat :=
  match l with
  | [] => 0
  | (_, Ptr b) :: l => (if b =? a then 1 else 0) + occ a l
  | _ :: l => occ a l
  end.
Definition occ_entry (a : addr) (e : option (nat * cell)) : nat :=
  match e with Some (_, x) => occ a (cell_items x) | None => 0 end.
Definition occ_heap (a : addr) (h : heap) : nat := list_sum (map (occ_entry a) h).
Definition cnt (h : heap) (a : addr) : nat :=
  match nth_error h a with Some (Some (n, _)) => n | _ => 0 end.

Lemma occ_app a l l' : occ a (l ++ l') = occ a l + occ a l'.
Proof. induction l as [|[k [b|b]] l IH]; cbn [occ app]; lia. Qed.
Lemma occ_in a k l : In (k, Ptr a) l -> 0 < occ a l.
Proof.
  induction l as [|[k' [b|b]] l IH]; cbn [occ In]; [tauto| |].
  - intros [E|E]; [congruence|auto].
  - intros [E|E]; [|specialize (IH E); lia].
    assert (b = a) as -> by congruence. rewrite Nat.eqb_refl. lia.
Qed.

Lemma nth_upd_eq {A} i (x : A) l y : nth_error l i = Some y -> nth_error (upd i x l) i = Some x.
Proof. revert l. induction i; intros [|z l]; cbn; try congruence. apply IHi. Qed.
Lemma nth_upd_neq {A} i j (x : A) l : i <> j -> nth_error (upd i x l) j = nth_error l j.
Proof. revert j l. induction i; intros [|j] [|z l] H; cbn; try congruence; auto. Qed.
Lemma upd_len {A} i (x : A) l : length (upd i x l) = length l.
Proof. revert l. induction i; intros [|z l]; cbn; auto. Qed.
Lemma sum_upd {A} (f : A -> nat) i x y l :
  nth_error l i = Some y -> list_sum (map f (upd i x l)) + f y = list_sum (map f l) + f x.
Proof.
  unfold list_sum. revert l. induction i as [|i IH]; intros [|z l] H; cbn in *; try congruence.
  - assert (z = y) as -> by congruence. lia.
  - specialize (IH l H). lia.
Qed.
Lemma sum_nth {A} (f : A -> nat) i y l : nth_error l i = Some y -> f y <= list_sum (map f l).
Proof.
  unfold list_sum. revert l. induction i as [|i IH]; intros [|z l] H; cbn in *; try congruence.
  - assert (z = y) as -> by congruence. lia.
  - specialize (IH l H). lia.
Qed.
Lemma occ_heap_upd a b e old h : nth_error h b = Some old ->
  occ_heap a (upd b e h) + occ_entry a old = occ_heap a h + occ_entry a e.
Proof. apply sum_upd. Qed.
Lemma cnt_upd_eq h a e old : nth_error h a = Some old -> cnt (upd a e h) a = count_of e.
Proof. intros H. unfold cnt. rewrite (nth_upd_eq _ _ _ _ H). now destruct e as [[? ?]|]. Qed.
Lemma cnt_upd_neq h a b e : a <> b -> cnt (upd a e h) b = cnt h b.
Proof. intros H. unfold cnt. now rewrite nth_upd_neq. Qed.

(** ** Headers *)
Lemma data_len n : hdr_len (hdr_data n) = if n <=? 127 then n else 127.
Proof.
  unfold hdr_data. destruct (Nat.leb_spec n 127) as [H|H]; [|reflexivity].
  do 128 (destruct n as [|n]; [reflexivity|]). lia.
Qed.
Lemma data_id n : hdr_is_id (hdr_data n) = false.
Proof.
  unfold hdr_data. destruct (Nat.leb_spec n 127) as [H|H]; [|reflexivity].
  do 128 (destruct n as [|n]; [reflexivity|]). lia.
Qed.
Lemma id_len n h : hdr_id n = Ok h -> hdr_len h = n /\ hdr_is_id h = true.
Proof.
  unfold hdr_id. destruct (Nat.ltb_spec n 128) as [H|H]; [|congruence].
  intros E. assert (h = byte_of (N.lor (N.of_nat n) 128)) as -> by congruence. clear E.
  do 128 (destruct n as [|n]; [split; reflexivity|]). lia.
Qed.
Lemma data_arc n : is_arc (hdr_data n) = (PTR_SIZE <? n).
Proof.
  unfold is_arc. rewrite data_len. unfold PTR_SIZE.
  destruct (Nat.leb_spec n 127); [reflexivity|].
  symmetry. apply Nat.ltb_lt. lia.
Qed.
Lemma hdr_none_id h n : hdr_id n = Ok h -> hdr_is_none h = (n =? 0).
Proof.
  unfold hdr_id. destruct (Nat.ltb_spec n 128) as [H|H]; [|congruence].
  intros E. assert (h = byte_of (N.lor (N.of_nat n) 128)) as -> by congruence. clear E.
  do 128 (destruct n as [|n]; [reflexivity|]). lia.
Qed.
Lemma hdr_none_data n : hdr_is_none (hdr_data n) = false.
Proof.
  unfold hdr_data. destruct (Nat.leb_spec n 127) as [H|H]; [|reflexivity].
  do 128 (destruct n as [|n]; [reflexivity|]). lia.
Qed.
Lemma brep_arc G h w b : brep G h w b -> is_arc h = (PTR_SIZE <? length (blob_slice b)).
Proof.
  destruct b as [d|d]; intros [E _]; cbn [blob_slice].
  - subst h. apply data_arc.
  - unfold is_arc. now rewrite (proj1 (id_len _ _ E)).
Qed.
Lemma brep_is_id G h w b : brep G h w b -> hdr_is_id h = blob_is_id b.
Proof.
  destruct b as [d|d]; intros [E _]; cbn [blob_is_id].
  - subst h. apply data_id.
  - apply (proj2 (id_len _ _ E)).
Qed.
Lemma brep_none G h w b : brep G h w b ->
  hdr_is_none h = match blob_opt b with Some _ => false | None => true end.
Proof.
  destruct b as [d|d]; intros [E _]; cbn [blob_opt].
  - subst h. apply hdr_none_data.
  - rewrite (hdr_none_id _ _ E). now destruct d.
Qed.

(** ** Items of represented things *)
Lemma brep_items G h w b : brep G h w b -> Forall (item_ok G) (field_items BytesK h w).
Proof.
  intros H. unfold field_items. rewrite (brep_arc _ _ _ _ H). destruct H as [_ H]. unfold wrep in H.
  destruct (PTR_SIZE <? length (blob_slice b)); [|constructor].
  destruct H as (a & -> & E). constructor; [|constructor]. exists a. cbn. now rewrite E.
Qed.
Lemma krep_items G h w k : krep G h w k -> Forall (item_ok G) (field_items (kids_kind h) h w).
Proof.
  destruct k as [ns|id]; cbn [krep].
  - intros (-> & a & -> & E). constructor; [|constructor]. exists a. cbn. now rewrite E.
  - intros H. unfold kids_kind. rewrite (brep_is_id _ _ _ _ H). cbn [blob_is_id]. now apply brep_items in H.
Qed.
Lemma crep_items G c n : crep G c n -> Forall (item_ok G) (node_items c).
Proof.
  intros (P & V & K). unfold node_items. rewrite !Forall_app.
  split; [apply (brep_items _ _ _ _ P)|]. split; [apply (brep_items _ _ _ _ V)|apply (krep_items _ _ _ _ K)].
Qed.
Lemma creps_items G cs ns : Forall2 (crep G) cs ns -> Forall (item_ok G) (flat_map node_items cs).
Proof.
  induction 1; cbn; [constructor|]. rewrite Forall_app. eauto using crep_items.
Qed.
Lemma grep_items G x g : grep G x g -> Forall (item_ok G) (cell_items x).
Proof. destruct x, g; cbn; try tauto; [constructor|apply creps_items]. Qed.
Lemma srep_items G s f : srep G s f -> Forall (item_ok G) (slot_items s).
Proof.
  destruct s, f; cbn [srep slot_items]; try tauto; try (intros; constructor).
  - apply crep_items.
  - apply brep_items.
  - exists a. cbn. now rewrite H.
  - constructor.
Qed.

(** Changing the ghost elsewhere keeps representations. *)
Definition ext (G G' : ghost) (R : list item) : Prop := forall a, 0 < occ a R -> G' a = G a.
Lemma ext_refl G R : ext G G R.
Proof. now intros a. Qed.
Lemma ext_app G G' R R' : ext G G' (R ++ R') <-> ext G G' R /\ ext G G' R'.
Proof.
  unfold ext. split.
  - intros H. split; intros a Ha; apply H; rewrite occ_app; lia.
  - intros [H H'] a. rewrite occ_app. intros Ha.
    destruct (occ a R) eqn:E; [apply H'|apply H]; lia.
Qed.
Lemma brep_ext G G' h w b : brep G h w b -> ext G G' (field_items BytesK h w) -> brep G' h w b.
Proof.
  intros H X. pose proof (brep_arc _ _ _ _ H) as A. destruct H as [H W]. split; [exact H|].
  unfold wrep in *. unfold field_items in X. rewrite A in X.
  destruct (PTR_SIZE <? length (blob_slice b)); [|exact W].
  destruct W as (a & -> & E). exists a. split; [reflexivity|]. rewrite <- E. apply X.
  cbn. rewrite Nat.eqb_refl. lia.
Qed.
Lemma krep_ext G G' h w k : krep G h w k -> ext G G' (field_items (kids_kind h) h w) -> krep G' h w k.
Proof.
  destruct k as [ns|id]; cbn [krep].
  - intros (-> & a & -> & E) X. split; [reflexivity|]. exists a. split; [reflexivity|].
    rewrite <- E. apply X. change (0 < occ a [(NodesK, Ptr a)]). cbn. rewrite Nat.eqb_refl. lia.
  - intros H X. apply (brep_ext _ _ _ _ _ H). unfold kids_kind in X.
    now rewrite (brep_is_id _ _ _ _ H) in X.
Qed.
Lemma crep_ext G G' c n : crep G c n -> ext G G' (node_items c) -> crep G' c n.
Proof.
  intros (P & V & K) X. unfold node_items in X. rewrite !ext_app in X. destruct X as (X1 & X2 & X3).
  repeat split; [apply (brep_ext _ _ _ _ _ P X1)|apply (brep_ext _ _ _ _ _ P X1)
    |apply (brep_ext _ _ _ _ _ V X2)|apply (brep_ext _ _ _ _ _ V X2)|apply (krep_ext _ _ _ _ _ K X3)].
Qed.
Lemma creps_ext G G' cs ns : Forall2 (crep G) cs ns -> ext G G' (flat_map node_items cs) ->
  Forall2 (crep G') cs ns.
Proof.
  induction 1 as [|c n cs ns H HH IH]; cbn [flat_map]; [constructor|].
  rewrite ext_app. intros [X Y]. constructor; [apply (crep_ext _ _ _ _ H X)|auto].
Qed.
Lemma grep_ext G G' x g : grep G x g -> ext G G' (cell_items x) -> grep G' x g.
Proof. destruct x, g; cbn; try tauto. apply creps_ext. Qed.
Lemma srep_ext G G' s f : srep G s f -> ext G G' (slot_items s) -> srep G' s f.
Proof.
  destruct s, f; cbn [srep slot_items]; try tauto.
  - apply crep_ext.
  - apply brep_ext.
  - intros H X. rewrite <- H. apply X. cbn. rewrite Nat.eqb_refl. lia.
Qed.

(** ** The invariant *)
Record inv (h : heap) (G : ghost) (R : list item) : Prop := Inv {
  i_cnt : forall a, cnt h a = occ a R + occ_heap a h;
  i_cell : forall a n x, nth_error h a = Some (Some (n, x)) -> 0 < n /\ grep G x (G a);
  i_root : Forall (item_ok G) R }.

Lemma inv_occ h G R R' : inv h G R -> (forall a, occ a R' = occ a R) -> Forall (item_ok G) R' -> inv h G R'.
Proof. intros [C D E] H F. constructor; auto. intros a. rewrite H. apply C. Qed.
Lemma inv_perm h G R R' : inv h G R -> (forall a, occ a R' = occ a R) -> incl R' R -> inv h G R'.
Proof.
  intros I H F. apply (inv_occ _ _ _ _ I H). rewrite Forall_forall. intros x Hx.
  apply F in Hx. revert x Hx. now rewrite <- Forall_forall; apply i_root in I.
Qed.
Ltac incl_solve := let x := fresh in intros x; unfold node_items; repeat (rewrite ?in_app_iff; cbn [In app]); tauto.
Ltac occ_solve := let a := fresh in intros a; unfold node_items; repeat (rewrite ?occ_app; cbn [occ app]); lia.
Ltac rearr H := apply (inv_perm _ _ _ _ H); [occ_solve|incl_solve].

Lemma inv_live h G R a : inv h G R -> 0 < occ a R \/ 0 < occ_heap a h -> 
  exists n x, nth_error h a = Some (Some (n, x)) /\ 0 < n /\ grep G x (G a).
Proof.
  intros I H. pose proof (i_cnt _ _ _ I a) as C. unfold cnt in C.
  destruct (nth_error h a) as [[[n x]|]|] eqn:E; [|lia|lia].
  exists n, x. split; [reflexivity|]. apply (i_cell _ _ _ I _ _ _ E).
Qed.
Lemma occ_heap_nth a h b n x : nth_error h b = Some (Some (n, x)) -> occ a (cell_items x) <= occ_heap a h.
Proof. intros E. apply (sum_nth (occ_entry a) _ _ _ E). Qed.

(** What is reachable from [R]. *)
Inductive deep (h : heap) (R : list item) : addr -> Prop :=
| deep_root a : 0 < occ a R -> deep h R a
| deep_in b n x a : deep h R b -> nth_error h b = Some (Some (n, x)) -> 0 < occ a (cell_items x) -> deep h R a.
Lemma deep_occ h R a : deep h R a -> 0 < occ a R \/ 0 < occ_heap a h.
Proof. intros [b H|b n x c _ E H]; [auto|]. right. pose proof (occ_heap_nth c _ _ _ _ E). lia. Qed.
Lemma deep_sub h R R' a : (forall b, occ b R <= occ b R') -> deep h R a -> deep h R' a.
Proof. intros L. induction 1 as [a H|b n x a _ IH E H]; [apply deep_root; specialize (L a); lia|apply (deep_in _ _ _ _ _ _ IH E H)]. Qed.

(** Steps: the ghost of what the frame [R] refers to stays, node vectors that
    only the frame refers to are not shared, and nobody writes to what can be
    reached from the frame. *)
Definition same_cell (h h' : heap) (a : addr) : Prop :=
  forall n x, nth_error h a = Some (Some (n, x)) -> exists m, nth_error h' a = Some (Some (m, x)).
Definition keeps (R : list item) (h : heap) (G : ghost) (h' : heap) (G' : ghost) : Prop :=
  forall a, deep h R a -> same_cell h h' a /\ G' a = G a.
Definition stp (R : list item) (h : heap) (G : ghost) (h' : heap) (G' : ghost) : Prop :=
  ext G G' R /\
  (forall a, 0 < occ a R -> gkind (G a) = NodesK -> cnt h a = occ a R -> cnt h' a = occ a R) /\
  keeps R h G h' G'.
Lemma deep_keeps R h G h' G' a : keeps R h G h' G' -> deep h R a -> deep h' R a.
Proof.
  intros K. induction 1 as [a H|b n x a D IH E H]; [now apply deep_root|].
  destruct (proj1 (K b D) n x E) as (m & Em). apply (deep_in _ _ _ _ _ _ IH Em H).
Qed.
Lemma keeps_refl R h G : keeps R h G h G.
Proof. intros a _. split; [|reflexivity]. intros n x E. now exists n. Qed.
Lemma keeps_trans R h G h1 G1 h2 G2 : keeps R h G h1 G1 -> keeps R h1 G1 h2 G2 -> keeps R h G h2 G2.
Proof.
  intros K K' a D. destruct (K a D) as [S E]. destruct (K' a (deep_keeps _ _ _ _ _ _ K D)) as [S' E']. split; [|congruence].
  intros n x En. destruct (S n x En) as (m & Em). apply (S' m x Em).
Qed.
Lemma keeps_sub R R' h G h' G' : (forall b, occ b R' <= occ b R) -> keeps R h G h' G' -> keeps R' h G h' G'.
Proof. intros L K a D. apply K. apply (deep_sub _ _ _ _ L D). Qed.
Lemma same_cell_refl h a : same_cell h h a.
Proof. intros n x E. now exists n. Qed.
Lemma same_cell_upd h b e n x a : nth_error h b = Some (Some (n, x)) ->
  (a = b -> exists m, e = Some (m, x)) -> same_cell h (upd b e h) a.
Proof.
  intros E H m y Ey. destruct (Nat.eq_dec b a) as [->|N].
  - destruct (H eq_refl) as (k & ->). exists k. rewrite (nth_upd_eq _ _ _ _ E). congruence.
  - exists m. now rewrite nth_upd_neq.
Qed.
Lemma stp_refl R h G : stp R h G h G.
Proof. split; auto using ext_refl, keeps_refl. Qed.
Lemma stp_trans R h G h1 G1 h2 G2 : stp R h G h1 G1 -> stp R h1 G1 h2 G2 -> stp R h G h2 G2.
Proof.
  intros (E & P & S) (E' & P' & S'). split; [|split].
  - intros a Ha. rewrite (E' a Ha). auto.
  - intros a Ha K C. apply P'; auto. now rewrite (E a Ha).
  - apply (keeps_trans _ _ _ _ _ _ _ S S').
Qed.

Definition wp {A} (m : M A) (R : list item) (Q : A -> heap -> ghost -> Prop) (h : heap) (G : ghost) : Prop :=
  exists a h' G', m h = Done (a, h') /\ stp R h G h' G' /\ Q a h' G'.

Lemma wp_ret {A} (a : A) R (Q : A -> heap -> ghost -> Prop) h G : Q a h G -> wp (ret a) R Q h G.
Proof. intros H. exists a, h, G. split; [reflexivity|]. split; [apply stp_refl|exact H]. Qed.
Lemma wp_bind {A B} (m : M A) (k : A -> M B) R Q Q' h G :
  wp m R Q h G -> (forall a h' G', Q a h' G' -> wp (k a) R Q' h' G') -> wp (mbind m k) R Q' h G.
Proof.
  intros (a & h' & G' & E & S1 & HQ) K. destruct (K _ _ _ HQ) as (b & h2 & G2 & E2 & S2 & HQ2).
  exists b, h2, G2. unfold mbind. rewrite E. split; [exact E2|]. split; [|exact HQ2].
  apply (stp_trans _ _ _ _ _ _ _ S1 S2).
Qed.
Lemma wp_weaken {A} (m : M A) R (Q Q' : A -> heap -> ghost -> Prop) h G :
  wp m R Q h G -> (forall a h' G', Q a h' G' -> Q' a h' G') -> wp m R Q' h G.
Proof. intros (a & h' & G' & E & S1 & HQ) K. exists a, h', G'. auto. Qed.
(** Use a bigger frame; what that frame tells is kept. *)
Lemma wp_frame {A} (m : M A) Z R1 R (Q : A -> heap -> ghost -> Prop) h G :
  inv h G Z -> (forall a, occ a R1 <= occ a Z) -> (forall a, occ a R <= occ a R1) ->
  wp m R1 Q h G -> wp m R (fun a h' G' => Q a h' G' /\ stp R1 h G h' G') h G.
Proof.
  intros I L1 L2 (a & h' & G' & E & S1 & HQ). exists a, h', G'. split; [exact E|].
  split; [|auto]. destruct S1 as (X & P & S). split; [|split].
  - intros b Hb. apply X. specialize (L2 b). lia.
  - intros b Hb K C. pose proof (i_cnt _ _ _ I b) as D. specialize (L1 b). specialize (L2 b).
    assert (occ b R1 = occ b R) as U by lia. rewrite <- U. apply P; try lia. exact K.
  - apply (keeps_sub _ _ _ _ _ _ L2 S).
Qed.

(** ** The primitives *)
Lemma total_upd h a e old : nth_error h a = Some old -> total (upd a e h) + count_of old = total h + count_of e.
Proof. apply sum_upd. Qed.
Lemma total_cnt h a : cnt h a <= total h.
Proof.
  unfold cnt. destruct (nth_error h a) as [[[n x]|]|] eqn:E; try lia.
  apply (sum_nth count_of _ _ _ E).
Qed.

Lemma drop_items_ok G R : forall fuel l h, inv h G (l ++ R) -> total h <= fuel ->
  exists h', drop_items fuel l h = Done (tt, h') /\ inv h' G R /\ (forall a, cnt h' a <= cnt h a) /\
    keeps R h G h' G.
Proof.
  induction fuel as [|fuel IH]; intros l h I F.
  - destruct l as [|[k w] l]; [exists h; cbn in *; auto using keeps_refl|].
    exfalso. pose proof (i_root _ _ _ I) as It. cbn in It. apply Forall_inv in It.
    destruct It as (a & Ew & _). cbn in Ew. subst w.
    pose proof (i_cnt _ _ _ I a) as C. cbn in C. rewrite Nat.eqb_refl in C.
    pose proof (total_cnt h a). lia.
  - destruct l as [|[k w] l]; [exists h; cbn in *; auto using keeps_refl|].
    pose proof (i_root _ _ _ I) as It. cbn in It. apply Forall_inv in It.
    destruct It as (a & Ew & Ek). cbn in Ew, Ek. subst w.
    destruct (inv_live _ _ _ a I) as (n & x & E & Hn & Hg).
    { left. cbn. rewrite Nat.eqb_refl. lia. }
    cbn [drop_items]. rewrite E.
    assert (same_kind k x = true) as ->.
    { destruct x, (G a), k; cbn in *; try tauto; try congruence. }
    destruct (Nat.eqb_spec n 1) as [->|N1].
    + destruct (IH (cell_items x ++ l) (upd a None h)) as (h' & D & I' & L & SC).
      * constructor.
        -- intros b. pose proof (i_cnt _ _ _ I b) as C.
           pose proof (occ_heap_upd b a None _ h E) as U. cbn [occ_entry] in U.
           rewrite <- !app_assoc, occ_app. cbn [app occ] in C. destruct (Nat.eq_dec a b) as [Eb|Nb].
           ++ subst b. rewrite Nat.eqb_refl in C. rewrite (cnt_upd_eq _ _ _ _ E). cbn [count_of]. unfold cnt in C. rewrite E in C. lia.
           ++ rewrite (cnt_upd_neq _ _ _ _ Nb). apply Nat.eqb_neq in Nb. rewrite Nb in C. lia.
        -- intros b m y Hb. destruct (Nat.eq_dec a b) as [<-|Nb].
           ++ rewrite (nth_upd_eq _ _ _ _ E) in Hb. congruence.
           ++ rewrite nth_upd_neq in Hb by exact Nb. apply (i_cell _ _ _ I _ _ _ Hb).
        -- rewrite <- app_assoc, Forall_app. split; [apply (grep_items _ _ _ Hg)|].
           pose proof (i_root _ _ _ I) as It. cbn in It. now apply Forall_inv_tail in It.
      * pose proof (total_upd h a None _ E) as T. cbn [count_of] in T. lia.
      * exists h'. split; [exact D|]. split; [exact I'|]. split.
        2:{ refine (keeps_trans _ _ _ _ _ _ _ _ SC). intros b Db. split; [|reflexivity].
            apply (same_cell_upd _ _ _ _ _ _ E). intros ->. exfalso. apply deep_occ in Db.
            pose proof (i_cnt _ _ _ I a) as Ci. rewrite occ_app in Ci. cbn [occ] in Ci. rewrite Nat.eqb_refl in Ci.
            unfold cnt in Ci. rewrite E in Ci. lia. }
        intros b. specialize (L b).
        destruct (Nat.eq_dec a b) as [<-|Nb].
        -- rewrite (cnt_upd_eq _ _ _ _ E) in L. cbn in L. lia.
        -- rewrite cnt_upd_neq in L by exact Nb. exact L.
    + destruct (IH l (upd a (Some (n - 1, x)) h)) as (h' & D & I' & L & SC).
      * constructor.
        -- intros b. pose proof (i_cnt _ _ _ I b) as C.
           pose proof (occ_heap_upd b a (Some (n - 1, x)) _ h E) as U. cbn [occ_entry] in U.
           cbn [app occ] in C. destruct (Nat.eq_dec a b) as [Eb|Nb].
           ++ subst b. rewrite Nat.eqb_refl in C. rewrite (cnt_upd_eq _ _ _ _ E). cbn [count_of]. unfold cnt in C. rewrite E in C. lia.
           ++ rewrite (cnt_upd_neq _ _ _ _ Nb). apply Nat.eqb_neq in Nb. rewrite Nb in C. lia.
        -- intros b m y Hb. destruct (Nat.eq_dec a b) as [<-|Nb].
           ++ rewrite (nth_upd_eq _ _ _ _ E) in Hb.
              assert (m = n - 1 /\ y = x) as [-> ->] by (split; congruence). split; [lia|exact Hg].
           ++ rewrite nth_upd_neq in Hb by exact Nb. apply (i_cell _ _ _ I _ _ _ Hb).
        -- pose proof (i_root _ _ _ I) as It. cbn in It. now apply Forall_inv_tail in It.
      * pose proof (total_upd h a (Some (n - 1, x)) _ E) as T. cbn [count_of] in T. lia.
      * exists h'. split; [exact D|]. split; [exact I'|]. split.
        2:{ refine (keeps_trans _ _ _ _ _ _ _ _ SC). intros b Db. split; [|reflexivity].
            apply (same_cell_upd _ _ _ _ _ _ E). intros _. eauto. }
        intros b. specialize (L b).
        destruct (Nat.eq_dec a b) as [<-|Nb].
        -- rewrite (cnt_upd_eq _ _ _ _ E) in L. cbn in L. unfold cnt at 2. rewrite E. lia.
        -- rewrite cnt_upd_neq in L by exact Nb. exact L.
Qed.

Lemma wp_drop l R h G : inv h G (l ++ R) ->
  wp (drop l) R (fun _ h' G' => G' = G /\ inv h' G R /\ forall a, cnt h' a <= cnt h a) h G.
Proof.
  intros I. destruct (drop_items_ok G R (total h) l h I (le_n _)) as (h' & D & I' & L & SC).
  exists tt, h', G. split; [exact D|]. split; [|auto]. split; [apply ext_refl|]. split; [|exact SC].
  intros a Ha _ C. pose proof (i_cnt _ _ _ I' a). specialize (L a). lia.
Qed.

Lemma occ_fresh h G R : inv h G R -> occ (length h) R = 0 /\ occ_heap (length h) h = 0.
Proof.
  intros I. pose proof (i_cnt _ _ _ I (length h)) as C. unfold cnt in C.
  assert (nth_error h (length h) = None) as E by (apply nth_error_None; lia). rewrite E in C. lia.
Qed.

Lemma wp_new x g R h G : inv h G (cell_items x ++ R) -> grep G x g ->
  wp (arc_new x) R (fun a h' G' =>
    G' = gset G a g /\ inv h' G' ((gkind g, Ptr a) :: R) /\ cnt h' a = 1 /\
    (forall b, 0 < occ b (cell_items x ++ R) -> b <> a)) h G.
Proof.
  intros I Hg. destruct (occ_fresh _ _ _ I) as [F1 F2].
  assert (forall b, 0 < occ b (cell_items x ++ R) -> b <> length h) as Fr.
  { intros b Hb ->. lia. }
  assert (forall b, 0 < occ_heap b h -> b <> length h) as Fh.
  { intros b Hb ->. lia. }
  exists (length h), (h ++ [Some (1, x)]), (gset G (length h) g).
  split; [reflexivity|]. rewrite occ_app in F1.
  assert (forall b, cnt (h ++ [Some (1, x)]) b = cnt h b + (if length h =? b then 1 else 0)) as Cn.
  { intros b. unfold cnt. destruct (Nat.ltb_spec b (length h)) as [L|L].
    - rewrite nth_error_app1 by exact L. destruct (Nat.eqb_spec (length h) b); [lia|].
      destruct (nth_error h b) as [[[? ?]|]|]; lia.
    - rewrite nth_error_app2 by exact L. assert (nth_error h b = None) as -> by (apply nth_error_None; lia).
      destruct (Nat.eqb_spec (length h) b) as [<-|Nb]; [now rewrite Nat.sub_diag|].
      destruct (b - length h) as [|m] eqn:Em; [lia|]. cbn. now destruct m. }
  assert (forall b, occ_heap b (h ++ [Some (1, x)]) = occ_heap b h + occ b (cell_items x)) as On.
  { intros b. unfold occ_heap. rewrite map_app, list_sum_app. cbn. lia. }
  split; [|split; [reflexivity|split; [|split; [|exact Fr]]]].
  - split; [|split].
    + intros b Hb. apply gset_neq, Fr. rewrite occ_app. lia.
    + intros b Hb _ C. rewrite Cn, C. destruct (Nat.eqb_spec (length h) b) as [<-|]; lia.
    + intros b Db. split.
      * intros n y Ey. exists n. rewrite nth_error_app1; [exact Ey|]. apply nth_error_Some. congruence.
      * apply deep_occ in Db. apply gset_neq. destruct Db as [Db|Db]; [apply Fr; rewrite occ_app; lia|now apply Fh].
  - constructor.
    + intros b. rewrite Cn, On, (i_cnt _ _ _ I b), occ_app. cbn [occ]. lia.
    + intros b n y Hb. destruct (Nat.ltb_spec b (length h)) as [L|L].
      * rewrite nth_error_app1 in Hb by exact L. destruct (i_cell _ _ _ I _ _ _ Hb) as [Hn Hy].
        split; [exact Hn|]. rewrite gset_neq by lia. apply (grep_ext _ _ _ _ Hy).
        intros c Hc. apply gset_neq, Fh. pose proof (occ_heap_nth c _ _ _ _ Hb). lia.
      * rewrite nth_error_app2 in Hb by exact L.
        destruct (b - length h) as [|m] eqn:Em; cbn in Hb; [|now destruct m].
        assert (b = length h) as -> by lia. assert (n = 1 /\ y = x) as [-> ->] by (split; congruence).
        split; [lia|]. rewrite gset_eq. apply (grep_ext _ _ _ _ Hg).
        intros c Hc. apply gset_neq, Fr. rewrite occ_app. lia.
    + constructor; [exists (length h); cbn; now rewrite gset_eq|].
      pose proof (i_root _ _ _ I) as Rt. rewrite Forall_app in Rt. destruct Rt as [_ Rt].
      rewrite Forall_forall in *. intros [k w] Hin. destruct (Rt _ Hin) as (b & Eb & Kb). cbn in Eb. subst w.
      exists b. split; [reflexivity|]. rewrite gset_neq; [exact Kb|]. apply Fr. rewrite occ_app.
      pose proof (occ_in _ _ _ Hin). lia.
  - rewrite Cn, Nat.eqb_refl. unfold cnt.
    assert (nth_error h (length h) = None) as -> by (apply nth_error_None; lia). reflexivity.
Qed.

Lemma wp_arc_clone a k Z R h G : inv h G Z -> 0 < cnt h a -> gkind (G a) = k ->
  (gkind (G a) = NodesK -> occ a R < cnt h a) ->
  wp (arc_clone (Ptr a)) R (fun _ h' G' => G' = G /\ inv h' G ((k, Ptr a) :: Z) /\
    (forall b, cnt h b <= cnt h' b)) h G.
Proof.
  intros I Hc Hk Hp. unfold cnt in Hc. destruct (nth_error h a) as [[[n x]|]|] eqn:E; try lia.
  exists tt, (upd a (Some (S n, x)) h), G. split.
  { unfold arc_clone, mbind, arc_get. now rewrite E. }
  assert (forall b, cnt (upd a (Some (S n, x)) h) b = cnt h b + (if a =? b then 1 else 0)) as Cn.
  { intros b. destruct (Nat.eqb_spec a b) as [<-|Nb].
    - rewrite (cnt_upd_eq _ _ _ _ E). unfold cnt. rewrite E. cbn. lia.
    - rewrite cnt_upd_neq by exact Nb. lia. }
  split; [|split; [reflexivity|split]].
  - split; [apply ext_refl|]. split; [|intros b _; split; [apply (same_cell_upd _ _ _ _ _ _ E); eauto|reflexivity]].
    intros b Hb Kb C. rewrite Cn. destruct (Nat.eqb_spec a b) as [<-|Nb]; [|lia].
    exfalso. specialize (Hp Kb). lia.
  - constructor.
    + intros b. rewrite Cn. pose proof (occ_heap_upd b a (Some (S n, x)) _ h E) as U. cbn [occ_entry] in U.
      pose proof (i_cnt _ _ _ I b). cbn [occ]. lia.
    + intros b m y Hb. destruct (Nat.eq_dec a b) as [<-|Nb].
      * rewrite (nth_upd_eq _ _ _ _ E) in Hb.
        assert (m = S n /\ y = x) as [-> ->] by (split; congruence). split; [lia|].
        apply (i_cell _ _ _ I _ _ _ E).
      * rewrite nth_upd_neq in Hb by exact Nb. apply (i_cell _ _ _ I _ _ _ Hb).
    + constructor; [exists a; auto|apply (i_root _ _ _ I)].
  - intros b. rewrite Cn. lia.
Qed.

(** ** Blobs *)
Definition word_items (d : bytes) (w : word) : list item :=
  if PTR_SIZE <? length d then [(BytesK, w)] else [].
Lemma brep_word_items G h w b : brep G h w b -> field_items BytesK h w = word_items (blob_slice b) w.
Proof. intros H. unfold field_items, word_items. now rewrite (brep_arc _ _ _ _ H). Qed.

Lemma wp_blob_word d R h G : inv h G R ->
  wp (blob_word d) R (fun w h' G' => wrep G' d w /\ inv h' G' (word_items d w ++ R)) h G.
Proof.
  intros I. unfold blob_word, wrep, word_items. destruct (PTR_SIZE <? length d).
  - eapply wp_bind; [apply (wp_new (CBytes d) (GB d)); [exact I|reflexivity]|].
    cbn beta. intros a h' G' (-> & I' & _). apply wp_ret. split; [|exact I'].
    exists a. now rewrite gset_eq.
  - now apply wp_ret.
Qed.

Definition live (h : heap) (l : list item) : Prop := forall a, 0 < occ a l -> 0 < cnt h a.
Lemma inv_live_roots h G R l : inv h G R -> (forall a, occ a l <= occ a R) -> live h l.
Proof. intros I H a Ha. pose proof (i_cnt _ _ _ I a). specialize (H a). lia. Qed.
Lemma inv_live_cell h G R a n x : inv h G R -> nth_error h a = Some (Some (n, x)) -> live h (cell_items x).
Proof.
  intros I E b Hb. pose proof (i_cnt _ _ _ I b). pose proof (occ_heap_nth b _ _ _ _ E). lia.
Qed.
Lemma live_app h l l' : live h (l ++ l') <-> live h l /\ live h l'.
Proof.
  unfold live. split.
  - intros H. split; intros a Ha; apply H; rewrite occ_app; lia.
  - intros [H H'] a. rewrite occ_app. intros Ha. destruct (occ a l) eqn:E; [apply H'|apply H]; lia.
Qed.

Lemma pad_firstn d : length d <= PTR_SIZE -> firstn (length d) (pad d) = d.
Proof. intros H. unfold pad. now rewrite firstn_app, Nat.sub_diag, firstn_all, app_nil_r. Qed.

Lemma blob_read_ok G R h hdr w b : inv h G R -> brep G hdr w b -> live h (field_items BytesK hdr w) ->
  blob_read hdr w h = Done (blob_slice b, h).
Proof.
  intros I H L. pose proof (brep_arc _ _ _ _ H) as A. unfold field_items in L.
  unfold blob_read. rewrite A in *. destruct H as [Hh W]. unfold wrep in W.
  destruct (Nat.ltb_spec PTR_SIZE (length (blob_slice b))) as [Hl|Hl].
  - destruct W as (a & -> & E).
    assert (0 < cnt h a) as C. { apply L. cbn. rewrite Nat.eqb_refl. lia. }
    unfold cnt in C. destruct (nth_error h a) as [[[n x]|]|] eqn:En; try lia.
    destruct (i_cell _ _ _ I _ _ _ En) as [_ Hg]. rewrite E in Hg. destruct x; cbn in Hg; [|tauto]. subst.
    unfold mbind, arc_get. rewrite En. reflexivity.
  - subst w. unfold ret. do 2 f_equal.
    assert (hdr_len hdr = length (blob_slice b)) as ->.
    { destruct b as [d|d]; cbn [blob_slice] in *.
      - subst hdr. rewrite data_len. destruct (Nat.leb_spec (length d) 127); [reflexivity|].
        unfold PTR_SIZE in Hl. lia.
      - apply (proj1 (id_len _ _ Hh)). }
    now apply pad_firstn.
Qed.

Definition above (R : list item) (G : ghost) (h : heap) (l : list item) : Prop :=
  forall a, 0 < occ a l -> gkind (G a) = NodesK -> occ a R < cnt h a.

Lemma wp_word_clone k hdr w Z R h G : inv h G Z -> Forall (item_ok G) (field_items k hdr w) ->
  (is_arc hdr = false -> exists b, w = Inline b) ->
  live h (field_items k hdr w) -> above R G h (field_items k hdr w) ->
  wp (word_clone hdr w) R (fun w' h' G' => w' = w /\ G' = G /\ inv h' G (field_items k hdr w ++ Z) /\
    (forall b, cnt h b <= cnt h' b)) h G.
Proof.
  intros I It Hi L A. unfold word_clone, field_items in *. destruct (is_arc hdr).
  - apply Forall_inv in It. destruct It as (a & Ew & Ek). cbn in Ew, Ek. subst w.
    assert (0 < occ a [(k, Ptr a)]) as O. { cbn. rewrite Nat.eqb_refl. lia. }
    eapply wp_bind; [apply (wp_arc_clone a k Z R); auto|].
    cbn beta. intros _ h' G' (-> & I' & Mo). apply wp_ret. auto.
  - destruct (Hi eq_refl) as [b ->]. apply wp_ret. auto.
Qed.

Lemma brep_inline G hdr w b : brep G hdr w b -> is_arc hdr = false -> exists d, w = Inline d.
Proof.
  intros H A. rewrite (brep_arc _ _ _ _ H) in A. destruct H as [_ W]. unfold wrep in W. rewrite A in W. eauto.
Qed.
Lemma krep_inline G hdr w k : krep G hdr w k -> is_arc hdr = false -> exists d, w = Inline d.
Proof.
  destruct k as [ns|id]; cbn [krep]; [|apply brep_inline].
  intros (-> & _) A. discriminate A.
Qed.

Lemma above_mono R G h h' l : (forall b, cnt h b <= cnt h' b) -> above R G h l -> above R G h' l.
Proof. intros H A a Ha K. specialize (A a Ha K). specialize (H a). lia. Qed.
Lemma live_mono h h' l : (forall b, cnt h b <= cnt h' b) -> live h l -> live h' l.
Proof. intros H A a Ha. specialize (A a Ha). specialize (H a). lia. Qed.
Lemma above_app R G h l l' : above R G h (l ++ l') <-> above R G h l /\ above R G h l'.
Proof.
  unfold above. split.
  - intros H. split; intros a Ha; apply H; rewrite occ_app; lia.
  - intros [H H'] a. rewrite occ_app. intros Ha. destruct (occ a l) eqn:E; [apply H'|apply H]; lia.
Qed.

Lemma cnode_eta c : CNode (c_ph c) (c_vh c) (c_ch c) (c_p c) (c_v c) (c_c c) = c.
Proof. now destruct c. Qed.

Lemma wp_clone c n Z R h G : inv h G Z -> crep G c n -> live h (node_items c) -> above R G h (node_items c) ->
  wp (h_clone c) R (fun c' h' G' => c' = c /\ G' = G /\ inv h' G (node_items c ++ Z) /\
    (forall b, cnt h b <= cnt h' b)) h G.
Proof.
  intros I C L A. pose proof (crep_items _ _ _ C) as It. destruct C as (P & V & K).
  unfold node_items in It, L, A. rewrite !Forall_app in It. rewrite !live_app in L. rewrite !above_app in A.
  destruct It as (I1 & I2 & I3), L as (L1 & L2 & L3), A as (A1 & A2 & A3). unfold h_clone.
  eapply wp_bind; [apply (wp_word_clone BytesK _ _ Z R); eauto using brep_inline|].
  cbn beta. intros w1 h1 G1 (-> & -> & J1 & M1).
  eapply wp_bind; [apply (wp_word_clone BytesK _ _ _ R h1 G J1); eauto using brep_inline, live_mono, above_mono|].
  cbn beta. intros w2 h2 G2 (-> & -> & J2 & M2).
  assert (forall b, cnt h b <= cnt h2 b) as M12 by (intros b; specialize (M1 b); specialize (M2 b); lia).
  eapply wp_bind; [apply (wp_word_clone (kids_kind (c_ch c)) _ _ _ R h2 G J2);
    eauto using krep_inline, live_mono, above_mono|].
  cbn beta. intros w3 h3 G3 (-> & -> & J3 & M3). apply wp_ret. rewrite cnode_eta.
  split; [reflexivity|]. split; [reflexivity|]. split.
  - unfold node_items. apply (inv_perm _ _ _ _ J3); [occ_solve|incl_solve].
  - intros b. specialize (M12 b). specialize (M3 b). lia.
Qed.

Lemma wp_clones cs : forall ns Z R h G, inv h G Z -> Forall2 (crep G) cs ns ->
  live h (flat_map node_items cs) -> above R G h (flat_map node_items cs) ->
  wp (h_clones cs) R (fun cs' h' G' => cs' = cs /\ G' = G /\ inv h' G (flat_map node_items cs ++ Z) /\
    (forall b, cnt h b <= cnt h' b)) h G.
Proof.
  induction cs as [|c cs IH]; intros ns Z R h G I C L A.
  - apply wp_ret. cbn. auto.
  - inversion C as [|? n ? ns' C1 C2]; subst. cbn [flat_map] in *. rewrite live_app in L. rewrite above_app in A.
    destruct L as [L1 L2], A as [A1 A2]. cbn [h_clones].
    eapply wp_bind; [apply (wp_clone c n Z R h G I C1 L1 A1)|].
    cbn beta. intros c' h1 G1 (-> & -> & J1 & M1).
    eapply wp_bind; [apply (IH ns' _ R h1 G J1 C2 (live_mono _ _ _ M1 L2) (above_mono _ _ _ _ _ M1 A2))|].
    cbn beta. intros cs' h2 G2 (-> & -> & J2 & M2). apply wp_ret.
    split; [reflexivity|]. split; [reflexivity|]. split.
    + apply (inv_perm _ _ _ _ J2); [occ_solve|incl_solve].
    + intros b. specialize (M1 b). specialize (M2 b). lia.
Qed.

(** ** Vectors of children *)
Lemma h_children_ok G R h c n : inv h G R -> crep G c n -> live h (node_items c) ->
  match n_kids n with
  | KId id => h_children c h = Done (RId id, h)
  | KArc ns => exists a, c_c c = Ptr a /\ G a = GN ns /\ h_children c h = Done (RArc a, h)
  end.
Proof.
  intros I (P & V & K) L. unfold node_items in L. rewrite !live_app in L. destruct L as (_ & _ & L).
  unfold h_children. destruct (n_kids n) as [ns|id]; cbn [krep] in K.
  - destruct K as (E & a & -> & Ea). rewrite E. exists a. auto.
  - pose proof (brep_is_id _ _ _ _ K) as Hi. cbn in Hi. rewrite Hi. unfold kids_kind in L. rewrite Hi in L.
    unfold mbind. now rewrite (blob_read_ok _ _ _ _ _ _ I K L).
Qed.
Lemma vec_get_ok G R h a ns : inv h G R -> 0 < cnt h a -> G a = GN ns ->
  exists m cs, nth_error h a = Some (Some (m, CNodes cs)) /\ m = cnt h a /\
    vec_get a h = Done (cs, h) /\ Forall2 (crep G) cs ns.
Proof.
  intros I C E. unfold cnt in *. destruct (nth_error h a) as [[[m x]|]|] eqn:En; try lia.
  destruct (i_cell _ _ _ I _ _ _ En) as [_ Hg]. rewrite E in Hg. destruct x as [b|cs]; cbn in Hg; [tauto|].
  exists m, cs. unfold vec_get, mbind, arc_get. rewrite En. auto.
Qed.

Lemma p_with_c c h w : p_items (with_c c h w) = p_items c. Proof. reflexivity. Qed.
Lemma v_with_c c h w : v_items (with_c c h w) = v_items c. Proof. reflexivity. Qed.
Lemma p_with_v c h w : p_items (with_v c h w) = p_items c. Proof. reflexivity. Qed.
Lemma c_with_v c h w : c_items (with_v c h w) = c_items c. Proof. reflexivity. Qed.
Lemma v_with_p c h w : v_items (with_p c h w) = v_items c. Proof. reflexivity. Qed.
Lemma c_with_p c h w : c_items (with_p c h w) = c_items c. Proof. reflexivity. Qed.
Lemma p_with_p c h w : p_items (with_p c h w) = field_items BytesK h w. Proof. reflexivity. Qed.
Lemma v_with_v c h w : v_items (with_v c h w) = field_items BytesK h w. Proof. reflexivity. Qed.
Lemma c_with_c c h w : c_items (with_c c h w) = field_items (kids_kind h) h w. Proof. reflexivity. Qed.
Ltac flds := rewrite ?p_with_c, ?v_with_c, ?p_with_v, ?c_with_v, ?v_with_p, ?c_with_p, ?p_with_p, ?v_with_v, ?c_with_c.
Lemma node_items_split c : node_items c = p_items c ++ v_items c ++ c_items c.
Proof. reflexivity. Qed.
Lemma node_items_arc c a : c_ch c = hdr_data 127 -> c_c c = Ptr a ->
  node_items c = p_items c ++ v_items c ++ [(NodesK, Ptr a)].
Proof. intros E F. unfold node_items, p_items, v_items. now rewrite E, F. Qed.

(** The children of [c] are the vector at [a], and only [c] refers to it. *)
Definition uniq (h : heap) (c : cnode) (a : addr) : Prop :=
  c_ch c = hdr_data 127 /\ c_c c = Ptr a /\ cnt h a = 1.

Lemma wp_make_mut c n ns R h G : inv h G (node_items c ++ R) -> crep G c n -> n_kids n = KArc ns ->
  wp (h_make_mut c) R (fun m h' G' => inv h' G' (node_items (fst m) ++ R) /\ crep G' (fst m) n /\
    uniq h' (fst m) (snd m)) h G.
Proof.
  intros I C E.
  assert (live h (node_items c)) as L. { apply (inv_live_roots _ _ _ _ I). occ_solve. }
  pose proof (h_children_ok _ _ _ _ _ I C L) as K. rewrite E in K. destruct K as (a & Ec & Ga & K).
  assert (c_ch c = hdr_data 127) as Hh. { destruct C as (_ & _ & C). rewrite E in C. now destruct C. }
  assert (0 < cnt h a) as Ca.
  { apply L. rewrite (node_items_arc c a Hh Ec), !occ_app. cbn. rewrite Nat.eqb_refl. lia. }
  destruct (vec_get_ok _ _ _ _ _ I Ca Ga) as (m & cs & En & Em & _ & Hcs).
  unfold h_make_mut, wp, mbind. rewrite K. unfold arc_get at 1. rewrite En. cbn [fst snd].
  destruct (Nat.eqb_spec m 1) as [E1|E1].
  - exists (c, a), h, G. split; [reflexivity|]. split; [apply stp_refl|]. cbn [fst snd].
    split; [exact I|]. split; [exact C|]. repeat split; auto; lia.
  - assert (wp (cs' <! h_clones cs ;; b <! arc_new (CNodes cs') ;; _ <! drop [(NodesK, Ptr a)] ;;
       ret (with_c c (c_ch c) (Ptr b), b)) R (fun m h' G' => inv h' G' (node_items (fst m) ++ R) /\
         crep G' (fst m) n /\ uniq h' (fst m) (snd m)) h G) as W; [|exact W].
    eapply wp_bind.
    { apply (wp_clones cs ns (node_items c ++ R) R h G I Hcs (inv_live_cell _ _ _ _ _ _ I En)).
      intros b Hb _. pose proof (i_cnt _ _ _ I b) as Cb. rewrite occ_app in Cb.
      pose proof (occ_heap_nth b _ _ _ _ En) as Ob. cbn [cell_items] in Ob. lia. }
    cbn beta. intros cs' h1 G1 (-> & -> & I1 & M1).
    eapply wp_bind.
    { eapply (wp_frame _ _ (node_items c ++ R) R _ h1 G I1); [occ_solve|occ_solve|].
      apply (wp_new (CNodes cs) (GN ns)); [exact I1|exact Hcs]. }
    cbn beta. intros b h2 G2 ((-> & I2 & C2 & F2) & X2 & _). cbn [gkind] in I2.
    assert (b <> a) as Nb.
    { intros ->. apply (F2 a); [|reflexivity]. rewrite !occ_app, (node_items_arc c a Hh Ec), !occ_app.
      cbn. rewrite Nat.eqb_refl. lia. }
    eapply wp_bind.
    { eapply (wp_frame _ _ ((NodesK, Ptr b) :: p_items c ++ v_items c ++ R) R _ h2 _ I2).
      - rewrite (node_items_arc c a Hh Ec). occ_solve.
      - occ_solve.
      - apply wp_drop. rewrite (node_items_arc c a Hh Ec) in I2. rearr I2. }
    cbn beta. intros _ h3 G3 ((-> & I3 & M3) & _). apply wp_ret. cbn [fst snd].
    assert (uniq h3 (with_c c (c_ch c) (Ptr b)) b) as U.
    { split; [exact Hh|]. split; [reflexivity|]. pose proof (i_cnt _ _ _ I3 b) as C3. specialize (M3 b).
      rewrite C2 in M3. cbn [occ] in C3. rewrite Nat.eqb_refl in C3. lia. }
    split; [|split; [|exact U]].
    + rewrite (node_items_arc (with_c c (c_ch c) (Ptr b)) b Hh eq_refl). flds. rearr I3.
    + rewrite ext_app in X2. destruct X2 as [X2 _].
      pose proof (crep_ext _ _ _ _ C X2) as (P & V & Kk). split; [exact P|]. split; [exact V|].
      rewrite E in *. destruct Kk as (_ & _). split; [exact Hh|]. exists b. split; [reflexivity|]. apply gset_eq.
Qed.

Lemma wp_vec_take a ns R h G : inv h G ((NodesK, Ptr a) :: R) -> cnt h a = 1 -> G a = GN ns ->
  wp (vec_take a) R (fun cs h' G' => Forall2 (crep G') cs ns /\
    inv h' G' ((NodesK, Ptr a) :: flat_map node_items cs ++ R) /\ G' a = GN [] /\ cnt h' a = 1) h G.
Proof.
  intros I C E. assert (0 < cnt h a) as C0 by lia. destruct (vec_get_ok _ _ _ _ _ I C0 E) as (m & cs & En & Em & _ & Hcs).
  rewrite C in Em. subst m.
  exists cs, (upd a (Some (1, CNodes [])) h), (gset G a (GN [])). split.
  { unfold vec_take, mbind, arc_get. now rewrite En. }
  pose proof (i_cnt _ _ _ I a) as Ca. cbn [occ] in Ca. rewrite Nat.eqb_refl in Ca.
  assert (occ a R = 0 /\ occ_heap a h = 0) as [OR OH] by lia.
  assert (forall b, cnt (upd a (Some (1, CNodes [])) h) b = cnt h b) as Cn.
  { intros b. destruct (Nat.eq_dec a b) as [<-|Nb].
    - rewrite (cnt_upd_eq _ _ _ _ En). cbn. lia.
    - now rewrite cnt_upd_neq. }
  assert (forall x m b, nth_error h b = Some (Some (m, x)) -> ext G (gset G a (GN [])) (cell_items x)) as Ex.
  { intros x m b Eb d Hd. apply gset_neq. intros ->. pose proof (occ_heap_nth a _ _ _ _ Eb). lia. }
  split; [|split; [|split; [|split]]].
  - split; [|split].
    + intros b Hb. apply gset_neq. intros ->. lia.
    + intros b _ _ Hb. now rewrite Cn.
    + intros b Db. apply deep_occ in Db. split; [apply (same_cell_upd _ _ _ _ _ _ En); intros ->; lia|].
      apply gset_neq. intros ->. lia.
  - apply (creps_ext _ _ _ _ Hcs). apply (Ex _ _ _ En).
  - constructor.
    + intros b. rewrite Cn, (i_cnt _ _ _ I b).
      pose proof (occ_heap_upd b a (Some (1, CNodes [])) _ h En) as U. cbn [occ_entry cell_items flat_map occ] in U.
      cbn [occ]. rewrite occ_app. lia.
    + intros b m x Hb. destruct (Nat.eq_dec a b) as [<-|Nb].
      * rewrite (nth_upd_eq _ _ _ _ En) in Hb. assert (m = 1 /\ x = CNodes []) as [-> ->] by (split; congruence).
        rewrite gset_eq. split; [lia|]. constructor.
      * rewrite nth_upd_neq in Hb by exact Nb. destruct (i_cell _ _ _ I _ _ _ Hb) as [Hm Hx].
        split; [exact Hm|]. rewrite gset_neq by congruence. apply (grep_ext _ _ _ _ Hx (Ex _ _ _ Hb)).
    + pose proof (i_root _ _ _ I) as Rt. apply Forall_inv_tail in Rt.
      constructor; [exists a; cbn; now rewrite gset_eq|]. rewrite Forall_app. split.
      * apply (creps_items _ cs ns). apply (creps_ext _ _ _ _ Hcs). apply (Ex _ _ _ En).
      * rewrite Forall_forall in *. intros [k w] Hin. destruct (Rt _ Hin) as (b & Eb & Kb). cbn in Eb. subst w.
        exists b. split; [reflexivity|]. rewrite gset_neq; [exact Kb|]. intros ->.
        pose proof (occ_in _ _ _ Hin). lia.
  - apply gset_eq.
  - now rewrite Cn.
Qed.

Lemma wp_vec_put a cs ns R h G : inv h G ((NodesK, Ptr a) :: flat_map node_items cs ++ R) ->
  cnt h a = 1 -> G a = GN [] -> Forall2 (crep G) cs ns ->
  wp (vec_put a cs) R (fun _ h' G' => inv h' G' ((NodesK, Ptr a) :: R) /\ G' a = GN ns /\ cnt h' a = 1) h G.
Proof.
  intros I C E Hcs. assert (0 < cnt h a) as C0 by lia. destruct (vec_get_ok _ _ _ _ _ I C0 E) as (m & cs0 & En & Em & _ & H0).
  rewrite C in Em. subst m. inversion H0; subst.
  exists tt, (upd a (Some (1, CNodes cs)) h), (gset G a (GN ns)). split.
  { unfold vec_put, mbind, arc_get. now rewrite En. }
  pose proof (i_cnt _ _ _ I a) as Ca. cbn [occ] in Ca. rewrite occ_app, Nat.eqb_refl in Ca.
  assert (occ a R = 0 /\ occ_heap a h = 0 /\ occ a (flat_map node_items cs) = 0) as (OR & OH & OC) by lia.
  assert (forall b, cnt (upd a (Some (1, CNodes cs)) h) b = cnt h b) as Cn.
  { intros b. destruct (Nat.eq_dec a b) as [<-|Nb].
    - rewrite (cnt_upd_eq _ _ _ _ En). cbn. lia.
    - now rewrite cnt_upd_neq. }
  assert (forall x m b, nth_error h b = Some (Some (m, x)) -> ext G (gset G a (GN ns)) (cell_items x)) as Ex.
  { intros x m b Eb d Hd. apply gset_neq. intros ->. pose proof (occ_heap_nth a _ _ _ _ Eb). lia. }
  split; [|split; [|split]].
  - split; [|split].
    + intros b Hb. apply gset_neq. intros ->. lia.
    + intros b _ _ Hb. now rewrite Cn.
    + intros b Db. apply deep_occ in Db. split; [apply (same_cell_upd _ _ _ _ _ _ En); intros ->; lia|].
      apply gset_neq. intros ->. lia.
  - constructor.
    + intros b. rewrite Cn, (i_cnt _ _ _ I b).
      pose proof (occ_heap_upd b a (Some (1, CNodes cs)) _ h En) as U. cbn [occ_entry cell_items flat_map occ] in U.
      cbn [occ]. rewrite occ_app. lia.
    + intros b m x Hb. destruct (Nat.eq_dec a b) as [<-|Nb].
      * rewrite (nth_upd_eq _ _ _ _ En) in Hb. assert (m = 1 /\ x = CNodes cs) as [-> ->] by (split; congruence).
        rewrite gset_eq. split; [lia|]. apply (creps_ext _ _ _ _ Hcs).
        intros d Hd. apply gset_neq. intros ->. lia.
      * rewrite nth_upd_neq in Hb by exact Nb. destruct (i_cell _ _ _ I _ _ _ Hb) as [Hm Hx].
        split; [exact Hm|]. rewrite gset_neq by congruence. apply (grep_ext _ _ _ _ Hx (Ex _ _ _ Hb)).
    + pose proof (i_root _ _ _ I) as Rt. apply Forall_inv_tail in Rt. rewrite Forall_app in Rt.
      destruct Rt as [_ Rt]. constructor; [exists a; cbn; now rewrite gset_eq|].
      rewrite Forall_forall in *. intros [k w] Hin. destruct (Rt _ Hin) as (b & Eb & Kb). cbn in Eb. subst w.
      exists b. split; [reflexivity|]. rewrite gset_neq; [exact Kb|]. intros ->.
      pose proof (occ_in _ _ _ Hin). lia.
  - apply gset_eq.
  - now rewrite Cn.
Qed.
