(** Programs on several trees, on the heap: the values and what is freed. *)
From Verif Require Import Base BaseLemmas Header Node Combine Iter Api Spec Client Top TopOps Store Heap HeapSpec HeapProofs HeapOps HeapRun
  HeapTop HeapIter HeapTree HeapBorrow HeapMerge HeapClean HeapTreeOps HeapTreeRec HeapTreeOuter HeapJoinPure HeapJoin HeapFind HeapAsk HeapTreeMono HeapTreeSpec MemLemmas.
From Verif Require HeapIterProofs.

(** ** New trees *)
Lemma wpk_single k v R B h G : inv h G (R ++ B) -> wpk (h_single k v) R B (owned R B (n_single k v)) h G.
Proof.
  intros I. apply (wpk_owned _ []); [exact I|]. unfold h_single.
  eapply wp_bind; [apply (wp_set_p (Data k) (hdr_data (length k)) c_empty n_empty (R ++ B) h G eq_refl I (empty_crep G))|].
  cbn beta. intros c1 h1 G1 [I1 C1]. apply (wp_set_value (Some v) c1 _ (R ++ B) h1 G1 I1 C1).
Qed.
Lemma wpk_leaf v R B h G : inv h G (R ++ B) -> wpk (h_leaf v) R B (owned R B (n_leaf v)) h G.
Proof.
  intros I. apply (wpk_owned _ []); [exact I|]. apply (wp_set_value (Some v) c_empty n_empty (R ++ B) h G I (empty_crep G)).
Qed.
Lemma wpk_with_single P hrec prec k v n r c R h G : rec_ok P hrec prec -> prec n (ROwned (n_single k v)) = Ok r ->
  inv h G (node_items c ++ R ++ []) -> crep G c n ->
  wpk (h_with_single k v (hrec c)) R [] (npost R [] r (P n (n_single k v))) h G.
Proof.
  intros Hr E I C. unfold h_with_single.
  assert (inv h G ((node_items c ++ R) ++ [])) as J by rearr I.
  eapply wpk_bind.
  { eapply (wpk_frame _ _ (node_items c ++ R) R [] [] _ h G J); [occ_solve|occ_solve|occ_solve|].
    apply (wpk_single k v (node_items c ++ R) [] h G J). }
  cbn beta. intros s h1 G1 ([I1 C1] & X1 & _ & _) _. rewrite ext_app in X1.
  pose proof (crep_ext _ _ _ _ C (proj1 X1)) as C'.
  assert (inv h1 G1 (node_items c ++ R ++ node_items s)) as J1 by rearr I1.
  assert (bor h1 G1 (node_items s) s (n_single k v)) as Hb.
  { pose proof (bor_own h1 G1 [] s _ C1) as Hb. now rewrite app_nil_r in Hb. }
  eapply wpk_bind.
  { eapply (wpk_frame _ _ R R (node_items s) [] _ h1 G1 J1); [occ_solve|occ_solve|cbn; lia|].
    apply (Hr n _ r E R (node_items s) h1 G1 c s J1 C' Hb). }
  cbn beta. intros a h2 G2 ((lk & I2 & C2 & L2 & Z2) & _) _.
  assert (inv h2 G2 (node_items s ++ [] ++ (node_items a ++ lk ++ R) ++ [])) as J2 by rearr I2.
  eapply wpk_bind.
  { eapply (wpk_frame _ _ (node_items a ++ lk ++ R) R [] [] _ h2 G2 J2); [occ_solve|occ_solve|occ_solve|].
    apply (wpk_drop (node_items s) [] (node_items a ++ lk ++ R) [] h2 G2 J2). }
  cbn beta. intros _ h3 G3 ((-> & I3) & _) _. apply wpk_ret. exists lk.
  split; [rearr I3|]. split; [exact C2|]. split; [exact L2|exact Z2].
Qed.

(** ** Variables *)
Lemma upd_upd {A} r (x y : A) l : upd r x (upd r y l) = upd r x l.
Proof. revert r. induction l as [|z l IH]; intros [|r]; cbn; congruence. Qed.
Lemma upd_nth {A} r (l : list A) d : upd r (nth r l d) l = l.
Proof. revert r. induction l as [|z l IH]; intros [|r]; cbn; congruence. Qed.
Lemma upd_comm {A} r s (x y : A) l : r <> s -> upd r x (upd s y l) = upd s y (upd r x l).
Proof. revert r s. induction l as [|z l IH]; intros [|r] [|s] H; cbn; try congruence. f_equal. apply IH. congruence. Qed.
Lemma Forall2_upd {A B} (P : A -> B -> Prop) l l' r x y : Forall2 P l l' -> P x y -> Forall2 P (upd r x l) (upd r y l').
Proof. intros H Hx. revert r. induction H; intros [|r]; cbn; constructor; auto. Qed.

Section Run.
(** [T]: the program only does things that forget no vector.  [Fr]: what else is held
    besides the variables, such as iterators; it only depends on cells that are kept. *)
Context (dbg : bool) (T : Prop) (Fr : heap -> ghost -> list item -> Prop).
Context (Frk : forall h G F h' G', Fr h G F -> HeapIterProofs.kept F h G h' G' -> Fr h' G' F).

Definition lks (h : heap) (G : ghost) (lk : list item) : Prop :=
  exists l F, lk = l ++ F /\ leaks_ok G l /\ (T -> l = []) /\ Fr h G F /\ Forall (item_ok G) F.
Lemma items_ext G G' F : Forall (item_ok G) F -> ext G G' F -> Forall (item_ok G') F.
Proof.
  intros H X. rewrite Forall_forall in *. intros [k w] Hx. destruct (H _ Hx) as (a & Ea & Eg). cbn [fst snd] in *. subst w.
  exists a. split; [reflexivity|]. cbn [fst]. rewrite (X a); [exact Eg|apply (occ_in _ _ _ Hx)].
Qed.
Lemma lks_kept h G lk h' G' : lks h G lk -> HeapIterProofs.kept lk h G h' G' -> lks h' G' lk.
Proof.
  intros (l & F & -> & L & Z & HF & HI) K. rewrite HeapIterProofs.kept_app in K. destruct K as [K1 K2].
  exists l, F. split; [reflexivity|]. split; [apply (leaks_ext _ _ _ L (proj1 K1))|]. split; [exact Z|].
  split; [apply (Frk _ _ _ _ _ HF K2)|apply (items_ext _ _ _ HI (proj1 K2))].
Qed.
Lemma lks_items h G lk : lks h G lk -> Forall (item_ok G) lk.
Proof. intros (l & F & -> & L & Z & HF & HI). apply Forall_app. split; [apply (leaks_items _ _ L)|exact HI]. Qed.
Lemma lks_add h G lk lk' : lks h G lk -> leaks_ok G lk' -> (T -> lk' = []) -> lks h G (lk' ++ lk).
Proof.
  intros (l & F & -> & L & Z & HF & HI) L' Z'. exists (lk' ++ l), F. rewrite app_assoc. split; [reflexivity|].
  split; [apply Forall_app; split; assumption|]. split; [|auto]. intros t. now rewrite (Z t), (Z' t).
Qed.
Lemma lks_stp h G lk h' G' R : lks h G lk -> stp R h G h' G' -> (forall a, occ a lk <= occ a R) -> lks h' G' lk.
Proof. intros L S Ho. apply (lks_kept _ _ _ _ _ L). apply (HeapIterProofs.kept_le _ _ _ _ _ _ (HeapIterProofs.kept_stp _ _ _ _ _ S) Ho). Qed.

Definition good (f : fslot) (o : option mval) : Prop :=
  match f, o with
  | FValue b, Some (MValue v) => b = Data v
  | FNode n, Some (MTree m) => (exists q, allowed q /\ meaning q = m /\ Client.run dbg q ⇓ Ok n) /\ (T -> clean0 n)
  | FGone, None => True
  | _, _ => False
  end.
Definition state (e : env) (ms : list (option mval)) (h : heap) : Prop :=
  exists G lk fe, inv h G (items e ++ lk) /\ lks h G lk /\ Forall2 (srep G) e fe /\ Forall2 good fe ms.

Lemma find_var G e fe ms r m : Forall2 (srep G) e fe -> Forall2 good fe ms -> mvar r ms = Some m ->
  exists c n, var r e = SNode c /\ fvar r fe = FNode n /\ crep G c n /\ good (FNode n) (Some (MTree m)) /\ r < length e.
Proof.
  intros He Hf Hm. assert (r < length ms) as Hr.
  { destruct (Nat.lt_ge_cases r (length ms)) as [|Hge]; [assumption|]. unfold mvar, mat in Hm. rewrite nth_overflow in Hm by lia. discriminate Hm. }
  unfold mvar in Hm. destruct (mat r ms) as [[m'|v]|] eqn:Ha; try discriminate Hm. injection Hm as ->.
  assert (r < length fe) as Hr' by (now rewrite (Forall2_len _ _ _ Hf)).
  assert (r < length e) as Hr2 by (now rewrite (Forall2_len _ _ _ He)).
  pose proof (Forall2_nth_def _ _ _ r FGone None Hf Hr') as Hg. fold (mat r ms) in Hg. rewrite Ha in Hg.
  pose proof (env_var _ _ _ r He) as Hv. unfold fvar in *. destruct (nth r fe FGone) as [n|b|l|]; cbn [good] in Hg; try tauto.
  destruct (var r e) as [c| | |]; cbn [srep] in Hv; try tauto. exists c, n. auto 6.
Qed.

(** A variable replaced by what an operation makes of it, while [B] is borrowed from
    another variable. *)
Lemma put_back e fe ms r c n a n' mm G' lk lk' h' R B : var r e = SNode c -> fvar r fe = FNode n -> r < length e ->
  (forall b, occ b (items (upd r SGone e) ++ lk) = occ b (R ++ B)) ->
  Forall2 (srep G') (upd r SGone e) (upd r FGone fe) -> Forall2 good fe ms -> good (FNode n') (Some (MTree mm)) ->
  inv h' G' (node_items a ++ lk' ++ R ++ B) -> crep G' a n' -> leaks_ok G' lk' -> lks h' G' lk -> (T -> lk' = []) ->
  state (upd r (SNode a) e) (upd r (Some (MTree mm)) ms) h'.
Proof.
  intros Er Ef Hr Ho He Hg Hn I C L' L Z'.
  exists G', (lk' ++ lk), (upd r (FNode n') fe).
  assert (Forall2 (srep G') (upd r (SNode a) e) (upd r (FNode n') fe)) as He'.
  { rewrite <- (upd_upd r _ SGone e), <- (upd_upd r _ FGone fe). apply env_upd; [exact He|exact C]. }
  pose proof (lks_add _ _ _ _ L L' Z') as Lk.
  split; [|split; [exact Lk|split; [exact He'|apply Forall2_upd; assumption]]].
  - apply (inv_occ _ _ _ _ I).
    + intros b. pose proof (occ_put e r (SNode a) b Hr) as O. rewrite upd_upd in O. cbn [slot_items] in O.
      specialize (Ho b). rewrite !occ_app in *. lia.
    + rewrite Forall_app. split; [apply (env_items _ _ _ He')|apply (lks_items _ _ _ Lk)].
Qed.

Lemma update1 e ms r m mm (mo : nat -> cnode -> M cnode) h :
  state e ms h -> mvar r ms = Some m ->
  (forall n, good (FNode n) (Some (MTree m)) -> exists N n' (C : Prop), good (FNode n') (Some (MTree mm)) /\ (T -> C) /\
     forall c R G, inv h G (node_items c ++ R ++ []) -> crep G c n -> wpk (mo N c) R [] (npost R [] n' C) h G) ->
  exists N e' h', t_update e r (mo N) h = Done (e', h') /\ state e' (upd r (Some (MTree mm)) ms) h'.
Proof.
  intros (G & lk & fe & I & L & He & Hg) Hm Hp.
  destruct (find_var _ _ _ _ _ _ He Hg Hm) as (c & n & Er & Ef & C & Gn & Hr).
  destruct (Hp n Gn) as (N & n' & Cd & Gn' & Tc & Hw). set (R := items (upd r SGone e) ++ lk).
  assert (Forall2 (srep G) (upd r SGone e) (upd r FGone fe)) as He1 by (apply env_upd; [exact He|exact Logic.I]).
  assert (inv h G (node_items c ++ R ++ [])) as J.
  { apply (inv_occ _ _ _ _ I).
    - intros b. pose proof (occ_gone e r b) as O. rewrite Er in O. cbn [slot_items] in O. unfold R. rewrite !occ_app. cbn [occ]. lia.
    - unfold R. rewrite !Forall_app. split; [apply (crep_items _ _ _ C)|]. split; [|constructor].
      split; [apply (env_items _ _ _ He1)|apply (lks_items _ _ _ L)]. }
  destruct (Hw c R G J C) as (a & h' & G' & D & St & _ & (lk' & I' & C' & L' & Z')).
  exists N, (upd r (SNode a) e), h'. split; [unfold t_update, mbind; rewrite Er, D; reflexivity|].
  assert (lks h' G' lk) as L2 by (apply (lks_stp _ _ _ _ _ R L St); unfold R; intros x; rewrite occ_app; lia).
  destruct St as (X & _). unfold R in X. rewrite ext_app in X. destruct X as [X1 X2].
  apply (put_back e fe ms r c n a n' mm G' lk lk' h' R [] Er Ef Hr); auto.
  - intros b. unfold R. rewrite !occ_app. cbn [occ]. lia.
  - apply (env_ext _ _ _ _ He1 X1).
Qed.

Lemma update2 e ms r s m1 m2 mm (mo : nat -> cnode -> cnode -> M cnode) h :
  state e ms h -> r <> s -> mvar r ms = Some m1 -> mvar s ms = Some m2 ->
  (forall n k, good (FNode n) (Some (MTree m1)) -> good (FNode k) (Some (MTree m2)) ->
     exists N n' (C : Prop), good (FNode n') (Some (MTree mm)) /\ (T -> C) /\
     forall c b R B G, inv h G (node_items c ++ R ++ B) -> crep G c n -> bor h G B b k ->
       wpk (mo N c b) R B (npost R B n' C) h G) ->
  exists N e' h', t_update2 e r s (mo N) h = Done (e', h') /\ state e' (upd r (Some (MTree mm)) ms) h'.
Proof.
  intros (G & lk & fe & I & L & He & Hg) Hne Hm1 Hm2 Hp.
  destruct (find_var _ _ _ _ _ _ He Hg Hm1) as (c & n & Er & Ef & C & Gn & Hr).
  destruct (find_var _ _ _ _ _ _ He Hg Hm2) as (b & k & Es & Efs & Cb & Gk & Hs).
  destruct (Hp n k Gn Gk) as (N & n' & Cd & Gn' & Tc & Hw).
  set (e1 := upd r SGone e). set (R := items (upd s SGone e1) ++ lk). set (B := node_items b).
  assert (Forall2 (srep G) e1 (upd r FGone fe)) as He1 by (apply env_upd; [exact He|exact Logic.I]).
  assert (Forall2 (srep G) (upd s SGone e1) (upd s FGone (upd r FGone fe))) as He2 by (apply env_upd; [exact He1|exact Logic.I]).
  assert (var s e1 = SNode b) as Es1. { unfold e1, var. rewrite upd_nth_other by congruence. exact Es. }
  assert (nth s (upd r FGone fe) FGone = FNode k) as Efs1. { rewrite upd_nth_other by congruence. exact Efs. }
  assert (forall x, occ x (items e1 ++ lk) = occ x (R ++ B)) as Ho.
  { intros x. pose proof (occ_gone e1 s x) as O. rewrite Es1 in O. cbn [slot_items] in O. unfold R, B. rewrite !occ_app. lia. }
  assert (inv h G (node_items c ++ R ++ B)) as J.
  { apply (inv_occ _ _ _ _ I).
    - intros x. pose proof (occ_gone e r x) as O. rewrite Er in O. cbn [slot_items] in O. fold e1 in O. specialize (Ho x).
      rewrite !occ_app in *. lia.
    - unfold R, B. rewrite !Forall_app. split; [apply (crep_items _ _ _ C)|]. split; [|apply (crep_items _ _ _ Cb)].
      split; [apply (env_items _ _ _ He2)|apply (lks_items _ _ _ L)]. }
  assert (bor h G B b k) as Hb. { pose proof (bor_own h G [] b _ Cb) as Hb. now rewrite app_nil_r in Hb. }
  destruct (Hw c b R B G J C Hb) as (a & h' & G' & D & St & K & (lk' & I' & C' & L' & Z')).
  exists N, (upd r (SNode a) e), h'. split; [unfold t_update2, t_update, mbind; rewrite Es, Er, D; reflexivity|].
  assert (lks h' G' lk) as L2 by (apply (lks_stp _ _ _ _ _ R L St); unfold R; intros x; rewrite occ_app; lia).
  destruct St as (X & _). unfold R in X. rewrite ext_app in X. destruct X as [X1 X2].
  apply (put_back e fe ms r c n a n' mm G' lk lk' h' R B Er Ef Hr); auto.
  - fold e1. rewrite <- (upd_nth s e1 SGone), <- (upd_nth s (upd r FGone fe) FGone), Efs1. change (nth s e1 SGone) with (var s e1). rewrite Es1.
    rewrite <- (upd_upd s (SNode b) SGone e1), <- (upd_upd s (FNode k) FGone). apply env_upd; [apply (env_ext _ _ _ _ He2 X1)|].
    apply (bor_keeps _ _ _ _ _ _ _ K Hb).
Qed.

(** ** The pure results *)
Lemma pure1 q q' (f : node -> nat -> res node) n : Client.run dbg q ⇓ Ok n -> allowed q' ->
  (forall N, Client.run dbg q' N = (t <- Client.run dbg q N ;; f t N)) ->
  exists N r, f n N = Ok r /\ Client.run dbg q' ⇓ Ok r.
Proof.
  intros (_ & N0 & H) A E. destruct (yields_holds _ _ _ _ (TopOps.run_ok dbg q' A)) as (r & (Hr & N1 & H1) & _).
  exists (N0 + N1), r. split; [|split; [exact Hr|exists N1; exact H1]].
  specialize (H1 (N0 + N1) ltac:(lia)). rewrite E, (H (N0 + N1)) in H1 by lia. exact H1.
Qed.
Lemma pure2 q1 q2 q' (f : node -> node -> nat -> res node) n k : Client.run dbg q1 ⇓ Ok n -> Client.run dbg q2 ⇓ Ok k -> allowed q' ->
  (forall N, Client.run dbg q' N = (t <- Client.run dbg q1 N ;; u <- Client.run dbg q2 N ;; f t u N)) ->
  exists N r, f n k N = Ok r /\ Client.run dbg q' ⇓ Ok r.
Proof.
  intros (_ & N0 & H) (_ & N2 & H2) A E. destruct (yields_holds _ _ _ _ (TopOps.run_ok dbg q' A)) as (r & (Hr & N1 & H1) & _).
  exists (N0 + N1 + N2), r. split; [|split; [exact Hr|exists N1; exact H1]].
  specialize (H1 (N0 + N1 + N2) ltac:(lia)). rewrite E, (H (N0 + N1 + N2)), (H2 (N0 + N1 + N2)) in H1 by lia. exact H1.
Qed.
Lemma good_holds n m : good (FNode n) (Some (MTree m)) -> holds mem n m /\ reachable dbg n.
Proof.
  intros [(q & A & <- & Hq) _]. split; [|now exists q].
  destruct (yields_holds _ _ _ _ (TopOps.run_ok dbg q A)) as (r & Hr & Hh).
  pose proof (conv_unique _ _ _ Hq Hr) as E. assert (n = r) as -> by congruence. exact Hh.
Qed.
Lemma good_clean n m k : good (FNode n) (Some (MTree m)) -> m k <> None -> T -> clean n.
Proof.
  intros Gn Hk t. destruct (good_holds _ _ Gn) as [Hh _]. destruct Gn as [_ Hc]. destruct (Hc t) as [->|Hn]; [|exact Hn].
  exfalso. apply Hk. destruct (yields_holds _ _ _ _ (TopOps.run_ok dbg PEmpty Logic.I)) as (r & Hr & He).
  assert (Client.run dbg PEmpty ⇓ Ok n_empty) as H0. { split; [discriminate|]. exists 0. reflexivity. }
  pose proof (conv_unique _ _ _ H0 Hr) as E. assert (r = n_empty) as -> by congruence.
  pose proof (conv_unique _ _ _ (Hh k) (He k)) as E'. cbn [meaning] in E'. unfold m_empty in E'. congruence.
Qed.

Lemma replace_nodel : nodel (fun _ y => Ok y).
Proof. intros x y z _ Hy E. now injection E as <-. Qed.
Lemma user_nodel g : (forall x y, g x y <> None) -> nodel (combiner_with mem mem g).
Proof.
  intros Hg x y z _ _ E. unfold combiner_with in E. stepE E a Ea. stepE E b Eb.
  pose proof (Hg a b) as Hn. destruct (g a b) as [v|]; [|congruence]. injection E as <-. discriminate.
Qed.
Lemma single_clean k v : clean (n_single k v).
Proof. constructor. discriminate. Qed.
Lemma downcast_value v r : conv_value downcast_converter v = Ok r -> r = v.
Proof. apply (proj2 (proj2 downcast_ok)). Qed.
Lemma detach_value v r : conv_value (detach_converter mem) v = Ok r -> r = v.
Proof. apply (proj2 (proj2 detach_ok)). Qed.

(** ** Steps *)
Lemma new_slot e ms h c n G lk fe : Forall2 (srep G) e fe -> Forall2 good fe ms -> lks h G lk ->
  inv h G (node_items c ++ items e ++ lk) -> crep G c n -> forall m, good (FNode n) (Some (MTree m)) -> state (e ++ [SNode c]) (ms ++ [Some (MTree m)]) h.
Proof.
  intros He Hg L I C m Gn. exists G, lk, (fe ++ [FNode n]).
  split; [|split; [exact L|split]].
  - rewrite items_app. cbn [flat_map slot_items]. rewrite app_nil_r. rearr I.
  - apply Forall2_app; [exact He|]. constructor; [exact C|constructor].
  - apply Forall2_app; [exact Hg|]. constructor; [exact Gn|constructor].
Qed.
Lemma conv_ret (q : prog) n : (forall N, Client.run dbg q N = Ok n) -> Client.run dbg q ⇓ Ok n.
Proof. intros H. split; [discriminate|]. exists 0. intros N _. apply H. Qed.

Lemma new_step e ms h (mk : M cnode) n m : state e ms h -> (forall R B h G, inv h G (R ++ B) -> wpk mk R B (owned R B n) h G) ->
  good (FNode n) (Some (MTree m)) -> exists c h', mk h = Done (c, h') /\ state (e ++ [SNode c]) (ms ++ [Some (MTree m)]) h'.
Proof.
  intros (G & lk & fe & I & L & He & Hg) Hm Gn.
  assert (inv h G ((items e ++ lk) ++ [])) as J by rearr I.
  destruct (Hm _ _ _ _ J) as (c & h' & G' & D & St & _ & (I' & C')).
  assert (lks h' G' lk) as L2 by (apply (lks_stp _ _ _ _ _ _ L St); intros x; rewrite occ_app; lia).
  destruct St as (X & _). rewrite ext_app in X. destruct X as [X1 X2].
  exists c, h'. split; [exact D|]. apply (new_slot e ms h' c n G' lk fe); auto.
  - apply (env_ext _ _ _ _ He X1).
  - rearr I'.
Qed.
Lemma clone_step e ms h r m : state e ms h -> mvar r ms = Some m ->
  exists c c' h', var r e = SNode c /\ h_clone c h = Done (c', h') /\ state (e ++ [SNode c']) (ms ++ [Some (MTree m)]) h'.
Proof.
  intros (G & lk & fe & I & L & He & Hg) Hm.
  destruct (find_var _ _ _ _ _ _ He Hg Hm) as (c & n & Er & Ef & C & Gn & Hr).
  assert (near (items e) h c) as Nc.
  { intros a Ha. pose proof (occ_var e r a) as O. rewrite Er in O. cbn [slot_items] in O. lia. }
  destruct (near_live _ _ _ _ _ I Nc) as [Lv Ab].
  destruct (wp_clone c n _ lk h G I C Lv Ab) as (c' & h' & G' & D & St & (-> & -> & I' & _)).
  pose proof (lks_stp _ _ _ _ _ _ L St ltac:(intros; lia)) as L2.
  exists c, c, h'. split; [exact Er|]. split; [exact D|]. apply (new_slot e ms h' c n G lk fe); auto.
Qed.
Lemma combiner_data g x y z : combiner mem mem g x y = Ok z -> zdata z.
Proof. unfold combiner. intros E. stepE E a Ea. stepE E b Eb. assert (z = option_map Data (g a b)) as -> by congruence. now destruct (g a b). Qed.
Lemma new2_step e ms h r s m1 m2 mm (mo : nat -> cnode -> cnode -> M cnode) :
  state e ms h -> mvar r ms = Some m1 -> mvar s ms = Some m2 ->
  (forall n k, good (FNode n) (Some (MTree m1)) -> good (FNode k) (Some (MTree m2)) ->
     exists N n', good (FNode n') (Some (MTree mm)) /\
     forall a b R B G, inv h G (R ++ B) -> bor h G B a n -> bor h G B b k -> wpk (mo N a b) R B (owned R B n') h G) ->
  exists N e' h', t_new2 e r s (mo N) h = Done (e', h') /\ state e' (ms ++ [Some (MTree mm)]) h'.
Proof.
  intros (G & lk & fe & I & L & He & Hg) Hm1 Hm2 Hp.
  destruct (find_var _ _ _ _ _ _ He Hg Hm1) as (a & n & Er & Ef & C & Gn & Hr).
  destruct (find_var _ _ _ _ _ _ He Hg Hm2) as (b & k & Es & Efs & Cb & Gk & Hs).
  destruct (Hp n k Gn Gk) as (N & n' & Gn' & Hw).
  assert (forall r c, var r e = SNode c -> forall x, occ x (node_items c) <= occ x (items e)) as Hv.
  { intros r0 c E x. pose proof (occ_var e r0 x) as O. rewrite E in O. cbn [slot_items] in O. lia. }
  assert (inv h G (lk ++ items e)) as J by rearr I.
  assert (forall r c n, var r e = SNode c -> crep G c n -> bor h G (items e) c n) as Hb.
  { intros r0 c n0 E C0. split; [exact C0|]. intros x Hx. apply deep_root. specialize (Hv r0 c E x). lia. }
  destruct (Hw a b lk (items e) G J (Hb r a n Er C) (Hb s b k Es Cb)) as (c & h' & G' & D & St & K & (I' & C')).
  pose proof (lks_stp _ _ _ _ _ _ L St ltac:(intros; lia)) as L2.
  exists N, (e ++ [SNode c]), h'. split; [unfold t_new2, mbind; rewrite Er, Es, D; reflexivity|].
  apply (new_slot e ms h' c n' G' lk fe); auto.
  - apply (env_ext _ _ _ _ He). intros x Hx. apply (K x). now apply deep_root.
  - rearr I'.
Qed.
Lemma new1_step e ms h r m o (mo : nat -> cnode -> M slot) :
  state e ms h -> mvar r ms = Some m ->
  (forall n, good (FNode n) (Some (MTree m)) -> exists N f, good f o /\
     forall a R B G, inv h G (R ++ B) -> bor h G B a n ->
       wpk (mo N a) R B (fun s h' G' => inv h' G' (slot_items s ++ R ++ B) /\ srep G' s f) h G) ->
  exists N e' h', t_new1 e r (mo N) h = Done (e', h') /\ state e' (ms ++ [o]) h'.
Proof.
  intros (G & lk & fe & I & L & He & Hg) Hm Hp.
  destruct (find_var _ _ _ _ _ _ He Hg Hm) as (a & n & Er & Ef & C & Gn & Hr).
  destruct (Hp n Gn) as (N & f & Gf & Hw).
  assert (inv h G (lk ++ items e)) as J by rearr I.
  assert (bor h G (items e) a n) as Hb.
  { split; [exact C|]. intros x Hx. apply deep_root. pose proof (occ_var e r x) as O. rewrite Er in O. cbn [slot_items] in O. lia. }
  destruct (Hw a lk (items e) G J Hb) as (s & h' & G' & D & St & K & (I' & C')).
  pose proof (lks_stp _ _ _ _ _ _ L St ltac:(intros; lia)) as L2.
  exists N, (e ++ [s]), h'. split; [unfold t_new1, mbind; rewrite Er, D; reflexivity|].
  exists G', lk, (fe ++ [f]). split; [|split; [exact L2|split]].
  - rewrite items_app. cbn [flat_map]. rewrite app_nil_r. rearr I'.
  - apply Forall2_app; [|constructor; [exact C'|constructor]].
    apply (env_ext _ _ _ _ He). intros x Hx. apply (K x). now apply deep_root.
  - apply Forall2_app; [exact Hg|]. constructor; [exact Gf|constructor].
Qed.
Lemma good_get n m k : good (FNode n) (Some (MTree m)) -> exists N o, get mem N n k = Ok o /\
  good (match o with Some b => FValue b | None => FGone end) (option_map MValue (m k)).
Proof.
  intros Gn. destruct (good_holds _ _ Gn) as [Hh _]. specialize (Hh k).
  destruct Hh as (_ & N & H). specialize (H N (le_n _)). unfold get_bytes, t_get in H.
  destruct (get mem N n k) as [o| | |] eqn:Eo; try discriminate H. cbn [bind] in H. exists N, o. split; [exact Eo|].
  destruct o as [b|]; cbn [load_opt] in H.
  - stepE H x Ex. assert (m k = Some x) as -> by congruence. cbn [option_map good].
    unfold value_load in Ex. destruct b as [d|[|y id]]; cbn in Ex; try discriminate Ex. congruence.
  - assert (m k = None) as -> by congruence. exact Logic.I.
Qed.
Lemma drop_step e ms h r : state e ms h ->
  exists h', drop (slot_items (var r e)) h = Done (tt, h') /\ state (upd r SGone e) (upd r None ms) h'.
Proof.
  intros (G & lk & fe & I & L & He & Hg).
  assert (Forall2 (srep G) (upd r SGone e) (upd r FGone fe)) as Hu by (apply env_upd; [exact He|exact Logic.I]).
  assert (inv h G (slot_items (var r e) ++ (items (upd r SGone e) ++ lk))) as J.
  { apply (inv_occ _ _ _ _ I).
    - intros b. rewrite !occ_app. pose proof (occ_gone e r b). lia.
    - rewrite !Forall_app. split; [apply (srep_items _ _ (fvar r fe)); now apply env_var|].
      split; [apply (env_items _ _ _ Hu)|apply (lks_items _ _ _ L)]. }
  destruct (wp_drop _ _ _ _ J) as ([] & h' & G' & D & St & (-> & I' & _)). exists h'. split; [exact D|].
  assert (lks h' G lk) as L2 by (apply (lks_stp _ _ _ _ _ _ L St); intros x; rewrite occ_app; lia).
  exists G, lk, (upd r FGone fe). split; [exact I'|]. split; [exact L2|]. split; [exact Hu|].
  apply Forall2_upd; [exact Hg|exact Logic.I].
Qed.

Lemma ask1_step e ms h r m (P : Prop) (mo : nat -> cnode -> M bool) :
  state e ms h -> mvar r ms = Some m ->
  (forall n, good (FNode n) (Some (MTree m)) -> exists N b, (b = true <-> P) /\
     forall a R B G, inv h G (R ++ B) -> bor h G B a n -> wpk (mo N a) R B (bpost R B b) h G) ->
  exists N b h', t_ask1 e r (mo N) h = Done (b, h') /\ (b = true <-> P) /\ state e ms h'.
Proof.
  intros (G & lk & fe & I & L & He & Hg) Hm Hp.
  destruct (find_var _ _ _ _ _ _ He Hg Hm) as (a & n & Er & Ef & C & Gn & Hr).
  destruct (Hp n Gn) as (N & b & Hb & Hw).
  assert (inv h G (lk ++ items e)) as J by rearr I.
  assert (bor h G (items e) a n) as Ha.
  { split; [exact C|]. intros x Hx. apply deep_root. pose proof (occ_var e r x) as O. rewrite Er in O. cbn [slot_items] in O. lia. }
  destruct (Hw a lk (items e) G J Ha) as (b' & h' & G' & D & St & K & (-> & I')).
  pose proof (lks_stp _ _ _ _ _ _ L St ltac:(intros; lia)) as L2.
  exists N, b, h'. split; [unfold t_ask1; now rewrite Er|]. split; [exact Hb|].
  exists G', lk, fe. split; [rearr I'|]. split; [exact L2|]. split; [|exact Hg].
  apply (env_ext _ _ _ _ He). intros x Hx. apply (K x). now apply deep_root.
Qed.
Lemma ask2_step e ms h r s m1 m2 (P : Prop) (mo : nat -> cnode -> cnode -> M bool) :
  state e ms h -> mvar r ms = Some m1 -> mvar s ms = Some m2 ->
  (forall n k, good (FNode n) (Some (MTree m1)) -> good (FNode k) (Some (MTree m2)) -> exists N b, (b = true <-> P) /\
     forall a c R B G, inv h G (R ++ B) -> bor h G B a n -> bor h G B c k -> wpk (mo N a c) R B (bpost R B b) h G) ->
  exists N b h', t_ask2 e r s (mo N) h = Done (b, h') /\ (b = true <-> P) /\ state e ms h'.
Proof.
  intros S0 Hm1 Hm2 Hp. pose proof S0 as (G & lk & fe & I & L & He & Hg).
  destruct (find_var _ _ _ _ _ _ He Hg Hm1) as (a & n & Er & Ef & C & Gn & Hr).
  destruct (find_var _ _ _ _ _ _ He Hg Hm2) as (c & k & Es & Efs & Cb & Gk & Hs).
  destruct (Hp n k Gn Gk) as (N & b & Hb & Hw).
  assert (inv h G (lk ++ items e)) as J by rearr I.
  assert (forall r c n, var r e = SNode c -> crep G c n -> bor h G (items e) c n) as Hx.
  { intros r0 c0 n0 E C0. split; [exact C0|]. intros x Hx. apply deep_root. pose proof (occ_var e r0 x) as O. rewrite E in O. cbn [slot_items] in O. lia. }
  destruct (Hw a c lk (items e) G J (Hx r a n Er C) (Hx s c k Es Cb)) as (b' & h' & G' & D & St & K & (-> & I')).
  pose proof (lks_stp _ _ _ _ _ _ L St ltac:(intros; lia)) as L2.
  exists N, b, h'. split; [unfold t_ask2; now rewrite Er, Es|]. split; [exact Hb|].
  exists G', lk, fe. split; [rearr I'|]. split; [exact L2|]. split; [|exact Hg].
  apply (env_ext _ _ _ _ He). intros x Hx'. apply (K x). now apply deep_root.
Qed.
Lemma conv_at {A} (f : nat -> res A) b : f ⇓ Ok b -> exists N, f N = Ok b.
Proof. intros (_ & N & H). exists N. apply H. lia. Qed.
Lemma ask_good q (P : Prop) e ms h : state e ms h -> may_ask q ms -> q_asks q ms = Some P ->
  exists N b h', t_ask N q e h = Done (b, h') /\ (b = true <-> P) /\ state e ms h'.
Proof.
  intros S0 Hm E. destruct q as [r k|r k|r|g r s|g r s]; cbn [q_asks t_ask may_ask] in *.
  - destruct (mvar r ms) as [m|] eqn:Em; [|discriminate E]. injection E as <-.
    apply (ask1_step e ms h r m _ (fun N => h_contains_key N k) S0 Em). intros n Gn. destruct (good_holds _ _ Gn) as [Hh Hr].
    destruct (mem_contains_key dbg n m Hr Hh k) as (b & Cb & Hb). destruct (conv_at _ _ Cb) as (N & EN).
    exists N, b. split; [exact Hb|]. intros a R B G I Ha. apply (contains_ok N n k b R B h G a EN I Ha).
  - destruct (mvar r ms) as [m|] eqn:Em; [|discriminate E]. injection E as <-. specialize (Hm m eq_refl).
    apply (ask1_step e ms h r m _ (fun N => h_has_prefix N k) S0 Em). intros n Gn. destruct (good_holds _ _ Gn) as [Hh Hr].
    destruct (mem_has_prefix dbg n m Hr Hh k Hm) as (b & Cb & Hb). destruct (conv_at _ _ Cb) as (N & EN).
    exists N, b. split; [exact Hb|]. intros a R B G I Ha. apply (prefix_ok N n k b R B h G a EN I Ha).
  - destruct (mvar r ms) as [m|] eqn:Em; [|discriminate E]. injection E as <-.
    apply (ask1_step e ms h r m _ (fun N a => ret (h_is_empty a)) S0 Em). intros n Gn. destruct (good_holds _ _ Gn) as [Hh Hr].
    exists 0, (is_empty n). split; [apply (mem_is_empty dbg n m Hr Hh)|]. intros a R B G I Ha. apply (empty_ok n R B h G a I Ha).
  - destruct (mvar r ms) as [m1|] eqn:Em; [|discriminate E]. destruct (mvar s ms) as [m2|] eqn:Es; [|discriminate E]. injection E as <-.
    apply (ask2_step e ms h r s m1 m2 _ (fun N => h_inner_pred (h_user_pred g) N) S0 Em Es). intros n k Gn Gk.
    destruct (good_holds _ _ Gn) as [Hh Hr]. destruct (good_holds _ _ Gk) as [Hh' Hr'].
    destruct (mem_inner_pred dbg n m1 Hr Hh k m2 Hr' Hh' g) as (b & Cb & Hb). destruct (conv_at _ _ Cb) as (N & EN).
    exists N, b. split; [exact Hb|]. intros a c R B G I Ha Hc. apply (inner_pred_ok _ _ (user_pred_ok g) N n k b EN R B h G a c I Ha Hc).
  - destruct (mvar r ms) as [m1|] eqn:Em; [|discriminate E]. destruct (mvar s ms) as [m2|] eqn:Es; [|discriminate E]. injection E as <-.
    apply (ask2_step e ms h r s m1 m2 _ (fun N => h_left_pred (h_user_pred g) N) S0 Em Es). intros n k Gn Gk.
    destruct (good_holds _ _ Gn) as [Hh Hr]. destruct (good_holds _ _ Gk) as [Hh' Hr'].
    destruct (mem_left_pred dbg n m1 Hr Hh k m2 Hr' Hh' g) as (b & Cb & Hb). destruct (conv_at _ _ Cb) as (N & EN).
    exists N, b. split; [exact Hb|]. intros a c R B G I Ha Hc. apply (left_pred_ok _ _ (user_pred_ok g) N n k b EN R B h G a c I Ha Hc).
Qed.

Lemma step_good i e ms ms' h : state e ms h -> may i ms -> (T -> grows i ms) -> m_step i ms = Some ms' ->
  exists N e' h', t_step dbg N i e h = Done (e', h') /\ state e' ms' h'.
Proof.
  intros S0 Hm Ht E. destruct i as [|v|k v|r|r k v|r k|r k|g r s|g r s|g r s|g r s|g r s|g r s|g r s|g r s|r k s|r k|q i|r]; cbn [m_step t_step] in *.
  - exists 0, (e ++ [SNode c_empty]), h. split; [reflexivity|]. injection E as <-.
    destruct S0 as (G & lk & fe & I & L & He & Hg). apply (new_slot e ms h c_empty n_empty G lk fe); auto.
    + apply empty_crep.
    + split; [|intros _; now left]. exists PEmpty. split; [exact Logic.I|]. split; [reflexivity|]. now apply conv_ret.
  - injection E as <-. destruct (new_step e ms h (h_leaf v) (n_leaf v) (m_insert m_empty [] v) S0) as (c & h' & D & S').
    + intros. now apply wpk_leaf.
    + split; [|intros _; right; constructor; discriminate]. exists (PLeaf v). split; [exact Logic.I|]. split; [reflexivity|]. now apply conv_ret.
    + exists 0, (e ++ [SNode c]), h'. unfold mbind. rewrite D. split; [reflexivity|exact S'].
  - injection E as <-. destruct (new_step e ms h (h_single k v) (n_single k v) (m_insert m_empty k v) S0) as (c & h' & D & S').
    + intros. now apply wpk_single.
    + split; [|intros _; right; apply single_clean]. exists (PSingle k v). split; [exact Logic.I|]. split; [reflexivity|]. now apply conv_ret.
    + exists 0, (e ++ [SNode c]), h'. unfold mbind. rewrite D. split; [reflexivity|exact S'].
  - destruct (mvar r ms) as [m|] eqn:Em; [|discriminate E]. injection E as <-.
    destruct (clone_step e ms h r m S0 Em) as (c & c' & h' & Er & D & S').
    exists 0, (e ++ [SNode c']), h'. rewrite Er. unfold mbind. rewrite D. split; [reflexivity|exact S'].
  - unfold m_update in E. destruct (mvar r ms) as [m|] eqn:Em; [|discriminate E]. injection E as <-.
    apply (update1 e ms r m _ (fun N => h_insert dbg N k v) h S0 Em). intros n Gn.
    pose proof Gn as [(q & A & Eq & Hq) Hc].
    destruct (pure1 q (PInsert q k v) (fun t => t_insert dbg mem t k v) n Hq A) as (N & r0 & Er & Hr0); [reflexivity|].
    exists N, r0, (fine (nodel (fun _ y => Ok y)) n (n_single k v)).
    assert (T -> fine (nodel (fun _ y => Ok y)) n (n_single k v)) as Hf.
    { intros t. split; [exact replace_nodel|]. split; [exact (Hc t)|]. split; [right; apply single_clean|right; apply single_clean]. }
    split; [|split; [exact Hf|]].
    + split.
      * exists (PInsert q k v). split; [exact A|]. split; [cbn [meaning]; now rewrite Eq|exact Hr0].
      * intros t. right. destruct (Hf t) as (Nd & C1 & C2 & C3).
        apply (outer_clean dbg downcast_converter downcast_clean downcast_value _ Nd N n (n_single k v) r0 C1 C2 C3 Er).
    + intros c R G I C. unfold h_insert.
      apply (wpk_with_single _ _ _ k v n r0 c R h G
        (outer_with_ok dbg downcast_converter downcast_clean downcast_value _ _ _ downcast_ok replace_ok N) Er I C).
  - unfold m_update in E. destruct (mvar r ms) as [m|] eqn:Em; [|discriminate E]. injection E as <-.
    apply (update1 e ms r m _ (fun N => h_remove dbg N k) h S0 Em). intros n [(q & A & Eq & Hq) Hc].
    destruct (pure1 q (PRemove q k) (fun t => t_remove dbg mem t k) n Hq A) as (N & r0 & Er & Hr0); [reflexivity|].
    exists N, r0, (never n (n_single k [])). split; [|split; [intros t; destruct (Ht t)|]].
    + split; [|intros t; destruct (Ht t)].
      exists (PRemove q k). split; [exact A|]. split; [cbn [meaning]; now rewrite Eq|exact Hr0].
    + intros c R G I C. unfold h_remove.
      apply (wpk_with_single _ _ _ k [] n r0 c R h G (left_with_ok dbg _ _ erase_ok N) Er I C).
  - unfold m_update in E. destruct (mvar r ms) as [m|] eqn:Em; [|discriminate E]. injection E as <-.
    apply (update1 e ms r m _ (fun N => h_remove_prefix dbg N k) h S0 Em). intros n [(q & A & Eq & Hq) Hc].
    destruct (pure1 q (PRemovePrefix q k) (fun t => t_remove_prefix dbg mem t k) n Hq A) as (N & r0 & Er & Hr0); [reflexivity|].
    exists N, r0, (never n (n_single k [])). split; [|split; [intros t; destruct (Ht t)|]].
    + split; [|intros t; destruct (Ht t)].
      exists (PRemovePrefix q k). split; [exact A|]. split; [cbn [meaning]; now rewrite Eq|exact Hr0].
    + intros c R G I C. unfold h_remove_prefix.
      apply (wpk_with_single _ _ _ k [] n r0 c R h G (remove_with_ok dbg _ _ always_ok N) Er I C).
  - unfold m_update2, m_update in E. destruct (Nat.eqb_spec r s) as [|Hne]; [discriminate E|].
    destruct (mvar s ms) as [m2|] eqn:Es; [|discriminate E]. destruct (mvar r ms) as [m1|] eqn:Em; [|discriminate E]. injection E as <-.
    apply (update2 e ms r s m1 m2 _ (fun N => h_outer_with dbg h_detach (h_user g) N) h S0 Hne Em Es). intros n k Gn Gk.
    pose proof Gn as [(q & A & Eq & Hq) Hc]. pose proof Gk as [(q2 & A2 & Eq2 & Hq2) Hc2].
    destruct (pure2 q q2 (POuterWith g q q2) (fun t u => t_outer_combine_with dbg mem mem (detach_converter mem) t u (combiner_with mem mem g)) n k Hq Hq2
      (conj A A2)) as (N & r0 & Er & Hr0); [reflexivity|].
    exists N, r0, (fine (nodel (combiner_with mem mem g)) n k).
    assert (T -> fine (nodel (combiner_with mem mem g)) n k) as Hf.
    { intros t. destruct (Ht t) as (Hg & w & m & x & Hw & Hv & Hx). split; [exact (user_nodel g Hg)|]. split; [exact (Hc t)|]. split; [exact (Hc2 t)|].
      destruct Hw as [<-|[<-|[]]]; [left|right].
      - assert (m = m1) as -> by congruence. apply (good_clean n m1 x Gn Hx t).
      - assert (m = m2) as -> by congruence. apply (good_clean k m2 x Gk Hx t). }
    split; [|split; [exact Hf|]].
    + split.
      * exists (POuterWith g q q2). split; [exact (conj A A2)|]. split; [cbn [meaning]; now rewrite Eq, Eq2|exact Hr0].
      * intros t. right. destruct (Hf t) as (Nd & C1 & C2 & C3).
        apply (outer_clean dbg (detach_converter mem) detach_clean detach_value _ Nd N n k r0 C1 C2 C3 Er).
    + intros c b R B G I C Hb.
      apply (outer_with_ok dbg (detach_converter mem) detach_clean detach_value _ _ _ detach_ok (user_ok g) N n k r0 Er R B h G c b I C Hb).
  - unfold m_update2, m_update in E. destruct (Nat.eqb_spec r s) as [|Hne]; [discriminate E|].
    destruct (mvar s ms) as [m2|] eqn:Es; [|discriminate E]. destruct (mvar r ms) as [m1|] eqn:Em; [|discriminate E]. injection E as <-.
    apply (update2 e ms r s m1 m2 _ (fun N => h_inner_with dbg (h_user g) N) h S0 Hne Em Es).
    intros n k [(q & A & Eq & Hq) _] [(q2 & A2 & Eq2 & Hq2) _].
    destruct (pure2 q q2 (PInnerWith g q q2) (fun t u => t_inner_combine_with dbg mem mem t u (combiner_with mem mem g)) n k Hq Hq2
      (conj A A2)) as (N & r0 & Er & Hr0); [reflexivity|].
    exists N, r0, (never n k). split; [|split; [intros t; destruct (Ht t)|]].
    + split; [|intros t; destruct (Ht t)].
      exists (PInnerWith g q q2). split; [exact (conj A A2)|]. split; [cbn [meaning]; now rewrite Eq, Eq2|exact Hr0].
    + intros c b R B G I C Hb. apply (inner_with_ok dbg _ _ (user_ok g) N n k r0 Er R B h G c b I C Hb).
  - unfold m_update2, m_update in E. destruct (Nat.eqb_spec r s) as [|Hne]; [discriminate E|].
    destruct (mvar s ms) as [m2|] eqn:Es; [|discriminate E]. destruct (mvar r ms) as [m1|] eqn:Em; [|discriminate E]. injection E as <-.
    apply (update2 e ms r s m1 m2 _ (fun N => h_left_with dbg (h_user g) N) h S0 Hne Em Es).
    intros n k [(q & A & Eq & Hq) _] [(q2 & A2 & Eq2 & Hq2) _].
    destruct (pure2 q q2 (PLeftWith g q q2) (fun t u => t_left_combine_with dbg mem mem t u (combiner_with mem mem g)) n k Hq Hq2
      (conj A A2)) as (N & r0 & Er & Hr0); [reflexivity|].
    exists N, r0, (never n k). split; [|split; [intros t; destruct (Ht t)|]].
    + split; [|intros t; destruct (Ht t)].
      exists (PLeftWith g q q2). split; [exact (conj A A2)|]. split; [cbn [meaning]; now rewrite Eq, Eq2|exact Hr0].
    + intros c b R B G I C Hb. apply (left_with_ok dbg _ _ (user_ok g) N n k r0 Er R B h G c b I C Hb).
  - unfold m_update2, m_update in E. destruct (Nat.eqb_spec r s) as [|Hne]; [discriminate E|].
    destruct (mvar s ms) as [m2|] eqn:Es; [|discriminate E]. destruct (mvar r ms) as [m1|] eqn:Em; [|discriminate E]. injection E as <-.
    apply (update2 e ms r s m1 m2 _ (fun N => h_remove_prefix_with dbg (h_pred g) N) h S0 Hne Em Es).
    intros n k [(q & A & Eq & Hq) _] [(q2 & A2 & Eq2 & Hq2) _].
    destruct (pure2 q q2 (PRemovePrefixWith g q q2) (fun t u => t_remove_prefix_with dbg mem mem t u (selector mem g)) n k Hq Hq2
      (conj A A2)) as (N & r0 & Er & Hr0); [reflexivity|].
    exists N, r0, (never n k). split; [|split; [intros t; destruct (Ht t)|]].
    + split; [|intros t; destruct (Ht t)].
      exists (PRemovePrefixWith g q q2). split; [exact (conj A A2)|]. split; [cbn [meaning]; now rewrite Eq, Eq2|exact Hr0].
    + intros c b R B G I C Hb. apply (remove_with_ok dbg _ _ (pred_ok g) N n k r0 Er R B h G c b I C Hb).
  - unfold m_update2, m_update in E. destruct (Nat.eqb_spec r s) as [|Hne]; [discriminate E|].
    destruct (mvar s ms) as [m2|] eqn:Es; [|discriminate E]. destruct (mvar r ms) as [m1|] eqn:Em; [|discriminate E]. injection E as <-.
    apply (update2 e ms r s m1 m2 _ (fun N => h_retain_prefix_with dbg (h_pred g) N) h S0 Hne Em Es).
    intros n k [(q & A & Eq & Hq) _] [(q2 & A2 & Eq2 & Hq2) _]. cbn [may] in Hm. specialize (Hm _ Es).
    assert (allowed (PRetainPrefixWith g q q2)) as Al by (cbn [allowed]; now rewrite Eq2).
    destruct (pure2 q q2 (PRetainPrefixWith g q q2) (fun t u => t_retain_prefix_with dbg mem mem t u (selector mem g)) n k Hq Hq2
      Al) as (N & r0 & Er & Hr0); [reflexivity|].
    exists N, r0, (never n k). split; [|split; [intros t; destruct (Ht t)|]].
    + split; [|intros t; destruct (Ht t)].
      exists (PRetainPrefixWith g q q2). split; [exact Al|]. split; [cbn [meaning]; now rewrite Eq, Eq2|exact Hr0].
    + intros c b R B G I C Hb. apply (retain_with_ok dbg _ _ (pred_ok g) N n k r0 Er R B h G c b I C Hb).
  - unfold m_new2 in E. destruct (mvar r ms) as [m1|] eqn:Em; [|discriminate E]. destruct (mvar s ms) as [m2|] eqn:Es; [|discriminate E]. injection E as <-.
    apply (new2_step e ms h r s m1 m2 _ (fun N => h_outer dbg (h_user_new g) N) S0 Em Es).
    intros n k [(q & A & Eq & Hq) Hc] [(q2 & A2 & Eq2 & Hq2) Hc2].
    destruct (pure2 q q2 (POuter g q q2) (fun t u => t_outer_combine dbg mem mem t u (combiner mem mem g)) n k Hq Hq2
      (conj A A2)) as (N & r0 & Er & Hr0); [reflexivity|].
    exists N, r0. split; [split|].
    + exists (POuter g q q2). split; [exact (conj A A2)|]. split; [cbn [meaning]; now rewrite Eq, Eq2|exact Hr0].
    + apply (outer_sound T dbg _ (combiner_data g) N n k r0 Hc Hc2 Er).
    + intros a b R B G I Ha Hb. apply (outer_ok dbg _ _ (user_new_ok g) (combiner_data g) N n k r0 Er R B h G a b I Ha Hb).
  - unfold m_new2 in E. destruct (mvar r ms) as [m1|] eqn:Em; [|discriminate E]. destruct (mvar s ms) as [m2|] eqn:Es; [|discriminate E]. injection E as <-.
    apply (new2_step e ms h r s m1 m2 _ (fun N => h_inner dbg (h_user_new g) N) S0 Em Es).
    intros n k [(q & A & Eq & Hq) Hc] [(q2 & A2 & Eq2 & Hq2) Hc2].
    destruct (pure2 q q2 (PInner g q q2) (fun t u => t_inner_combine dbg mem mem t u (combiner mem mem g)) n k Hq Hq2
      (conj A A2)) as (N & r0 & Er & Hr0); [reflexivity|].
    exists N, r0. split; [split|].
    + exists (PInner g q q2). split; [exact (conj A A2)|]. split; [cbn [meaning]; now rewrite Eq, Eq2|exact Hr0].
    + apply (inner_sound T dbg _ (combiner_data g) N n k r0 Hc Hc2 Er).
    + intros a b R B G I Ha Hb. apply (inner_ok dbg _ _ (user_new_ok g) (combiner_data g) N n k r0 Er R B h G a b I Ha Hb).
  - unfold m_new2 in E. destruct (mvar r ms) as [m1|] eqn:Em; [|discriminate E]. destruct (mvar s ms) as [m2|] eqn:Es; [|discriminate E]. injection E as <-.
    apply (new2_step e ms h r s m1 m2 _ (fun N => h_left dbg (h_user_new g) N) S0 Em Es).
    intros n k [(q & A & Eq & Hq) Hc] [(q2 & A2 & Eq2 & Hq2) Hc2].
    destruct (pure2 q q2 (PLeft g q q2) (fun t u => t_left_combine dbg mem mem t u (combiner mem mem g)) n k Hq Hq2
      (conj A A2)) as (N & r0 & Er & Hr0); [reflexivity|].
    exists N, r0. split; [split|].
    + exists (PLeft g q q2). split; [exact (conj A A2)|]. split; [cbn [meaning]; now rewrite Eq, Eq2|exact Hr0].
    + apply (left_sound T dbg _ (combiner_data g) N n k r0 Hc Hc2 Er).
    + intros a b R B G I Ha Hb. apply (left_ok dbg _ _ (user_new_ok g) (combiner_data g) N n k r0 Er R B h G a b I Ha Hb).
  - destruct (mvar r ms) as [m|] eqn:Em; [|discriminate E]. injection E as <-. cbn [may] in Hm. specialize (Hm m Em).
    apply (new1_step e ms h r m _ (fun N a => c <! h_filter_prefix N k s a ;; ret (SNode c)) S0 Em).
    intros n Gn. pose proof Gn as [(q & A & Eq & Hq) Hc].
    assert (allowed (PFilterPrefix q k s)) as Al by (cbn [allowed]; now rewrite Eq).
    destruct (pure1 q (PFilterPrefix q k s) (fun t => t_filter_prefix mem t k s) n Hq Al) as (N & r0 & Er & Hr0); [reflexivity|].
    exists N, (FNode r0). split; [split|].
    + exists (PFilterPrefix q k s). split; [exact Al|]. split; [cbn [meaning]; now rewrite Eq|exact Hr0].
    + intros t. apply (filter_clean N n k s r0 (Hc t)); [|exact Er].
      destruct Hm as [Hm|[Hm|(x & Hx)]]; [auto|auto|]. left. apply (good_clean n m x Gn Hx t).
    + intros a R B G I Ha. eapply wpk_bind; [apply (filter_ok N n k s r0 R B h G a Er I Ha)|].
      cbn beta. intros c h1 G1 [I1 C1] _. apply wpk_ret. split; [exact I1|exact C1].
  - destruct (mvar r ms) as [m|] eqn:Em; [|discriminate E]. injection E as <-.
    apply (new1_step e ms h r m _ (fun N => h_get N k) S0 Em). intros n Gn.
    destruct (good_get n m k Gn) as (N & o & Eo & Go). eexists N, _. split; [exact Go|].
    intros a R B G I Ha. eapply wpk_weaken; [apply (get_ok N n k o R B h G a Eo I Ha)|].
    cbn beta. intros s h1 G1 [I1 C1] _. split; [exact I1|]. destruct o, s; cbn [srep]; tauto.
  - discriminate E.
  - injection E as <-. destruct (drop_step e ms h r S0) as (h' & D & S').
    exists 0, (upd r SGone e), h'. unfold mbind. rewrite D. split; [reflexivity|exact S'].
Qed.

Lemma done_more {A} (m m' : M A) h x : msim m m' -> m h = Done x -> m' h = Done x.
Proof. intros H E. destruct (H h) as [H1|H1]; congruence. Qed.
Lemma run_good (ok : tinstr -> list (option mval) -> Prop) p e0 ms ms' : (forall i e, ok i e -> may i e /\ (T -> grows i e)) -> m_runs ok p ms ms' ->
  forall h, state e0 ms h -> exists N e' h', t_run dbg N p e0 h = Done (e', h') /\ state e' ms' h'.
Proof.
  intros Ho R. revert e0. induction R as [ms|i p ms ms1 ms2 Hi Es R IH|q P i p ms ms2 Hi Eq HP R IH|q P i p ms ms2 Hi Eq HP R IH]; intros e h S0; cbn [t_run].
  - exists 0, e, h. split; [reflexivity|exact S0].
  - destruct (Ho _ _ Hi) as [Hm Ht]. destruct (step_good _ _ _ _ _ S0 Hm Ht Es) as (N1 & e1 & h1 & D1 & S1).
    destruct (IH e1 h1 S1) as (N2 & e2 & h2 & D2 & S2). exists (N1 + N2), e2, h2. split; [|exact S2].
    unfold mbind. rewrite (done_more _ _ _ _ (t_step_sim dbg N1 (N1 + N2) i e ltac:(lia)) D1).
    apply (done_more _ _ _ _ (t_run_sim dbg N2 (N1 + N2) p e1 ltac:(lia)) D2).
  - destruct (Ho _ _ Hi) as [Hm Ht]. destruct (ask_good q P e ms h S0 Hm Eq) as (N1 & b & h1 & D1 & Hb & S1).
    destruct (IH e h1 S1) as (N2 & e2 & h2 & D2 & S2). exists (N1 + N2), e2, h2. split; [|exact S2].
    cbn [t_step]. unfold mbind at 1 2. rewrite (done_more _ _ _ _ (t_ask_sim N1 (N1 + N2) q e ltac:(lia)) D1).
    assert (b = true) as -> by tauto. apply (done_more _ _ _ _ (t_run_sim dbg N2 (N1 + N2) (i :: p) e ltac:(lia)) D2).
  - destruct (Ho _ _ Hi) as [Hm Ht]. destruct (ask_good q P e ms h S0 Hm Eq) as (N1 & b & h1 & D1 & Hb & S1).
    destruct (IH e h1 S1) as (N2 & e2 & h2 & D2 & S2). exists (N1 + N2), e2, h2. split; [|exact S2].
    cbn [t_step]. unfold mbind at 1 2. rewrite (done_more _ _ _ _ (t_ask_sim N1 (N1 + N2) q e ltac:(lia)) D1).
    assert (b = false) as -> by (destruct b; tauto). unfold ret. apply (done_more _ _ _ _ (t_run_sim dbg N2 (N1 + N2) p e ltac:(lia)) D2).
Qed.
Lemma start_good : Fr [] G0 [] -> state [] [] [].
Proof.
  intros HF. exists G0, [], []. split; [apply inv_empty|]. split; [|split; constructor].
  exists [], []. split; [reflexivity|]. split; [constructor|]. split; [reflexivity|]. split; [exact HF|constructor].
Qed.
Lemma run_start (ok : tinstr -> list (option mval) -> Prop) p ms : Fr [] G0 [] -> (forall i e, ok i e -> may i e /\ (T -> grows i e)) -> m_runs ok p [] ms ->
  exists e h, t_runs dbg p e h /\ state e ms h.
Proof.
  intros HF Ho R. destruct (run_good ok p [] [] ms Ho R [] (start_good HF)) as (N & e & h & D & S1). exists e, h. split; [|exact S1].
  exists N. intros fuel Hf. apply (done_more _ _ _ _ (t_run_sim dbg N fuel p [] Hf) D).
Qed.
End Run.

(** Nothing but variables. *)
Definition bare (h : heap) (G : ghost) (F : list item) : Prop := F = [].
Lemma bare_kept h G F h' G' : bare h G F -> HeapIterProofs.kept F h G h' G' -> bare h' G' F.
Proof. auto. Qed.

Lemma state_shows dbg T Fr e ms h : state dbg T Fr e ms h -> Forall2 (var_holds dbg h) ms e.
Proof.
  intros (G & lk & fe & I & _ & He & Hg).
  assert (live h (items e)) as L by (apply (inv_live_roots _ _ _ _ I); occ_solve).
  assert (forall e fe ms, Forall2 (srep G) e fe -> Forall2 (good dbg T) fe ms -> live h (items e) -> Forall2 (var_holds dbg h) ms e) as A.
  { clear -I. intros e1 fe1 ms1 He. revert ms1. induction He as [|s f e1 fe1 H1 H2 IH]; intros ms1 Hg L; inversion Hg; subst; [constructor|].
    cbn [flat_map] in L. rewrite live_app in L. destruct L as [L1 L2]. constructor; [|now apply IH].
    destruct f as [n|b|l|], y as [[m|v]|], s as [c|hd w|a|]; cbn [good srep] in *; try tauto.
    - destruct (good_holds dbg T n m ltac:(eassumption)) as [Hh Hr]. exists n. split; [apply (shows_ok _ _ _ I _ _ H1 L1)|auto].
    - subst b. cbn [var_holds]. apply (blob_shows_ok _ _ _ _ _ _ I H1 L1). }
  apply (A e fe ms He Hg L).
Qed.

Lemma trees_values dbg p ms : m_runs may p [] ms ->
  exists e h, t_runs dbg p e h /\ Forall2 (var_holds dbg h) ms e.
Proof.
  intros R. destruct (run_start dbg False bare bare_kept may p ms eq_refl ltac:(tauto) R) as (e & h & D & S1). exists e, h. split; [exact D|].
  apply (state_shows _ _ _ _ _ _ S1).
Qed.

Lemma runs_app ok p q a b c : m_runs ok p a b -> m_runs ok q b c -> m_runs ok (p ++ q) a c.
Proof. induction 1; intros H'; cbn [app]; [exact H'|eapply m_next; eauto|eapply m_yes; eauto|eapply m_no; eauto]. Qed.
Lemma drop_all_none (ok : tinstr -> list (option mval) -> Prop) ms : (forall r e, ok (TDrop r) e) -> exists ms', m_runs ok (t_drop_all (length ms)) ms ms' /\ Forall (eq None) ms'.
Proof.
  intros Ho.
  assert (forall n s ms, length ms = s + n -> Forall (eq None) (firstn s ms) ->
    exists ms', m_runs ok (map TDrop (seq s n)) ms ms' /\ Forall (eq None) ms') as A.
  { induction n as [|n IH]; intros s fe0 Hl Hg; cbn [seq map].
    - exists fe0. rewrite firstn_all2 in Hg by lia. split; [constructor|exact Hg].
    - destruct (IH (S s) (upd s None fe0)) as (fe' & H1 & H2).
      + rewrite upd_len. lia.
      + clear -Hl Hg. assert (s < length fe0) as Hs by lia. clear Hl. revert fe0 Hs Hg.
        induction s as [|s IH]; intros [|f fe0] Hs Hg; cbn [length] in Hs; try lia; cbn [upd firstn] in *.
        * constructor; [reflexivity|constructor].
        * inversion Hg; subst. constructor; [reflexivity|]. apply IH; [lia|assumption].
      + exists fe'. split; [|exact H2]. eapply m_next; [apply Ho|reflexivity|exact H1]. }
  apply (A (length ms) 0 ms eq_refl). constructor.
Qed.
Lemma all_gone dbg T e ms h : state dbg T bare e ms h -> Forall (eq None) ms ->
  exists G lk, inv h G lk /\ leaks_ok G lk /\ (T -> lk = []).
Proof.
  intros (G & lk & fe & I & (l & F & -> & L & Z & -> & _) & He & Hg) Hn. exists G, l. rewrite app_nil_r in I. split; [|auto].
  assert (Forall (eq FGone) fe) as Hf.
  { clear -Hg Hn. induction Hg as [|f o fe ms H1 H2 IH]; [constructor|]. inversion Hn; subst. constructor; [|auto].
    destruct f; cbn [good] in H1; tauto. }
  rewrite (gone_items e (f_gone _ _ _ He Hf)) in I. exact I.
Qed.
Lemma trees_leftover dbg p ms : m_runs may p [] ms ->
  exists e h, t_runs dbg (p ++ t_drop_all (length ms)) e h /\ Forall (fun x => snd x = CNodes []) (in_use h).
Proof.
  intros R. destruct (drop_all_none may ms ltac:(intros; exact Logic.I)) as (ms' & R' & Hn).
  destruct (run_start dbg False bare bare_kept may _ ms' eq_refl ltac:(tauto) (runs_app _ _ _ _ _ _ R R')) as (e & h & D & S1).
  destruct (all_gone _ _ _ _ _ S1 Hn) as (G & lk & I & L & _). exists e, h. split; [exact D|]. apply (left_over _ _ _ I L).
Qed.
Lemma trees_freed dbg p ms : m_runs grows p [] ms ->
  exists e h, t_runs dbg (p ++ t_drop_all (length ms)) e h /\ in_use h = [].
Proof.
  intros R. destruct (drop_all_none grows ms ltac:(intros; exact Logic.I)) as (ms' & R' & Hn).
  assert (forall i e, grows i e -> may i e /\ (True -> grows i e)) as Hok.
  { intros i e Hi. split; [|auto]. destruct i; cbn in *; tauto. }
  destruct (run_start dbg True bare bare_kept grows _ ms' eq_refl Hok (runs_app _ _ _ _ _ _ R R')) as (e & h & D & S1).
  destruct (all_gone _ _ _ _ _ S1 Hn) as (G & lk & I & L & Z). exists e, h. split; [exact D|].
  rewrite (Z Logic.I) in I. destruct (in_use h) as [|[n x] u] eqn:E; [reflexivity|].
  destruct (in_use_in h (n, x)) as (a & Ea); [rewrite E; now left|].
  destruct (all_leaked _ _ _ I ltac:(constructor) a n x Ea) as [Ho _]. cbn in Ho. lia.
Qed.

(** ** Variables that a program does not change *)
Lemma m_update_other r f e e' v : m_update r f e = Some e' -> v <> r -> mat v e' = mat v e /\ length e' = length e.
Proof.
  unfold m_update. intros E Hv. destruct (mvar r e); [|discriminate E]. injection E as <-. split; [|apply upd_len].
  unfold mat. now apply upd_nth_other.
Qed.
Lemma m_update2_other r s f e e' v : m_update2 r s f e = Some e' -> v <> r -> mat v e' = mat v e /\ length e' = length e.
Proof.
  unfold m_update2. intros E Hv. destruct (r =? s); [discriminate E|]. destruct (mvar s e); [|discriminate E].
  apply (m_update_other _ _ _ _ _ E Hv).
Qed.
Lemma m_step_other i e e' v : m_step i e = Some e' -> v < length e -> ~ In v (written i) -> mat v e' = mat v e /\ length e <= length e'.
Proof.
  assert (forall (x : list (option mval)) o, v < length x -> mat v (x ++ [o]) = mat v x /\ length x <= length (x ++ [o])) as A.
  { intros x o Hx. split; [unfold mat; now apply app_nth1|rewrite app_length; lia]. }
  intros E Hl Hn. destruct i; cbn [m_step written] in *.
  1-3: injection E as <-; now apply A.
  - destruct (mvar r e); [|discriminate E]. injection E as <-. now apply A.
  - destruct (m_update_other _ _ _ _ v E) as [-> ->]; [|auto]. intros ->. apply Hn. now left.
  - destruct (m_update_other _ _ _ _ v E) as [-> ->]; [|auto]. intros ->. apply Hn. now left.
  - destruct (m_update_other _ _ _ _ v E) as [-> ->]; [|auto]. intros ->. apply Hn. now left.
  - destruct (m_update2_other _ _ _ _ _ v E) as [-> ->]; [|auto]. intros ->. apply Hn. now left.
  - destruct (m_update2_other _ _ _ _ _ v E) as [-> ->]; [|auto]. intros ->. apply Hn. now left.
  - destruct (m_update2_other _ _ _ _ _ v E) as [-> ->]; [|auto]. intros ->. apply Hn. now left.
  - destruct (m_update2_other _ _ _ _ _ v E) as [-> ->]; [|auto]. intros ->. apply Hn. now left.
  - destruct (m_update2_other _ _ _ _ _ v E) as [-> ->]; [|auto]. intros ->. apply Hn. now left.
  - unfold m_new2 in E; destruct (mvar r e); [|discriminate E]; destruct (mvar s e); [|discriminate E]; injection E as <-; now apply A.
  - unfold m_new2 in E; destruct (mvar r e); [|discriminate E]; destruct (mvar s e); [|discriminate E]; injection E as <-; now apply A.
  - unfold m_new2 in E; destruct (mvar r e); [|discriminate E]; destruct (mvar s e); [|discriminate E]; injection E as <-; now apply A.
  - destruct (mvar r e); [|discriminate E]. injection E as <-. now apply A.
  - destruct (mvar r e); [|discriminate E]. injection E as <-. now apply A.
  - discriminate E.
  - injection E as <-. rewrite upd_len. split; [|lia]. unfold mat. apply upd_nth_other. intros ->. apply Hn. now left.
Qed.
Lemma m_runs_other ok p a b v : m_runs ok p a b -> v < length a -> ~ In v (flat_map written p) -> mat v b = mat v a /\ length a <= length b.
Proof.
  induction 1 as [a|i p a b c Hi Es R IH|q P i p a c Hi Eq HP R IH|q P i p a c Hi Eq HP R IH]; intros Hl Hn; [auto| |..];
    cbn [flat_map written] in *; rewrite in_app_iff in *; [|tauto|tauto].
  destruct (m_step_other _ _ _ _ Es Hl) as [E1 L1]; [tauto|]. destruct IH as [E2 L2]; [lia|tauto|]. split; [congruence|lia].
Qed.
Lemma vars_independent dbg p q v x ms ms' : m_runs may p [] ms -> m_runs may q ms ms' -> mat v ms = Some x ->
  ~ In v (flat_map written q) -> exists e h, t_runs dbg (p ++ q) e h /\ var_holds dbg h (Some x) (var v e).
Proof.
  intros R R' Hm Hn. destruct (trees_values dbg _ _ (runs_app _ _ _ _ _ _ R R')) as (e & h & D & F). exists e, h. split; [exact D|].
  assert (v < length ms) as Hl.
  { destruct (Nat.lt_ge_cases v (length ms)) as [|Hge]; [assumption|]. unfold mat in Hm. rewrite nth_overflow in Hm by lia. discriminate Hm. }
  destruct (m_runs_other _ _ _ _ _ R' Hl Hn) as [E L]. rewrite <- Hm, <- E. unfold mat, var.
  apply (Forall2_nth_def _ _ _ v None SGone F). lia.
Qed.
Lemma trees_independent dbg p q v m ms ms' : m_runs may p [] ms -> m_runs may q ms ms' -> mvar v ms = Some m ->
  ~ In v (flat_map written q) -> exists e h, t_runs dbg (p ++ q) e h /\ var_holds dbg h (Some (MTree m)) (var v e).
Proof.
  intros R R' Hm. apply (vars_independent dbg p q v _ ms ms' R R'). unfold mvar in Hm. destruct (mat v ms) as [[m'|]|]; congruence.
Qed.
Lemma values_stay dbg p q r k m b ms ms' : m_runs may p [] ms -> mvar r ms = Some m -> m k = Some b ->
  m_runs may q (ms ++ [Some (MValue b)]) ms' -> ~ In (length ms) (flat_map written q) ->
  exists e h hdr w, t_runs dbg (p ++ TGet r k :: q) e h /\ var (length ms) e = SValue hdr w /\ blob_read hdr w h = Done (b, h).
Proof.
  intros R Hm Hk R' Hn.
  assert (m_runs may (p ++ [TGet r k]) [] (ms ++ [Some (MValue b)])) as R1.
  { apply (runs_app _ _ _ _ _ _ R). eapply m_next; [exact Logic.I| |constructor]. cbn [m_step]. now rewrite Hm, Hk. }
  destruct (vars_independent dbg _ q (length ms) (MValue b) _ _ R1 R') as (e & h & D & V).
  - unfold mat. rewrite app_nth2, Nat.sub_diag by lia. reflexivity.
  - exact Hn.
  - rewrite <- app_assoc in D. cbn [app] in D. destruct (var (length ms) e) as [c|hd w|a|] eqn:Ev; cbn [var_holds] in V; try tauto.
    exists e, h, hd, w. split; [exact D|]. split; [exact Ev|apply V].
Qed.

(** ** Questions *)
Lemma ask_answers dbg p ms q (P : Prop) : m_runs may p [] ms -> may_ask q ms -> q_asks q ms = Some P ->
  exists e h b h', t_runs dbg p e h /\ (exists n0, forall fuel, n0 <= fuel -> t_ask fuel q e h = Done (b, h')) /\
    (b = true <-> P) /\ Forall2 (var_holds dbg h') ms e.
Proof.
  intros R Hm E. destruct (run_start dbg False bare bare_kept may p ms eq_refl ltac:(tauto) R) as (e & h & D & S1).
  destruct (ask_good dbg False bare bare_kept q P e ms h S1 Hm E) as (N & b & h' & Da & Hb & S2). exists e, h, b, h'. split; [exact D|].
  split; [|split; [exact Hb|apply (state_shows _ _ _ _ _ _ S2)]].
  exists N. intros fuel Hf. apply (done_more _ _ _ _ (t_ask_sim N fuel q e Hf) Da).
Qed.
