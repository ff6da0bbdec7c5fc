(** Programs whose closures panic, on the heap. *)
From Verif Require Import Base BaseLemmas Header Node Combine Iter Api Spec Client Store FailSpec InPlaceSpec InPlaceAgree SurviveSpec Survive.
From Verif Require Import Heap HeapSpec HeapProofs HeapOps HeapRun
  HeapTop HeapIter HeapTree HeapBorrow HeapMerge HeapClean HeapTreeOps HeapTreeRec HeapTreeOuter HeapJoinPure HeapJoin HeapFind HeapAsk HeapTreeMono HeapTreeSpec MemLemmas
  HeapTreeTop InPlace HeapFail HeapFailOps HeapFailRec HeapFailNew HeapFailSpec HeapFailPure.

(** ** More steps *)
Section Sim.
Context (bk : bool).
Lemma and_then_sim {A} (m m' : M (A * bool)) k k' : msim m m' -> (forall a, msim (k a) (k' a)) -> msim (and_then m k) (and_then m' k').
Proof. intros H K. unfold and_then. ms. Qed.
Section Merge.
Context (rec rec' : cnode -> cnode -> M (cnode * bool)) (Hr : forall x y, msim (rec x y) (rec' x y)).
Lemma hf_merge_sim keep ins : match ins with Some c => conv_sim c | None => True end ->
  forall f f' ac bc, f <= f' -> msim (hf_merge bk keep ins rec f ac bc) (hf_merge bk keep ins rec' f' ac bc).
Proof. intros Hi. induction f as [|f IH]; intros [|f'] ac bc Hf; try lia; cbn [hf_merge]; ms. Qed.
Lemma hf_outer_children_sim c f f' ac bc : conv_sim c -> f <= f' -> msim (hf_outer_children bk c rec f ac bc) (hf_outer_children bk c rec' f' ac bc).
Proof. intros Hc Hf. unfold hf_outer_children. ms; [apply h_convert_loop_sim|apply hf_merge_sim]; auto. Qed.
Lemma hf_inner_children_sim f f' ac bc : f <= f' -> msim (hf_inner_children bk rec f ac bc) (hf_inner_children bk rec' f' ac bc).
Proof. intros Hf. unfold hf_inner_children. ms. apply hf_merge_sim; auto. Qed.
Lemma hf_left_children_sim f f' ac bc : f <= f' -> msim (hf_left_children bk rec f ac bc) (hf_left_children bk rec' f' ac bc).
Proof. intros Hf. unfold hf_left_children. ms. apply hf_merge_sim; auto. Qed.
End Merge.
Lemma hf_with_children_sim c k k' : (forall cs, msim (k cs) (k' cs)) -> msim (hf_with_children c k) (hf_with_children c k').
Proof. intros H. unfold hf_with_children. ms. Qed.
Lemma hf_kids_sim k k' b ac : (forall ac bc, msim (k ac bc) (k' ac bc)) -> msim (hf_kids k b ac) (hf_kids k' b ac).
Proof. intros H. unfold hf_kids. ms. Qed.
Lemma hf_kids_short_sim k k' b n ac : (forall ac bc, msim (k ac bc) (k' ac bc)) -> msim (hf_kids_short k b n ac) (hf_kids_short k' b n ac).
Proof. intros H. unfold hf_kids_short. ms. Qed.
Lemma hf_recurse_sim dbg a k k' : (forall cs, msim (k cs) (k' cs)) -> msim (hf_recurse dbg a k) (hf_recurse dbg a k').
Proof. intros H. unfold hf_recurse. apply and_then_sim; [|intros; apply msim_refl]. unfold hf_with_children. ms. Qed.
Ltac kids := repeat (mstep || (apply and_then_sim; [|intros ?]) || (apply h_with_children_sim; intros ?) || (apply hf_with_children_sim; intros ?) || (apply hf_recurse_sim; intros ?) || (apply hf_kids_sim; intros ? ?) || (apply hf_kids_short_sim; intros ? ?)
  || apply hf_inner_children_sim || apply hf_left_children_sim || (apply hf_outer_children_sim; auto) || lia || intros ? ?).
Lemma hf_outer_with_sim dbg c hf : conv_sim c -> forall f f' a b, f <= f' -> msim (hf_outer_with bk dbg c hf f a b) (hf_outer_with bk dbg c hf f' a b).
Proof.
  intros Hc. pose proof (proj2 Hc) as Hs. induction f as [|f IH]; intros [|f'] a b Hf; try lia; cbn [hf_outer_with]; cbv zeta; kids.
Qed.
Lemma hf_inner_with_sim dbg hf : forall f f' a b, f <= f' -> msim (hf_inner_with bk dbg hf f a b) (hf_inner_with bk dbg hf f' a b).
Proof. induction f as [|f IH]; intros [|f'] a b Hf; try lia; cbn [hf_inner_with]; cbv zeta; kids. Qed.
Lemma hf_left_with_sim dbg hf : forall f f' a b, f <= f' -> msim (hf_left_with bk dbg hf f a b) (hf_left_with bk dbg hf f' a b).
Proof. induction f as [|f IH]; intros [|f'] a b Hf; try lia; cbn [hf_left_with]; cbv zeta; kids. Qed.
Lemma hf_retain_prefix_with_sim dbg hs : forall f f' a b, f <= f' -> msim (hf_retain_prefix_with bk dbg hs f a b) (hf_retain_prefix_with bk dbg hs f' a b).
Proof. induction f as [|f IH]; intros [|f'] a b Hf; try lia; cbn [hf_retain_prefix_with]; cbv zeta; kids. Qed.
Lemma hf_remove_prefix_with_sim dbg hs : forall f f' a b, f <= f' -> msim (hf_remove_prefix_with bk dbg hs f a b) (hf_remove_prefix_with bk dbg hs f' a b).
Proof. induction f as [|f IH]; intros [|f'] a b Hf; try lia; cbn [hf_remove_prefix_with]; cbv zeta; kids. Qed.
Lemma f_update_sim e r s m m' : (forall a b, msim (m a b) (m' a b)) -> msim (f_update e r s m) (f_update e r s m').
Proof. intros H. unfold f_update. ms. Qed.
Lemma unless_sim {A C} (m m' : M (option A)) (k k' : A -> M (option C)) : msim m m' -> (forall a, msim (k a) (k' a)) -> msim (unless_unwound m k) (unless_unwound m' k').
Proof. intros H K. unfold unless_unwound. ms. Qed.
Lemma made_sim {A} (m m' : M A) : msim m m' -> msim (made m) (made m').
Proof. intros H. unfold made. ms. Qed.
Lemma hn_keep_sim chk r m m' : msim m m' -> msim (hn_keep chk r m) (hn_keep chk r m').
Proof. intros H. unfold hn_keep. ms. Qed.
Lemma hn_join_sim ka kb rec rec' : (forall x y, msim (rec x y) (rec' x y)) -> forall f f' a b, f <= f' -> msim (hn_join ka kb rec f a b) (hn_join ka kb rec' f' a b).
Proof.
  intros Hr. induction f as [|f IH]; intros [|f'] a b Hf; try lia; cbn [hn_join];
    repeat (mstep || (apply unless_sim; [|intros ?]) || apply hn_keep_sim || (apply IH; lia) || apply h_detached_sim || lia || apply Hr).
Qed.
Lemma hn_outer_join_sim rec rec' f f' ac bc : (forall x y, msim (rec x y) (rec' x y)) -> f <= f' -> msim (hn_outer_join rec f ac bc) (hn_outer_join rec' f' ac bc).
Proof. intros Hr Hf. unfold hn_outer_join. ms; repeat (first [apply unless_sim; [now apply hn_join_sim|intros ?] | apply made_sim | apply msim_refl | now apply h_it_detached_sim]). Qed.
Lemma hn_inner_join_sim rec rec' f f' ac bc : (forall x y, msim (rec x y) (rec' x y)) -> f <= f' -> msim (hn_inner_join rec f ac bc) (hn_inner_join rec' f' ac bc).
Proof. intros Hr Hf. unfold hn_inner_join. ms; repeat (first [apply unless_sim; [now apply hn_join_sim|intros ?] | apply made_sim | apply msim_refl | now apply h_it_detached_sim]). Qed.
Lemma hn_left_join_sim rec rec' f f' ac bc : (forall x y, msim (rec x y) (rec' x y)) -> f <= f' -> msim (hn_left_join rec f ac bc) (hn_left_join rec' f' ac bc).
Proof. intros Hr Hf. unfold hn_left_join. ms; repeat (first [apply unless_sim; [now apply hn_join_sim|intros ?] | apply made_sim | apply msim_refl | now apply h_it_detached_sim]). Qed.
Lemma hn_finish_sim dbg p v k k' : msim k k' -> msim (hn_finish dbg p v k) (hn_finish dbg p v k').
Proof. intros H. unfold hn_finish. apply unless_sim; [apply msim_refl|intros ?]. ms. Qed.
Lemma hn_both_sim k k' a b : (forall x y, msim (k x y) (k' x y)) -> msim (hn_both k a b) (hn_both k' a b).
Proof. intros H. unfold hn_both. ms. Qed.
Lemma hn_second_sim k k' a b n : (forall x y, msim (k x y) (k' x y)) -> msim (hn_second_short k a b n) (hn_second_short k' a b n).
Proof. intros H. unfold hn_second_short. ms. Qed.
Lemma hn_first_sim k k' a b n : (forall x y, msim (k x y) (k' x y)) -> msim (hn_first_short k a b n) (hn_first_short k' a b n).
Proof. intros H. unfold hn_first_short. ms. Qed.
Ltac news := repeat (mstep || apply made_sim || apply hn_finish_sim || (apply hn_both_sim; intros ? ?) || (apply hn_second_sim; intros ? ?) || (apply hn_first_sim; intros ? ?)
  || apply hn_outer_join_sim || apply hn_inner_join_sim || apply hn_left_join_sim || apply h_detached_sim || lia || intros ? ?).
Lemma hn_outer_sim dbg hf : forall f f' a b, f <= f' -> msim (hn_outer dbg hf f a b) (hn_outer dbg hf f' a b).
Proof.
  pose proof (proj2 detach_sim) as Hs. induction f as [|f IH]; intros [|f'] a b Hf; try lia; cbn [hn_outer]; cbv zeta; news.
Qed.
Lemma hn_inner_sim dbg hf : forall f f' a b, f <= f' -> msim (hn_inner dbg hf f a b) (hn_inner dbg hf f' a b).
Proof. induction f as [|f IH]; intros [|f'] a b Hf; try lia; cbn [hn_inner]; cbv zeta; news. Qed.
Lemma hn_left_sim dbg hf : forall f f' a b, f <= f' -> msim (hn_left dbg hf f a b) (hn_left dbg hf f' a b).
Proof. induction f as [|f IH]; intros [|f'] a b Hf; try lia; cbn [hn_left]; cbv zeta; news. Qed.
Lemma f_new_sim e r s m m' : (forall a b, msim (m a b) (m' a b)) -> msim (f_new e r s m) (f_new e r s m').
Proof. intros H. unfold f_new. ms. Qed.
Lemma f_step_sim dbg f f' i e : f <= f' -> msim (f_step bk dbg f i e) (f_step bk dbg f' i e).
Proof.
  intros Hf. destruct i as [i|[| |] panics g r s|[|] panics g r s|[| |] panics g r s]; cbn [f_step].
  - apply msim_bind; [now apply t_step_sim|intros; apply msim_refl].
  - apply f_update_sim. intros. apply hf_outer_with_sim; [exact detach_sim|exact Hf].
  - apply f_update_sim. intros. now apply hf_inner_with_sim.
  - apply f_update_sim. intros. now apply hf_left_with_sim.
  - apply f_update_sim. intros. now apply hf_retain_prefix_with_sim.
  - apply f_update_sim. intros. now apply hf_remove_prefix_with_sim.
  - apply f_new_sim. intros. now apply hn_outer_sim.
  - apply f_new_sim. intros. now apply hn_inner_sim.
  - apply f_new_sim. intros. now apply hn_left_sim.
Qed.
Lemma f_run_sim dbg f f' p : f <= f' -> forall e, msim (f_run bk dbg f p e) (f_run bk dbg f' p e).
Proof.
  intros Hf. induction p as [|i p IH]; intros e; cbn [f_run]; [apply msim_refl|].
  apply msim_bind; [now apply f_step_sim|]. intros x. apply msim_bind; [apply IH|intros; apply msim_refl].
Qed.
End Sim.

Section Run.
Context (bk dbg : bool).

Definition good (f : fslot) (o : option mval) : Prop :=
  match f, o with
  | FValue b, Some (MValue v) => b = Data v
  | FNode n, Some (MTree m) => winv mem n m
  | FGone, None => True
  | _, _ => False
  end.
Definition state (e : env) (ms : list (option mval)) (h : heap) : Prop :=
  exists G lk fe, inv h G (items e ++ lk) /\ leaks_ok G lk /\ Forall2 (srep G) e fe /\ Forall2 good fe ms.

Lemma find_var G e fe ms r m : Forall2 (srep G) e fe -> Forall2 good fe ms -> mvar r ms = Some m ->
  exists c n, var r e = SNode c /\ fvar r fe = FNode n /\ crep G c n /\ good (FNode n) (Some (MTree m)) /\ r < length e.
Proof.
  intros He Hf Hm. assert (r < length ms) as Hr.
  { destruct (Nat.lt_ge_cases r (length ms)) as [|Hge]; [assumption|]. unfold mvar, mat in Hm. rewrite nth_overflow in Hm by lia. discriminate Hm. }
  unfold mvar in Hm. destruct (mat r ms) as [[m'|v]|] eqn:Ha; try discriminate Hm. injection Hm as ->.
  assert (r < length fe) as Hr' by (now rewrite (Forall2_len _ _ _ Hf)).
  assert (r < length e) as Hr2 by (now rewrite (Forall2_len _ _ _ He)).
  pose proof (Forall2_nth_def _ _ _ r FGone None Hf Hr') as Hg. fold (mat r ms) in Hg. rewrite Ha in Hg.
  pose proof (env_var _ _ _ r He) as Hv. unfold fvar in *. destruct (nth r fe FGone) as [n|b|l|]; cbn [good] in Hg; try tauto.
  destruct (var r e) as [c| | |]; cbn [srep] in Hv; try tauto. exists c, n. auto 6.
Qed.

(** A variable replaced by what an operation makes of it, while [B] is borrowed from
    another variable. *)
Lemma put_back e fe ms r c n a n' mm G' lk lk' h' R B : var r e = SNode c -> fvar r fe = FNode n -> r < length e ->
  (forall b, occ b (items (upd r SGone e) ++ lk) = occ b (R ++ B)) ->
  Forall2 (srep G') (upd r SGone e) (upd r FGone fe) -> Forall2 good fe ms -> good (FNode n') (Some (MTree mm)) ->
  inv h' G' (node_items a ++ lk' ++ R ++ B) -> crep G' a n' -> leaks_ok G' lk' -> leaks_ok G' lk ->
  state (upd r (SNode a) e) (upd r (Some (MTree mm)) ms) h'.
Proof.
  intros Er Ef Hr Ho He Hg Hn I C L' L.
  exists G', (lk' ++ lk), (upd r (FNode n') fe).
  assert (Forall2 (srep G') (upd r (SNode a) e) (upd r (FNode n') fe)) as He'.
  { rewrite <- (upd_upd r _ SGone e), <- (upd_upd r _ FGone fe). apply env_upd; [exact He|exact C]. }
  assert (leaks_ok G' (lk' ++ lk)) as Lk by (apply Forall_app; split; assumption).
  split; [|split; [exact Lk|split; [exact He'|apply Forall2_upd; assumption]]].
  - apply (inv_occ _ _ _ _ I).
    + intros b. pose proof (occ_put e r (SNode a) b Hr) as O. rewrite upd_upd in O. cbn [slot_items] in O.
      specialize (Ho b). rewrite !occ_app in *. lia.
    + rewrite Forall_app. split; [apply (env_items _ _ _ He')|apply (leaks_items _ _ Lk)].
Qed.

Lemma update1 e ms r m mm (mo : nat -> cnode -> M cnode) h :
  state e ms h -> mvar r ms = Some m ->
  (forall n, good (FNode n) (Some (MTree m)) -> exists N n' (C : Prop), good (FNode n') (Some (MTree mm)) /\
     forall c R G, inv h G (node_items c ++ R ++ []) -> crep G c n -> wpk (mo N c) R [] (npost R [] n' C) h G) ->
  exists N e' h', t_update e r (mo N) h = Done (e', h') /\ state e' (upd r (Some (MTree mm)) ms) h'.
Proof.
  intros (G & lk & fe & I & L & He & Hg) Hm Hp.
  destruct (find_var _ _ _ _ _ _ He Hg Hm) as (c & n & Er & Ef & C & Gn & Hr).
  destruct (Hp n Gn) as (N & n' & Cd & Gn' & Hw). set (R := items (upd r SGone e) ++ lk).
  assert (Forall2 (srep G) (upd r SGone e) (upd r FGone fe)) as He1 by (apply env_upd; [exact He|exact Logic.I]).
  assert (inv h G (node_items c ++ R ++ [])) as J.
  { apply (inv_occ _ _ _ _ I).
    - intros b. pose proof (occ_gone e r b) as O. rewrite Er in O. cbn [slot_items] in O. unfold R. rewrite !occ_app. cbn [occ]. lia.
    - unfold R. rewrite !Forall_app. split; [apply (crep_items _ _ _ C)|]. split; [|constructor].
      split; [apply (env_items _ _ _ He1)|apply (leaks_items _ _ L)]. }
  destruct (Hw c R G J C) as (a & h' & G' & D & St & _ & (lk' & I' & C' & L' & _)).
  exists N, (upd r (SNode a) e), h'. split; [unfold t_update, mbind; rewrite Er, D; reflexivity|].
  destruct St as (X & _). unfold R in X. rewrite ext_app in X. destruct X as [X1 X2]. pose proof (leaks_ext _ _ _ L X2) as L2.
  apply (put_back e fe ms r c n a n' mm G' lk lk' h' R [] Er Ef Hr); auto.
  - intros b. unfold R. rewrite !occ_app. cbn [occ]. lia.
  - apply (env_ext _ _ _ _ He1 X1).
Qed.

Lemma update2 e ms r s m1 m2 (Q : kmap -> bool -> Prop) (mo : nat -> cnode -> cnode -> M (cnode * bool)) h :
  state e ms h -> r <> s -> mvar r ms = Some m1 -> mvar s ms = Some m2 ->
  (forall n k, good (FNode n) (Some (MTree m1)) -> good (FNode k) (Some (MTree m2)) ->
     exists N n' ok mm, good (FNode n') (Some (MTree mm)) /\ Q mm ok /\
     forall c b R B G, inv h G (node_items c ++ R ++ B) -> crep G c n -> bor h G B b k ->
       wpk (mo N c b) R B (fpost R B n' ok) h G) ->
  exists N e' h' ok mm, f_update e r s (mo N) h = Done (e', ok, h') /\ Q mm ok /\ state e' (upd r (Some (MTree mm)) ms) h'.
Proof.
  intros (G & lk & fe & I & L & He & Hg) Hne Hm1 Hm2 Hp.
  destruct (find_var _ _ _ _ _ _ He Hg Hm1) as (c & n & Er & Ef & C & Gn & Hr).
  destruct (find_var _ _ _ _ _ _ He Hg Hm2) as (b & k & Es & Efs & Cb & Gk & Hs).
  destruct (Hp n k Gn Gk) as (N & n' & ok & mm & Gn' & HQ & Hw).
  set (e1 := upd r SGone e). set (R := items (upd s SGone e1) ++ lk). set (B := node_items b).
  assert (Forall2 (srep G) e1 (upd r FGone fe)) as He1 by (apply env_upd; [exact He|exact Logic.I]).
  assert (Forall2 (srep G) (upd s SGone e1) (upd s FGone (upd r FGone fe))) as He2 by (apply env_upd; [exact He1|exact Logic.I]).
  assert (var s e1 = SNode b) as Es1. { unfold e1, var. rewrite upd_nth_other by congruence. exact Es. }
  assert (nth s (upd r FGone fe) FGone = FNode k) as Efs1. { rewrite upd_nth_other by congruence. exact Efs. }
  assert (forall x, occ x (items e1 ++ lk) = occ x (R ++ B)) as Ho.
  { intros x. pose proof (occ_gone e1 s x) as O. rewrite Es1 in O. cbn [slot_items] in O. unfold R, B. rewrite !occ_app. lia. }
  assert (inv h G (node_items c ++ R ++ B)) as J.
  { apply (inv_occ _ _ _ _ I).
    - intros x. pose proof (occ_gone e r x) as O. rewrite Er in O. cbn [slot_items] in O. fold e1 in O. specialize (Ho x).
      rewrite !occ_app in *. lia.
    - unfold R, B. rewrite !Forall_app. split; [apply (crep_items _ _ _ C)|]. split; [|apply (crep_items _ _ _ Cb)].
      split; [apply (env_items _ _ _ He2)|apply (leaks_items _ _ L)]. }
  assert (bor h G B b k) as Hb. { pose proof (bor_own h G [] b _ Cb) as Hb. now rewrite app_nil_r in Hb. }
  destruct (Hw c b R B G J C Hb) as ([a ok'] & h' & G' & D & St & K & ((lk' & I' & C' & L' & _) & Eo)). cbn [fst snd] in *. subst ok'.
  exists N, (upd r (SNode a) e), h', ok, mm. split; [unfold f_update, mbind; rewrite Es, Er, D; reflexivity|]. split; [exact HQ|].
  destruct St as (X & _). unfold R in X. rewrite ext_app in X. destruct X as [X1 X2]. pose proof (leaks_ext _ _ _ L X2) as L2.
  apply (put_back e fe ms r c n a n' mm G' lk lk' h' R B Er Ef Hr); auto.
  - fold e1. rewrite <- (upd_nth s e1 SGone), <- (upd_nth s (upd r FGone fe) FGone), Efs1. change (nth s e1 SGone) with (var s e1). rewrite Es1.
    rewrite <- (upd_upd s (SNode b) SGone e1), <- (upd_upd s (FNode k) FGone). apply env_upd; [apply (env_ext _ _ _ _ He2 X1)|].
    apply (bor_keeps _ _ _ _ _ _ _ K Hb).
Qed.


(** ** Steps *)
Lemma new_slot e ms h c n G lk fe : Forall2 (srep G) e fe -> Forall2 good fe ms -> leaks_ok G lk ->
  inv h G (node_items c ++ items e ++ lk) -> crep G c n -> forall m, good (FNode n) (Some (MTree m)) -> state (e ++ [SNode c]) (ms ++ [Some (MTree m)]) h.
Proof.
  intros He Hg L I C m Gn. exists G, lk, (fe ++ [FNode n]).
  split; [|split; [exact L|split]].
  - rewrite items_app. cbn [flat_map slot_items]. rewrite app_nil_r. rearr I.
  - apply Forall2_app; [exact He|]. constructor; [exact C|constructor].
  - apply Forall2_app; [exact Hg|]. constructor; [exact Gn|constructor].
Qed.
Lemma new_step e ms h (mk : M cnode) n m : state e ms h -> (forall R B h G, inv h G (R ++ B) -> wpk mk R B (owned R B n) h G) ->
  good (FNode n) (Some (MTree m)) -> exists c h', mk h = Done (c, h') /\ state (e ++ [SNode c]) (ms ++ [Some (MTree m)]) h'.
Proof.
  intros (G & lk & fe & I & L & He & Hg) Hm Gn.
  assert (inv h G ((items e ++ lk) ++ [])) as J by rearr I.
  destruct (Hm _ _ _ _ J) as (c & h' & G' & D & St & _ & (I' & C')).
  destruct St as (X & _). rewrite ext_app in X. destruct X as [X1 X2]. pose proof (leaks_ext _ _ _ L X2) as L2.
  exists c, h'. split; [exact D|]. apply (new_slot e ms h' c n G' lk fe); auto.
  - apply (env_ext _ _ _ _ He X1).
  - rearr I'.
Qed.
Lemma clone_step e ms h r m : state e ms h -> mvar r ms = Some m ->
  exists c c' h', var r e = SNode c /\ h_clone c h = Done (c', h') /\ state (e ++ [SNode c']) (ms ++ [Some (MTree m)]) h'.
Proof.
  intros (G & lk & fe & I & L & He & Hg) Hm.
  destruct (find_var _ _ _ _ _ _ He Hg Hm) as (c & n & Er & Ef & C & Gn & Hr).
  assert (near (items e) h c) as Nc.
  { intros a Ha. pose proof (occ_var e r a) as O. rewrite Er in O. cbn [slot_items] in O. lia. }
  destruct (near_live _ _ _ _ _ I Nc) as [Lv Ab].
  destruct (wp_clone c n _ lk h G I C Lv Ab) as (c' & h' & G' & D & St & (-> & -> & I' & _)).
  exists c, c, h'. split; [exact Er|]. split; [exact D|]. apply (new_slot e ms h' c n G lk fe); auto.
Qed.
Lemma new1_step e ms h r m o (mo : nat -> cnode -> M slot) :
  state e ms h -> mvar r ms = Some m ->
  (forall n, good (FNode n) (Some (MTree m)) -> exists N f, good f o /\
     forall a R B G, inv h G (R ++ B) -> bor h G B a n ->
       wpk (mo N a) R B (fun s h' G' => inv h' G' (slot_items s ++ R ++ B) /\ srep G' s f) h G) ->
  exists N e' h', t_new1 e r (mo N) h = Done (e', h') /\ state e' (ms ++ [o]) h'.
Proof.
  intros (G & lk & fe & I & L & He & Hg) Hm Hp.
  destruct (find_var _ _ _ _ _ _ He Hg Hm) as (a & n & Er & Ef & C & Gn & Hr).
  destruct (Hp n Gn) as (N & f & Gf & Hw).
  assert (inv h G (lk ++ items e)) as J by rearr I.
  assert (bor h G (items e) a n) as Hb.
  { split; [exact C|]. intros x Hx. apply deep_root. pose proof (occ_var e r x) as O. rewrite Er in O. cbn [slot_items] in O. lia. }
  destruct (Hw a lk (items e) G J Hb) as (s & h' & G' & D & St & K & (I' & C')).
  pose proof (leaks_ext _ _ _ L (proj1 St)) as L2.
  exists N, (e ++ [s]), h'. split; [unfold t_new1, mbind; rewrite Er, D; reflexivity|].
  exists G', lk, (fe ++ [f]). split; [|split; [exact L2|split]].
  - rewrite items_app. cbn [flat_map]. rewrite app_nil_r. rearr I'.
  - apply Forall2_app; [|constructor; [exact C'|constructor]].
    apply (env_ext _ _ _ _ He). intros x Hx. apply (K x). now apply deep_root.
  - apply Forall2_app; [exact Hg|]. constructor; [exact Gf|constructor].
Qed.
Lemma empty_winv : winv mem n_empty m_empty.
Proof.
  exists Tree.tempty. split; [apply (TopOps.good_empty false mem)|]. split; [apply WeakJoin.wroot_tempty|]. intros k. apply Tree.tempty_lookup.
Qed.
Lemma new2_step e ms h r s m mu (Q : kmap -> bool -> Prop) (mo : nat -> cnode -> cnode -> M (option cnode)) :
  state e ms h -> mvar r ms = Some m -> mvar s ms = Some mu ->
  (forall n k, good (FNode n) (Some (MTree m)) -> good (FNode k) (Some (MTree mu)) ->
     exists N ro, match ro with
                  | Ok w => exists mm, good (FNode w) (Some (MTree mm)) /\ Q mm true
                  | Err => Q m_empty false
                  | _ => False
                  end /\
     forall a b R B G, inv h G (R ++ B) -> bor h G B a n -> bor h G B b k -> wpk (mo N a b) R B (may R B (owned R B) ro) h G) ->
  exists N e' h' ok mm, f_new e r s (mo N) h = Done (e', ok, h') /\ Q mm ok /\ state e' (ms ++ [Some (MTree mm)]) h'.
Proof.
  intros (G & lk & fe & I & L & He & Hg) Hm1 Hm2 Hp.
  destruct (find_var _ _ _ _ _ _ He Hg Hm1) as (a & n & Er & Ef & C & Gn & Hr).
  destruct (find_var _ _ _ _ _ _ He Hg Hm2) as (b & k & Es & Efs & Cb & Gk & Hs).
  destruct (Hp n k Gn Gk) as (N & ro & Hro & Hw).
  assert (inv h G (lk ++ items e)) as J by rearr I.
  assert (bor h G (items e) a n) as Ha.
  { split; [exact C|]. intros x Hx. apply deep_root. pose proof (occ_var e r x) as O. rewrite Er in O. cbn [slot_items] in O. lia. }
  assert (bor h G (items e) b k) as Hb.
  { split; [exact Cb|]. intros x Hx. apply deep_root. pose proof (occ_var e s x) as O. rewrite Es in O. cbn [slot_items] in O. lia. }
  destruct (Hw a b lk (items e) G J Ha Hb) as (o & h' & G' & D & St & K & Ho).
  pose proof (leaks_ext _ _ _ L (proj1 St)) as L2.
  assert (Forall2 (srep G') e fe) as He'. { apply (env_ext _ _ _ _ He). intros x Hx. apply (K x). now apply deep_root. }
  destruct o as [c|], ro as [w| | |]; cbn [may] in Ho; try contradiction.
  - destruct Hro as (mm & Gw & HQ). destruct Ho as [I' C'].
    exists N, (e ++ [SNode c]), h', true, mm. split; [unfold f_new, mbind; rewrite Er, Es, D; reflexivity|]. split; [exact HQ|].
    apply (new_slot e ms h' c w G' lk fe); auto. rearr I'.
  - exists N, (e ++ [SNode c_empty]), h', false, m_empty. split; [unfold f_new, mbind; rewrite Er, Es, D; reflexivity|]. split; [exact Hro|].
    apply (new_slot e ms h' c_empty n_empty G' lk fe); auto.
    + rewrite empty_items. rearr Ho.
    + apply empty_crep.
    + exact empty_winv.
Qed.
Lemma good_get n m k : good (FNode n) (Some (MTree m)) -> exists N o, get mem N n k = Ok o /\
  good (match o with Some b => FValue b | None => FGone end) (option_map MValue (m k)).
Proof.
  intros Gn. pose proof (proj1 (winv_readable _ _ _ Gn) k) as Hh.
  destruct Hh as (_ & N & H). specialize (H N (le_n _)). unfold get_bytes, t_get in H.
  destruct (get mem N n k) as [o| | |] eqn:Eo; try discriminate H. cbn [bind] in H. exists N, o. split; [exact Eo|].
  destruct o as [b|]; cbn [load_opt] in H.
  - stepE H x Ex. assert (m k = Some x) as -> by congruence. cbn [option_map good].
    unfold value_load in Ex. destruct b as [d|[|y id]]; cbn in Ex; try discriminate Ex. congruence.
  - assert (m k = None) as -> by congruence. exact Logic.I.
Qed.
Lemma drop_step e ms h r : state e ms h ->
  exists h', drop (slot_items (var r e)) h = Done (tt, h') /\ state (upd r SGone e) (upd r None ms) h'.
Proof.
  intros (G & lk & fe & I & L & He & Hg).
  assert (Forall2 (srep G) (upd r SGone e) (upd r FGone fe)) as Hu by (apply env_upd; [exact He|exact Logic.I]).
  assert (inv h G (slot_items (var r e) ++ (items (upd r SGone e) ++ lk))) as J.
  { apply (inv_occ _ _ _ _ I).
    - intros b. rewrite !occ_app. pose proof (occ_gone e r b). lia.
    - rewrite !Forall_app. split; [apply (srep_items _ _ (fvar r fe)); now apply env_var|].
      split; [apply (env_items _ _ _ Hu)|apply (leaks_items _ _ L)]. }
  destruct (wp_drop _ _ _ _ J) as ([] & h' & G' & D & St & (-> & I' & _)). exists h'. split; [exact D|].
  exists G, lk, (upd r FGone fe). split; [exact I'|]. split; [exact L|]. split; [exact Hu|].
  apply Forall2_upd; [exact Hg|exact Logic.I].
Qed.


(** ** The pure results *)
Lemma calm_ok m f m' (lost : bytes -> Prop) (safe calm : Prop) : goes mem m f m' lost safe calm -> safe -> calm ->
  exists N n', f N = (n', Ok tt) /\ winv mem n' m'.
Proof.
  intros (n' & r & (_ & N & E) & H) Hs Hc. exists N, n'. rewrite (E N (le_n _)).
  destruct H as [(-> & H)|[(-> & H & _)|[_ H]]]; tauto.
Qed.
Lemma single_winv k v : winv mem (n_single k v) (m_insert m_empty k v).
Proof.
  exists (Tree.T k (Some v) []). split; [apply Rep_single|]. split; [apply wroot_single|]. intros x. rewrite TopOps.lookup_single.
  unfold m_insert. destruct (beq x k); reflexivity.
Qed.
Lemma leaf_winv v : winv mem (n_leaf v) (m_insert m_empty [] v).
Proof. apply (single_winv [] v). Qed.

Lemma call_good i e ms ms' h : state e ms h -> plain i -> m_step i ms = Some ms' ->
  exists N e' h', t_step dbg N i e h = Done (e', h') /\ state e' ms' h'.
Proof.
  intros S0 Hp E. destruct i as [|v|k v|r|r k v|r k|r k|g r s|g r s|g r s|g r s|g r s|g r s|g r s|g r s|r k s|r k|q i|r]; cbn [m_step t_step plain] in *; try contradiction.
  - exists 0, (e ++ [SNode c_empty]), h. split; [reflexivity|]. injection E as <-.
    destruct S0 as (G & lk & fe & I & L & He & Hg). apply (new_slot e ms h c_empty n_empty G lk fe); auto.
    + apply empty_crep.
    + exact empty_winv.
  - injection E as <-. destruct (new_step e ms h (h_leaf v) (n_leaf v) (m_insert m_empty [] v) S0) as (c & h' & D & S').
    + intros. now apply wpk_leaf.
    + apply leaf_winv.
    + exists 0, (e ++ [SNode c]), h'. unfold mbind. rewrite D. split; [reflexivity|exact S'].
  - injection E as <-. destruct (new_step e ms h (h_single k v) (n_single k v) (m_insert m_empty k v) S0) as (c & h' & D & S').
    + intros. now apply wpk_single.
    + apply single_winv.
    + exists 0, (e ++ [SNode c]), h'. unfold mbind. rewrite D. split; [reflexivity|exact S'].
  - destruct (mvar r ms) as [m|] eqn:Em; [|discriminate E]. injection E as <-.
    destruct (clone_step e ms h r m S0 Em) as (c & c' & h' & Er & D & S').
    exists 0, (e ++ [SNode c']), h'. rewrite Er. unfold mbind. rewrite D. split; [reflexivity|exact S'].
  - unfold m_update in E. destruct (mvar r ms) as [m|] eqn:Em; [|discriminate E]. injection E as <-.
    apply (update1 e ms r m _ (fun N => h_insert dbg N k v) h S0 Em). intros n Gn.
    destruct (calm_ok _ _ _ _ _ _ (go_insert bk dbg mem mem n m k v mem_flaky Gn) Logic.I eq_refl) as (N & r0 & Er & Hr0).
    assert (t_insert dbg mem n k v N = Ok r0) as Er1 by (rewrite <- (out_insert bk), Er; reflexivity).
    eexists N, r0, _. split; [exact Hr0|]. intros c R G I C. unfold h_insert.
    apply (wpk_with_single _ _ _ k v n r0 c R h G
      (outer_with_ok dbg downcast_converter downcast_clean HeapTreeTop.downcast_value _ _ _ downcast_ok replace_ok N) Er1 I C).
  - unfold m_update in E. destruct (mvar r ms) as [m|] eqn:Em; [|discriminate E]. injection E as <-.
    apply (update1 e ms r m _ (fun N => h_remove dbg N k) h S0 Em). intros n Gn.
    destruct (calm_ok _ _ _ _ _ _ (go_remove bk dbg mem mem n m k mem_flaky Gn) (fun _ => mem_unstored) eq_refl) as (N & r0 & Er & Hr0).
    assert (t_remove dbg mem n k N = Ok r0) as Er1 by (rewrite <- (out_remove bk), Er; reflexivity).
    eexists N, r0, _. split; [exact Hr0|]. intros c R G I C. unfold h_remove.
    apply (wpk_with_single _ _ _ k [] n r0 c R h G (left_with_ok dbg _ _ erase_ok N) Er1 I C).
  - unfold m_update in E. destruct (mvar r ms) as [m|] eqn:Em; [|discriminate E]. injection E as <-.
    apply (update1 e ms r m _ (fun N => h_remove_prefix dbg N k) h S0 Em). intros n Gn.
    destruct (calm_ok _ _ _ _ _ _ (go_remove_prefix bk dbg mem mem n m k mem_flaky Gn) (fun _ => mem_unstored) eq_refl) as (N & r0 & Er & Hr0).
    assert (t_remove_prefix dbg mem n k N = Ok r0) as Er1 by (rewrite <- (out_remove_prefix1 bk), Er; reflexivity).
    eexists N, r0, _. split; [exact Hr0|]. intros c R G I C. unfold h_remove_prefix.
    apply (wpk_with_single _ _ _ k [] n r0 c R h G (remove_with_ok dbg _ _ always_ok N) Er1 I C).
  - destruct (mvar r ms) as [m|] eqn:Em; [|discriminate E]. injection E as <-.
    apply (new1_step e ms h r m _ (fun N a => c <! h_filter_prefix N k s a ;; ret (SNode c)) S0 Em).
    intros n Gn. destruct (winv_filter mem n m k s Gn) as (r0 & (_ & N & Er) & Hr0). specialize (Er N (le_n _)).
    exists N, (FNode r0). split; [exact Hr0|].
    intros a R B G I Ha. eapply wpk_bind; [apply (filter_ok N n k s r0 R B h G a Er I Ha)|].
    cbn beta. intros c h1 G1 [I1 C1] _. apply wpk_ret. split; [exact I1|exact C1].
  - destruct (mvar r ms) as [m|] eqn:Em; [|discriminate E]. injection E as <-.
    apply (new1_step e ms h r m _ (fun N => h_get N k) S0 Em). intros n Gn.
    destruct (good_get n m k Gn) as (N & o & Eo & Go). eexists N, _. split; [exact Go|].
    intros a R B G I Ha. eapply wpk_weaken; [apply (get_ok N n k o R B h G a Eo I Ha)|].
    cbn beta. intros s h1 G1 [I1 C1] _. split; [exact I1|]. destruct o, s; cbn [srep]; tauto.
  - injection E as <-. destruct (drop_step e ms h r S0) as (h' & D & S').
    exists 0, (upd r SGone e), h'. unfold mbind. rewrite D. split; [reflexivity|exact S'].
Qed.

Lemma step_good i e ms h : state e ms h -> f_may i ms ->
  exists N e' h' ok ms', f_step bk dbg N i e h = Done (e', ok, h') /\ f_steps bk i ms ms' ok /\ state e' ms' h'.
Proof.
  intros S0 Hm. destruct i as [i|c panics g r s|rt panics g r s|c panics g r s]; cbn [f_may f_step] in *.
  - destruct Hm as [Hp Hs]. destruct (m_step i ms) as [ms'|] eqn:Es; [|contradiction].
    destruct (call_good i e ms ms' h S0 Hp Es) as (N & e' & h' & D & S1). exists N, e', h', true, ms'.
    split; [unfold mbind; rewrite D; reflexivity|]. split; [now constructor|exact S1].
  - destruct Hm as (Hne & Hr & Hs). destruct (mvar r ms) as [m|] eqn:Er; [|contradiction]. destruct (mvar s ms) as [mu|] eqn:Es; [|contradiction].
    set (mo := fun N => match c with
      | Outer => hf_outer_with bk dbg h_detach (hf_user panics g) N
      | Inner => hf_inner_with bk dbg (hf_user panics g) N
      | Left => hf_left_with bk dbg (hf_user panics g) N end).
    destruct (update2 e ms r s m mu (fun now ok => if ok then (forall x, ~ panics_at panics m mu x) /\ now = combined c g m mu
      else (exists x, panics_at panics m mu x) /\ half_combined bk panics m (combined c g m mu) mu now) mo h S0 Hne Er Es) as (N & e' & h' & ok & mm & D & HQ & S1).
    { intros n k Gn Gk. destruct (fcombine_all bk dbg c panics g n k m mu Gn Gk) as (N & n' & ok & now & E & Hw & HQ).
      exists N, n', ok, now. split; [exact Hw|]. split; [exact HQ|]. intros c0 b R B G I C Hb. unfold mo. destruct c; cbn [fcombine] in E.
      - apply (outer_with_fok bk dbg _ _ _ _ detach_ok ne_detach HeapTreeTop.detach_value (fuser_ok panics g) N n k n' ok E R B h G c0 b I C Hb).
      - apply (inner_with_fok bk dbg _ _ (fuser_ok panics g) N n k n' ok E R B h G c0 b I C Hb).
      - apply (left_with_fok bk dbg _ _ (fuser_ok panics g) N n k n' ok E R B h G c0 b I C Hb). }
    exists N, e', h', ok, (upd r (Some (MTree mm)) ms). split; [unfold mo in D; destruct c; exact D|]. split; [|exact S1].
    destruct ok.
    + destruct HQ as [Hn ->]. now apply s_combined.
    + destruct HQ as [(x & Hx) HQ]. eapply s_combine_panicked; eauto.
  - destruct Hm as (Hne & Hr & Hs & Hd). destruct (mvar r ms) as [m|] eqn:Er; [|contradiction]. destruct (mvar s ms) as [mu|] eqn:Es; [|contradiction].
    set (mo := fun N => if rt then hf_retain_prefix_with bk dbg (hf_pred panics g) N else hf_remove_prefix_with bk dbg (hf_pred panics g) N).
    destruct (update2 e ms r s m mu (fun now ok => if ok then now = by_prefixes rt g m mu
      else (exists x y, mu x = Some y /\ panics y = true) /\ half_filtered bk m (by_prefixes rt g m mu) now) mo h S0 Hne Er Es) as (N & e' & h' & ok & mm & D & HQ & S1).
    { intros n k Gn Gk. destruct (fprefixes_all bk dbg rt panics g n k m mu Gn Gk (fun H => Hd H mu eq_refl)) as (N & n' & ok & now & E & Hw & HQ).
      exists N, n', ok, now. split; [exact Hw|]. split; [exact HQ|]. intros c0 b R B G I C Hb. unfold mo. destruct rt; cbn [fprefixes] in E.
      - apply (retain_with_fok bk dbg _ _ (fpred_ok panics g) N n k n' ok E R B h G c0 b I C Hb).
      - apply (remove_with_fok bk dbg _ _ (fpred_ok panics g) N n k n' ok E R B h G c0 b I C Hb). }
    exists N, e', h', ok, (upd r (Some (MTree mm)) ms). split; [unfold mo in D; destruct rt; exact D|]. split; [|exact S1].
    destruct ok.
    + subst mm. now apply s_filtered.
    + destruct HQ as [(x & y & Hx & Hy) HQ]. eapply s_filter_panicked; eauto.
  - destruct Hm as (Hr & Hs). destruct (mvar r ms) as [m|] eqn:Er; [|contradiction]. destruct (mvar s ms) as [mu|] eqn:Es; [|contradiction].
    set (mo := fun N => match c with
      | Outer => hn_outer dbg (hn_user panics g) N
      | Inner => hn_inner dbg (hn_user panics g) N
      | Left => hn_left dbg (hn_user panics g) N end).
    destruct (new2_step e ms h r s m mu (fun mm ok => if ok then (forall x, ~ panics_at panics m mu x) /\ mm = combined c g m mu
      else (exists x, panics_at panics m mu x) /\ mm = m_empty) mo S0 Er Es) as (N & e' & h' & ok & mm & D & HQ & S1).
    { intros n k Gn Gk. destruct (fnew_all dbg c panics g n k m mu Gn Gk) as (N & H).
      exists N, (fnew dbg c (shaky_new panics g) n k N). split.
      - destruct (fnew dbg c (shaky_new panics g) n k N) as [w| | |]; try contradiction.
        + destruct H as [Hn Hw]. exists (combined c g m mu). auto.
        + split; [exact H|reflexivity].
      - assert (settled (fnew dbg c (shaky_new panics g) n k N)) as St.
        { destruct (fnew dbg c (shaky_new panics g) n k N); try contradiction; exact Logic.I. }
        intros a b R B G I Ha Hb. unfold mo. destruct c; cbn [fnew] in *.
        + apply (outer_nok dbg _ _ (nuser_ok panics g) (shaky_new_data panics g) N n k St R B h G a b I Ha Hb).
        + apply (inner_nok dbg _ _ (nuser_ok panics g) (shaky_new_data panics g) N n k St R B h G a b I Ha Hb).
        + apply (left_nok dbg _ _ (nuser_ok panics g) (shaky_new_data panics g) N n k St R B h G a b I Ha Hb). }
    exists N, e', h', ok, (ms ++ [Some (MTree mm)]). split; [unfold mo in D; destruct c; exact D|]. split; [|exact S1].
    destruct ok.
    + destruct HQ as [Hn ->]. now apply s_new.
    + destruct HQ as [(x & Hx) ->]. eapply s_new_panicked; eauto.
Qed.

Lemma run_good p ms : f_fine bk p ms -> forall e h, state e ms h ->
  exists N e' oks h' ms', f_run bk dbg N p e h = Done (e', oks, h') /\ f_runs bk p ms ms' oks /\ state e' ms' h'.
Proof.
  induction 1 as [ms|i p ms Hm _ IH]; intros e h S0; cbn [f_run].
  - exists 0, e, [], h, ms. split; [reflexivity|]. split; [constructor|exact S0].
  - destruct (step_good i e ms h S0 Hm) as (N1 & e1 & h1 & ok & ms1 & D1 & St & S1).
    destruct (IH ms1 ok St e1 h1 S1) as (N2 & e2 & oks & h2 & ms2 & D2 & Rn & S2).
    exists (N1 + N2), e2, (ok :: oks), h2, ms2. split; [|split; [econstructor; eauto|exact S2]].
    unfold mbind. rewrite (done_more _ _ _ _ (f_step_sim bk dbg N1 (N1 + N2) i e ltac:(lia)) D1). cbn [fst snd].
    rewrite (done_more _ _ _ _ (f_run_sim bk dbg N2 (N1 + N2) p ltac:(lia) e1) D2). reflexivity.
Qed.
Lemma start_good : state [] [] [].
Proof. exists G0, [], []. split; [apply inv_empty|]. split; [constructor|split; constructor]. Qed.
Lemma run_start p : f_fine bk p [] -> exists e oks h ms, f_ends bk dbg p e oks h /\ f_runs bk p [] ms oks /\ state e ms h.
Proof.
  intros H. destruct (run_good p [] H [] [] start_good) as (N & e & oks & h & ms & D & Rn & S1). exists e, oks, h, ms. split; [|auto].
  exists N. intros fuel Hf. apply (done_more _ _ _ _ (f_run_sim bk dbg N fuel p Hf []) D).
Qed.

Lemma state_answers e ms h : state e ms h -> Forall2 (var_answers h) ms e.
Proof.
  intros (G & lk & fe & I & _ & He & Hg).
  assert (live h (items e)) as L by (apply (inv_live_roots _ _ _ _ I); occ_solve).
  assert (forall e fe ms, Forall2 (srep G) e fe -> Forall2 good fe ms -> live h (items e) -> Forall2 (var_answers h) ms e) as A.
  { clear -I. intros e1 fe1 ms1 He. revert ms1. induction He as [|s f e1 fe1 H1 H2 IH]; intros ms1 Hg L; inversion Hg; subst; [constructor|].
    cbn [flat_map] in L. rewrite live_app in L. destruct L as [L1 L2]. constructor; [|now apply IH].
    destruct f as [n|b|l|], y as [[m|v]|], s as [c|hd w|a|]; cbn [good srep] in *; try tauto.
    - exists n. split; [apply (shows_ok _ _ _ I _ _ H1 L1)|now apply winv_readable].
    - subst b. cbn [var_answers]. apply (blob_shows_ok _ _ _ _ _ _ I H1 L1). }
  apply (A e fe ms He Hg L).
Qed.
Lemma all_gone e ms h : state e ms h -> Forall (eq None) ms -> exists G lk, inv h G lk /\ leaks_ok G lk.
Proof.
  intros (G & lk & fe & I & L & He & Hg) Hn. exists G, lk. split; [|exact L].
  assert (Forall (eq FGone) fe) as Hf.
  { clear -Hg Hn. induction Hg as [|f o fe ms H1 H2 IH]; [constructor|]. inversion Hn; subst. constructor; [|auto].
    destruct f; cbn [good] in H1; tauto. }
  rewrite (gone_items e (f_gone _ _ _ He Hf)) in I. exact I.
Qed.
End Run.

Lemma fail_values bk dbg p : f_fine bk p [] ->
  exists e oks h ms, f_ends bk dbg p e oks h /\ f_runs bk p [] ms oks /\ Forall2 (var_answers h) ms e.
Proof.
  intros H. destruct (run_start bk dbg p H) as (e & oks & h & ms & D & Rn & S1). exists e, oks, h, ms.
  split; [exact D|]. split; [exact Rn|]. apply (state_answers _ _ _ S1).
Qed.

(** ** Everything dropped *)
Lemma f_fine_app bk p q a : f_fine bk (p ++ q) a -> f_fine bk p a /\ forall b oks, f_runs bk p a b oks -> f_fine bk q b.
Proof.
  revert a. induction p as [|i p IH]; intros a H; cbn [app] in H.
  - split; [constructor|]. intros b oks R. inversion R; subst. exact H.
  - inversion H as [|i0 p0 e0 Hm Hn E1 E2]; subst. split.
    + constructor; [exact Hm|]. intros e' ok S. exact (proj1 (IH _ (Hn e' ok S))).
    + intros b oks R. inversion R as [|i0 p0 e0 e1 e2 ok0 oks0 S R' E1 E2 E3 E4]; subst. apply (proj2 (IH _ (Hn _ _ S)) _ _ R').
Qed.
Lemma f_fine_more bk p q a : f_fine bk p a -> (forall b oks, f_runs bk p a b oks -> f_fine bk q b) -> f_fine bk (p ++ q) a.
Proof.
  induction 1 as [a|i p a Hm _ IH]; intros Hq; cbn [app]; [apply (Hq a []); constructor|].
  constructor; [exact Hm|]. intros e' ok S. apply (IH _ _ S). intros b oks R. apply (Hq b (ok :: oks)). econstructor; eauto.
Qed.
Lemma f_fine_drops bk l : forall ms, f_fine bk (map (fun r => FCall (TDrop r)) l) ms.
Proof.
  induction l as [|r l IH]; intros ms; cbn [map]; constructor; [split; [exact Logic.I|cbn; discriminate]|]. intros e' ok _. apply IH.
Qed.
Lemma f_runs_app bk p q a c oks : f_runs bk (p ++ q) a c oks -> exists b o1 o2, f_runs bk p a b o1 /\ f_runs bk q b c o2 /\ oks = o1 ++ o2.
Proof.
  revert a oks. induction p as [|i p IH]; intros a oks R; cbn [app] in R.
  - exists a, [], oks. split; [constructor|auto].
  - inversion R as [|i0 p0 e0 e1 e2 ok0 oks0 S R' E1 E2 E3 E4]; subst. destruct (IH _ _ R') as (b & o1 & o2 & R1 & R2 & ->). exists b, (ok0 :: o1), o2.
    split; [econstructor; eauto|auto].
Qed.
Lemma f_drops bk ms' : forall l ms oks, f_runs bk (map (fun r => FCall (TDrop r)) l) ms ms' oks -> ms' = fold_left (fun e r => upd r None e) l ms.
Proof.
  induction l as [|r l IH]; intros ms oks R; cbn [map fold_left] in *.
  - inversion R; subst. reflexivity.
  - inversion R as [|i0 p0 e0 e1 e2 ok0 oks0 S R' E1 E2 E3 E4]; subst. inversion S as [i1 e3 e4 Hs| | | | | |]; subst. cbn [m_step] in Hs. injection Hs as <-. apply (IH _ _ R').
Qed.
Lemma drops_all : forall l (ms : list (option mval)), (forall r, r < length ms -> In r l \/ nth r ms None = None) ->
  Forall (eq None) (fold_left (fun e r => upd r None e) l ms).
Proof.
  induction l as [|r l IH]; intros ms H; cbn [fold_left].
  - apply Forall_forall. intros x Hx. destruct (In_nth _ _ None Hx) as (i & Hi & <-). destruct (H i Hi) as [[]|E]. now rewrite E.
  - apply IH. intros i Hi. rewrite upd_len in Hi. destruct (Nat.eq_dec r i) as [->|Hne].
    + right. clear -Hi. revert i Hi. induction ms as [|x ms IHm]; intros [|i] Hi; cbn in *; try lia; auto. apply IHm. lia.
    + destruct (H i Hi) as [[E|E]|E]; [congruence|now left|right]. rewrite upd_nth_other; [exact E|congruence].
Qed.
Lemma f_steps_length bk i a b ok : f_steps bk i a b ok -> f_may i a -> length b <= S (length a).
Proof.
  intros S Hm. inversion S as [i0 e0 e1 Hs| | | | | |]; subst; rewrite ?upd_len, ?app_length; cbn [length]; try lia.
  destruct Hm as [Hp _]. destruct i0; cbn [m_step plain] in *; try contradiction; unfold m_update in Hs;
    repeat (match type of Hs with context [match ?x with _ => _ end] => destruct x end; try discriminate Hs);
    injection Hs as <-; rewrite ?app_length, ?upd_len; cbn; lia.
Qed.
Lemma f_runs_length bk p a : f_fine bk p a -> forall b oks, f_runs bk p a b oks -> length b <= length p + length a.
Proof.
  induction 1 as [a|i p a Hm _ IH]; intros b oks R; inversion R as [|i0 p0 e0 e1 e2 ok0 oks0 S R' E1 E2 E3 E4]; subst; cbn [length]; [lia|].
  pose proof (f_steps_length _ _ _ _ _ S Hm). pose proof (IH _ _ S _ _ R'). lia.
Qed.
Lemma fail_leftover bk dbg p : f_fine bk p [] ->
  exists e oks h, f_ends bk dbg (p ++ f_drop_all p) e oks h /\ Forall (fun x => snd x = CNodes []) (in_use h).
Proof.
  intros H. destruct (run_start bk dbg (p ++ f_drop_all p)) as (e & oks & h & ms & D & Rn & S1).
  { apply f_fine_more; [exact H|]. intros. apply f_fine_drops. }
  destruct (f_runs_app _ _ _ _ _ _ Rn) as (b & o1 & o2 & R1 & R2 & _).
  pose proof (f_runs_length _ _ _ H _ _ R1) as Hl. cbn [length] in Hl. rewrite (f_drops _ _ _ _ _ R2) in S1.
  destruct (all_gone _ _ _ S1) as (G & lk & I & L).
  { apply drops_all. intros r Hr. left. apply in_seq. lia. }
  exists e, oks, h. split; [exact D|]. apply (left_over _ _ _ I L).
Qed.

(** ** Variables that a program does not change *)
Lemma f_steps_other bk i a b ok v : f_steps bk i a b ok -> v < length a -> ~ In v (f_written i) ->
  nth v b None = nth v a None /\ length a <= length b.
Proof.
  intros S Hv Hn. inversion S as [i0 e0 e1 Hs| | | | | |]; subst; cbn [f_written] in Hn.
  1: apply (m_step_other i0 a b v Hs Hv Hn).
  all: try (rewrite upd_len; (split; [|lia]); apply upd_nth_other; intros ->; apply Hn; now left).
  all: rewrite app_length, app_nth1 by lia; cbn [length]; split; [reflexivity|lia].
Qed.
Lemma f_runs_other bk p a b oks v : f_runs bk p a b oks -> v < length a -> ~ In v (flat_map f_written p) -> nth v b None = nth v a None.
Proof.
  induction 1 as [|i p e e1 e2 ok oks S R IH]; intros Hv Hn; [reflexivity|]. cbn [flat_map] in Hn. rewrite in_app_iff in Hn.
  destruct (f_steps_other _ _ _ _ _ v S Hv ltac:(tauto)) as [E Hl]. rewrite IH; [exact E|lia|tauto].
Qed.
Lemma f_run_app bk dbg fuel p q : forall e h e1 o1 h1 e2 o2 h2, f_run bk dbg fuel p e h = Done (e1, o1, h1) -> f_run bk dbg fuel q e1 h1 = Done (e2, o2, h2) ->
  f_run bk dbg fuel (p ++ q) e h = Done (e2, o1 ++ o2, h2).
Proof.
  induction p as [|i p IH]; intros e h e1 o1 h1 e2 o2 h2 E1 E2; cbn [app f_run] in *.
  - injection E1 as <- <- <-. exact E2.
  - unfold mbind in *. destruct (f_step bk dbg fuel i e h) as [[[e0 ok] h0]| | |]; try discriminate E1. cbn [fst snd] in *.
    destruct (f_run bk dbg fuel p e0 h0) as [[[e3 o3] h3]| | |] eqn:E; try discriminate E1. cbn [fst snd ret] in *.
    injection E1 as <- <- <-. rewrite (IH _ _ _ _ _ _ _ _ E E2). reflexivity.
Qed.
Lemma fail_others bk dbg p q : f_fine bk (p ++ q) [] ->
  exists e oks h ms e' oks' h' ms', f_ends bk dbg p e oks h /\ Forall2 (var_answers h) ms e /\
    f_ends bk dbg (p ++ q) e' oks' h' /\ Forall2 (var_answers h') ms' e' /\
    forall v, v < length ms -> ~ In v (flat_map f_written q) -> nth v ms' None = nth v ms None.
Proof.
  intros H. destruct (f_fine_app _ _ _ _ H) as [H1 H2].
  destruct (run_good bk dbg p [] H1 [] [] start_good) as (N & e & oks & h & ms & D & Rn & S1).
  destruct (run_good bk dbg q ms (H2 _ _ Rn) e h S1) as (N' & e' & oks' & h' & ms' & D' & Rn' & S2).
  exists e, oks, h, ms, e', (oks ++ oks'), h', ms'. split.
  { exists N. intros fuel Hf. apply (done_more _ _ _ _ (f_run_sim bk dbg N fuel p Hf []) D). }
  split; [apply (state_answers _ _ _ S1)|]. split.
  { exists (N + N'). intros fuel Hf.
    pose proof (done_more _ _ _ _ (f_run_sim bk dbg N fuel p ltac:(lia) []) D) as E1.
    pose proof (done_more _ _ _ _ (f_run_sim bk dbg N' fuel q ltac:(lia) e) D') as E2.
    apply (f_run_app _ _ _ _ _ _ _ _ _ _ _ _ _ E1 E2). }
  split; [apply (state_answers _ _ _ S2)|]. intros v Hv Hn. apply (f_runs_other _ _ _ _ _ _ Rn' Hv Hn).
Qed.

(** ** Programs that are fine *)
Definition kind_ok (k : bool) (o : option mval) : Prop := k = true -> exists m, o = Some (MTree m).
Lemma kind_nth ks ms r : Forall2 kind_ok ks ms -> nth r ks false = true -> exists m, mvar r ms = Some m.
Proof.
  intros F. revert r. induction F as [|k o ks ms H F IH]; intros [|r] E; cbn [nth] in E; try discriminate E.
  - destruct (H E) as [m ->]. exists m. reflexivity.
  - destruct (IH _ E) as [m Em]. exists m. exact Em.
Qed.
Lemma kind_app ks ms k o : Forall2 kind_ok ks ms -> kind_ok k o -> Forall2 kind_ok (ks ++ [k]) (ms ++ [o]).
Proof. intros F H. apply Forall2_app; [exact F|]. constructor; [exact H|constructor]. Qed.
Lemma kind_tree ks ms r m : Forall2 kind_ok ks ms -> Forall2 kind_ok ks (upd r (Some (MTree m)) ms).
Proof.
  intros F. revert r. induction F as [|k o ks ms H F IH]; intros [|r]; cbn [upd]; constructor; auto. intros _. now exists m.
Qed.
Lemma kind_gone ks ms r o : Forall2 kind_ok ks ms -> Forall2 kind_ok (upd r false ks) (upd r o ms).
Proof.
  intros F. revert r. induction F as [|k x ks ms H F IH]; intros [|r]; cbn [upd]; constructor; auto. discriminate.
Qed.
Lemma scoped_fine bk p : forall ks ms, f_scoped p ks -> Forall2 kind_ok ks ms -> f_fine bk p ms.
Proof.
  induction p as [|i p IH]; intros ks ms Hs F; [constructor|]. cbn [f_scoped] in Hs. destruct Hs as [Hg Hs].
  destruct (f_kinds i ks) as [ks'|] eqn:Ek; [|contradiction].
  assert (f_may i ms /\ forall e' ok, f_steps bk i ms e' ok -> Forall2 kind_ok ks' e') as [Hm Hn].
  { destruct i as [i|c panics g r s|rt panics g r s|c panics g r s]; cbn [f_kinds f_may] in *.
    - assert (forall r, nth r ks false = true -> exists m, mvar r ms = Some m) as K by (intros; eapply kind_nth; eauto).
      destruct i; try discriminate Ek; cbn [plain m_step] in *; unfold m_update;
        try (destruct (nth r ks false) eqn:Er; [|discriminate Ek]; destruct (K r Er) as [m Em]; rewrite Em); injection Ek as <-;
        (split; [split; [exact Logic.I|discriminate]|]); intros e' ok S; inversion S as [i0 e0 e1 Hs0| | | | | |]; subst; cbn [m_step] in Hs0; unfold m_update in Hs0;
        rewrite ?Em in Hs0; injection Hs0 as <-; try (apply kind_app; [exact F|]); try (intros _; eexists; reflexivity); try discriminate.
      + now apply kind_tree.
      + now apply kind_tree.
      + now apply kind_tree.
      + now apply kind_gone.
    - destruct (nth r ks false) eqn:Er; [|discriminate Ek]. destruct (nth s ks false) eqn:Es; [|discriminate Ek].
      destruct (Nat.eqb_spec r s) as [|Hne]; [discriminate Ek|]. injection Ek as <-.
      destruct (kind_nth _ _ _ F Er) as [m Em], (kind_nth _ _ _ F Es) as [mu Eu]. rewrite Em, Eu.
      split; [split; [exact Hne|split; discriminate]|]. intros e' ok S. inversion S; subst; now apply kind_tree.
    - destruct (nth r ks false) eqn:Er; [|discriminate Ek]. destruct (nth s ks false) eqn:Es; [|discriminate Ek].
      destruct (Nat.eqb_spec r s) as [|Hne]; [discriminate Ek|]. injection Ek as <-.
      destruct (kind_nth _ _ _ F Er) as [m Em], (kind_nth _ _ _ F Es) as [mu Eu]. rewrite Em, Eu.
      split; [split; [exact Hne|split; [discriminate|split; [discriminate|]]]|].
      + intros -> mu' _ q r' x y _ _ Hx. now rewrite (Hg y x).
      + intros e' ok S. inversion S; subst; now apply kind_tree.
    - destruct (nth r ks false) eqn:Er; [|discriminate Ek]. destruct (nth s ks false) eqn:Es; [|discriminate Ek]. injection Ek as <-.
      destruct (kind_nth _ _ _ F Er) as [m Em], (kind_nth _ _ _ F Es) as [mu Eu]. rewrite Em, Eu.
      split; [split; discriminate|]. intros e' ok S. inversion S; subst; (apply kind_app; [exact F|]); intros _; eexists; reflexivity. }
  constructor; [exact Hm|]. intros e' ok S. apply (IH ks' e' Hs (Hn e' ok S)).
Qed.
Lemma scoped_start bk p : f_scoped p [] -> f_fine bk p [].
Proof. intros H. apply (scoped_fine bk p [] [] H). constructor. Qed.
Lemma ends_fun bk dbg p e oks h e' oks' h' : f_ends bk dbg p e oks h -> f_ends bk dbg p e' oks' h' -> e = e' /\ oks = oks' /\ h = h'.
Proof.
  intros [n H] [n' H']. specialize (H (n + n') (Nat.le_add_r _ _)). specialize (H' (n + n') ltac:(lia)). rewrite H in H'. injection H' as <- <- <-. auto.
Qed.
Lemma ends_at bk dbg n p e oks h : f_run bk dbg n p [] [] = Done (e, oks, h) -> f_ends bk dbg p e oks h.
Proof. intros D. exists n. intros fuel Hf. apply (done_more _ _ _ _ (f_run_sim bk dbg n fuel p Hf []) D). Qed.
