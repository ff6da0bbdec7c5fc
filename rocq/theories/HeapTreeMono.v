(** More steps allowed do not change what an operation on the heap does. *)
From Verif Require Import Base Header Node Combine Store Heap HeapIter HeapTree.

Definition msim {A} (m m' : M A) : Prop := forall h, m h = Exhausted \/ m h = m' h.
Lemma msim_refl {A} (m : M A) : msim m m.
Proof. intros h. now right. Qed.
Lemma msim_stop {A} (m : M A) : msim (fun _ => Exhausted) m.
Proof. intros h. now left. Qed.
Lemma msim_bind {A B} (m m' : M A) (k k' : A -> M B) : msim m m' -> (forall a, msim (k a) (k' a)) -> msim (mbind m k) (mbind m' k').
Proof.
  intros H K h. unfold mbind. destruct (H h) as [->| ->]; [now left|]. destruct (m' h) as [[a h']| | |]; auto. apply K.
Qed.

Ltac mstep :=
  match goal with
  | |- msim ?x ?x => apply msim_refl
  | |- msim (fun _ => Exhausted) _ => apply msim_stop
  | |- msim (mbind _ _) (mbind _ _) => apply msim_bind; [|intros ?]
  | |- msim (match ?x with _ => _ end) (match ?x with _ => _ end) => destruct x
  | H : _ |- msim _ _ => solve [apply H; auto; lia]
  end.
Ltac ms := repeat mstep.

Lemma h_detach_loop_sim rec rec' : (forall c, msim (rec c) (rec' c)) ->
  forall fuel fuel' it, fuel <= fuel' -> msim (h_detach_loop rec fuel it) (h_detach_loop rec' fuel' it).
Proof. intros Hr. induction fuel as [|fuel IH]; intros [|fuel'] it Hf; try lia; cbn [h_detach_loop]; ms. Qed.
Lemma h_detached_sim : forall fuel fuel' c, fuel <= fuel' -> msim (h_detached fuel c) (h_detached fuel' c).
Proof.
  induction fuel as [|fuel IH]; intros [|fuel'] c Hf; try lia; cbn [h_detached]; ms.
  apply h_detach_loop_sim; [|lia]. intros x. apply IH. lia.
Qed.

Definition conv_sim (c : hconv) : Prop :=
  (forall f f' x, f <= f' -> msim (hc_node c f x) (hc_node c f' x)) /\
  (forall f f' x n, f <= f' -> msim (hc_short c f x n) (hc_short c f' x n)).
Lemma downcast_sim : conv_sim h_downcast.
Proof. split; intros; apply msim_refl. Qed.
Lemma detach_sim : conv_sim h_detach.
Proof. pose proof h_detached_sim. split; intros; cbn [h_detach hc_node hc_short]; ms. Qed.

Section Merge.
Context (rec rec' : cnode -> cnode -> M cnode) (Hr : forall x y, msim (rec x y) (rec' x y)).
Lemma h_merge_sim keep ins : match ins with Some c => conv_sim c | None => True end ->
  forall f f' ac bc, f <= f' -> msim (h_merge keep ins rec f ac bc) (h_merge keep ins rec' f' ac bc).
Proof.
  intros Hi. induction f as [|f IH]; intros [|f'] ac bc Hf; try lia; cbn [h_merge]; ms. 
Qed.
Lemma h_convert_loop_sim c : conv_sim c -> forall f f' bc, f <= f' -> msim (h_convert_loop c f bc) (h_convert_loop c f' bc).
Proof. intros [Hc _]. induction f as [|f IH]; intros [|f'] bc Hf; try lia; cbn [h_convert_loop]; ms. Qed.
Lemma h_outer_children_sim c f f' ac bc : conv_sim c -> f <= f' -> msim (h_outer_children c rec f ac bc) (h_outer_children c rec' f' ac bc).
Proof. intros Hc Hf. unfold h_outer_children. ms; [apply h_convert_loop_sim|apply h_merge_sim]; auto. Qed.
Lemma h_inner_children_sim f f' ac bc : f <= f' -> msim (h_inner_children rec f ac bc) (h_inner_children rec' f' ac bc).
Proof. intros Hf. unfold h_inner_children. ms. apply h_merge_sim; auto. Qed.
Lemma h_left_children_sim f f' ac bc : f <= f' -> msim (h_left_children rec f ac bc) (h_left_children rec' f' ac bc).
Proof. intros Hf. unfold h_left_children. ms. apply h_merge_sim; auto. Qed.
End Merge.
Lemma h_with_children_sim c k k' : (forall cs, msim (k cs) (k' cs)) -> msim (h_with_children c k) (h_with_children c k').
Proof. intros H. unfold h_with_children. ms. Qed.
Lemma h_kids_sim k k' b ac : (forall ac bc, msim (k ac bc) (k' ac bc)) -> msim (h_kids k b ac) (h_kids k' b ac).
Proof. intros H. unfold h_kids. ms. Qed.
Lemma h_kids_short_sim k k' b n ac : (forall ac bc, msim (k ac bc) (k' ac bc)) -> msim (h_kids_short k b n ac) (h_kids_short k' b n ac).
Proof. intros H. unfold h_kids_short. ms. Qed.

Ltac kids := repeat (mstep || (apply h_with_children_sim; intros ?) || (apply h_kids_sim; intros ? ?) || (apply h_kids_short_sim; intros ? ?)
  || apply h_inner_children_sim || apply h_left_children_sim || (apply h_outer_children_sim; auto) || lia || intros ? ?).
Lemma h_outer_with_sim dbg c hf : conv_sim c -> forall f f' a b, f <= f' -> msim (h_outer_with dbg c hf f a b) (h_outer_with dbg c hf f' a b).
Proof.
  intros Hc. pose proof (proj2 Hc) as Hs. induction f as [|f IH]; intros [|f'] a b Hf; try lia; cbn [h_outer_with]; cbv zeta; kids.
Qed.
Lemma h_inner_with_sim dbg hf : forall f f' a b, f <= f' -> msim (h_inner_with dbg hf f a b) (h_inner_with dbg hf f' a b).
Proof. induction f as [|f IH]; intros [|f'] a b Hf; try lia; cbn [h_inner_with]; cbv zeta; kids. Qed.
Lemma h_left_with_sim dbg hf : forall f f' a b, f <= f' -> msim (h_left_with dbg hf f a b) (h_left_with dbg hf f' a b).
Proof. induction f as [|f IH]; intros [|f'] a b Hf; try lia; cbn [h_left_with]; cbv zeta; kids. Qed.
Lemma h_retain_prefix_with_sim dbg hs : forall f f' a b, f <= f' -> msim (h_retain_prefix_with dbg hs f a b) (h_retain_prefix_with dbg hs f' a b).
Proof. induction f as [|f IH]; intros [|f'] a b Hf; try lia; cbn [h_retain_prefix_with]; cbv zeta; kids. Qed.
Lemma h_remove_prefix_with_sim dbg hs : forall f f' a b, f <= f' -> msim (h_remove_prefix_with dbg hs f a b) (h_remove_prefix_with dbg hs f' a b).
Proof. induction f as [|f IH]; intros [|f'] a b Hf; try lia; cbn [h_remove_prefix_with]; cbv zeta; kids. Qed.

Section Join.
Context (rec rec' : cnode -> cnode -> M cnode) (Hr : forall x y, msim (rec x y) (rec' x y)).
Lemma h_keep_sim chk r m m' : msim m m' -> msim (h_keep chk r m) (h_keep chk r m').
Proof. intros H. unfold h_keep. ms. Qed.
Lemma h_join_sim ka kb : forall f f' a b, f <= f' -> msim (h_join ka kb rec f a b) (h_join ka kb rec' f' a b).
Proof.
  pose proof h_detached_sim. induction f as [|f IH]; intros [|f'] a b Hf; try lia; cbn [h_join];
    repeat (mstep || apply h_keep_sim || (apply IH; lia)).
Qed.
Lemma h_it_detached_sim f f' it : f <= f' -> msim (h_it_detached f it) (h_it_detached f' it).
Proof. intros Hf. unfold h_it_detached. ms. apply h_detach_loop_sim; [|exact Hf]. intros x. now apply h_detached_sim. Qed.
Definition join_sim (k k' : option biter -> option biter -> M (option addr)) : Prop := forall a b, msim (k a b) (k' a b).
Lemma h_outer_join_sim f f' : f <= f' -> join_sim (h_outer_join rec f) (h_outer_join rec' f').
Proof. intros Hf a b. unfold h_outer_join. ms; try (now apply h_it_detached_sim). now apply h_join_sim. Qed.
Lemma h_inner_join_sim f f' : f <= f' -> join_sim (h_inner_join rec f) (h_inner_join rec' f').
Proof. intros Hf a b. unfold h_inner_join. ms. now apply h_join_sim. Qed.
Lemma h_left_join_sim f f' : f <= f' -> join_sim (h_left_join rec f) (h_left_join rec' f').
Proof. intros Hf a b. unfold h_left_join. ms; try (now apply h_it_detached_sim). now apply h_join_sim. Qed.
End Join.
Lemma h_both_sim k k' a b : join_sim k k' -> msim (h_both k a b) (h_both k' a b).
Proof. intros H. unfold h_both. ms. Qed.
Lemma h_second_short_sim k k' a b n : join_sim k k' -> msim (h_second_short k a b n) (h_second_short k' a b n).
Proof. intros H. unfold h_second_short. ms. Qed.
Lemma h_first_short_sim k k' a b n : join_sim k k' -> msim (h_first_short k a b n) (h_first_short k' a b n).
Proof. intros H. unfold h_first_short. ms. Qed.
Ltac joins := repeat (mstep || apply h_both_sim || apply h_second_short_sim || apply h_first_short_sim
  || apply h_outer_join_sim || apply h_inner_join_sim || apply h_left_join_sim || lia || intros ? ?).
Lemma h_outer_sim dbg hf : forall f f' a b, f <= f' -> msim (h_outer dbg hf f a b) (h_outer dbg hf f' a b).
Proof.
  pose proof (proj2 detach_sim) as Hs. induction f as [|f IH]; intros [|f'] a b Hf; try lia; cbn [h_outer]; cbv zeta; joins.
Qed.
Lemma h_inner_sim dbg hf : forall f f' a b, f <= f' -> msim (h_inner dbg hf f a b) (h_inner dbg hf f' a b).
Proof. induction f as [|f IH]; intros [|f'] a b Hf; try lia; cbn [h_inner]; cbv zeta; joins. Qed.
Lemma h_left_sim dbg hf : forall f f' a b, f <= f' -> msim (h_left dbg hf f a b) (h_left dbg hf f' a b).
Proof. pose proof h_detached_sim. induction f as [|f IH]; intros [|f'] a b Hf; try lia; cbn [h_left]; cbv zeta; joins. Qed.

Lemma h_with_single_sim k v m m' : (forall s, msim (m s) (m' s)) -> msim (h_with_single k v m) (h_with_single k v m').
Proof. intros H. unfold h_with_single. ms. Qed.
Lemma t_update_sim e r m m' : (forall a, msim (m a) (m' a)) -> msim (t_update e r m) (t_update e r m').
Proof. intros H. unfold t_update. ms. Qed.
Lemma t_update2_sim e r s m m' : (forall a b, msim (m a b) (m' a b)) -> msim (t_update2 e r s m) (t_update2 e r s m').
Proof. intros H. unfold t_update2. ms. apply t_update_sim. auto. Qed.
Lemma t_new2_sim e r s m m' : (forall a b, msim (m a b) (m' a b)) -> msim (t_new2 e r s m) (t_new2 e r s m').
Proof. intros H. unfold t_new2. ms. Qed.
Lemma h_find_sim : forall f f' c k, f <= f' -> msim (h_find f c k) (h_find f' c k).
Proof. induction f as [|f IH]; intros [|f'] c k Hf; try lia; cbn [h_find]; cbv zeta; ms. Qed.
Lemma t_new1_sim e r m m' : (forall a, msim (m a) (m' a)) -> msim (t_new1 e r m) (t_new1 e r m').
Proof. intros H. unfold t_new1. ms. Qed.
Lemma h_any_loop_sim rec rec' : (forall x, msim (rec x) (rec' x)) -> forall f f' it, f <= f' -> msim (h_any_loop rec f it) (h_any_loop rec' f' it).
Proof. intros Hr. induction f as [|f IH]; intros [|f'] it Hf; try lia; cbn [h_any_loop]; ms. Qed.
Lemma h_pred_loop_sim only rec rec' : (forall x y, msim (rec x y) (rec' x y)) -> forall f f' a b, f <= f' ->
  msim (h_pred_loop only rec f a b) (h_pred_loop only rec' f' a b).
Proof. intros Hr. induction f as [|f IH]; intros [|f'] a b Hf; try lia; cbn [h_pred_loop]; ms. Qed.
Lemma h_scoped_sim c m m' : msim m m' -> msim (h_scoped c m) (h_scoped c m').
Proof. intros H. unfold h_scoped. ms. Qed.
Lemma h_any_sim rec rec' f f' o : (forall x, msim (rec x) (rec' x)) -> f <= f' -> msim (h_any rec f o) (h_any rec' f' o).
Proof. intros Hr Hf. unfold h_any. ms. now apply h_any_loop_sim. Qed.
Lemma h_inner_pred_kids_sim rec rec' f f' a b : (forall x y, msim (rec x y) (rec' x y)) -> f <= f' -> msim (h_inner_pred_kids rec f a b) (h_inner_pred_kids rec' f' a b).
Proof. intros Hr Hf. unfold h_inner_pred_kids. ms. now apply h_pred_loop_sim. Qed.
Lemma h_left_pred_kids_sim rec rec' f f' a b : (forall x y, msim (rec x y) (rec' x y)) -> f <= f' -> msim (h_left_pred_kids rec f a b) (h_left_pred_kids rec' f' a b).
Proof. intros Hr Hf. unfold h_left_pred_kids. ms. now apply h_pred_loop_sim. Qed.
Lemma h_inner_pred_sim hf : forall f f' a b, f <= f' -> msim (h_inner_pred hf f a b) (h_inner_pred hf f' a b).
Proof.
  induction f as [|f IH]; intros [|f'] a b Hf; try lia; cbn [h_inner_pred]; cbv zeta;
    repeat (mstep || apply h_scoped_sim || apply h_any_sim || apply h_inner_pred_kids_sim || lia || intros ? || intros ? ?).
Qed.
Lemma h_left_pred_sim hf : forall f f' a b, f <= f' -> msim (h_left_pred hf f a b) (h_left_pred hf f' a b).
Proof.
  induction f as [|f IH]; intros [|f'] a b Hf; try lia; cbn [h_left_pred]; cbv zeta;
    repeat (mstep || apply h_scoped_sim || apply h_left_pred_kids_sim || lia || intros ? || intros ? ?).
Qed.
Lemma t_ask_sim f f' q e : f <= f' -> msim (t_ask f q e) (t_ask f' q e).
Proof.
  intros Hf. pose proof h_find_sim. pose proof h_inner_pred_sim. pose proof h_left_pred_sim.
  destruct q; cbn [t_ask]; unfold t_ask1, t_ask2, h_contains_key, h_has_prefix; ms.
Qed.
Lemma t_step_sim dbg f f' i : forall e, f <= f' -> msim (t_step dbg f i e) (t_step dbg f' i e).
Proof.
  induction i as [|v|k v|r|r k v|r k|r k|g r s|g r s|g r s|g r s|g r s|g r s|g r s|g r s|r k s|r k|q i IH|r]; intros e Hf; cbn [t_step]; ms; try (apply t_update_sim; intros a; apply h_with_single_sim; intros b);
    try (apply t_update2_sim; intros a b); try (apply t_new2_sim; intros a b);
    try (apply t_new1_sim; intros a).
  - now apply h_outer_with_sim; [apply downcast_sim|].
  - now apply h_left_with_sim.
  - now apply h_remove_prefix_with_sim.
  - now apply h_outer_with_sim; [apply detach_sim|].
  - now apply h_inner_with_sim.
  - now apply h_left_with_sim.
  - now apply h_remove_prefix_with_sim.
  - now apply h_retain_prefix_with_sim.
  - now apply h_outer_sim.
  - now apply h_inner_sim.
  - now apply h_left_sim.
  - pose proof h_find_sim. unfold h_filter_prefix. ms.
  - pose proof h_find_sim. unfold h_get. ms.
  - now apply t_ask_sim.
Qed.
Lemma t_run_sim dbg f f' p : forall e, f <= f' -> msim (t_run dbg f p e) (t_run dbg f' p e).
Proof. induction p as [|i p IH]; intros e Hf; cbn [t_run]; [apply msim_refl|]. apply msim_bind; [now apply t_step_sim|]. intros e'. now apply IH. Qed.
