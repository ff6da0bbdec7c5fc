(** Failing reads never give wrong answers. *)
From Verif Require Import Base BaseLemmas Header Node Combine Iter Api Tree Rep Sim Spec Client Top TopOps FailSpec.
From Verif Require SimErr.

Lemma soe {A} (f' f : nat -> res A) : mono f' -> (forall n, SimErr.sim (f' n) (f n)) -> same_or_error f' f.
Proof.
  intros M H r (N & n0 & C).
  assert (forall x, x <> Fuel -> f' n0 = x -> f' ⇓ x) as A'.
  { intros x Hx E. split; [exact Hx|]. exists n0. intros n Hn. destruct (M n0 n Hn) as [F|[[F _]|F]]; congruence. }
  destruct (H n0) as [E|E].
  - right. apply A'; [discriminate|exact E].
  - left. apply A'; [exact N|]. rewrite E. apply C. lia.
Qed.

Lemma flaky_rsim rd' rd : flaky rd' rd -> SimErr.rsim rd' rd.
Proof. exact (fun H => H). Qed.
Lemma flaky_refl rd : flaky rd rd.
Proof. intros id. now right. Qed.

Lemma soe_bind {A B} (f' f : nat -> res A) (k' k : A -> nat -> res B) :
  mono f' -> (forall x, mono (k' x)) -> (forall n, SimErr.sim (f' n) (f n)) ->
  (forall x n, SimErr.sim (k' x n) (k x n)) ->
  same_or_error (fun n => x <- f' n ;; k' x n) (fun n => x <- f n ;; k x n).
Proof.
  intros M1 M2 H1 H2. apply soe.
  - now apply mono_bind.
  - intros n. apply SimErr.sim_bind; auto.
Qed.

Section One.
Context (dbg : bool) (rd' rd : reader) (F : flaky rd' rd) (t : node).
Let HF : SimErr.rsim rd' rd := flaky_rsim _ _ F.

Lemma load_opt_sim o : SimErr.sim (load_opt rd' o) (load_opt rd o).
Proof.
  destruct o; [|apply SimErr.sim_refl]. cbn. apply SimErr.sim_bind; [now apply SimErr.value_load_sim|].
  intros; apply SimErr.sim_refl.
Qed.
Lemma load_entry_sim o : SimErr.sim (load_entry rd' o) (load_entry rd o).
Proof.
  destruct o as [[k b]|]; [|apply SimErr.sim_refl]. cbn. apply SimErr.sim_bind; [now apply SimErr.value_load_sim|].
  intros; apply SimErr.sim_refl.
Qed.
Lemma load_values_sim l : SimErr.sim (load_values rd' l) (load_values rd l).
Proof.
  induction l as [|b l IH]; [apply SimErr.sim_refl|]. cbn. apply SimErr.sim_bind; [now apply SimErr.value_load_sim|].
  intros x. apply SimErr.sim_bind; [exact IH|]. intros; apply SimErr.sim_refl.
Qed.
Lemma load_entries_sim l : SimErr.sim (load_entries rd' l) (load_entries rd l).
Proof.
  induction l as [|[k b] l IH]; [apply SimErr.sim_refl|]. cbn. apply SimErr.sim_bind; [now apply SimErr.value_load_sim|].
  intros x. apply SimErr.sim_bind; [exact IH|]. intros; apply SimErr.sim_refl.
Qed.

Ltac m1 := intros a b L; first [apply find_sim|apply contains_key_sim|apply has_prefix_sim|apply get_sim|apply filter_prefix_sim
  |apply first_value_sim|apply last_value_sim|apply first_entry_sim|apply last_entry_sim|apply r_detached_sim
  |apply outer_combine_with_sim|apply left_combine_with_sim|apply remove_prefix_with_sim]; auto using rsim_refl, sim_refl.

Lemma f_get k : same_or_error (get_bytes rd' t k) (get_bytes rd t k).
Proof.
  apply soe_bind; [m1|intros; apply mono_const| |].
  - intros n. now apply SimErr.get_sim.
  - intros x n. apply load_opt_sim.
Qed.
Lemma f_contains k : same_or_error (t_contains_key rd' t k) (t_contains_key rd t k).
Proof. apply soe; [m1|]. intros n. now apply SimErr.contains_key_sim. Qed.
Lemma f_has_prefix k : same_or_error (t_has_prefix rd' t k) (t_has_prefix rd t k).
Proof. apply soe; [m1|]. intros n. now apply SimErr.has_prefix_sim. Qed.
Lemma f_filter k s : same_or_error (t_filter_prefix rd' t k s) (t_filter_prefix rd t k s).
Proof. apply soe; [m1|]. intros n. now apply SimErr.filter_prefix_sim. Qed.
Lemma f_detached : same_or_error (t_detached rd' t) (t_detached rd t).
Proof. apply soe; [m1|]. intros n. now apply SimErr.r_detached_sim. Qed.
Lemma f_first_value : same_or_error (first_value_bytes rd' t) (first_value_bytes rd t).
Proof.
  apply soe_bind; [m1|intros; apply mono_const| |].
  - intros n. now apply SimErr.first_value_sim.
  - intros x n. apply load_opt_sim.
Qed.
Lemma f_last_value : same_or_error (last_value_bytes rd' t) (last_value_bytes rd t).
Proof.
  apply soe_bind; [m1|intros; apply mono_const| |].
  - intros n. now apply SimErr.last_value_sim.
  - intros x n. apply load_opt_sim.
Qed.
Lemma f_first_entry p : same_or_error (first_entry_bytes rd' t p) (first_entry_bytes rd t p).
Proof.
  apply soe_bind; [m1|intros; apply mono_const| |].
  - intros n. now apply SimErr.first_entry_sim.
  - intros x n. apply load_entry_sim.
Qed.
Lemma f_last_entry p : same_or_error (last_entry_bytes rd' t p) (last_entry_bytes rd t p).
Proof.
  apply soe_bind; [m1|intros; apply mono_const| |].
  - intros n. now apply SimErr.last_entry_sim.
  - intros x n. apply load_entry_sim.
Qed.
Lemma f_iter : same_or_error (iter_bytes rd' t) (iter_bytes rd t).
Proof.
  apply soe_bind; [|intros; apply mono_const| |].
  - apply mono_collect. intros. apply kv_next_sim; [apply rsim_refl|assumption].
  - intros n. apply SimErr.collect_sim; [|reflexivity]. intros. now apply SimErr.kv_next_sim.
  - intros x n. apply load_entries_sim.
Qed.
Lemma f_values : same_or_error (values_bytes rd' t) (values_bytes rd t).
Proof.
  apply soe_bind; [|intros; apply mono_const| |].
  - apply mono_collect. intros. apply vi_next_sim; [apply rsim_refl|assumption].
  - intros n. apply SimErr.collect_sim; [|reflexivity]. intros. now apply SimErr.vi_next_sim.
  - intros x n. apply load_values_sim.
Qed.
Lemma f_scan p : same_or_error (scan_bytes rd' t p) (scan_bytes rd t p).
Proof.
  apply soe_bind; [apply mono_scan|intros; apply mono_const| |].
  - intros n. unfold t_scan_prefix. apply SimErr.sim_bind; [now apply SimErr.scan_prefix_sim|].
    intros s. apply SimErr.collect_sim; [|reflexivity]. intros. now apply SimErr.kv_next_sim.
  - intros x n. apply load_entries_sim.
Qed.
Lemma f_group d : same_or_error (t_group_by rd' t d) (t_group_by rd t d).
Proof.
  apply soe.
  - apply mono_collect. intros. apply gb_next_sim; [apply rsim_refl| |assumption]. intros. apply sim_refl.
  - intros n. apply SimErr.collect_sim; [|reflexivity]. intros. apply SimErr.gb_next_sim; auto.
    intros. apply SimErr.sim_refl.
Qed.

Lemma f_insert k v : same_or_error (t_insert dbg rd' t k v) (t_insert dbg rd t k v).
Proof.
  apply soe; [apply mono_insert|]. intros n. unfold t_insert.
  apply SimErr.outer_combine_with_sim; auto using SimErr.sim_refl;
    try (intros; subst; apply SimErr.sim_refl). intros id. now right.
Qed.
Lemma f_remove k : same_or_error (t_remove dbg rd' t k) (t_remove dbg rd t k).
Proof.
  apply soe; [apply mono_remove|]. intros n. unfold t_remove.
  apply SimErr.left_combine_with_sim; auto using SimErr.sim_refl;
    try (intros; subst; apply SimErr.sim_refl). intros id. now right.
Qed.
Lemma f_remove_prefix k : same_or_error (t_remove_prefix dbg rd' t k) (t_remove_prefix dbg rd t k).
Proof.
  apply soe; [apply mono_remove_prefix_with|]. intros n. unfold t_remove_prefix, t_remove_prefix_with.
  apply SimErr.remove_prefix_with_sim; auto using SimErr.sim_refl;
    try (intros; subst; apply SimErr.sim_refl). intros id. now right.
Qed.

(** Iterators, call by call. *)
Lemma pulls_mono {S A} (next : nat -> S -> res (yielded A * S)) :
  (forall fuel fuel' s, fuel <= fuel' -> sim false (next fuel s) (next fuel' s)) ->
  forall n s, mono (pulls next n s).
Proof.
  intros Hn. induction n as [|n IH]; intros s; cbn [pulls]; [apply mono_const|].
  apply mono_bind; [intros a b L; now apply Hn|]. intros x. apply mono_bind; [apply IH|]. intros; apply mono_const.
Qed.

Lemma pulls_cut {S A} (next' next : nat -> S -> res (yielded A * S)) (dead : S -> Prop) :
  (forall fuel s, dead s -> 0 < fuel -> exists s', next' fuel s = Ok (YDone, s') /\ dead s') ->
  (forall fuel s, (exists s', dead s' /\ next' fuel s = Ok (YError, s')) \/ next' fuel s = next fuel s) ->
  forall n fuel s ys, 0 < fuel -> pulls next n s fuel = Ok ys ->
    exists ys', pulls next' n s fuel = Ok ys' /\ cut_by_error ys' ys.
Proof.
  intros Hd Hn.
  assert (forall n fuel s, 0 < fuel -> dead s -> pulls next' n s fuel = Ok (repeat YDone n)) as Dead.
  { induction n as [|n IH]; intros fuel s Hf Hs; cbn [pulls repeat]; [reflexivity|].
    destruct (Hd fuel s Hs Hf) as (s' & -> & Hs'). cbn [bind fst snd]. now rewrite IH. }
  assert (forall n fuel s ys, pulls next n s fuel = Ok ys -> length ys = n) as Len.
  { induction n as [|n IH]; intros fuel s ys E; cbn [pulls] in E; [now injection E as <-|].
    destruct (next fuel s) as [[y s']| | |]; try discriminate. cbn [bind fst snd] in E.
    destruct (pulls next n s' fuel) as [l| | |] eqn:El; try discriminate. cbn in E. injection E as <-. cbn. f_equal. eauto. }
  induction n as [|n IH]; intros fuel s ys Hf E; cbn [pulls] in *.
  - exists ys. split; [exact E|now left].
  - destruct (Hn fuel s) as [(s' & Hs' & ->)| ->].
    + cbn [bind fst snd]. rewrite Dead by auto. cbn [bind]. eexists. split; [reflexivity|]. right.
      pose proof (Len (Datatypes.S n) fuel s ys) as Hl. cbn [pulls] in Hl. rewrite Hl by exact E.
      exists 0. split; [lia|]. cbn. now rewrite Nat.sub_0_r.
    + destruct (next fuel s) as [[y s']| | |]; try discriminate. cbn [bind fst snd] in *.
      destruct (pulls next n s' fuel) as [l| | |] eqn:El; try discriminate. cbn [bind] in E. injection E as <-.
      destruct (IH fuel s' l Hf El) as (l' & -> & H). cbn [bind]. exists (y :: l'). split; [reflexivity|].
      destruct H as [->|(k & Hk & ->)]; [now left|]. right. exists (Datatypes.S k). split; [cbn; lia|]. reflexivity.
Qed.

Definition cut_iter {S A} (next' next : nat -> S -> res (yielded A * S)) (s : S) : Prop :=
  forall n ys, pulls next n s ⇓ Ok ys -> exists ys', pulls next' n s ⇓ Ok ys' /\ cut_by_error ys' ys.

Lemma cut_iter_ok {S A} (next' next : nat -> S -> res (yielded A * S)) (dead : S -> Prop) s :
  (forall fuel fuel' s, fuel <= fuel' -> sim false (next' fuel s) (next' fuel' s)) ->
  (forall fuel s, dead s -> 0 < fuel -> exists s', next' fuel s = Ok (YDone, s') /\ dead s') ->
  (forall fuel s, (exists s', dead s' /\ next' fuel s = Ok (YError, s')) \/ next' fuel s = next fuel s) ->
  cut_iter next' next s.
Proof.
  intros M Hd Hn n ys (_ & n0 & C).
  destruct (pulls_cut next' next dead Hd Hn n (Datatypes.S n0) s ys (Nat.lt_0_succ n0) (C (Datatypes.S n0) ltac:(lia))) as (ys' & E & H).
  exists ys'. split; [|exact H]. eapply conv_mono; [|exact E]. now apply pulls_mono.
Qed.

Lemma ysim_sim {S A} (x y : res (yielded A * S)) : ysim false x y -> sim false x y.
Proof. intros [H|[[H _]|H]]; [now left|discriminate|right; now right]. Qed.

Lemma f_pull_kv s : cut_iter (kv_next rd') (kv_next rd) s.
Proof.
  apply cut_iter_ok with (dead := fun s => kv_stack s = []).
  - intros. apply ysim_sim. apply kv_next_sim; auto using rsim_refl.
  - intros [|fuel] x Hx Hf; [lia|]. exists x. unfold kv_next. cbn [kv_next0]. now rewrite Hx.
  - intros fuel x. unfold kv_next. destruct (SimErr.kv_next0_sim rd' rd HF fuel fuel x eq_refl) as [->| ->]; [left|now right].
    eexists. split; [|reflexivity]. reflexivity.
Qed.
Lemma f_pull_vi s : cut_iter (vi_next rd') (vi_next rd) s.
Proof.
  apply cut_iter_ok with (dead := fun s => s = []).
  - intros. apply ysim_sim. apply vi_next_sim; auto using rsim_refl.
  - intros [|fuel] x Hx Hf; [lia|]. exists x. unfold vi_next. cbn [vi_next0]. now subst.
  - intros fuel x. unfold vi_next. destruct (SimErr.vi_next0_sim rd' rd HF fuel fuel x eq_refl) as [->| ->]; [left|now right].
    eexists. split; [|reflexivity]. reflexivity.
Qed.
Lemma f_pull_gb d s : cut_iter (gb_next rd' d) (gb_next rd d) s.
Proof.
  apply cut_iter_ok with (dead := fun s => kv_stack s = []).
  - intros. apply ysim_sim. apply gb_next_sim; auto using rsim_refl, sim_refl.
  - intros [|fuel] x Hx Hf; [lia|]. exists x. unfold gb_next. cbn [gb_next0]. now rewrite Hx.
  - intros fuel x. unfold gb_next. destruct (SimErr.gb_next0_sim rd' rd HF d d (fun _ _ => SimErr.sim_refl _) fuel fuel x eq_refl) as [->| ->]; [left|now right].
    eexists. split; [|reflexivity]. reflexivity.
Qed.
End One.

Section Two.
Context (dbg : bool) (rdA' rdA rdB' rdB : reader) (FA : flaky rdA' rdA) (FB : flaky rdB' rdB) (t u : node).

Lemma combiner_sim h a b : SimErr.sim (combiner rdA' rdB' h a b) (combiner rdA rdB h a b).
Proof.
  unfold combiner. apply SimErr.sim_bind; [now apply SimErr.value_load_sim|]. intros x.
  apply SimErr.sim_bind; [now apply SimErr.value_load_sim|]. intros y. apply SimErr.sim_refl.
Qed.
Lemma combiner_with_sim h a b : SimErr.sim (combiner_with rdA' rdB' h a b) (combiner_with rdA rdB h a b).
Proof.
  unfold combiner_with. apply SimErr.sim_bind; [now apply SimErr.value_load_sim|]. intros x.
  apply SimErr.sim_bind; [now apply SimErr.value_load_sim|]. intros y. apply SimErr.sim_refl.
Qed.
Lemma predicate_sim h a b : SimErr.sim (predicate rdA' rdB' h a b) (predicate rdA rdB h a b).
Proof.
  unfold predicate. apply SimErr.sim_bind; [now apply SimErr.value_load_sim|]. intros x.
  apply SimErr.sim_bind; [now apply SimErr.value_load_sim|]. intros y. apply SimErr.sim_refl.
Qed.
Lemma selector_sim h b : SimErr.sim (selector rdB' h b) (selector rdB h b).
Proof.
  unfold selector. apply SimErr.sim_bind; [now apply SimErr.value_load_sim|]. intros y. apply SimErr.sim_refl.
Qed.

Lemma f_outer h : same_or_error (t_outer_combine dbg rdA' rdB' t u (combiner rdA' rdB' h)) (t_outer_combine dbg rdA rdB t u (combiner rdA rdB h)).
Proof.
  apply soe; [intros a b L; apply outer_combine_sim; auto using rsim_refl, sim_refl|].
  intros n. apply SimErr.outer_combine_sim; auto using combiner_sim.
Qed.
Lemma f_inner h : same_or_error (t_inner_combine dbg rdA' rdB' t u (combiner rdA' rdB' h)) (t_inner_combine dbg rdA rdB t u (combiner rdA rdB h)).
Proof.
  apply soe; [intros a b L; apply inner_combine_sim; auto using rsim_refl, sim_refl|].
  intros n. apply SimErr.inner_combine_sim; auto using combiner_sim.
Qed.
Lemma f_left h : same_or_error (t_left_combine dbg rdA' rdB' t u (combiner rdA' rdB' h)) (t_left_combine dbg rdA rdB t u (combiner rdA rdB h)).
Proof.
  apply soe; [intros a b L; apply left_combine_sim; auto using rsim_refl, sim_refl|].
  intros n. apply SimErr.left_combine_sim; auto using combiner_sim.
Qed.
Lemma f_inner_pred h : same_or_error (t_inner_combine_pred rdA' rdB' t u (predicate rdA' rdB' h)) (t_inner_combine_pred rdA rdB t u (predicate rdA rdB h)).
Proof.
  apply soe; [intros a b L; apply inner_combine_pred_sim; auto using rsim_refl, sim_refl|].
  intros n. apply SimErr.inner_combine_pred_sim; auto using predicate_sim.
Qed.
Lemma f_left_pred h : same_or_error (t_left_combine_pred rdA' rdB' t u (predicate rdA' rdB' h)) (t_left_combine_pred rdA rdB t u (predicate rdA rdB h)).
Proof.
  apply soe; [intros a b L; apply left_combine_pred_sim; auto using rsim_refl, sim_refl|].
  intros n. apply SimErr.left_combine_pred_sim; auto using predicate_sim.
Qed.
Lemma f_outer_with h : same_or_error
  (t_outer_combine_with dbg rdA' rdB' (detach_converter rdB') t u (combiner_with rdA' rdB' h))
  (t_outer_combine_with dbg rdA rdB (detach_converter rdB) t u (combiner_with rdA rdB h)).
Proof.
  apply soe.
  - intros a b L. apply outer_combine_with_sim; auto using rsim_refl, sim_refl.
    + intros. apply r_detached_sim; auto using rsim_refl.
    + intros. apply detach_conv_sim; auto using rsim_refl.
  - intros n. apply SimErr.outer_combine_with_sim; auto using combiner_with_sim, SimErr.sim_refl.
    + intros. now apply SimErr.r_detached_sim.
    + intros. now apply SimErr.detach_conv_sim.
Qed.
Lemma f_inner_with h : same_or_error
  (t_inner_combine_with dbg rdA' rdB' t u (combiner_with rdA' rdB' h))
  (t_inner_combine_with dbg rdA rdB t u (combiner_with rdA rdB h)).
Proof.
  apply soe; [intros a b L; apply inner_combine_with_sim; auto using rsim_refl, sim_refl|].
  intros n. apply SimErr.inner_combine_with_sim; auto using combiner_with_sim.
Qed.
Lemma f_left_with h : same_or_error
  (t_left_combine_with dbg rdA' rdB' t u (combiner_with rdA' rdB' h))
  (t_left_combine_with dbg rdA rdB t u (combiner_with rdA rdB h)).
Proof.
  apply soe; [intros a b L; apply left_combine_with_sim; auto using rsim_refl, sim_refl|].
  intros n. apply SimErr.left_combine_with_sim; auto using combiner_with_sim.
Qed.
Lemma f_retain s : same_or_error
  (t_retain_prefix_with dbg rdA' rdB' t u (selector rdB' s)) (t_retain_prefix_with dbg rdA rdB t u (selector rdB s)).
Proof.
  apply soe; [intros a b L; apply retain_prefix_with_sim; auto using rsim_refl, sim_refl|].
  intros n. apply SimErr.retain_prefix_with_sim; auto using selector_sim.
Qed.
Lemma f_remove_with s : same_or_error
  (t_remove_prefix_with dbg rdA' rdB' t u (selector rdB' s)) (t_remove_prefix_with dbg rdA rdB t u (selector rdB s)).
Proof.
  apply soe; [intros a b L; apply remove_prefix_with_sim; auto using rsim_refl, sim_refl|].
  intros n. apply SimErr.remove_prefix_with_sim; auto using selector_sim.
Qed.
End Two.
