(** Comparing two runs of the same call: a run with fewer steps, or over a store
    some of whose reads fail, ends like the other run, or runs out of steps, or
    (only if reads may fail) returns an error. *)
From Verif Require Import Base Header Node Combine Iter Api.

Section Sim.
(** May reads fail? *)
Context (e : bool).

Definition sim {A} (x y : res A) : Prop := x = Fuel \/ (e = true /\ x = Err) \/ x = y.

Lemma sim_refl {A} (x : res A) : sim x x.
Proof. right; now right. Qed.

Lemma sim_fuel {A} (y : res A) : sim Fuel y.
Proof. now left. Qed.

Lemma sim_bind {A B} (x y : res A) (k k' : A -> res B) :
  sim x y -> (forall a, sim (k a) (k' a)) -> sim (bind x k) (bind y k').
Proof.
  intros [->|[[E ->]| ->]] H; cbn.
  - now left.
  - right; left; auto.
  - destruct y; cbn; auto; try apply sim_refl.
Qed.

Definition rsim (rd rd' : reader) : Prop := forall id, sim (rd id) (rd' id).

Ltac sstep :=
  match goal with
  | |- sim ?x ?x => apply sim_refl
  | |- sim Fuel _ => apply sim_fuel
  | |- sim (bind _ _) (bind _ _) => apply sim_bind; [|intros ?]
  | |- sim (match ?x with _ => _ end) (match ?x with _ => _ end) => destruct x
  | H : _ |- sim _ _ => solve [apply H; auto; lia]
  end.
Ltac ss := repeat sstep.

(** Node. *)
Section One.
Context (rd rd' : reader) (Hrd : rsim rd rd').

Lemma load_prefix_sim p : sim (load_prefix rd p) (load_prefix rd' p).
Proof. unfold load_prefix. destruct p as [|[|]]; ss. Qed.

Lemma load_value_sim p : sim (load_value rd p) (load_value rd' p).
Proof. unfold load_value. destruct p as [|[|]]; ss. Qed.

Lemma value_load_sim p : sim (value_load rd p) (value_load rd' p).
Proof. unfold value_load. ss. Qed.

Lemma it_load_sim p : sim (it_load rd p) (it_load rd' p).
Proof. unfold it_load. ss. Qed.

Lemma load_children_sim n : sim (load_children rd n) (load_children rd' n).
Proof. unfold load_children. pose proof it_load_sim. ss. Qed.

Lemma load_children_owned_sim n : sim (load_children_owned rd n) (load_children_owned rd' n).
Proof. unfold load_children_owned. pose proof it_load_sim. ss. Qed.

Lemma b_load_children_sim n : sim (b_load_children rd n) (b_load_children rd' n).
Proof. unfold b_load_children. pose proof it_load_sim. destruct (b_children n) as [|[|]]; ss. Qed.

Lemma r_load_children_sim r : sim (r_load_children rd r) (r_load_children rd' r).
Proof. unfold r_load_children. pose proof load_children_sim. pose proof b_load_children_sim. ss. Qed.

Lemma r_load_children_owned_sim r : sim (r_load_children_owned rd r) (r_load_children_owned rd' r).
Proof. unfold r_load_children_owned. pose proof load_children_owned_sim. pose proof b_load_children_sim. ss. Qed.

Lemma load_children_mut_sim n : sim (load_children_mut rd n) (load_children_mut rd' n).
Proof. unfold load_children_mut. ss. Qed.

Lemma clone_shortened_sim n k : sim (clone_shortened rd n k) (clone_shortened rd' n k).
Proof. unfold clone_shortened. pose proof load_prefix_sim. ss. Qed.

Lemma r_clone_shortened_sim n k : sim (r_clone_shortened rd n k) (r_clone_shortened rd' n k).
Proof. unfold r_clone_shortened. pose proof clone_shortened_sim. ss. Qed.

Lemma split_sim n k : sim (split rd n k) (split rd' n k).
Proof. unfold split. pose proof load_prefix_sim. ss. Qed.

Lemma detach_loop_sim rec rec' : (forall r, sim (rec r) (rec' r)) ->
  forall fuel fuel' it, fuel <= fuel' -> sim (detach_loop rec fuel it) (detach_loop rec' fuel' it).
Proof.
  intros Hr. induction fuel as [|fuel IH]; intros [|fuel'] it H; try lia; cbn [detach_loop]; ss.
Qed.

Lemma r_detached_sim : forall fuel fuel' r, fuel <= fuel' -> sim (r_detached rd fuel r) (r_detached rd' fuel' r).
Proof.
  pose proof load_prefix_sim. pose proof load_value_sim. pose proof load_children_sim.
  induction fuel as [|fuel IH]; intros [|fuel'] r Hf; try lia; cbn [r_detached]; ss.
  apply detach_loop_sim; [|lia]. intros r0. apply IH. lia.
Qed.

Lemma it_detached_sim fuel fuel' it : fuel <= fuel' -> sim (it_detached rd fuel it) (it_detached rd' fuel' it).
Proof.
  intros Hf. unfold it_detached. ss. apply detach_loop_sim; [|lia]. intros r. now apply r_detached_sim.
Qed.

(** Searching. *)
Lemma find_sim : forall fuel fuel' r k, fuel <= fuel' -> sim (find rd fuel r k) (find rd' fuel' r k).
Proof.
  pose proof load_prefix_sim. pose proof r_load_children_sim.
  induction fuel as [|fuel IH]; intros [|fuel'] r k Hf; try lia; cbn [find]; ss.
Qed.

Lemma contains_key_sim fuel fuel' n k : fuel <= fuel' -> sim (contains_key rd fuel n k) (contains_key rd' fuel' n k).
Proof. intros. unfold contains_key. pose proof find_sim. ss. Qed.
Lemma has_prefix_sim fuel fuel' n k : fuel <= fuel' -> sim (has_prefix rd fuel n k) (has_prefix rd' fuel' n k).
Proof. intros. unfold has_prefix. pose proof find_sim. ss. Qed.
Lemma get_sim fuel fuel' n k : fuel <= fuel' -> sim (get rd fuel n k) (get rd' fuel' n k).
Proof. intros. unfold get. pose proof find_sim. ss. Qed.
Lemma filter_prefix_sim fuel fuel' n k s : fuel <= fuel' -> sim (filter_prefix rd fuel n k s) (filter_prefix rd' fuel' n k s).
Proof. intros. unfold filter_prefix. pose proof find_sim. pose proof load_prefix_sim. ss. Qed.

Lemma first_value_sim : forall fuel fuel' r, fuel <= fuel' -> sim (first_value rd fuel r) (first_value rd' fuel' r).
Proof.
  pose proof r_load_children_sim.
  induction fuel as [|fuel IH]; intros [|fuel'] r Hf; try lia; cbn [first_value]; ss.
Qed.
Lemma last_value_sim : forall fuel fuel' r, fuel <= fuel' -> sim (last_value rd fuel r) (last_value rd' fuel' r).
Proof.
  pose proof r_load_children_sim.
  induction fuel as [|fuel IH]; intros [|fuel'] r Hf; try lia; cbn [last_value]; ss.
Qed.
Lemma first_entry_sim : forall fuel fuel' p r, fuel <= fuel' -> sim (first_entry rd fuel p r) (first_entry rd' fuel' p r).
Proof.
  pose proof r_load_children_sim. pose proof load_prefix_sim.
  induction fuel as [|fuel IH]; intros [|fuel'] p r Hf; try lia; cbn [first_entry]; ss.
Qed.
Lemma last_entry_sim : forall fuel fuel' p r, fuel <= fuel' -> sim (last_entry rd fuel p r) (last_entry rd' fuel' p r).
Proof.
  pose proof r_load_children_sim. pose proof load_prefix_sim.
  induction fuel as [|fuel IH]; intros [|fuel'] p r Hf; try lia; cbn [last_entry]; ss.
Qed.

(** Iterators. *)
Lemma vi_next0_sim : forall fuel fuel' s, fuel <= fuel' -> sim (vi_next0 rd fuel s) (vi_next0 rd' fuel' s).
Proof.
  pose proof r_load_children_owned_sim.
  induction fuel as [|fuel IH]; intros [|fuel'] s Hf; try lia; cbn [vi_next0]; ss.
Qed.
Lemma kv_next0_sim : forall fuel fuel' s, fuel <= fuel' -> sim (kv_next0 rd fuel s) (kv_next0 rd' fuel' s).
Proof.
  pose proof r_load_children_owned_sim. pose proof load_prefix_sim.
  induction fuel as [|fuel IH]; intros [|fuel'] s Hf; try lia; cbn [kv_next0]; ss.
Qed.
Section Gb.
Context (d d' : bytes -> noderef -> res bool) (Hd : forall p r, sim (d p r) (d' p r)).
Lemma gb_next0_sim : forall fuel fuel' s, fuel <= fuel' -> sim (gb_next0 rd d fuel s) (gb_next0 rd' d' fuel' s).
Proof.
  pose proof r_load_children_owned_sim. pose proof load_prefix_sim.
  induction fuel as [|fuel IH]; intros [|fuel'] s Hf; try lia; cbn [gb_next0]; ss.
Qed.
End Gb.
End One.

(** One [next] call: if reads may fail, an error item in place of the item. *)
Definition ysim {S A} (x y : res (yielded A * S)) : Prop :=
  x = Fuel \/ (e = true /\ exists s, x = Ok (YError, s)) \/ x = y.

Lemma collect_sim {S A} (next next' : nat -> S -> res (yielded A * S)) :
  (forall fuel fuel' s, fuel <= fuel' -> ysim (next fuel s) (next' fuel' s)) ->
  forall fuel fuel' s, fuel <= fuel' -> sim (collect next fuel s) (collect next' fuel' s).
Proof.
  intros Hn. induction fuel as [|fuel IH]; intros [|fuel'] s Hf; try lia; cbn [collect]; try apply sim_fuel.
  destruct (Hn fuel fuel' s ltac:(lia)) as [->|[(E & s' & ->)| ->]]; cbn [bind]; try apply sim_fuel.
  - right; left; auto.
  - destruct (next' fuel' s) as [[y s']| | |]; cbn [bind]; try apply sim_refl. ss.
Qed.

Lemma vi_next_sim rd rd' : rsim rd rd' -> forall fuel fuel' s, fuel <= fuel' ->
  ysim (vi_next rd fuel s) (vi_next rd' fuel' s).
Proof.
  intros H fuel fuel' s Hf. unfold vi_next.
  destruct (vi_next0_sim rd rd' H fuel fuel' s Hf) as [->|[[E ->]| ->]]; [now left| |right; now right].
  right; left. eauto.
Qed.
Lemma kv_next_sim rd rd' : rsim rd rd' -> forall fuel fuel' s, fuel <= fuel' ->
  ysim (kv_next rd fuel s) (kv_next rd' fuel' s).
Proof.
  intros H fuel fuel' s Hf. unfold kv_next.
  destruct (kv_next0_sim rd rd' H fuel fuel' s Hf) as [->|[[E ->]| ->]]; [now left| |right; now right].
  right; left. eauto.
Qed.
Lemma gb_next_sim rd rd' d d' : rsim rd rd' -> (forall p r, sim (d p r) (d' p r)) ->
  forall fuel fuel' s, fuel <= fuel' -> ysim (gb_next rd d fuel s) (gb_next rd' d' fuel' s).
Proof.
  intros H Hd fuel fuel' s Hf. unfold gb_next.
  destruct (gb_next0_sim rd rd' H d d' Hd fuel fuel' s Hf) as [->|[[E ->]| ->]]; [now left| |right; now right].
  right; left. eauto.
Qed.

Lemma scan_prefix_sim rd rd' fuel fuel' n k : rsim rd rd' -> fuel <= fuel' ->
  sim (scan_prefix rd fuel n k) (scan_prefix rd' fuel' n k).
Proof. intros Hr Hf. unfold scan_prefix. pose proof (find_sim rd rd' Hr). ss. Qed.

(** Combines. *)
Section Two.
Context (dbg : bool) (rdA rdA' rdB rdB' : reader) (HA : rsim rdA rdA') (HB : rsim rdB rdB').

Lemma detach_conv_sim rd rd' fuel fuel' r n : rsim rd rd' -> fuel <= fuel' ->
  sim (conv_node_shortened (detach_converter rd) fuel r n) (conv_node_shortened (detach_converter rd') fuel' r n).
Proof.
  intros Hr Hf. cbn [conv_node_shortened detach_converter].
  pose proof (r_detached_sim rd rd' Hr). pose proof (clone_shortened_sim rd rd' Hr). pose proof (r_clone_shortened_sim rd rd' Hr). pose proof (load_prefix_sim rd rd' Hr). ss.
Qed.

Ltac prep :=
  pose proof (load_prefix_sim rdA rdA' HA); pose proof (load_prefix_sim rdB rdB' HB);
  pose proof (r_load_children_sim rdA rdA' HA); pose proof (r_load_children_sim rdB rdB' HB);
  pose proof (load_children_mut_sim rdA rdA' HA);
  pose proof (r_clone_shortened_sim rdA rdA' HA); pose proof (r_clone_shortened_sim rdB rdB' HB);
  pose proof (split_sim rdA rdA' HA);
  pose proof (r_detached_sim rdA rdA' HA); pose proof (r_detached_sim rdB rdB' HB);
  pose proof (it_detached_sim rdA rdA' HA); pose proof (it_detached_sim rdB rdB' HB).

Section Value.
Context (f f' : blob -> blob -> res (option blob)) (Hf : forall a b, sim (f a b) (f' a b)).

Section Loops.
Context (rec rec' : noderef -> noderef -> res node) (Hrec : forall a b, sim (rec a b) (rec' a b)).
Lemma outer_loop_sim : forall fuel fuel' a b, fuel <= fuel' ->
  sim (outer_loop rdA rdB rec fuel a b) (outer_loop rdA' rdB' rec' fuel' a b).
Proof. prep. induction fuel as [|fuel IH]; intros [|fuel'] a b Hl; try lia; cbn [outer_loop]; ss. Qed.
Lemma inner_loop_sim : forall fuel fuel' a b, fuel <= fuel' ->
  sim (inner_loop rec fuel a b) (inner_loop rec' fuel' a b).
Proof. induction fuel as [|fuel IH]; intros [|fuel'] a b Hl; try lia; cbn [inner_loop]; ss. Qed.
Lemma left_loop_sim : forall fuel fuel' a b, fuel <= fuel' ->
  sim (left_loop rdA rec fuel a b) (left_loop rdA' rec' fuel' a b).
Proof. prep. induction fuel as [|fuel IH]; intros [|fuel'] a b Hl; try lia; cbn [left_loop]; ss. Qed.
Lemma outer_children_sim fuel fuel' a b : fuel <= fuel' ->
  sim (outer_children rdA rdB rec fuel a b) (outer_children rdA' rdB' rec' fuel' a b).
Proof. intros. prep. pose proof outer_loop_sim. unfold outer_children. ss. Qed.
Lemma inner_children_sim fuel fuel' a b : fuel <= fuel' ->
  sim (inner_children rec fuel a b) (inner_children rec' fuel' a b).
Proof. intros. prep. pose proof inner_loop_sim. unfold inner_children. ss. Qed.
Lemma left_children_sim fuel fuel' a b : fuel <= fuel' ->
  sim (left_children rdA rec fuel a b) (left_children rdA' rec' fuel' a b).
Proof. intros. prep. pose proof left_loop_sim. unfold left_children. ss. Qed.
End Loops.

Lemma outer_combine_sim : forall fuel fuel' a b, fuel <= fuel' ->
  sim (outer_combine dbg rdA rdB f fuel a b) (outer_combine dbg rdA' rdB' f' fuel' a b).
Proof.
  prep. induction fuel as [|fuel IH]; intros [|fuel'] a b Hl; try lia; cbn [outer_combine]; ss;
    try (apply outer_children_sim; [intros; apply IH; lia|lia]); try (apply detach_conv_sim; [assumption|lia]).
Qed.
Lemma inner_combine_sim : forall fuel fuel' a b, fuel <= fuel' ->
  sim (inner_combine dbg rdA rdB f fuel a b) (inner_combine dbg rdA' rdB' f' fuel' a b).
Proof.
  prep. induction fuel as [|fuel IH]; intros [|fuel'] a b Hl; try lia; cbn [inner_combine]; ss;
    (apply inner_children_sim; [intros; apply IH; lia|lia]).
Qed.
Lemma left_combine_sim : forall fuel fuel' a b, fuel <= fuel' ->
  sim (left_combine dbg rdA rdB f fuel a b) (left_combine dbg rdA' rdB' f' fuel' a b).
Proof.
  prep. induction fuel as [|fuel IH]; intros [|fuel'] a b Hl; try lia; cbn [left_combine]; ss;
    (apply left_children_sim; [intros; apply IH; lia|lia]).
Qed.
End Value.

Section Pred.
Context (f f' : blob -> blob -> res bool) (Hf : forall a b, sim (f a b) (f' a b)).
Section Loops.
Context (rec rec' : noderef -> noderef -> res bool) (Hrec : forall a b, sim (rec a b) (rec' a b)).
Lemma any_loop_sim (r r' : noderef -> res bool) : (forall a, sim (r a) (r' a)) ->
  forall fuel fuel' it, fuel <= fuel' -> sim (any_loop r fuel it) (any_loop r' fuel' it).
Proof. intros Hr. induction fuel as [|fuel IH]; intros [|fuel'] it Hl; try lia; cbn [any_loop]; ss. Qed.
Lemma inner_pred_loop_sim : forall fuel fuel' a b, fuel <= fuel' ->
  sim (inner_pred_loop rec fuel a b) (inner_pred_loop rec' fuel' a b).
Proof. induction fuel as [|fuel IH]; intros [|fuel'] a b Hl; try lia; cbn [inner_pred_loop]; ss. Qed.
Lemma left_pred_loop_sim : forall fuel fuel' a b, fuel <= fuel' ->
  sim (left_pred_loop rec fuel a b) (left_pred_loop rec' fuel' a b).
Proof. induction fuel as [|fuel IH]; intros [|fuel'] a b Hl; try lia; cbn [left_pred_loop]; ss. Qed.
Lemma inner_pred_children_sim fuel fuel' a b : fuel <= fuel' ->
  sim (inner_pred_children rec fuel a b) (inner_pred_children rec' fuel' a b).
Proof. intros. pose proof inner_pred_loop_sim. unfold inner_pred_children. ss. Qed.
Lemma left_pred_children_sim fuel fuel' a b : fuel <= fuel' ->
  sim (left_pred_children rec fuel a b) (left_pred_children rec' fuel' a b).
Proof. intros. pose proof left_pred_loop_sim. unfold left_pred_children. ss. Qed.
End Loops.

Lemma inner_combine_pred_sim : forall fuel fuel' a b, fuel <= fuel' ->
  sim (inner_combine_pred rdA rdB f fuel a b) (inner_combine_pred rdA' rdB' f' fuel' a b).
Proof.
  prep. induction fuel as [|fuel IH]; intros [|fuel'] a b Hl; try lia; cbn [inner_combine_pred]; ss;
    first [apply inner_pred_children_sim; [intros; apply IH; lia|lia]
          |apply any_loop_sim; [intros; apply IH; lia|lia]].
Qed.
Lemma left_combine_pred_sim : forall fuel fuel' a b, fuel <= fuel' ->
  sim (left_combine_pred rdA rdB f fuel a b) (left_combine_pred rdA' rdB' f' fuel' a b).
Proof.
  prep. induction fuel as [|fuel IH]; intros [|fuel'] a b Hl; try lia; cbn [left_combine_pred]; ss;
    (apply left_pred_children_sim; [intros; apply IH; lia|lia]).
Qed.
End Pred.

Section InPlace.
Context (f f' : blob -> blob -> res blob) (Hf : forall a b, sim (f a b) (f' a b)).
Section Loops.
Context (rec rec' : node -> noderef -> res node) (Hrec : forall a b, sim (rec a b) (rec' a b)).
Lemma inner_with_loop_sim : forall fuel fuel' a b, fuel <= fuel' ->
  sim (inner_with_loop rec fuel a b) (inner_with_loop rec' fuel' a b).
Proof. induction fuel as [|fuel IH]; intros [|fuel'] a b Hl; try lia; cbn [inner_with_loop]; ss. Qed.
Lemma left_with_loop_sim : forall fuel fuel' a b, fuel <= fuel' ->
  sim (left_with_loop rec fuel a b) (left_with_loop rec' fuel' a b).
Proof. induction fuel as [|fuel IH]; intros [|fuel'] a b Hl; try lia; cbn [left_with_loop]; ss. Qed.
Lemma inner_children_with_sim fuel fuel' a b : fuel <= fuel' ->
  sim (inner_children_with rec fuel a b) (inner_children_with rec' fuel' a b).
Proof. intros. pose proof inner_with_loop_sim. unfold inner_children_with. ss. Qed.
Lemma left_children_with_sim fuel fuel' a b : fuel <= fuel' ->
  sim (left_children_with rec fuel a b) (left_children_with rec' fuel' a b).
Proof. intros. pose proof left_with_loop_sim. unfold left_children_with. ss. Qed.

Section Conv.
Context (c c' : converter) (Hc : forall fuel fuel' r, fuel <= fuel' -> sim (conv_node c fuel r) (conv_node c' fuel' r)).
Lemma convert_loop_sim : forall fuel fuel' b, fuel <= fuel' ->
  sim (convert_loop c fuel b) (convert_loop c' fuel' b).
Proof. induction fuel as [|fuel IH]; intros [|fuel'] b Hl; try lia; cbn [convert_loop]; ss. Qed.
Lemma outer_with_loop_sim : forall fuel fuel' a b, fuel <= fuel' ->
  sim (outer_with_loop c rec fuel a b) (outer_with_loop c' rec' fuel' a b).
Proof. induction fuel as [|fuel IH]; intros [|fuel'] a b Hl; try lia; cbn [outer_with_loop]; ss. Qed.
Lemma outer_children_with_sim fuel fuel' a b : fuel <= fuel' ->
  sim (outer_children_with c rec fuel a b) (outer_children_with c' rec' fuel' a b).
Proof. intros. pose proof outer_with_loop_sim. pose proof convert_loop_sim. unfold outer_children_with. ss. Qed.
End Conv.
End Loops.

Lemma inner_combine_with_sim : forall fuel fuel' a b, fuel <= fuel' ->
  sim (inner_combine_with dbg rdA rdB f fuel a b) (inner_combine_with dbg rdA' rdB' f' fuel' a b).
Proof.
  prep. induction fuel as [|fuel IH]; intros [|fuel'] a b Hl; try lia; cbn [inner_combine_with]; ss;
    (apply inner_children_with_sim; [intros; apply IH; lia|lia]).
Qed.
Lemma left_combine_with_sim : forall fuel fuel' a b, fuel <= fuel' ->
  sim (left_combine_with dbg rdA rdB f fuel a b) (left_combine_with dbg rdA' rdB' f' fuel' a b).
Proof.
  prep. induction fuel as [|fuel IH]; intros [|fuel'] a b Hl; try lia; cbn [left_combine_with]; ss;
    (apply left_children_with_sim; [intros; apply IH; lia|lia]).
Qed.

Section Conv.
Context (c c' : converter) (Hc : forall fuel fuel' r, fuel <= fuel' -> sim (conv_node c fuel r) (conv_node c' fuel' r)).
Context (Hcs : forall fuel fuel' r n, fuel <= fuel' -> sim (conv_node_shortened c fuel r n) (conv_node_shortened c' fuel' r n)).
Context (Hcv : forall v, sim (conv_value c v) (conv_value c' v)).
Lemma outer_combine_with_sim : forall fuel fuel' a b, fuel <= fuel' ->
  sim (outer_combine_with dbg rdA rdB c f fuel a b) (outer_combine_with dbg rdA' rdB' c' f' fuel' a b).
Proof.
  prep. induction fuel as [|fuel IH]; intros [|fuel'] a b Hl; try lia; cbn [outer_combine_with]; ss;
    (apply outer_children_with_sim; [intros; apply IH; lia|assumption|lia]).
Qed.
End Conv.
End InPlace.

Section Prefixes.
Context (f f' : blob -> res bool) (Hf : forall a, sim (f a) (f' a)).
Lemma selected_sim v : sim (selected f v) (selected f' v).
Proof. unfold selected. ss. Qed.
Lemma retain_prefix_with_sim : forall fuel fuel' a b, fuel <= fuel' ->
  sim (retain_prefix_with dbg rdA rdB f fuel a b) (retain_prefix_with dbg rdA' rdB' f' fuel' a b).
Proof.
  prep. pose proof selected_sim. induction fuel as [|fuel IH]; intros [|fuel'] a b Hl; try lia; cbn [retain_prefix_with]; ss;
    (apply inner_children_with_sim; [intros; apply IH; lia|lia]).
Qed.
Lemma remove_prefix_with_sim : forall fuel fuel' a b, fuel <= fuel' ->
  sim (remove_prefix_with dbg rdA rdB f fuel a b) (remove_prefix_with dbg rdA' rdB' f' fuel' a b).
Proof.
  prep. pose proof selected_sim. induction fuel as [|fuel IH]; intros [|fuel'] a b Hl; try lia; cbn [remove_prefix_with]; ss;
    (apply left_children_with_sim; [intros; apply IH; lia|lia]).
Qed.
End Prefixes.
End Two.
End Sim.
