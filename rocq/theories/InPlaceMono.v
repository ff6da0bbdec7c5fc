(** More steps do not change what an operation leaves behind. *)
From Verif Require Import Base Header Node Combine InPlace.
From Verif Require Sim.

(** The first run is out of steps, or both are the same. *)
Definition fle {X} (x y : left_in X) : Prop := snd x = Fuel \/ x = y.

Lemma fle_refl {X} (x : left_in X) : fle x x.
Proof. now right. Qed.
Lemma fle_try {X A} (s : X) (r r' : res A) k k' : Sim.sim false r r' -> (forall x, fle (k x) (k' x)) ->
  fle (try s r k) (try s r' k').
Proof.
  intros [->|[[E _]| ->]] H; [now left|discriminate|]. destruct r'; cbn; auto; now right.
Qed.
Lemma fle_try1 {X A} (s : X) (r : res A) k k' : (forall x, fle (k x) (k' x)) -> fle (try s r k) (try s r k').
Proof. apply fle_try. apply Sim.sim_refl. Qed.
Lemma fle_pair {X Y} (p p' : left_in X) (k k' : X -> res unit -> left_in Y) :
  fle p p' -> (forall x, snd (k x Fuel) = Fuel) -> (forall x r, fle (k x r) (k' x r)) ->
  fle (let (x, r) := p in k x r) (let (x, r) := p' in k' x r).
Proof.
  intros [E|<-] H1 H2; destruct p as [x r].
  - cbn in E. subst r. left. apply H1.
  - apply H2.
Qed.

Section Mono.
Context (keep dbg : bool) (rdA rdB : reader).

Lemma fle_recurse kids kids' a bc : (forall l o, fle (kids l o) (kids' l o)) ->
  fle (recurse dbg rdA kids a bc) (recurse dbg rdA kids' a bc).
Proof.
  intros H. unfold recurse. apply fle_try1. intros ac. apply fle_try1. intros o.
  apply fle_pair; auto using fle_refl.
Qed.

Section Loops.
Context (rec rec' : node -> noderef -> left_in node) (HR : forall a b, fle (rec a b) (rec' a b)).

Lemma fle_left_loop : forall n m ac bc, n <= m -> fle (left_loop_in keep rec n ac bc) (left_loop_in keep rec' m ac bc).
Proof.
  induction n as [|n IH]; intros [|m] ac bc L; try lia; try now left. cbn [left_loop_in]. apply le_S_n in L.
  destruct (cmp_with ac bc) as [[]|]; try apply fle_refl.
  - destruct ac as [|x ac]; [apply fle_refl|]. destruct (it_next bc) as [[y bc']|]; [|apply fle_refl].
    apply fle_pair; [apply HR|reflexivity|]. intros x' r. apply fle_try1. intros _.
    apply fle_pair; auto using fle_refl.
  - destruct ac as [|x ac]; [apply fle_refl|]. apply fle_pair; auto using fle_refl.
  - destruct (it_next bc) as [[y bc']|]; [|apply fle_refl]. auto.
Qed.
Lemma fle_left_children n m ac o : n <= m ->
  fle (left_children_in keep rec n ac o) (left_children_in keep rec' m ac o).
Proof. intros L. destruct o; [|apply fle_refl]. destruct ac; [apply fle_refl|]. now apply fle_left_loop. Qed.

Lemma fle_inner_loop : forall n m ac bc, n <= m -> fle (inner_loop_in keep rec n ac bc) (inner_loop_in keep rec' m ac bc).
Proof.
  induction n as [|n IH]; intros [|m] ac bc L; try lia; try now left. cbn [inner_loop_in]. apply le_S_n in L.
  destruct (cmp_with ac bc) as [[]|]; try apply fle_refl.
  - destruct ac as [|x ac]; [apply fle_refl|]. destruct (it_next bc) as [[y bc']|]; [|apply fle_refl].
    apply fle_pair; [apply HR|reflexivity|]. intros x' r. apply fle_try1. intros _.
    apply fle_pair; auto using fle_refl.
  - destruct ac as [|x ac]; [apply fle_refl|]. auto.
  - destruct (it_next bc) as [[y bc']|]; [|apply fle_refl]. auto.
Qed.
Lemma fle_inner_children n m ac o : n <= m ->
  fle (inner_children_in keep rec n ac o) (inner_children_in keep rec' m ac o).
Proof. intros L. destruct o; [|apply fle_refl]. destruct ac; [apply fle_refl|]. now apply fle_inner_loop. Qed.

Context (c : converter) (Hc : forall n m r, n <= m -> Sim.sim false (conv_node c n r) (conv_node c m r)).
Lemma fle_convert : forall n m bc, n <= m -> fle (convert_loop_in c n bc) (convert_loop_in c m bc).
Proof.
  induction n as [|n IH]; intros [|m] bc L; try lia; try now left. cbn [convert_loop_in]. apply le_S_n in L.
  destruct (it_next bc) as [[y bc']|]; [|apply fle_refl]. apply fle_try; [auto|]. intros x.
  apply fle_pair; auto using fle_refl.
Qed.
Lemma fle_outer_loop : forall n m ac bc, n <= m -> fle (outer_loop_in keep rec c n ac bc) (outer_loop_in keep rec' c m ac bc).
Proof.
  induction n as [|n IH]; intros [|m] ac bc L; try lia; try now left. cbn [outer_loop_in]. apply le_S_n in L.
  destruct (cmp_with ac bc) as [[]|]; try apply fle_refl.
  - destruct ac as [|x ac]; [apply fle_refl|]. destruct (it_next bc) as [[y bc']|]; [|apply fle_refl].
    apply fle_pair; [apply HR|reflexivity|]. intros x' r. apply fle_try1. intros _.
    apply fle_pair; auto using fle_refl.
  - destruct ac as [|x ac]; [apply fle_refl|]. apply fle_pair; auto using fle_refl.
  - destruct (it_next bc) as [[y bc']|]; [|apply fle_refl]. apply fle_try; [auto|]. intros x.
    apply fle_pair; auto using fle_refl.
Qed.
Lemma fle_outer_children n m ac o : n <= m ->
  fle (outer_children_in keep rec c n ac o) (outer_children_in keep rec' c m ac o).
Proof. intros L. destruct o; [|apply fle_refl]. destruct ac; [now apply fle_convert|]. now apply fle_outer_loop. Qed.
End Loops.

Ltac go K := repeat first
  [ apply fle_refl
  | apply fle_recurse; intros; apply K; assumption
  | apply fle_try1; intros ?
  | match goal with |- fle (match ?x with _ => _ end) (match ?x with _ => _ end) => destruct x end
  | apply fle_try; [|intros ?] ].

Section Values.
Context (f : blob -> blob -> res blob).
Lemma fle_left : forall n m a b, n <= m ->
  fle (left_combine_in keep dbg rdA rdB f n a b) (left_combine_in keep dbg rdA rdB f m a b).
Proof.
  induction n as [|n IH]; intros [|m] a b L; try lia; try now left. cbn [left_combine_in]. apply le_S_n in L.
  pose proof (fun ac o => fle_left_children _ _ (fun a b => IH m a b L) n m ac o L) as K. go K.
Qed.
Lemma fle_inner : forall n m a b, n <= m ->
  fle (inner_combine_in keep dbg rdA rdB f n a b) (inner_combine_in keep dbg rdA rdB f m a b).
Proof.
  induction n as [|n IH]; intros [|m] a b L; try lia; try now left. cbn [inner_combine_in]. apply le_S_n in L.
  pose proof (fun ac o => fle_inner_children _ _ (fun a b => IH m a b L) n m ac o L) as K. go K.
Qed.
Context (c : converter) (Hc : forall n m r, n <= m -> Sim.sim false (conv_node c n r) (conv_node c m r)).
Context (Hcs : forall n m r k, n <= m -> Sim.sim false (conv_node_shortened c n r k) (conv_node_shortened c m r k)).
Lemma fle_outer : forall n m a b, n <= m ->
  fle (outer_combine_in keep dbg rdA rdB f c n a b) (outer_combine_in keep dbg rdA rdB f c m a b).
Proof.
  induction n as [|n IH]; intros [|m] a b L; try lia; try now left. cbn [outer_combine_in]. apply le_S_n in L.
  pose proof (fun ac o => fle_outer_children _ _ (fun a b => IH m a b L) c Hc n m ac o L) as K. go K. now apply Hcs.
Qed.
End Values.

Section Prefixes.
Context (f : blob -> res bool).
Lemma fle_retain : forall n m a b, n <= m ->
  fle (retain_prefix_in keep dbg rdA rdB f n a b) (retain_prefix_in keep dbg rdA rdB f m a b).
Proof.
  induction n as [|n IH]; intros [|m] a b L; try lia; try now left. cbn [retain_prefix_in]. apply le_S_n in L.
  pose proof (fun ac o => fle_inner_children _ _ (fun a b => IH m a b L) n m ac o L) as K. go K.
Qed.
Lemma fle_remove_prefix : forall n m a b, n <= m ->
  fle (remove_prefix_in keep dbg rdA rdB f n a b) (remove_prefix_in keep dbg rdA rdB f m a b).
Proof.
  induction n as [|n IH]; intros [|m] a b L; try lia; try now left. cbn [remove_prefix_in]. apply le_S_n in L.
  pose proof (fun ac o => fle_left_children _ _ (fun a b => IH m a b L) n m ac o L) as K. go K.
Qed.
End Prefixes.
End Mono.
