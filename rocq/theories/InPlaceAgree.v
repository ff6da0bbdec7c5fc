(** The operations of InPlace.v give the results of Combine.v. *)
From Verif Require Import Base BaseLemmas Header Node Combine Api InPlace.

Lemma out_try {X A} (s : X) (r : res A) k : outcome (try s r k) = bind r (fun x => outcome (k x)).
Proof. destruct r; reflexivity. Qed.
Lemma bind_ext {A B} (r : res A) (k k' : A -> res B) : (forall x, k x = k' x) -> bind r k = bind r k'.
Proof. intros H. destruct r; cbn; auto. Qed.
Lemma out_pair {X Y} (p : left_in X) (k : X -> res unit -> left_in Y) (k' : X -> res Y) :
  (forall x, outcome (k x (Ok tt)) = k' x) ->
  (forall x, outcome (k x Err) = Err) -> (forall x, outcome (k x Panic) = Panic) -> (forall x, outcome (k x Fuel) = Fuel) ->
  outcome (let (x, r) := p in k x r) = bind (outcome p) k'.
Proof.
  intros H1 H2 H3 H4. destruct p as [x [[]| | |]]; cbn [outcome fst snd bind]; auto.
Qed.
Lemma bind_assoc {A B C} (r : res A) (k : A -> res B) (l : B -> res C) :
  bind (bind r k) l = bind r (fun x => bind (k x) l).
Proof. destruct r; reflexivity. Qed.

Section Agree.
Context (keep dbg : bool) (rdA rdB : reader).

Lemma out_finish a : outcome (finish_in dbg a) = canonicalize dbg a.
Proof. unfold finish_in. rewrite out_try. destruct (canonicalize dbg a); reflexivity. Qed.

Lemma out_recurse kids kids' a bc :
  (forall ac bc, outcome (kids ac bc) = kids' ac bc) ->
  outcome (recurse dbg rdA kids a bc) =
  (ac <- load_children_mut rdA a ;; bc <- bc ;; ac' <- kids' ac bc ;; canonicalize dbg (set_kids a (KArc ac'))).
Proof.
  intros H. unfold recurse. rewrite out_try. apply bind_ext. intros ac. rewrite out_try. apply bind_ext. intros o.
  rewrite <- H. apply out_pair; intros x; rewrite ?out_try; cbn [bind]; auto using out_finish.
Qed.

Section Loops.
Context (rec : node -> noderef -> left_in node) (rec' : node -> noderef -> res node).
Context (HR : forall a b, outcome (rec a b) = rec' a b).

Lemma out_left_loop : forall fuel ac bc, outcome (left_loop_in keep rec fuel ac bc) = left_with_loop rec' fuel ac bc.
Proof.
  induction fuel as [|fuel IH]; intros ac bc; [reflexivity|]. cbn [left_loop_in left_with_loop].
  destruct (cmp_with ac bc) as [[]|]; try reflexivity.
  - destruct ac as [|x ac]; [reflexivity|]. destruct (it_next bc) as [[y bc']|]; [|reflexivity].
    rewrite <- HR. apply out_pair; intros x'; rewrite out_try; try reflexivity. cbn [bind].
    rewrite <- IH. apply out_pair; reflexivity.
  - destruct ac as [|x ac]; [reflexivity|]. rewrite <- IH. apply out_pair; reflexivity.
  - destruct (it_next bc) as [[y bc']|]; [apply IH|reflexivity].
Qed.
Lemma out_left_children fuel ac bc : outcome (left_children_in keep rec fuel ac bc) = left_children_with rec' fuel ac bc.
Proof. destruct bc; [|reflexivity]. destruct ac; [reflexivity|]. apply out_left_loop. Qed.

Lemma out_inner_loop : forall fuel ac bc, outcome (inner_loop_in keep rec fuel ac bc) = inner_with_loop rec' fuel ac bc.
Proof.
  induction fuel as [|fuel IH]; intros ac bc; [reflexivity|]. cbn [inner_loop_in inner_with_loop].
  destruct (cmp_with ac bc) as [[]|]; try reflexivity.
  - destruct ac as [|x ac]; [reflexivity|]. destruct (it_next bc) as [[y bc']|]; [|reflexivity].
    rewrite <- HR. apply out_pair; intros x'; rewrite out_try; try reflexivity. cbn [bind].
    rewrite <- IH. apply out_pair; reflexivity.
  - destruct ac as [|x ac]; [reflexivity|]. apply IH.
  - destruct (it_next bc) as [[y bc']|]; [apply IH|reflexivity].
Qed.
Lemma out_inner_children fuel ac bc : outcome (inner_children_in keep rec fuel ac bc) = inner_children_with rec' fuel ac bc.
Proof. destruct bc; [|reflexivity]. destruct ac; [reflexivity|]. apply out_inner_loop. Qed.

Context (c : converter).
Lemma out_convert : forall fuel bc, outcome (convert_loop_in c fuel bc) = convert_loop c fuel bc.
Proof.
  induction fuel as [|fuel IH]; intros bc; [reflexivity|]. cbn [convert_loop_in convert_loop].
  destruct (it_next bc) as [[y bc']|]; [|reflexivity]. rewrite out_try. apply bind_ext. intros x.
  rewrite <- IH. apply out_pair; reflexivity.
Qed.
Lemma out_outer_loop : forall fuel ac bc, outcome (outer_loop_in keep rec c fuel ac bc) = outer_with_loop c rec' fuel ac bc.
Proof.
  induction fuel as [|fuel IH]; intros ac bc; [reflexivity|]. cbn [outer_loop_in outer_with_loop].
  destruct (cmp_with ac bc) as [[]|]; try reflexivity.
  - destruct ac as [|x ac]; [reflexivity|]. destruct (it_next bc) as [[y bc']|]; [|reflexivity].
    rewrite <- HR. apply out_pair; intros x'; rewrite out_try; try reflexivity. cbn [bind].
    rewrite <- IH. apply out_pair; reflexivity.
  - destruct ac as [|x ac]; [reflexivity|]. rewrite <- IH. apply out_pair; reflexivity.
  - destruct (it_next bc) as [[y bc']|]; [|reflexivity]. rewrite out_try. apply bind_ext. intros x.
    rewrite <- IH. apply out_pair; reflexivity.
Qed.
Lemma out_outer_children fuel ac bc : outcome (outer_children_in keep rec c fuel ac bc) = outer_children_with c rec' fuel ac bc.
Proof. destruct bc; [|reflexivity]. destruct ac; [apply out_convert|]. apply out_outer_loop. Qed.
End Loops.

Lemma bind_short {B} b n (k : option iter -> res B) :
  bind (shortened rdB b n) k = (b' <- r_clone_shortened rdB b n ;; k (it_single b')).
Proof. unfold shortened. rewrite bind_assoc. reflexivity. Qed.

Section Values.
Context (f : blob -> blob -> res blob).

Lemma out_left : forall fuel a b, outcome (left_combine_in keep dbg rdA rdB f fuel a b) = left_combine_with dbg rdA rdB f fuel a b.
Proof.
  induction fuel as [|fuel IH]; intros a b; [reflexivity|]. cbn [left_combine_in left_combine_with].
  pose proof (out_left_children _ _ IH fuel) as K.
  rewrite out_try. apply bind_ext. intros ap. rewrite out_try. apply bind_ext. intros bp.
  destruct ((common_prefix ap bp =? length ap) && (common_prefix ap bp =? length bp)).
  - destruct (r_value_opt b) as [bv|]; [destruct (blob_opt (n_value a)) as [av|]|]; cbn [bind];
      try (rewrite (out_recurse _ _ _ _ K); reflexivity).
    rewrite out_try, bind_assoc. apply bind_ext. intros v. rewrite (out_recurse _ _ _ _ K). reflexivity.
  - destruct (common_prefix ap bp =? length ap).
    + rewrite (out_recurse _ _ _ _ K). apply bind_ext. intros ac. now rewrite bind_short.
    + destruct (common_prefix ap bp =? length bp); [|apply out_finish].
      rewrite out_try. apply bind_ext. intros a1. apply (out_recurse _ _ _ _ K).
Qed.

Lemma out_inner : forall fuel a b, outcome (inner_combine_in keep dbg rdA rdB f fuel a b) = inner_combine_with dbg rdA rdB f fuel a b.
Proof.
  induction fuel as [|fuel IH]; intros a b; [reflexivity|]. cbn [inner_combine_in inner_combine_with].
  pose proof (out_inner_children _ _ IH fuel) as K.
  rewrite out_try. apply bind_ext. intros ap. rewrite out_try. apply bind_ext. intros bp.
  destruct ((common_prefix ap bp =? length ap) && (common_prefix ap bp =? length bp)).
  - destruct (blob_opt (n_value a)) as [av|]; [destruct (r_value_opt b) as [bv|]|]; cbn [bind];
      try (rewrite (out_recurse _ _ _ _ K); reflexivity).
    rewrite out_try, bind_assoc. apply bind_ext. intros v. rewrite (out_recurse _ _ _ _ K). reflexivity.
  - destruct (common_prefix ap bp =? length ap).
    + rewrite (out_recurse _ _ _ _ K). apply bind_ext. intros ac. now rewrite bind_short.
    + destruct (common_prefix ap bp =? length bp); [|apply out_finish].
      rewrite out_try. apply bind_ext. intros a1. apply (out_recurse _ _ _ _ K).
Qed.

Context (c : converter).
Lemma out_outer : forall fuel a b, outcome (outer_combine_in keep dbg rdA rdB f c fuel a b) = outer_combine_with dbg rdA rdB c f fuel a b.
Proof.
  induction fuel as [|fuel IH]; intros a b; [reflexivity|]. cbn [outer_combine_in outer_combine_with].
  pose proof (out_outer_children _ _ IH c fuel) as K.
  rewrite out_try. apply bind_ext. intros ap. rewrite out_try. apply bind_ext. intros bp.
  destruct (common_prefix ap bp =? length bp).
  - rewrite out_try. apply bind_ext. intros a1.
    destruct (r_value_opt b) as [bv|]; [destruct (blob_opt (n_value a1)) as [av|]|]; cbn [bind];
      try (rewrite (out_recurse _ _ _ _ K); reflexivity).
    + rewrite out_try, bind_assoc. apply bind_ext. intros v. rewrite (out_recurse _ _ _ _ K). reflexivity.
    + rewrite out_try, bind_assoc. apply bind_ext. intros v. rewrite (out_recurse _ _ _ _ K). reflexivity.
  - destruct (common_prefix ap bp =? length ap).
    + rewrite (out_recurse _ _ _ _ K). apply bind_ext. intros ac. now rewrite bind_short.
    + rewrite out_try. apply bind_ext. intros a1. rewrite out_try. apply bind_ext. intros ac.
      rewrite out_try. apply bind_ext. intros b'. apply out_finish.
Qed.
End Values.

Section Prefixes.
Context (f : blob -> res bool).
Lemma out_retain : forall fuel a b, outcome (retain_prefix_in keep dbg rdA rdB f fuel a b) = retain_prefix_with dbg rdA rdB f fuel a b.
Proof.
  induction fuel as [|fuel IH]; intros a b; [reflexivity|]. cbn [retain_prefix_in retain_prefix_with].
  pose proof (out_inner_children _ _ IH fuel) as K.
  rewrite out_try. apply bind_ext. intros ap. rewrite out_try. apply bind_ext. intros bp.
  destruct ((common_prefix ap bp =? length ap) && (common_prefix ap bp =? length bp)).
  - rewrite out_try. apply bind_ext. intros []; [apply out_finish|]. rewrite (out_recurse _ _ _ _ K). reflexivity.
  - destruct (common_prefix ap bp =? length bp).
    + destruct (r_value_opt b) as [bv|].
      * rewrite out_try. apply bind_ext. intros []; apply out_finish.
      * rewrite out_try. apply bind_ext. intros a1. apply (out_recurse _ _ _ _ K).
    + destruct (common_prefix ap bp =? length ap); [|apply out_finish].
      rewrite (out_recurse _ _ _ _ K). apply bind_ext. intros ac. now rewrite bind_short.
Qed.
Lemma out_remove_prefix : forall fuel a b, outcome (remove_prefix_in keep dbg rdA rdB f fuel a b) = remove_prefix_with dbg rdA rdB f fuel a b.
Proof.
  induction fuel as [|fuel IH]; intros a b; [reflexivity|]. cbn [remove_prefix_in remove_prefix_with].
  pose proof (out_left_children _ _ IH fuel) as K.
  rewrite out_try. apply bind_ext. intros ap. rewrite out_try. apply bind_ext. intros bp.
  destruct ((common_prefix ap bp =? length ap) && (common_prefix ap bp =? length bp)).
  - rewrite out_try. apply bind_ext. intros []; [apply out_finish|]. rewrite (out_recurse _ _ _ _ K). reflexivity.
  - destruct (common_prefix ap bp =? length bp).
    + rewrite out_try. apply bind_ext. intros []; [apply out_finish|].
      rewrite out_try. apply bind_ext. intros a1. apply (out_recurse _ _ _ _ K).
    + destruct (common_prefix ap bp =? length ap); [|apply out_finish].
      rewrite (out_recurse _ _ _ _ K). apply bind_ext. intros ac. now rewrite bind_short.
Qed.
End Prefixes.

End Agree.

Lemma out_insert keep dbg rd t k v fuel : outcome (insert_in keep dbg rd t k v fuel) = t_insert dbg rd t k v fuel.
Proof. apply out_outer. Qed.
Lemma out_remove keep dbg rd t k fuel : outcome (remove_in keep dbg rd t k fuel) = t_remove dbg rd t k fuel.
Proof. apply out_left. Qed.
Lemma out_remove_prefix1 keep dbg rd t k fuel : outcome (remove_prefix_in1 keep dbg rd t k fuel) = t_remove_prefix dbg rd t k fuel.
Proof. apply out_remove_prefix. Qed.
