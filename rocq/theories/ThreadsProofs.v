(** Proofs about threads that share a store. *)
From Verif Require Import Base BaseLemmas Header Node Combine Iter Api Tree Rep Sim Spec Client Top TopOps MemLemmas
  Store StoreSpec StoreProofs World WorldProofs Logged StoreLemmas PagedStoreProofs ThreadsSpec.

Section Threads.
Context (S : store) (inv : st S -> Prop) (L : lawful S inv) (i : nat).
Notation N := (thread S i).

Lemma after_app (T : store) (s : st T) ds es : after T s (ds ++ es) = after T (after T s ds) es.
Proof. revert s. induction ds as [|d ds IH]; intros s; cbn; [reflexivity|apply IH]. Qed.
Lemma after_inv s ds : inv s -> inv (after S s ds).
Proof.
  revert s. induction ds as [|d ds IH]; intros s I; cbn; [exact I|]. apply IH.
  destruct (st_write S s d) as [r s'] eqn:E. exact (proj1 (law_write _ _ L _ _ _ _ I E)).
Qed.

(** The state of the shared store only changes by writes. *)
Lemma base_after (x : st N) ds : exists es, base (after N x ds) = after S (base x) es.
Proof.
  revert x. induction ds as [|d ds IH]; intros x; [exists []; reflexivity|].
  destruct (IH (snd (st_write N x d))) as [es E]. exists (ahead i (coming x) ++ d :: es).
  cbn [after]. rewrite E, after_app. cbn [after]. f_equal. cbn [st_write thread].
  destruct (st_write S (after S (base x) (ahead i (coming x))) d) as [r s]. reflexivity.
Qed.

Lemma write_base (x x' : st N) d r : st_write N x d = (r, x') ->
  exists es, st_write S (after S (base x) es) d = (r, base x').
Proof.
  intros E. exists (ahead i (coming x)). revert E. cbn [st_write thread].
  destruct (st_write S (after S (base x) (ahead i (coming x))) d) as [r1 s1]. now intros [= <- <-].
Qed.

(** The log. *)
Lemma split_log l d : next i l = Some d -> map snd l = ahead i l ++ d :: map snd (later i l).
Proof.
  induction l as [|[j e] l IH]; cbn [next ahead later map snd]; [discriminate|].
  destruct (j =? i); [now intros [= <-]|]. intros H. cbn. now rewrite <- IH.
Qed.

(** A thread that follows the log reaches a state on the way to the last one. *)
Definition on_log (s0 : st S) (l : log) (x : st N) : Prop :=
  as_logged x = true -> after S (base x) (map snd (coming x)) = state_after S s0 l.

Lemma on_log_write s0 l x d r x' : on_log s0 l x -> st_write N x d = (r, x') -> on_log s0 l x'.
Proof.
  unfold on_log. cbn [st_write thread]. destruct (st_write S (after S (base x) (ahead i (coming x))) d) as [r1 s1] eqn:E.
  intros H [= <- <-]. cbn [as_logged base coming]. intros G. apply andb_prop in G. destruct G as [G1 G2].
  destruct (next i (coming x)) as [d'|] eqn:En; [|discriminate]. destruct (beq_spec d d') as [<-|]; [|discriminate].
  rewrite <- (H G1), (split_log _ _ En), after_app. cbn [after]. now rewrite E.
Qed.

Context (s0 : st S) (l : log).
Definition tinv (x : st N) : Prop := inv (base x) /\ on_log s0 l x.
Lemma thread_lawful : lawful N tinv.
Proof.
  split.
  - intros x d r x' [I O] E. destruct (write_base _ _ _ _ E) as [es E'].
    destruct (law_write _ _ L _ _ _ _ (after_inv _ es I) E') as [I' H]. split; [|exact H].
    split; [exact I'|]. exact (on_log_write _ _ _ _ _ _ O E).
  - intros x d id x' ds [I _] E. destruct (write_base _ _ _ _ E) as [es E'].
    destruct (base_after x' ds) as [fs Ef]. cbn [st_read thread]. rewrite Ef, <- after_app.
    exact (law_read _ _ L _ _ _ _ _ (after_inv _ es I) E').
Qed.
Lemma tinv_start ms : inv s0 -> tinv (Shared s0 l ms true).
Proof. intros I. split; [exact I|]. intros _. reflexivity. Qed.
Lemma thread_refuse : may_refuse N tinv -> may_refuse S inv.
Proof.
  intros (x & d & x' & [I _] & E). destruct (write_base _ _ _ _ E) as [es E'].
  exists (after S (base x) es), d, (base x'). split; [apply after_inv, I|exact E'].
Qed.

(** What was written can be read in every later state of the shared store. *)
Lemma thread_knows x more : knows N tinv x (st_read S (after S (base x) more)).
Proof.
  intros x0 d id x1 ds [I _] E <-. destruct (write_base _ _ _ _ E) as [es E']. destruct (base_after x1 ds) as [fs Ef].
  rewrite Ef, <- after_app. exact (law_read _ _ L _ _ _ _ _ (after_inv _ es I) E').
Qed.

Lemma threads_progress dbg ms h : inv s0 -> history_ok dbg h ->
  exists oks w, exec dbg N (start (S := N) (Shared s0 l ms true)) h ⇓ Ok (oks, w) /\ length oks = length h /\
    (In false oks -> may_refuse S inv) /\
    Forall2 (holds (st_read N (w_st w))) (w_trees w) (m_trees (model no_maps h oks)) /\
    Forall2 (fun id m => exists t, t_load N (w_st w) (Some id) = Ok t /\ holds (st_read N (w_st w)) t m)
      (w_ids w) (m_saved (model no_maps h oks)).
Proof.
  intros I H. destruct (history_holds dbg N tinv thread_lawful _ h (tinv_start ms I) H) as (oks & w & C & Hl & Hr & _ & T & J).
  exists oks, w. split; [exact C|]. split; [exact Hl|]. split; [intros X; apply thread_refuse, Hr, X|]. auto.
Qed.

Lemma threads_later dbg h oks ts ids l' : inv s0 -> history_ok dbg h -> runs dbg S s0 l i h oks ts ids ->
  let rd := st_read S (state_after S s0 (l ++ l')) in
  Forall2 (holds rd) ts (m_trees (model no_maps h oks)) /\
  Forall2 (fun id m => exists t, t_load S (state_after S s0 (l ++ l')) (Some id) = Ok t /\ holds rd t m)
    ids (m_saved (model no_maps h oks)).
Proof.
  intros I H (ms & x & C & Ha & _) rd.
  destruct (history_elsewhere dbg N tinv thread_lawful _ h (tinv_start ms I) H) as (oks' & w & C' & _ & _ & [_ O] & K).
  pose proof (conv_unique _ _ _ C C') as E. injection E as <- <-. cbn [w_st w_trees w_ids] in *.
  assert (state_after S s0 (l ++ l') = after S (base x) (map snd (coming x) ++ map snd l')) as Es.
  { specialize (O Ha). unfold state_after in *. now rewrite after_app, O, map_app, after_app. }
  unfold rd. rewrite Es. destruct (K _ (thread_knows x (map snd (coming x) ++ map snd l'))) as [T J]. split; [exact T|].
  eapply Forall2_imp; [|exact J]. intros id m (data & t & Er & Ed & Hh). exists t. split; [|exact Hh].
  unfold t_load. now rewrite Er.
Qed.
End Threads.
