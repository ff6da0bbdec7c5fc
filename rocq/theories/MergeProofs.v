From Coq Require Import Permutation.
From Verif Require Import Base BaseLemmas Header Node Combine Iter Api Spec Client Store MemLemmas Top ShapeProofs MergeSpec.

Definition val (f : bytes -> bytes -> bytes) (w : keys_of) (a b : option bytes) : option bytes :=
  match w with
  | Either => match a, b with Some x, Some y => Some (f x y) | Some x, None => Some x | None, b => b end
  | Common => match a, b with Some x, Some y => Some (f x y) | _, _ => None end
  end.
(** With a unit for "no tree". *)
Definition val1 f w (a b : option (option bytes)) : option (option bytes) :=
  match a, b with Some x, Some y => Some (val f w x y) | Some x, None => Some x | None, b => b end.
Lemma val_comm f w : commutes f -> forall a b, val f w a b = val f w b a.
Proof. intros [C _] [a|] [b|]; destruct w; cbn; try rewrite (C a b); reflexivity. Qed.
Lemma val_assoc f w : commutes f -> forall a b c, val f w a (val f w b c) = val f w (val f w a b) c.
Proof. intros [_ A] [a|] [b|] [c|]; destruct w; cbn; try rewrite (A a b c); reflexivity. Qed.
Lemma val1_comm f w : commutes f -> forall a b, val1 f w a b = val1 f w b a.
Proof. intros C [a|] [b|]; cbn; try rewrite (val_comm f w C a b); reflexivity. Qed.
Lemma val1_assoc f w : commutes f -> forall a b c, val1 f w a (val1 f w b c) = val1 f w (val1 f w a b) c.
Proof. intros C [a|] [b|] [c|]; cbn; try rewrite (val_assoc f w C a b c); reflexivity. Qed.

Section M.
Context (f : bytes -> bytes -> bytes) (w : keys_of) (ms : list kmap).
Definition at_ (k : bytes) (i : nat) : option (option bytes) := Some (nth i ms m_empty k).
Definition total (k : bytes) (is : list nat) : option (option bytes) := fold_right (fun i => val1 f w (at_ k i)) None is.
Fixpoint sum (p : plan) : kmap :=
  match p with
  | Take i => nth i ms m_empty
  | Merge _ a b => fun k => val f w (sum a k) (sum b k)
  end.
Lemma total_app k (C : commutes f) a b : total k (a ++ b) = val1 f w (total k a) (total k b).
Proof.
  induction a as [|i a IH]; cbn [total fold_right app]; [reflexivity|].
  fold (total k (a ++ b)). fold (total k a). rewrite IH. now apply val1_assoc.
Qed.
Lemma sum_total k (C : commutes f) p : Some (sum p k) = total k (takes p).
Proof.
  induction p as [i|w' a IHa b IHb]; cbn [takes sum]; [reflexivity|].
  rewrite (total_app k C), <- IHa, <- IHb. reflexivity.
Qed.
Lemma total_perm k (C : commutes f) a b : Permutation a b -> total k a = total k b.
Proof.
  induction 1; cbn [total fold_right]; try fold (total k l); try fold (total k l'); try congruence.
  rewrite !(val1_assoc f w C). now rewrite (val1_comm f w C (at_ k y) (at_ k x)).
Qed.
Lemma val_idem : (forall x, f x x = x) -> forall a, val f w a a = a.
Proof. intros H [a|]; destruct w; cbn; now rewrite ?H. Qed.
Lemma total_in k (C : commutes f) (H : forall x, f x x = x) i a : In i a -> val1 f w (at_ k i) (total k a) = total k a.
Proof.
  induction a as [|j a IH]; cbn [In total fold_right]; [tauto|]. fold (total k a). intros [->|Hi].
  - rewrite (val1_assoc f w C). f_equal. cbn. now rewrite val_idem.
  - rewrite (val1_assoc f w C), (val1_comm f w C (at_ k i)), <- (val1_assoc f w C). now rewrite IH.
Qed.
Lemma total_nodup k (C : commutes f) (H : forall x, f x x = x) a : total k a = total k (nodup Nat.eq_dec a).
Proof.
  induction a as [|i a IH]; cbn [nodup]; [reflexivity|].
  destruct (in_dec Nat.eq_dec i a) as [Hi|Hi]; cbn [total fold_right]; fold (total k a).
  - rewrite <- IH. now apply total_in.
  - fold (total k (nodup Nat.eq_dec a)). now rewrite IH.
Qed.
Lemma total_set k (C : commutes f) (H : forall x, f x x = x) a b : (forall i, In i a <-> In i b) -> total k a = total k b.
Proof.
  intros E. rewrite (total_nodup k C H a), (total_nodup k C H b). apply (total_perm k C).
  apply NoDup_Permutation; auto using NoDup_nodup. intros i. now rewrite !nodup_In.
Qed.
Lemma sum_keyed k p : (forall i, In i (takes p) -> i < length ms) -> (sum p k <> None <-> keyed w ms (takes p) k).
Proof.
  induction p as [i|w' a IHa b IHb]; cbn [takes sum]; intros W.
  - assert (nth_error ms i = Some (nth i ms m_empty)) as E by (apply nth_error_nth'; apply W; now left).
    unfold keyed. destruct w; split.
    + intros H. exists i, (nth i ms m_empty). cbn; auto.
    + intros (j & m & [<-|[]] & Ej & H). rewrite E in Ej. now injection Ej as <-.
    + intros H j m [<-|[]] Ej. rewrite E in Ej. now injection Ej as <-.
    + intros H. apply (H i); cbn; auto.
  - assert (forall i, In i (takes a) -> i < length ms) as Wa by (intros; apply W, in_app_iff; auto).
    assert (forall i, In i (takes b) -> i < length ms) as Wb by (intros; apply W, in_app_iff; auto).
    specialize (IHa Wa). specialize (IHb Wb). unfold keyed, val in *. destruct w.
    + transitivity (sum a k <> None \/ sum b k <> None).
      { destruct (sum a k), (sum b k); intuition congruence. }
      rewrite IHa, IHb. split.
      * intros [(i & m & H & R)|(i & m & H & R)]; exists i, m; rewrite in_app_iff; tauto.
      * intros (i & m & H & R). apply in_app_iff in H as [H|H]; [left|right]; exists i, m; tauto.
    + transitivity (sum a k <> None /\ sum b k <> None).
      { destruct (sum a k), (sum b k); intuition congruence. }
      rewrite IHa, IHb. split.
      * intros [A B] i m H. apply in_app_iff in H as [H|H]; eauto.
      * intros A. split; intros i m H; apply A, in_app_iff; auto.
Qed.
End M.

Lemma nth_F0 (P : node -> kmap -> Prop) ts ms : Forall2 P ts ms -> length ms = length ts /\
  forall i, i < length ts -> exists t, nth_error ts i = Some t /\ P t (nth i ms m_empty).
Proof.
  induction 1 as [|t m ts' ms' H _ [L IH]]; cbn [length]; (split; [congruence|]); intros i Hi; [lia|].
  destruct i as [|i]; cbn; [exists t; tauto|]. apply IH. lia.
Qed.

Section E.
Context (dbg : bool) (f : bytes -> bytes -> bytes) (w : keys_of) (ts : list node) (ms : list kmap).
Context (F : Forall2 (fun t m => reachable dbg t /\ holds detached_read t m) ts ms).
Lemma step_ok b t u m mu : reachable dbg t -> holds detached_read t m -> reachable dbg u -> holds detached_read u mu ->
  exists x, step dbg w b f t u ⇓ Ok x /\ reachable dbg x /\ holds detached_read x (fun k => val f w (m k) (mu k)).
Proof.
  intros R H R' H'. unfold step.
  destruct w, b.
  - destruct (mem_outer_with dbg t m R H u mu R' H' (fun x y => Some (f x y))) as (x & C & Rx & Hx). exists x.
    split; [exact C|]. split; [exact Rx|]. eapply holds_ext; [|exact Hx]. intros k. unfold m_outer, val. destruct (m k), (mu k); reflexivity.
  - destruct (mem_outer dbg t m R H u mu R' H' (fun x y => Some (f x y))) as (x & C & Rx & Hx). exists x.
    split; [exact C|]. split; [exact Rx|]. eapply holds_ext; [|exact Hx]. intros k. unfold m_outer, val. destruct (m k), (mu k); reflexivity.
  - destruct (mem_inner_with dbg t m R H u mu R' H' (fun x y => Some (f x y))) as (x & C & Rx & Hx). exists x.
    split; [exact C|]. split; [exact Rx|]. eapply holds_ext; [|exact Hx]. intros k. unfold m_inner, val. destruct (m k), (mu k); reflexivity.
  - destruct (mem_inner dbg t m R H u mu R' H' (fun x y => Some (f x y))) as (x & C & Rx & Hx). exists x.
    split; [exact C|]. split; [exact Rx|]. eapply holds_ext; [|exact Hx]. intros k. unfold m_inner, val. destruct (m k), (mu k); reflexivity.
Qed.
Lemma execute_ok p : (forall i, In i (takes p) -> i < length ts) ->
  exists t, execute dbg w f ts p ⇓ Ok t /\ reachable dbg t /\ holds detached_read t (sum f w ms p).
Proof.
  induction p as [i|b a IHa c IHc]; cbn [takes sum]; intros W.
  - destruct (proj2 (nth_F0 _ _ _ F) i) as (t & E & R & H); [apply W; now left|]. exists t. split; [|auto].
    split; [discriminate|]. exists 0. intros n _. cbn. now rewrite E.
  - destruct IHa as (t & Ca & Ra & Ha); [intros; apply W, in_app_iff; auto|].
    destruct IHc as (u & Cc & Rc & Hc); [intros; apply W, in_app_iff; auto|].
    destruct (step_ok b t u _ _ Ra Ha Rc Hc) as (x & Cx & Rx & Hx). exists x. split; [|auto].
    destruct Ca as (_ & na & Ca). destruct Cc as (_ & nc & Cc). destruct Cx as (_ & nx & Cx).
    split; [discriminate|]. exists (na + nc + nx). intros n Hn. cbn [execute]. rewrite Ca, Cc by lia. cbn [bind]. apply Cx. lia.
Qed.
Lemma alike_sum p q : (forall i, In i (takes p) -> i < length ts) -> (forall i, In i (takes q) -> i < length ts) ->
  same (sum f w ms p) (sum f w ms q) ->
  exists t u, execute dbg w f ts p ⇓ Ok t /\ execute dbg w f ts q ⇓ Ok u /\ alike t u.
Proof.
  intros Wp Wq E. destruct (execute_ok p Wp) as (t & Ct & Rt & Ht). destruct (execute_ok q Wq) as (u & Cu & Ru & Hu).
  exists t, u. split; [exact Ct|]. split; [exact Cu|].
  assert (holds detached_read t (sum f w ms q)) as Ht' by (eapply holds_ext; [exact E|exact Ht]).
  split; [|split].
  - intros k. exists (sum f w ms q k). split; [apply Ht'|apply Hu].
  - destruct (mem_iter dbg t _ Rt Ht') as (l & Cl & Sl). destruct (mem_iter dbg u _ Ru Hu) as (l' & Cl' & Sl').
    pose proof (lists_where_unique _ _ _ _ Sl Sl') as <-. exists l. auto.
  - intros S s. exact (save_contents S dbg dbg t u _ Rt Ru Ht' Hu s).
Qed.
Lemma merge_order p q : commutes f -> (forall i, In i (takes p) -> i < length ts) -> Permutation (takes p) (takes q) ->
  exists t u, execute dbg w f ts p ⇓ Ok t /\ execute dbg w f ts q ⇓ Ok u /\ alike t u.
Proof.
  intros C W P. apply alike_sum; [exact W| |].
  - intros i H. apply W. eapply Permutation_in; [apply Permutation_sym; exact P|exact H].
  - intros k. pose proof (sum_total f w ms k C p) as A. pose proof (sum_total f w ms k C q) as B.
    rewrite (total_perm f w ms k C _ _ P), <- B in A. congruence.
Qed.
Lemma merge_set p q : commutes f -> (forall x, f x x = x) -> (forall i, In i (takes p) -> i < length ts) ->
  (forall i, In i (takes p) <-> In i (takes q)) ->
  exists t u, execute dbg w f ts p ⇓ Ok t /\ execute dbg w f ts q ⇓ Ok u /\ alike t u.
Proof.
  intros C I W P. apply alike_sum; [exact W| |].
  - intros i H. apply W, P, H.
  - intros k. pose proof (sum_total f w ms k C p) as A. pose proof (sum_total f w ms k C q) as B.
    rewrite (total_set f w ms k C I _ _ P), <- B in A. congruence.
Qed.
Lemma merge_keys p : (forall i, In i (takes p) -> i < length ts) ->
  exists t, execute dbg w f ts p ⇓ Ok t /\ forall k,
    exists b, t_contains_key detached_read t k ⇓ Ok b /\ (b = true <-> keyed w ms (takes p) k).
Proof.
  intros W. destruct (execute_ok p W) as (t & C & R & H). exists t. split; [exact C|]. intros k.
  destruct (mem_contains_key dbg t _ R H k) as (b & Cb & E). exists b. split; [exact Cb|].
  rewrite E. apply sum_keyed. now rewrite (proj1 (nth_F0 _ _ _ F)).
Qed.
End E.
