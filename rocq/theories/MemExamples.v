(** Concrete trees used by the examples and counterexamples. *)
From Verif Require Import Base Header Node Combine Iter Api Sim Spec Client Top TopOps MemLemmas.
From Coq Require Export Strings.String.

(** Bytes of a string literal. *)
Definition B (x : string) : bytes := list_byte_of_string x.
Arguments B x%string_scope.

(** A tree with branch points, a key that is a prefix of others and an empty value. *)
Definition ex_p : prog :=
  PInsert (PRemove (PInsert (PInsert (PInsert (PInsert PEmpty (B"ab") (B"1")) (B"abc") (B"2")) (B"abd") (B"3")) (B"x") (B"9"))
    (B"x")) (B"b") (B"").
Definition ex_t : node := Eval vm_compute in match run true ex_p 50 with Ok t => t | _ => n_empty end.
Definition ex_m : kmap := meaning ex_p.
Lemma ex_reachable : reachable true ex_t.
Proof. apply (reachable_eval true ex_p 50); [cbn; tauto|vm_compute; reflexivity]. Qed.
Lemma ex_holds : holds detached_read ex_t ex_m.
Proof. apply (holds_eval true ex_p 50); [cbn; tauto|vm_compute; reflexivity]. Qed.

(** A second tree. *)
Definition ex_q : prog := PCollect [(B"abc", B"7"); (B"b", B"8"); (B"c", B"9"); (B"abc", B"5")].
Definition ex_u : node := Eval vm_compute in match run true ex_q 50 with Ok t => t | _ => n_empty end.
Definition ex_mu : kmap := meaning ex_q.
Lemma ex_reachable_u : reachable true ex_u.
Proof. apply (reachable_eval true ex_q 50); [exact I|vm_compute; reflexivity]. Qed.
Lemma ex_holds_u : holds detached_read ex_u ex_mu.
Proof. apply (holds_eval true ex_q 50); [exact I|vm_compute; reflexivity]. Qed.

(** Combining by concatenation; equal values delete. *)
Definition ex_h (x y : bytes) : option bytes := if beq y (B"8") then None else Some (x ++ y).

(** Run a computation of a tree and list its entries. *)
Definition ex_run (f : nat -> res node) : res (list (bytes * bytes)) :=
  t <- f 60 ;; iter_bytes detached_read t 60.

Lemma reach_single k v : reachable true (n_single k v).
Proof. apply (reachable_eval true (PSingle k v) 1); [exact I|reflexivity]. Qed.
Lemma holds_single k v : holds detached_read (n_single k v) (m_insert m_empty k v).
Proof. apply (holds_eval true (PSingle k v) 1); [exact I|reflexivity]. Qed.
Lemma reach_empty : reachable true n_empty.
Proof. apply (reachable_eval true PEmpty 1); [exact I|reflexivity]. Qed.
Lemma holds_empty : holds detached_read n_empty m_empty.
Proof. apply (holds_eval true PEmpty 1); [exact I|reflexivity]. Qed.

Lemma has_prefix_bad : exists t m p, reachable true t /\ holds detached_read t m /\
  t_has_prefix detached_read t p ⇓ Ok true /\ ~ exists k, m k <> None /\ starts_with p k = true.
Proof.
  exists n_empty, m_empty, []. split; [apply reach_empty|]. split; [apply holds_empty|]. split.
  - eapply conv_mono; [apply mono_has_prefix|]. instantiate (1 := 5). vm_compute. reflexivity.
  - intros (k & Hk & _). now apply Hk.
Qed.

Lemma filter_then_has_prefix_bad : exists t m p t', reachable true t /\ holds detached_read t m /\ p <> [] /\
  t_filter_prefix detached_read t [] p ⇓ Ok t' /\ holds detached_read t' m_empty /\
  t_has_prefix detached_read t' p ⇓ Ok true.
Proof.
  destruct (mem_filter_prefix_any true n_empty m_empty [] (B"s") reach_empty holds_empty) as (t' & C & H).
  exists n_empty, m_empty, (B"s"), t'. split; [apply reach_empty|]. split; [apply holds_empty|].
  split; [discriminate|]. split; [exact C|].
  assert (t' = Node (Data (B"s")) bnone (KId [])) as ->.
  { destruct C as (_ & n & E). specialize (E (S n) ltac:(lia)). cbn in E. injection E as <-. reflexivity. }
  split.
  - eapply holds_ext; [|exact H]. intros k. unfold m_filter_prefix, m_empty. destruct (strip_prefix _ k); reflexivity.
  - eapply conv_mono; [apply mono_has_prefix|]. instantiate (1 := 5). vm_compute. reflexivity.
Qed.

(** The node without anything below it stays in the tree when a key is added. *)
Lemma first_after_filter_bad : exists s t k v t',
  t_filter_prefix detached_read n_empty [] s ⇓ Ok t /\ t_insert true detached_read t k v ⇓ Ok t' /\
  get_bytes detached_read t' k ⇓ Ok (Some v) /\ iter_bytes detached_read t' ⇓ Ok [(k, v)] /\
  first_value_bytes detached_read t' ⇓ Ok None /\ first_entry_bytes detached_read t' [] ⇓ Ok None.
Proof.
  pose (t := Node (Data (B"s")) bnone (KId [])).
  exists (B"s"), t, (B"t"), (B"1").
  let t' := eval vm_compute in (match t_insert true detached_read t (B"t") (B"1") 20 with Ok t' => t' | _ => n_empty end) in exists t'.
  repeat apply conj; try discriminate; exists 20; intros n Hn;
    do 20 (destruct n as [|n]; [lia|]); clear Hn; vm_compute; reflexivity.
Qed.

Lemma scan_bad : exists t m p l, reachable true t /\ holds detached_read t m /\
  scan_bytes detached_read t p ⇓ Ok l /\ ~ lists_where (fun k => starts_with p k = true) l m.
Proof.
  exists (n_single (B"abc") (B"1")), (m_insert m_empty (B"abc") (B"1")), (B"abc"), [(B"abcabc", B"1")].
  split; [apply reach_single|]. split; [apply holds_single|]. split.
  - apply conv_bind with (f := t_scan_prefix detached_read (n_single (B"abc") (B"1")) (B"abc"))
      (g := fun l _ => load_entries detached_read l) (x := [(B"abcabc", Data (B"1"))]).
    + eapply conv_mono; [apply mono_scan|]. instantiate (1 := 50). vm_compute. reflexivity.
    + apply conv_const. discriminate.
  - intros [_ H]. destruct (proj1 (H (B"abcabc") (B"1")) (or_introl eq_refl)) as [E _].
    vm_compute in E. discriminate.
Qed.

Lemma retain_bad : exists t u m mu s t', reachable true t /\ reachable true u /\
  holds detached_read t m /\ holds detached_read u mu /\
  t_retain_prefix_with true detached_read detached_read t u (selector detached_read s) ⇓ Ok t' /\
  ~ holds detached_read t' (m_retain_prefix_with s m mu).
Proof.
  set (q := PCollect [(B"a", B"no"); (B"ab", B"yes")]). set (s := fun v => beq v (B"yes")).
  set (u := match run true q 50 with Ok t => t | _ => n_empty end).
  exists (n_single (B"ab") (B"1")), u, (m_insert m_empty (B"ab") (B"1")), (meaning q), s, n_empty.
  split; [apply reach_single|].
  split; [apply (reachable_eval true q 50); [exact I|vm_compute; reflexivity]|].
  split; [apply holds_single|].
  split; [apply (holds_eval true q 50); [exact I|vm_compute; reflexivity]|]. split.
  - eapply conv_mono; [apply mono_retain_prefix_with|]. instantiate (1 := 50). vm_compute. reflexivity.
  - intros H. pose proof (holds_same _ _ _ _ H holds_empty (B"ab")) as E. vm_compute in E. discriminate.
Qed.

Lemma eq_bad_true : exists t u m mu, reachable true t /\ reachable true u /\
  holds detached_read t m /\ holds detached_read u mu /\ n_eq t u = true /\ ~ same m mu.
Proof.
  exists (n_single [] []), n_empty, (m_insert m_empty [] []), m_empty.
  split; [apply reach_single|]. split; [apply reach_empty|]. split; [apply holds_single|].
  split; [apply holds_empty|]. split; [reflexivity|]. intros H. specialize (H []). vm_compute in H. discriminate.
Qed.

Definition twice : prog := PInsert (PSingle (B"a") (B"1")) (B"a") (B"1").
Definition twice_t : node := Eval vm_compute in match run true twice 50 with Ok t => t | _ => n_empty end.
Lemma reach_twice : reachable true twice_t.
Proof. apply (reachable_eval true twice 50); [exact I|vm_compute; reflexivity]. Qed.
Lemma holds_twice : holds detached_read twice_t (m_insert m_empty (B"a") (B"1")).
Proof.
  eapply holds_ext; [|apply (holds_eval true twice 50); [exact I|vm_compute; reflexivity]].
  intros k. cbn. unfold m_insert. destruct (beq k _); reflexivity.
Qed.

Lemma eq_bad_false : exists t u m, reachable true t /\ reachable true u /\
  holds detached_read t m /\ holds detached_read u m /\ n_eq t u = false.
Proof.
  exists (n_single (B"a") (B"1")), twice_t, (m_insert m_empty (B"a") (B"1")).
  split; [apply reach_single|]. split; [apply reach_twice|]. split; [apply holds_single|].
  split; [apply holds_twice|]. reflexivity.
Qed.

Lemma is_leaf_bad : exists t m, reachable true t /\ holds detached_read t m /\ is_leaf t = false /\
  forall k k', m k <> None -> m k' <> None -> k = k'.
Proof.
  exists twice_t, (m_insert m_empty (B"a") (B"1")). split; [apply reach_twice|]. split; [apply holds_twice|].
  split; [reflexivity|]. intros k k'. unfold m_insert, m_empty.
  destruct (beq_spec k (B"a")), (beq_spec k' (B"a")); congruence.
Qed.

Lemma ex_m_keys k : ex_m k <> None -> k = B"ab" \/ k = B"abc" \/ k = B"abd" \/ k = B"b".
Proof.
  unfold ex_m, ex_p. cbn [meaning]. unfold m_insert, m_remove, m_empty.
  repeat match goal with |- context [beq k ?x] => destruct (beq_spec k x); [subst; auto|] end.
  all: try (intros X; now destruct X).
Qed.
Lemma ex_scan_hyp c1 c2 z1 z2 : ex_m (B"a" ++ c1 :: z1) <> None -> ex_m (B"a" ++ c2 :: z2) <> None -> c1 = c2.
Proof.
  intros H1 H2. apply ex_m_keys in H1, H2. cbn in H1, H2.
  destruct H1 as [H1|[H1|[H1|H1]]], H2 as [H2|[H2|[H2|H2]]]; injection H1; injection H2; congruence.
Qed.
Lemma ex_downward : downward_rejected (fun v => beq v (B"5")) ex_mu.
Proof.
  intros q r x y. unfold ex_mu. cbn [meaning ex_q]. unfold m_of_list. cbn [fold_left fst snd]. unfold m_insert, m_empty.
  intros Hq Hy Hx. destruct (beq_spec y (B"5")) as [->|]; [|reflexivity]. exfalso. revert Hq Hy.
  destruct (beq_spec (q ++ r) (B"abc")) as [E|_].
  - destruct (beq_spec q (B"abc")) as [->|N1]; [intros [= <-]; now rewrite beq_refl in Hx|].
    destruct (beq_spec q (B"c")) as [->|N2]; [discriminate|].
    destruct (beq_spec q (B"b")) as [->|N3]; [discriminate|]. discriminate.
  - destruct (beq (q ++ r) (B"c")); [discriminate|]. destruct (beq (q ++ r) (B"b")); discriminate.
Qed.
Lemma ex_nonempty k : m_insert m_empty (B"a") (B"1") k <> Some [].
Proof. unfold m_insert, m_empty. destruct (beq k _); discriminate. Qed.
