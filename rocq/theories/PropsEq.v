(** C24, C52: exactly when trees made by insertions alone are equal, and when they are leaves.  [again], [outermost]:
    EqSpec.v. *)
From Verif Require Import MemExamples Base Header Node Combine Iter Api Spec Client EqSpec EqTop.

(** C24, partly: two trees made by inserting the pairs of two lists one after the other, no value left being empty, are
    equal if and only if their contents are the same and every key that no longer key begins with was inserted again in
    both or in neither.  So the order of insertions never matters when no key is repeated and the empty key does not come
    first.  Missing: that the contents alone decide, see the refutations. *)
Theorem C24_exact_partial :
  forall dbg dbg' l l' t u m mu,
  t_from_pairs dbg detached_read n_empty l ⇓ Ok t -> t_from_pairs dbg' detached_read n_empty l' ⇓ Ok u ->
  holds detached_read t m -> holds detached_read u mu -> (forall k, m k <> Some [] /\ mu k <> Some []) ->
  (n_eq t u = true <-> same m mu /\ forall k, outermost m k -> (again l k <-> again l' k)).
Proof. exact collect_eq. Qed.
Print Assumptions C24_exact_partial.
Definition eq_a := [(B"a", B"1"); (B"ab", B"2"); (B"b", B"3")].
Definition eq_b := [(B"b", B"3"); (B"ab", B"2"); (B"a", B"7"); (B"a", B"1")].
Definition eq_c := [(B"a", B"1"); (B"ab", B"2"); (B"b", B"3"); (B"b", B"3")].
Example C24_exact_example :
  exists t u x, t_from_pairs true mem n_empty eq_a 20 = Ok t /\ t_from_pairs true mem n_empty eq_b 20 = Ok u /\
  t_from_pairs true mem n_empty eq_c 20 = Ok x /\ n_eq t u = true /\ n_eq t x = false.
Proof. do 3 eexists. do 3 (split; [vm_compute; reflexivity|]). split; vm_compute; reflexivity. Qed.
Example C24_exact_example_again : again eq_b (B"a") /\ ~ again eq_a (B"a") /\ again eq_c (B"b") /\ ~ again eq_a (B"b").
Proof.
  split; [left; vm_compute; lia|]. split.
  - intros [H|[H _]]; [vm_compute in H; lia|discriminate].
  - split; [left; vm_compute; lia|]. intros [H|[H _]]; [vm_compute in H; lia|discriminate].
Qed.

(** C52, partly: a tree made by insertions says that it is a leaf if and only if there were none, or one of a key that is
    not empty.  Missing: that this holds for every tree with one key, see the refutation. *)
Theorem C52_exact_partial :
  forall dbg l t, t_from_pairs dbg detached_read n_empty l ⇓ Ok t ->
  (is_leaf t = true <-> l = [] \/ exists k v, k <> [] /\ l = [(k, v)]).
Proof. exact collect_leaf. Qed.
Print Assumptions C52_exact_partial.
Example C52_exact_example :
  (exists t, t_from_pairs true mem n_empty [(B"a", B"1")] 20 = Ok t /\ is_leaf t = true) /\
  (exists t, t_from_pairs true mem n_empty [([], B"1")] 20 = Ok t /\ is_leaf t = false).
Proof. split; eexists; (split; [vm_compute; reflexivity|]); reflexivity. Qed.
