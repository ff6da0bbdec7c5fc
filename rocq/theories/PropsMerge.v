(** C82: merging several trees.  [plan], [takes], [execute], [alike], [keyed]: MergeSpec.v. *)
From Coq Require Import Permutation.
From Verif Require Import MemExamples MergeExamples Base Header Node Combine Iter Api Spec Client Store MergeSpec MergeProofs.

(** C82: with a commutative and associative function for the values of common keys, merging trees in memory in any order
    and grouping, with the functions that return a new tree or those in place, gives trees that cannot be told apart. *)
Theorem C82_order :
  forall dbg f w ts ms, Forall2 (fun t m => reachable dbg t /\ holds detached_read t m) ts ms ->
  forall p q, commutes f -> (forall i, In i (takes p) -> i < length ts) -> Permutation (takes p) (takes q) ->
  exists t u, execute dbg w f ts p ⇓ Ok t /\ execute dbg w f ts q ⇓ Ok u /\ alike t u.
Proof. exact merge_order. Qed.
Print Assumptions C82_order.
Example C82_order_example :
  Forall2 (fun t m => reachable true t /\ holds detached_read t m) mg_ts mg_ms /\ commutes greater /\
  (forall i, In i (takes mg_p) -> i < length mg_ts) /\ Permutation (takes mg_p) (takes mg_q) /\
  mg_run Either mg_p = Ok [(B"a", B"1"); (B"ab", B"1"); (B"abc", B"5"); (B"abd", B"3"); (B"b", B"8"); (B"c", B"9")] /\
  mg_run Either mg_q = mg_run Either mg_p /\ mg_run Common (Merge true (Take 0) (Take 1)) = Ok [(B"abc", B"5"); (B"b", B"8")].
Proof.
  split; [exact mg_ok|]. split; [exact greater_commutes|]. split; [cbn; intuition lia|].
  split; [exact (Permutation_rev [0; 1; 2])|]. split; [|split]; vm_compute; reflexivity.
Qed.

(** C82: if the function also gives the value back for two equal values, taking a tree several times makes no difference. *)
Theorem C82_again :
  forall dbg f w ts ms, Forall2 (fun t m => reachable dbg t /\ holds detached_read t m) ts ms ->
  forall p q, commutes f -> (forall x, f x x = x) -> (forall i, In i (takes p) -> i < length ts) ->
  (forall i, In i (takes p) <-> In i (takes q)) ->
  exists t u, execute dbg w f ts p ⇓ Ok t /\ execute dbg w f ts q ⇓ Ok u /\ alike t u.
Proof. exact merge_set. Qed.
Print Assumptions C82_again.
Example C82_again_example :
  Forall2 (fun t m => reachable true t /\ holds detached_read t m) mg_ts mg_ms /\ commutes greater /\
  (forall x, greater x x = x) /\ (forall i, In i (takes mg_p) -> i < length mg_ts) /\
  (forall i, In i (takes mg_p) <-> In i (takes mg_r)) /\ takes mg_p <> takes mg_r /\ mg_run Either mg_r = mg_run Either mg_p.
Proof.
  split; [exact mg_ok|]. split; [exact greater_commutes|]. split; [exact greater_idem|]. split; [cbn; intuition lia|].
  split; [cbn; intuition lia|]. split; [discriminate|vm_compute; reflexivity].
Qed.

(** C82: the result has exactly the keys of any, or of all, of the trees. *)
Theorem C82_keys :
  forall dbg f w ts ms, Forall2 (fun t m => reachable dbg t /\ holds detached_read t m) ts ms ->
  forall p, (forall i, In i (takes p) -> i < length ts) ->
  exists t, execute dbg w f ts p ⇓ Ok t /\ forall k,
    exists b, t_contains_key detached_read t k ⇓ Ok b /\ (b = true <-> keyed w ms (takes p) k).
Proof. exact merge_keys. Qed.
Print Assumptions C82_keys.
Example C82_keys_example :
  Forall2 (fun t m => reachable true t /\ holds detached_read t m) mg_ts mg_ms /\
  (forall i, In i (takes mg_p) -> i < length mg_ts) /\
  keyed Either mg_ms (takes mg_p) (B"c") /\ ~ keyed Common mg_ms (takes mg_p) (B"c").
Proof.
  split; [exact mg_ok|]. split; [cbn; intuition lia|]. split.
  - exists 1, ex_mu. split; [cbn; auto|]. split; [reflexivity|vm_compute; discriminate].
  - intros H. apply (H 0 ex_m); [cbn; auto|reflexivity|vm_compute; reflexivity].
Qed.
