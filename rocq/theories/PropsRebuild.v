(** C97: a tree that is taken apart can be put together again.  [alike] (MergeSpec.v): the two trees cannot be
    told apart by lookups, iteration, or what is written when they are saved. *)
From Verif Require Import MemExamples StoreExamples Base Header Node Combine Iter Api Spec Client Store StoreSpec World MemStore MemStoreProofs
  MergeSpec RebuildProofs MoveProofs.

(** C97: collecting what the iterator yields gives the tree back. *)
Theorem C97_collect :
  forall dbg t m, reachable dbg t -> holds mem t m ->
  exists l y, iter_bytes mem t ⇓ Ok l /\ t_from_pairs dbg mem n_empty l ⇓ Ok y /\ alike t y.
Proof. exact collect_back. Qed.
Print Assumptions C97_collect.
Example C97_collect_example : reachable true ex_t /\ holds mem ex_t ex_m /\
  (l <- iter_bytes mem ex_t 60 ;; y <- t_from_pairs true mem n_empty l 60 ;; iter_bytes mem y 60)
  = Ok [(B"ab", B"1"); (B"abc", B"2"); (B"abd", B"3"); (B"b", [])].
Proof. split; [exact ex_reachable|]; split; [exact ex_holds|]; vm_compute; reflexivity. Qed.

(** C97: for a tree in a store, it gives the tree that detaching gives. *)
Theorem C97_collect_stored :
  forall dbg S inv s t m, lawful S inv -> attached dbg S inv s t m ->
  exists l y z, iter_bytes (st_read S s) t ⇓ Ok l /\ t_from_pairs dbg mem n_empty l ⇓ Ok y /\
    t_detached (st_read S s) t ⇓ Ok z /\ alike z y.
Proof. exact at_collect_back. Qed.
Print Assumptions C97_collect_stored.
Example C97_collect_stored_example : lawful mem_store mem_inv /\ attached true mem_store mem_inv ex_s ex_a ex_am /\
  match (l <- iter_bytes (mem_read ex_s) ex_a 60 ;; y <- t_from_pairs true mem n_empty l 60 ;; iter_bytes mem y 60) with
  | Ok l => map (fun e => length (fst e)) l = [2; 3; 3; 3; 1; 151] | _ => False end.
Proof. split; [exact mem_lawful|]; split; [exact ex_attached|]; vm_compute; reflexivity. Qed.

(** C97: so does collecting the entries of all groups, read group by group, for every closure that decides where to split. *)
Theorem C97_groups :
  forall dbg t m descend, reachable dbg t -> holds mem t m -> (forall path r, exists b, descend path r = Ok b) ->
  exists ts ls y, t_group_by mem t descend ⇓ Ok ts /\ Forall2 (fun u l => iter_bytes mem u ⇓ Ok l) ts ls /\
    t_from_pairs dbg mem n_empty (concat ls) ⇓ Ok y /\ alike t y.
Proof. exact groups_back. Qed.
Print Assumptions C97_groups.
Example C97_groups_example : reachable true ex_t /\ holds mem ex_t ex_m /\
  (ts <- t_group_by mem ex_t (fun path _ => Ok (length path <=? 2)) 60 ;; Ok (map (fun u => iter_bytes mem u 60) ts))
  = Ok [Ok [(B"ab", B"1")]; Ok [(B"abc", B"2")]; Ok [(B"abd", B"3")]; Ok [(B"b", [])]].
Proof. split; [exact ex_reachable|]; split; [exact ex_holds|]; vm_compute; reflexivity. Qed.

(** C97: and for a tree in a store. *)
Theorem C97_groups_stored :
  forall dbg S inv s t m descend, lawful S inv -> attached dbg S inv s t m -> (forall path r, exists b, descend path r = Ok b) ->
  exists ts ls y z, t_group_by (st_read S s) t descend ⇓ Ok ts /\ Forall2 (fun u l => iter_bytes (st_read S s) u ⇓ Ok l) ts ls /\
    t_from_pairs dbg mem n_empty (concat ls) ⇓ Ok y /\ t_detached (st_read S s) t ⇓ Ok z /\ alike z y.
Proof. exact at_groups_back. Qed.
Print Assumptions C97_groups_stored.
Example C97_groups_stored_example : lawful mem_store mem_inv /\ attached true mem_store mem_inv ex_s ex_a ex_am /\
  match (ts <- t_group_by (mem_read ex_s) ex_a (fun path _ => Ok (length path <=? 1)) 60 ;;
         Ok (map (fun u => l <- iter_bytes (mem_read ex_s) u 60 ;; Ok (map (fun e => length (fst e)) l)) ts)) with
  | Ok l => 1 < length l /\ Forall (fun r => match r with Ok _ => True | _ => False end) l | _ => False end.
Proof. split; [exact mem_lawful|]; split; [exact ex_attached|]; vm_compute. split; [lia|]. repeat constructor. Qed.

(** C97: the part of a tree below a prefix ([filter_prefix] to the same prefix) and the rest ([remove_prefix]) have no key in
    common, so their union is the tree again, in either order and whatever the closure for common keys does. *)
Theorem C97_split :
  forall dbg t m p h, reachable dbg t -> holds mem t m ->
  exists a b x y, t_filter_prefix mem t p p ⇓ Ok a /\ t_remove_prefix dbg mem t p ⇓ Ok b /\
    t_outer_combine_with dbg mem mem (detach_converter mem) b a (combiner_with mem mem h) ⇓ Ok x /\ alike t x /\
    t_outer_combine_with dbg mem mem (detach_converter mem) a b (combiner_with mem mem h) ⇓ Ok y /\ alike t y.
Proof. exact split_back. Qed.
Print Assumptions C97_split.
Example C97_split_example : reachable true ex_t /\ holds mem ex_t ex_m /\
  (a <- t_filter_prefix mem ex_t (B"abc") (B"abc") 60 ;; iter_bytes mem a 60) = Ok [(B"abc", B"2")] /\
  (b <- t_remove_prefix true mem ex_t (B"abc") 60 ;; iter_bytes mem b 60) = Ok [(B"ab", B"1"); (B"abd", B"3"); (B"b", [])].
Proof. split; [exact ex_reachable|]; split; [exact ex_holds|]; vm_compute; split; reflexivity. Qed.

(** C97: moving the part below a prefix to a second prefix and on to a third is moving it there at once, if the part is not empty; with the
    first prefix as the third, it is moved back. *)
Theorem C97_move :
  forall dbg t m p s q, reachable dbg t -> holds mem t m -> (exists k, m k <> None /\ starts_with p k = true) ->
  exists a b c, t_filter_prefix mem t p s ⇓ Ok a /\ t_filter_prefix mem a s q ⇓ Ok b /\ t_filter_prefix mem t p q ⇓ Ok c /\ alike b c.
Proof. exact move_back. Qed.
Print Assumptions C97_move.
Example C97_move_example : reachable true ex_t /\ holds mem ex_t ex_m /\ (ex_m (B"abc") <> None /\ starts_with (B"a") (B"abc") = true) /\
  (a <- t_filter_prefix mem ex_t (B"a") (B"xyz") 60 ;; iter_bytes mem a 60) = Ok [(B"xyzb", B"1"); (B"xyzbc", B"2"); (B"xyzbd", B"3")] /\
  (a <- t_filter_prefix mem ex_t (B"a") (B"xyz") 60 ;; b <- t_filter_prefix mem a (B"xyz") (B"a") 60 ;; iter_bytes mem b 60)
  = Ok [(B"ab", B"1"); (B"abc", B"2"); (B"abd", B"3")].
Proof. split; [exact ex_reachable|]; split; [exact ex_holds|]. split; [split; [vm_compute; discriminate|reflexivity]|]. vm_compute; split; reflexivity. Qed.

(** C97: the same, for lookups, for a tree in a store. *)
Theorem C97_move_stored :
  forall dbg S inv st t m p s q, lawful S inv -> attached dbg S inv st t m -> (exists k, m k <> None /\ starts_with p k = true) ->
  exists a b c, t_filter_prefix (st_read S st) t p s ⇓ Ok a /\ t_filter_prefix (st_read S st) a s q ⇓ Ok b /\
    t_filter_prefix (st_read S st) t p q ⇓ Ok c /\
    forall k, exists v, get_bytes (st_read S st) b k ⇓ Ok v /\ get_bytes (st_read S st) c k ⇓ Ok v.
Proof. exact move_back_stored. Qed.
Print Assumptions C97_move_stored.
Example C97_move_stored_example : lawful mem_store mem_inv /\ attached true mem_store mem_inv ex_s ex_a ex_am /\
  (ex_am (B"abc") <> None /\ starts_with (B"ab") (B"abc") = true) /\
  match (a <- t_filter_prefix (mem_read ex_s) ex_a (B"ab") (B"q") 60 ;; b <- t_filter_prefix (mem_read ex_s) a (B"q") (B"ab") 60 ;;
         iter_bytes (mem_read ex_s) b 60) with
  | Ok l => map (fun e => length (fst e)) l = [2; 3; 3; 3] | _ => False end.
Proof. split; [exact mem_lawful|]; split; [exact ex_attached|]. split; [split; [vm_compute; discriminate|reflexivity]|]. vm_compute; reflexivity. Qed.
