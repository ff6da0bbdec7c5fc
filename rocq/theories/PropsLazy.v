(** A call on an attached tree needs few blocks of the store (C71).

    [needs n rd f]: whatever the outcome of the call [f] with the reader [rd] is,
    there are at most [n] blocks such that with every reader that agrees with [rd]
    about these blocks the outcome is the same, also if all other blocks are lost or
    damaged.  [determined n rd f r]: the same for the outcome [r].  See LazySpec.v. *)
From Verif Require Import LazyExamples Base Header Node Combine Iter Api Spec Client Top Store StoreSpec World
  U64 MemStore MemStoreProofs CostSpec LazySpec LazyTop.

(** C71: looking up a key needs at most two blocks per byte of the key and three more, however large the tree is. *)
Theorem C71_lookup :
  forall dbg S inv s t m k, lawful S inv -> attached dbg S inv s t m ->
  needs (2 * length k + 3) (st_read S s) (fun rd => get_bytes rd t k) /\
  needs (2 * length k + 2) (st_read S s) (fun rd => t_contains_key rd t k) /\
  needs (2 * length k + 2) (st_read S s) (fun rd => t_has_prefix rd t k) /\
  forall p, needs (2 * length k + 3) (st_read S s) (fun rd => t_filter_prefix rd t k p).
Proof.
  exact (fun dbg S inv s t m k L A => conj (needs_get dbg S inv L s t m A k) (conj (needs_contains dbg S inv L s t m A k)
    (conj (needs_has_prefix dbg S inv L s t m A k) (fun p => needs_filter dbg S inv L s t m A k p)))).
Qed.
Print Assumptions C71_lookup.
Example C71_lookup_example : lawful mem_store mem_inv /\ attached true mem_store mem_inv big_s big_a (meaning big_p) /\
  length big_s = 73 /\
  get_bytes big_3 big_a [x05; x28] 100 = Ok (Some (repeat x01 200)) /\
  get_bytes big_3 big_a [x05; x29] 100 = Err /\ get_bytes big_rd big_a [x05; x29] 100 = Ok (Some (repeat x01 200)) /\
  t_contains_key big_3 big_a [x05; x29] 100 = Ok true /\ t_has_prefix big_3 big_a [x05; x30] 100 = Ok false.
Proof. split; [exact mem_lawful|]; split; [exact big_attached|]; repeat split; vm_compute; reflexivity. Qed.

(** C71: the same for calls that change one key or one prefix. *)
Theorem C71_update :
  forall dbg S inv s t m k, lawful S inv -> attached dbg S inv s t m ->
  (forall v, needs (2 * length k + 2) (st_read S s) (fun rd => t_insert dbg rd t k v)) /\
  needs (2 * length k + 2) (st_read S s) (fun rd => t_remove dbg rd t k) /\
  needs (2 * length k + 2) (st_read S s) (fun rd => t_remove_prefix dbg rd t k).
Proof.
  exact (fun dbg S inv s t m k L A => conj (fun v => needs_insert dbg S inv L s t m A k v) (conj (needs_remove dbg S inv L s t m A k)
    (needs_remove_prefix dbg S inv L s t m A k))).
Qed.
Print Assumptions C71_update.
Example C71_update_example : lawful mem_store mem_inv /\ attached true mem_store mem_inv big_s big_a (meaning big_p) /\
  (t' <- t_insert true big_3 big_a [x05; x29] (B"new") 100 ;; get_bytes big_3 t' [x05; x29] 100) = Ok (Some (B"new")) /\
  t_insert true big_3 big_a [x04; x29] (B"new") 100 = Err /\
  (t' <- t_remove false big_3 big_a [x05; x29] 100 ;; get_bytes big_3 t' [x05; x29] 100) = Ok None.
Proof. split; [exact mem_lawful|]; split; [exact big_attached|]; repeat split; vm_compute; reflexivity. Qed.

(** C71: combining an attached tree in place with an in-memory tree needs a number of blocks that depends on the keys of the in-memory tree only. *)
Theorem C71_combine :
  forall dbg S inv s t m u mu l h f, lawful S inv -> attached dbg S inv s t m ->
  reachable dbg u -> holds mem u mu -> lists l mu ->
  needs (3 * (key_bytes l + 1)) (st_read S s)
    (fun rd => t_outer_combine_with dbg rd mem (detach_converter mem) t u (combiner_with rd mem h)) /\
  needs (3 * (key_bytes l + 1)) (st_read S s) (fun rd => t_inner_combine_with dbg rd mem t u (combiner_with rd mem h)) /\
  needs (3 * (key_bytes l + 1)) (st_read S s) (fun rd => t_left_combine_with dbg rd mem t u (combiner_with rd mem h)) /\
  needs (2 * (key_bytes l + 1)) (st_read S s) (fun rd => t_remove_prefix_with dbg rd mem t u (selector mem f)) /\
  needs (2 * (key_bytes l + 1)) (st_read S s) (fun rd => t_retain_prefix_with dbg rd mem t u (selector mem f)).
Proof.
  exact (fun dbg S inv s t m u mu l h f L A U H Hl => conj (needs_outer dbg S inv L s t m A u mu l U H Hl h)
    (conj (needs_inner dbg S inv L s t m A u mu l U H Hl h) (conj (needs_left dbg S inv L s t m A u mu l U H Hl h)
    (conj (needs_remove_with dbg S inv L s t m A u mu l U H Hl f) (needs_retain_with dbg S inv L s t m A u mu l U H Hl f))))).
Qed.
Print Assumptions C71_combine.
Example C71_combine_example : lawful mem_store mem_inv /\ attached true mem_store mem_inv big_s big_a (meaning big_p) /\
  reachable true ex_u /\ holds mem ex_u (meaning ex_q) /\ lists exq_l (meaning ex_q) /\ key_bytes exq_l = 5 /\
  (t' <- t_outer_combine_with true big_3 mem (detach_converter mem) big_a ex_u (combiner_with big_3 mem (fun x y => Some y)) 100 ;;
   get_bytes big_3 t' (B"abc") 100) = Ok (Some (B"5")).
Proof.
  split; [exact mem_lawful|]; split; [exact big_attached|]; split; [exact ex_reachable_u|]; split; [exact ex_holds_u|];
  split; [exact exq_lists|]; split; [reflexivity|]. vm_compute; reflexivity.
Qed.

(** C71: the first and the last entry need a number of blocks that depends on the length of the key found only. *)
Theorem C71_first_last :
  forall dbg S inv s t m p, lawful S inv -> attached dbg S inv s t m ->
  exists l, lists l m /\
    needs (2 * key_len (first_of l) + 3) (st_read S s) (fun rd => first_entry_bytes rd t p) /\
    needs (2 * key_len (last_of l) + 3) (st_read S s) (fun rd => last_entry_bytes rd t p) /\
    needs (key_len (first_of l) + 2) (st_read S s) (fun rd => first_value_bytes rd t) /\
    needs (key_len (last_of l) + 2) (st_read S s) (fun rd => last_value_bytes rd t).
Proof. exact (fun dbg S inv s t m p L A => needs_first_last dbg S inv L s t m A p). Qed.
Print Assumptions C71_first_last.
Example C71_first_last_example : lawful mem_store mem_inv /\ attached true mem_store mem_inv big_s big_a (meaning big_p) /\
  first_entry_bytes (only (map blk [73; 9; 1]%N) big_rd) big_a (B"p") 100 = Ok (Some (B"p" ++ [x00; x00], repeat x01 200)) /\
  last_value_bytes (only (map blk [73; 72; 71]%N) big_rd) big_a 100 = Ok (Some (repeat x01 200)).
Proof. split; [exact mem_lawful|]; split; [exact big_attached|]; repeat split; vm_compute; reflexivity. Qed.

(** C71: a scan needs a number of blocks that depends on the prefix and on the number of entries found only. *)
Theorem C71_scan :
  forall dbg S inv s t m p l, lawful S inv -> attached dbg S inv s t m -> scan_bytes (st_read S s) t p ⇓ Ok l ->
  determined (2 * length p + 5 * length l + 4) (st_read S s) (fun rd => scan_bytes rd t p) (Ok l).
Proof. exact (fun dbg S inv s t m p l L A => needs_scan dbg S inv L s t m A p l). Qed.
Print Assumptions C71_scan.
Example C71_scan_example : lawful mem_store mem_inv /\ attached true mem_store mem_inv big_s big_a (meaning big_p) /\
  scan_bytes (only (map blk big_group) big_rd) big_a [x05] 100 = scan_bytes big_rd big_a [x05] 100 /\
  (l <- scan_bytes big_rd big_a [x05] 100 ;; Ok (length l)) = Ok 8.
Proof. split; [exact mem_lawful|]; split; [exact big_attached|]; split; vm_compute; reflexivity. Qed.

(** C71: the first [j] entries of an iterator need a number of blocks that depends on these entries only: the iterator does not read ahead. *)
Theorem C71_iterator :
  forall dbg S inv s t m j, lawful S inv -> attached dbg S inv s t m ->
  exists l, lists l m /\ first_entries (st_read S s) t j ⇓ Ok (firstn j l) /\
    determined (2 * key_bytes (firstn j l) + length (firstn j l) + 2) (st_read S s) (fun rd => first_entries rd t j) (Ok (firstn j l)).
Proof. exact (fun dbg S inv s t m j L A => needs_take dbg S inv L s t m A j). Qed.
Print Assumptions C71_iterator.
Example C71_iterator_example : lawful mem_store mem_inv /\ attached true mem_store mem_inv big_s big_a (meaning big_p) /\
  lists big_l (meaning big_p) /\ length big_l = 64 /\
  first_entries (only (map blk [73; 9; 1; 2; 3]%N) big_rd) big_a 3 100 = Ok (firstn 3 big_l) /\
  iter_bytes (only (map blk [73; 9; 1; 2; 3]%N) big_rd) big_a 1000 = Err.
Proof.
  split; [exact mem_lawful|]; split; [exact big_attached|]; split; [exact big_lists|]; split; [reflexivity|];
  split; vm_compute; reflexivity.
Qed.
