(** C100: the keys of examples/large_tree.rs, numbers in words, and the tree that is filled with them.

    [number_to_words] is in Words.v, [fill_all] and [puts] in Fill.v (see also C99). *)
From Coq Require Import ZArith.
From Verif Require Import MemExamples StoreExamples WordsExamples Base Header Node Combine Iter Api Spec Client Store StoreSpec
  MemStore MemStoreProofs Words WordsProofs Fill WordsFill.

(** C100: below a trillion every number has a name.  (Missing: larger numbers, for which it is false, see below; and the least [i64], which is not modelled.) *)
Theorem C100_named_partial :
  forall n, (Z.abs n < 1000000000000)%Z -> exists s, number_to_words n = Ok s.
Proof. exact words_named. Qed.
Print Assumptions C100_named_partial.
Example C100_named_partial_example : (Z.abs (-1042000019) < 1000000000000)%Z /\
  number_to_words (-1042000019) = Ok (B"minus one billion, forty-two million, nineteen").
Proof. split; [reflexivity|]. vm_compute. reflexivity. Qed.

(** C100: different numbers have different names, below a trillion. *)
Theorem C100_apart_partial :
  forall n n' s, (Z.abs n < 1000000000000)%Z -> (Z.abs n' < 1000000000000)%Z ->
  number_to_words n = Ok s -> number_to_words n' = Ok s -> n = n'.
Proof. exact words_apart. Qed.
Print Assumptions C100_apart_partial.
Example C100_apart_partial_example : (Z.abs 100001 < 1000000000000)%Z /\
  number_to_words 100001 = Ok (B"one hundred thousand, one") /\ number_to_words 101000 = Ok (B"one hundred one thousand").
Proof. split; [reflexivity|]. vm_compute. auto. Qed.

(** C100: from a trillion on there is no name: the program panics.  (Refutes the wish that every [i64] has one.) *)
Theorem C100_named_refuted :
  forall n, (1000000000000 <= Z.abs n < 2 ^ 63)%Z -> number_to_words n = Panic.
Proof. exact words_panic. Qed.
Print Assumptions C100_named_refuted.
Example C100_named_refuted_example : (1000000000000 <= Z.abs 1000000000000 < 2 ^ 63)%Z /\ number_to_words 1000000000000 = Panic.
Proof. vm_compute. split; [split; [discriminate|reflexivity]|reflexivity]. Qed.

(** C100: a tree filled with values under the names of different numbers has one entry for each number, whenever it is flushed. *)
Theorem C100_tree :
  forall dbg S inv s l is (val : Z -> bytes) t id s', lawful S inv -> inv s ->
  Forall2 (fun i (e : bytes * bytes) => number_to_words i = Ok (fst e) /\ snd e = val i) is (puts l) ->
  Forall (fun i => (Z.abs i < 1000000000000)%Z) is -> NoDup is ->
  (exists N, forall n, N <= n -> fill_all dbg S l n s = (Ok (t, id), s')) ->
  (forall i k, In i is -> number_to_words i = Ok k -> get_bytes (st_read S s') t k ⇓ Ok (Some (val i))) /\
  (exists es, iter_bytes (st_read S s') t ⇓ Ok es /\ length es = length is /\
     forall k v, In (k, v) es <-> exists i, In i is /\ number_to_words i = Ok k /\ v = val i).
Proof. exact fill_named. Qed.
Print Assumptions C100_tree.
Example C100_tree_example : lawful mem_store mem_inv /\ mem_inv ex_s /\
  Forall2 (fun i (e : bytes * bytes) => number_to_words i = Ok (fst e) /\ snd e = w_val i) w_numbers (puts w_steps) /\
  Forall (fun i => (Z.abs i < 1000000000000)%Z) w_numbers /\ NoDup w_numbers /\
  (exists N, forall n, N <= n ->
    fill_all true mem_store w_steps n ex_s = (Ok (fst (fst w_end), Some (snd (fst w_end))), snd w_end)) /\
  (l <- iter_bytes (mem_read (snd w_end)) (fst (fst w_end)) 400 ;; Ok (map fst l)) =
    Ok [B"one million"; B"one thousand, twenty"; B"twenty"; B"twenty thousand"].
Proof.
  split; [exact mem_lawful|]. split; [exact ex_inv|]. split; [exact w_named|]. split; [exact w_small|]. split; [exact w_nodup|].
  split; [exact w_ends|]. vm_compute. reflexivity.
Qed.
