(** A tree of 64 entries in 73 blocks, of which most are damaged. *)
From Verif Require Export CostExamples.
From Verif Require Import Base BaseLemmas Header Node Combine Iter Api Spec Client Top TopOps Store StoreSpec World WorldProofs
  U64 MemStore MemStoreProofs CostSpec LazySpec.

Definition big_h : list cmd := [CAttach big_p].
Definition big_s : mem_st := Eval vm_compute in ex_state true big_h.
Definition big_a : node := Eval vm_compute in ex_tree true big_h 0.
Lemma big_attached : attached true mem_store mem_inv big_s big_a (meaning big_p).
Proof.
  assert (exec true mem_store (start (S:=mem_store) []) big_h 400 = Ok (ex_exec true big_h)) as E by (vm_compute; reflexivity).
  apply (attached_eval (history_ok true) true mem_store mem_inv [] big_h 400 (fst (ex_exec true big_h)) (snd (ex_exec true big_h)) 0).
  - exact mem_inv_empty.
  - left. repeat constructor.
  - now rewrite <- surjective_pairing.
  - vm_compute. reflexivity.
  - reflexivity.
Qed.
Definition big_rd : reader := st_read mem_store big_s.
Definition blk (n : N) : bytes := to_be 8 n.
(** The three blocks on the way to the key [5, 40]. *)
Definition big_3 : reader := only (map blk [73; 54; 46]%N) big_rd.
Definition big_group : list N := [73; 54; 46; 47; 48; 49; 50; 51; 52; 53]%N.
