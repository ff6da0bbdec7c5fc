(** Cases for PropsWords.v. *)
From Coq Require Import ZArith.
From Verif Require Import MemExamples StoreExamples FillExamples Base Header Node Combine Iter Api Spec Client Store StoreSpec
  MemStore MemStoreProofs Words Fill.

Definition w_numbers : list Z := [20; 1020; 20000; 1000000]%Z.
Definition w_val (i : Z) : bytes := if (i =? 20)%Z then B"first" else B"later".
Definition w_name (i : Z) : bytes := match number_to_words i with Ok s => s | _ => [] end.
Definition w_steps : list step :=
  [Put (w_name 20) (w_val 20); Flush; Put (w_name 1020) (w_val 1020); Put (w_name 20000) (w_val 20000); Flush;
   Put (w_name 1000000) (w_val 1000000)].
Lemma w_named : Forall2 (fun i (e : bytes * bytes) => number_to_words i = Ok (fst e) /\ snd e = w_val i) w_numbers (puts w_steps).
Proof. repeat constructor; vm_compute; reflexivity. Qed.
Lemma w_small : Forall (fun i => (Z.abs i < 1000000000000)%Z) w_numbers.
Proof. repeat constructor. Qed.
Lemma w_nodup : NoDup w_numbers.
Proof. unfold w_numbers. repeat constructor; cbn [In]; lia. Qed.
Definition w_end : (node * bytes) * mem_st :=
  Eval vm_compute in match end_of w_steps with (Ok (t, Some id), s) => (t, id, s) | _ => (n_empty, [], []) end.
Lemma w_ends : exists N, forall n, N <= n ->
  fill_all true mem_store w_steps n ex_s = (Ok (fst (fst w_end), Some (snd (fst w_end))), snd w_end).
Proof. apply ends. vm_compute. reflexivity. Qed.
