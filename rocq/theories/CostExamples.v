(** Histories whose writes are counted. *)
From Verif Require Export MemExamples StoreExamples AcceptExamples.
From Verif Require Import Base BaseLemmas Header Node Combine Iter Api Spec Client Top TopOps Store StoreSpec World WorldProofs
  U64 MemStore MemStoreProofs CostSpec.

Definition exq_l : list (bytes * bytes) := Eval vm_compute in
  match Client.run true ex_q 200 with Ok t => match iter_bytes mem t 200 with Ok l => l | _ => [] end | _ => [] end.
Lemma exq_lists : lists exq_l (meaning ex_q).
Proof.
  apply (lists_eval true ex_q 200 (match Client.run true ex_q 200 with Ok t => t | _ => n_empty end) 200);
    [repeat split; discriminate|vm_compute; reflexivity|vm_compute; reflexivity].
Qed.

(** A tree with 64 keys of two bytes and values of 200 bytes. *)
Definition big_p : prog :=
  PCollect (map (fun i => ([byte_of (N.of_nat (i / 8)); byte_of (N.of_nat i)], repeat x01 200)) (seq 0 64)).
Definition big_t : node := Eval vm_compute in match Client.run true big_p 200 with Ok t => t | _ => n_empty end.
Definition big_l : list (bytes * bytes) := Eval vm_compute in match iter_bytes mem big_t 200 with Ok l => l | _ => [] end.
Lemma big_lists : lists big_l (meaning big_p).
Proof. apply (lists_eval true big_p 200 big_t 200); [exact Logic.I|vm_compute; reflexivity|vm_compute; reflexivity]. Qed.

(** The sizes of the two trees that are used. *)
Definition cost_sz (p : prog) : nat * nat :=
  match p with
  | PCollect l => if length l =? 64 then (64, 128) else (length exq_l, key_bytes exq_l)
  | _ => (length exq_l, key_bytes exq_l)
  end.

(** A tree of 64 keys is stored, two keys are changed and a small tree is merged into
    it, and it is stored again; a copy is loaded and stored unchanged. *)
Definition cost_first : list cmd := [CAttach big_p].
Definition cost_changes : list cmd :=
  [CInsert 0 [x05] (B"new"); CInsert 0 (B"other") (long 200 x01); CMerge 0 (fun x y => x ++ y) ex_q].
Definition cost_xs : list nat := [6; 10; tree_cost (cost_sz ex_q)].
Definition cost_hist : list cmd := cost_first ++ CReattach 0 :: cost_changes ++ [CReattach 0].
Definition cost_more : list cmd := cost_hist ++ [CLoad 1; CClone 1; CReattach 1; CFilterPrefix 1 (B"o") (B"p"); CReattach 3; CWrite (B"x")].

Lemma cost_more_ok dbg : history_ok dbg cost_more.
Proof. left. repeat (apply Forall_cons; [cbn; try tauto; left; discriminate|]). apply Forall_nil. Qed.
Lemma cost_hist_ok dbg : history_ok dbg cost_hist.
Proof. left. repeat (apply Forall_cons; [cbn; try tauto; left; discriminate|]). apply Forall_nil. Qed.
Lemma cost_measured : Forall (measured cost_sz) cost_more.
Proof.
  repeat (apply Forall_cons; [try exact Logic.I|]); try apply Forall_nil.
  - exists big_l. split; [exact big_lists|reflexivity].
  - exists exq_l. split; [exact exq_lists|reflexivity].
Qed.
Lemma cost_changes_measured : Forall (measured cost_sz) cost_changes.
Proof.
  repeat (apply Forall_cons; [try exact Logic.I|]); try apply Forall_nil.
  exists exq_l. split; [exact exq_lists|reflexivity].
Qed.

Definition cost_start : world (counting mem_store) := start (S := counting mem_store) ([] : mem_st, 0).
Definition cost_run (h : list cmd) (w : world (counting mem_store)) : list bool * world (counting mem_store) :=
  match exec true (counting mem_store) w h 400 with Ok x => x | _ => ([], w) end.
Definition cost_mid : world (counting mem_store) := Eval vm_compute in snd (cost_run (cost_first ++ [CReattach 0]) cost_start).
Definition cost_end : list bool * world (counting mem_store) := Eval vm_compute in cost_run (cost_changes ++ [CReattach 0]) cost_mid.

Lemma cost_mid_run : exec true (counting mem_store) cost_start (cost_first ++ [CReattach 0]) ⇓ Ok ([true] ++ [true], cost_mid).
Proof. eapply (conv_mono _ 400); [apply exec_mono|]. vm_compute. reflexivity. Qed.
Lemma cost_end_run : exec true (counting mem_store) cost_mid (cost_changes ++ [CReattach 0]) ⇓ Ok cost_end.
Proof. eapply (conv_mono _ 400); [apply exec_mono|]. vm_compute. reflexivity. Qed.

(** Loading the first version of the tree, changing it and storing it. *)
Definition cost_load : list cmd :=
  [CInsert 1 [x05; x20] (B"new"); CMerge 1 (fun x y => y) ex_q].
Definition cost_load_xs : list nat := [7; tree_cost (cost_sz ex_q)].
Lemma cost_load_ok dbg : history_ok dbg ((cost_first ++ [CReattach 0]) ++ CLoad 0 :: cost_load ++ [CReattach 1]).
Proof. left. repeat (apply Forall_cons; [cbn; try tauto; left; discriminate|]). apply Forall_nil. Qed.
Lemma cost_load_measured : Forall (measured cost_sz) cost_load.
Proof.
  repeat (apply Forall_cons; [try exact Logic.I|]); try apply Forall_nil.
  exists exq_l. split; [exact exq_lists|reflexivity].
Qed.
Definition cost_loaded : list bool * world (counting mem_store) := Eval vm_compute in cost_run (CLoad 0 :: cost_load ++ [CReattach 1]) cost_mid.
Lemma cost_loaded_run : exec true (counting mem_store) cost_mid (CLoad 0 :: cost_load ++ [CReattach 1]) ⇓ Ok cost_loaded.
Proof. eapply (conv_mono _ 400); [apply exec_mono|]. vm_compute. reflexivity. Qed.
