(** Cases for PropsFill.v: the same entries, flushed often and only at the end. *)
From Verif Require Import MemExamples StoreExamples Base BaseLemmas Header Node Combine Iter Api Spec Client Store StoreSpec World MemStore MemStoreProofs
  Sim Top TopOps StoreLemmas Fill FillProofs.

Definition often : list step :=
  [Put (B"one") (B"1"); Flush; Put (B"one-hundred") (B"100"); Put (B"two") (B"2"); Flush; Put (B"one") (B"uno"); Put (B"twenty") (B"20")].
Definition once : list step :=
  [Put (B"one") (B"1"); Put (B"one-hundred") (B"100"); Put (B"two") (B"2"); Put (B"one") (B"uno"); Put (B"twenty") (B"20")].
Definition filled (l : list step) : res (list (bytes * bytes)) :=
  match fill_all true mem_store l 400 ex_s with
  | (Ok (t, _), s) => iter_bytes (mem_read s) t 400
  | _ => Err
  end.
Definition reloaded (l : list step) : res (list (bytes * bytes)) :=
  match fill_all true mem_store l 400 ex_s with
  | (Ok (_, id), s) => t <- t_load mem_store s id ;; iter_bytes (mem_read s) t 400
  | _ => Err
  end.
Definition listing : list (bytes * bytes) := [(B"one", B"uno"); (B"one-hundred", B"100"); (B"twenty", B"20"); (B"two", B"2")].

Lemma fill_mono dbg S n m : n <= m -> forall l t i s x s', fill dbg S l t i n s = (Ok x, s') -> fill dbg S l t i m s = (Ok x, s').
Proof.
  intros Hn. induction l as [|[k v|] l IH]; intros t i s x s'; cbn [fill]; [auto| |].
  - destruct (mono_insert dbg (st_read S s) t k v n m Hn) as [E|[[E _]|E]]; [|discriminate|].
    + rewrite E. discriminate.
    + rewrite E. destruct (t_insert dbg (st_read S s) t k v m); auto; discriminate.
  - destruct (t_reattach S t s) as [[[id t']| | |] s1]; auto; discriminate.
Qed.
Definition end_of (l : list step) : res (node * option bytes) * mem_st := fill_all true mem_store l 400 ex_s.
Lemma ends l x s' : end_of l = (Ok x, s') -> exists N, forall n, N <= n -> fill_all true mem_store l n ex_s = (Ok x, s').
Proof. intros E. exists 400. intros n Hn. apply (fill_mono _ mem_store _ _ Hn). exact E. Qed.
Definition often_end : (node * bytes) * mem_st :=
  Eval vm_compute in match end_of often with (Ok (t, Some id), s) => (t, id, s) | _ => (n_empty, [], []) end.
Definition once_end : (node * bytes) * mem_st :=
  Eval vm_compute in match end_of once with (Ok (t, Some id), s) => (t, id, s) | _ => (n_empty, [], []) end.
Lemma often_ends : exists N, forall n, N <= n ->
  fill_all true mem_store often n ex_s = (Ok (fst (fst often_end), Some (snd (fst often_end))), snd often_end).
Proof. apply ends. vm_compute. reflexivity. Qed.
Lemma once_ends : exists N, forall n, N <= n ->
  fill_all true mem_store once n ex_s = (Ok (fst (fst once_end), Some (snd (fst once_end))), snd once_end).
Proof. apply ends. vm_compute. reflexivity. Qed.
