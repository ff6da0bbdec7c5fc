(** The tree of examples/filesystem.rs, and what its program prints (C98). *)
From Verif Require Import MemExamples Base BaseLemmas Header Node Combine Iter Api Sim Spec Client Top TopOps MemLemmas GroupSpec Dirs DirsSpec.

(** The tree of examples/filesystem.rs:10-14. *)
Definition fs_p : prog := PCollect [(B"home/user1/file1", B"bar"); (B"home/user2/file1", B"bar"); (B"etc/passwd", B"bar")].
Definition fs_t : node := Eval vm_compute in match run true fs_p 60 with Ok t => t | _ => n_empty end.
Definition fs_m : kmap := meaning fs_p.
Lemma fs_reachable : reachable true fs_t.
Proof. apply (reachable_eval true fs_p 60); [exact I|vm_compute; reflexivity]. Qed.
Lemma fs_holds : holds mem fs_t fs_m.
Proof. apply (holds_eval true fs_p 60); [exact I|vm_compute; reflexivity]. Qed.
(** Two keys in one directory. *)
Definition hm_p : prog := PCollect [(B"home/a", B"1"); (B"home/b", B"2"); (B"home/b/c", B"3")].
Definition hm_t : node := Eval vm_compute in match run true hm_p 60 with Ok t => t | _ => n_empty end.
Definition hm_m : kmap := meaning hm_p.
Lemma hm_reachable : reachable true hm_t.
Proof. apply (reachable_eval true hm_p 60); [exact I|vm_compute; reflexivity]. Qed.
Lemma hm_holds : holds mem hm_t hm_m.
Proof. apply (holds_eval true hm_p 60); [exact I|vm_compute; reflexivity]. Qed.

Lemma of_list_only (P : bytes -> Prop) l : Forall (fun e => P (fst e)) l -> forall (m : kmap) k,
  (m k <> None -> P k) -> fold_left (fun m e => m_insert m (fst e) (snd e)) l m k <> None -> P k.
Proof.
  induction 1 as [|[a v] l Ha _ IH]; intros m k Hm; cbn [fold_left fst snd]; [exact Hm|].
  apply IH. unfold m_insert. destruct (beq_spec k a) as [->|]; [intros _; exact Ha|exact Hm].
Qed.
Lemma hm_below k : hm_m k <> None -> starts_with (B"home/") k = true.
Proof.
  apply (of_list_only (fun k => starts_with (B"home/") k = true)); [|intros X; now contradiction X].
  repeat constructor.
Qed.
Lemma fs_forks : forks fs_m [].
Proof. right. exists "h"%byte, "e"%byte, (B"ome/user1/file1"), (B"tc/passwd"). split; [discriminate|]. split; vm_compute; discriminate. Qed.
Lemma hm_forks : forks hm_m (B"home/").
Proof. right. exists "a"%byte, "b"%byte, [], []. split; [discriminate|]. split; vm_compute; discriminate. Qed.

Lemma not_apart : ~ dirs_apart.
Proof.
  intros W. set (l := [(B"etc/passwd", B"bar"); (B"home/user1/file1", B"bar"); (B"home/user2/file1", B"bar")]).
  assert (exists u, print_dirs 0 fs_t ⇓ Ok [u] /\ iter_bytes mem u ⇓ Ok l) as (u & Cu & Cl).
  { eexists. split.
    - apply conv_mono with (n := 20); [|vm_compute; reflexivity].
      apply mono_collect. intros. apply gb_next_sim; [apply rsim_refl| |assumption]. intros. apply sim_refl.
    - apply conv_mono with (n := 60); [|vm_compute; reflexivity].
      apply mono_bind; [|intros; apply mono_const].
      apply mono_collect. intros. apply kv_next_sim; [apply rsim_refl|assumption]. }
  pose proof (W true fs_t fs_m [u] u l (B"etc/passwd") (B"bar") (B"home/user1/file1") (B"bar") fs_reachable fs_holds Cu
    (or_introl eq_refl) Cl (or_introl eq_refl) (or_intror (or_introl eq_refl))) as E.
  vm_compute in E. discriminate E.
Qed.
