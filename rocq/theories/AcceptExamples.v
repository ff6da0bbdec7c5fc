(** Trees that are accepted or refused by a paged file store. *)
From Verif Require Export MemExamples StoreExamples.
From Verif Require Import PagedExamples Base BaseLemmas Header Node Combine Iter Api Tree Rep Sim Spec Client Top TopOps MemLemmas
  Store StoreSpec World U64 MemStore MemStoreProofs File PagedFile PagedSpec PagedStore PagedStoreProofs StoreLemmas StoreTop AcceptSpec.

(** The entries of a tree, computed. *)
Lemma lists_eval dbg p n t n' l : allowed p -> Client.run dbg p n = Ok t -> iter_bytes mem t n' = Ok l -> lists l (meaning p).
Proof.
  intros A E El. pose proof (reachable_eval dbg p n t A E) as R. pose proof (holds_eval dbg p n t A E) as H.
  destruct (mem_iter dbg t _ R H) as (l' & C & Hl).
  assert (iter_bytes mem t ⇓ Ok l) as C' by (eapply conv_mono; [|exact El]; apply mono_then, mono_collect; intros; apply kv_next_sim; [apply rsim_refl|assumption]).
  pose proof (conv_unique _ _ _ C C') as X. injection X as ->. exact Hl.
Qed.

(** A page size of one megabyte. *)
Definition mb : N := 1048576.
Lemma mb_page : page_size_ok mb.
Proof. repeat split; reflexivity || discriminate. Qed.
Definition mb_calls : list (op * fault) := [(OReopen, None)].
Lemma mb_calls_ok dbg : history dbg mb_calls.
Proof. repeat constructor. Qed.
Definition fresh (ps : N) : inner :=
  match snd (PagedSpec.run true ps new_file mb_calls) with Opened s => s | Closed f => Inner (FH f 0 None) [] [] 0 end.
Lemma fresh_eq ps : match snd (PagedSpec.run true ps new_file mb_calls) with Opened _ => True | Closed _ => False end ->
  PagedSpec.run true ps new_file mb_calls = (fst (PagedSpec.run true ps new_file mb_calls), Opened (fresh ps)).
Proof.
  unfold fresh. destruct (PagedSpec.run true ps new_file mb_calls) as [evs [f|s]]; cbn; [tauto|reflexivity].
Qed.

(** A tree with 64 keys of one byte and values of 100 bytes. *)
Definition wide_p : prog :=
  PCollect (map (fun i => ([byte_of (N.of_nat i)], repeat x01 100)) (seq 0 64)).
Definition wide_t : node := Eval vm_compute in match Client.run true wide_p 200 with Ok t => t | _ => n_empty end.
Definition wide_l : list (bytes * bytes) := Eval vm_compute in match iter_bytes mem wide_t 200 with Ok l => l | _ => [] end.
Lemma wide_run : Client.run true wide_p 200 = Ok wide_t.
Proof. vm_compute. reflexivity. Qed.
Lemma wide_reachable : reachable true wide_t.
Proof. apply (reachable_eval true wide_p 200); [exact I|exact wide_run]. Qed.
Lemma wide_holds : holds mem wide_t (meaning wide_p).
Proof. apply (holds_eval true wide_p 200); [exact I|exact wide_run]. Qed.
Lemma wide_lists : lists wide_l (meaning wide_p).
Proof. apply (lists_eval true wide_p 200 wide_t 200); [exact I|exact wide_run|vm_compute; reflexivity]. Qed.
Lemma wide_within b : (100 <= b)%N -> entries_within b wide_l.
Proof.
  intros H. unfold entries_within. apply Forall_forall. intros e He.
  assert (Forall (fun e => length (fst e) = 1 /\ length (snd e) = 100) wide_l) as A.
  { repeat (apply Forall_cons; [split; reflexivity|]). apply Forall_nil. }
  rewrite Forall_forall in A. destruct (A e He) as [-> ->]. lia.
Qed.

(** It fits into pages of one megabyte but not into pages of four kilobytes. *)
Lemma mb_fresh : PagedSpec.run true mb new_file mb_calls = (fst (PagedSpec.run true mb new_file mb_calls), Opened (fresh mb)).
Proof. apply fresh_eq. vm_compute. exact Logic.I. Qed.
Lemma kb_page : page_size_ok 4096.
Proof. repeat split; reflexivity || discriminate. Qed.
Lemma kb_fresh : PagedSpec.run true 4096 new_file mb_calls = (fst (PagedSpec.run true 4096 new_file mb_calls), Opened (fresh 4096)).
Proof. apply fresh_eq. vm_compute. exact Logic.I. Qed.
Lemma kb_refused : fst (t_attached (paged_store true 4096) wide_t (fresh 4096, [])) = Err.
Proof. vm_compute. reflexivity. Qed.

(** A tree on the store that has not been saved yet. *)
Definition mb_hist : list cmd := [CEmpty; CInsert 0 (B"key") (long 200 x01); CMerge 0 (fun x _ => x) wide_p].
Definition mb_t : node := Eval vm_compute in ex_tree true mb_hist 0.
Definition mb_m : kmap := nth 0 (m_trees (model no_maps mb_hist [true; true; true])) m_empty.
Definition mb_l : list (bytes * bytes) := Eval vm_compute in match iter_bytes mem mb_t 400 with Ok l => l | _ => [] end.
Lemma mb_inv : paged_inv true mb (fresh mb, []).
Proof.
  split; [|constructor]. exists mb_calls, (fst (PagedSpec.run true mb new_file mb_calls)).
  split; [apply mb_calls_ok|exact mb_fresh].
Qed.
Lemma mb_exec (S : store) (s : st S) : exec true S (start s) mb_hist 400 =
  Ok ([true; true; true], World s [mb_t] []).
Proof. vm_compute. reflexivity. Qed.
Lemma mb_attached_at s : paged_inv true mb s -> attached true (paged_store true mb) (paged_inv true mb) s mb_t mb_m.
Proof.
  intros I. exact (attached_eval (history_ok true) true (paged_store true mb) (paged_inv true mb) s mb_hist 400 _ _ 0 mb_t mb_m I
    ltac:(left; unfold mb_hist; repeat (apply Forall_cons; [cbn; try tauto|]); apply Forall_nil) (mb_exec (paged_store true mb) s) eq_refl eq_refl).
Qed.
Lemma mb_attached : attached true (paged_store true mb) (paged_inv true mb) (fresh mb, []) mb_t mb_m.
Proof. exact (mb_attached_at _ mb_inv). Qed.
Lemma mb_iter rd : iter_bytes rd mb_t 400 = Ok mb_l.
Proof. vm_compute. reflexivity. Qed.
Lemma mb_lists_at s : paged_inv true mb s -> lists mb_l mb_m.
Proof.
  intros I. destruct (at_iter true _ _ (PagedStoreProofs.paged_lawful true mb mb_page) _ _ _ (mb_attached_at s I)) as (l & C & Hl).
  assert (iter_bytes (st_read (paged_store true mb) s) mb_t ⇓ Ok mb_l) as C'.
  { eapply conv_mono; [|apply mb_iter].
    apply mono_then, mono_collect; intros; apply kv_next_sim; [apply rsim_refl|assumption]. }
  pose proof (conv_unique _ _ _ C C') as X. injection X as ->. exact Hl.
Qed.
Lemma mb_lists : lists mb_l mb_m.
Proof. exact (mb_lists_at _ mb_inv). Qed.
Lemma mb_within b : (200 <= b)%N -> entries_within b mb_l.
Proof.
  intros H. unfold entries_within. apply Forall_forall. intros e He.
  assert (Forall (fun e => length (fst e) <= 3 /\ length (snd e) <= 200) mb_l) as A.
  { apply Forall_forall. intros e' He'.
    assert (forallb (fun e => (length (fst e) <=? 3) && (length (snd e) <=? 200)) mb_l = true) as X by (vm_compute; reflexivity).
    rewrite forallb_forall in X. specialize (X e' He'). apply andb_true_iff in X as [X1 X2].
    apply Nat.leb_le in X1, X2. auto. }
  rewrite Forall_forall in A. destruct (A e He). lia.
Qed.
