(** A history of a tree on a paged file store, with crashes. *)
From Verif Require Export MemExamples StoreExamples.
From Verif Require Import PagedExamples Base BaseLemmas Header Node Combine Iter Api Spec Client Top Store StoreSpec World U64 File PagedFile PagedSpec
  PagedStore.

(** Page size 256.  The store is new; of the writes to come the fifth fails half way
    and the process is restarted, another user writes after the sixth, and after
    the eighth the file is closed by an I/O error while it is reopened. *)
Definition tr_inner : inner :=
  match snd (PagedSpec.run true 256 new_file [(OReopen, None)]) with Opened s => s | Closed f => Inner (FH f 0 None) [] [] 0 end.
Definition tr_todo : schedule :=
  [(None, []); (None, []); (None, []); (None, []); (Some (1, 3), [(OReopen, None)]); (None, [(OWrite (B"other"), None)]);
   (None, []); (None, [(OReopen, Some (0, 0))])].
Definition tr_hist : list cmd :=
  [CAttach ex_p; CInsert 0 (B"abx") (long 200 x01); CReattach 0; CInsert 0 (B"k" ++ long 150 x02) (B"v");
   CReattach 0; CReattach 0; CLoad 0; CMerge 1 (fun x y => x ++ y) ex_q; CReattach 1].
Definition tr_exec : res (list bool * world (paged_store true 256)) :=
  exec true (paged_store true 256) (start (S:=paged_store true 256) (tr_inner, tr_todo)) tr_hist 400.
Definition tr_world : world (paged_store true 256) :=
  match tr_exec with Ok (_, w) => w | _ => start (S:=paged_store true 256) (tr_inner, tr_todo) end.

Lemma tr_page : page_size_ok 256.
Proof. repeat split; reflexivity || discriminate. Qed.
Lemma tr_inner_eq : snd (PagedSpec.run true 256 new_file [(OReopen, None)]) = Opened tr_inner.
Proof. reflexivity. Qed.
Lemma tr_inv : paged_inv true 256 (tr_inner, tr_todo).
Proof.
  split.
  - exists [(OReopen, None)], (fst (PagedSpec.run true 256 new_file [(OReopen, None)])). split; [repeat constructor|].
    cbn [fst]. rewrite <- tr_inner_eq. apply surjective_pairing.
  - repeat constructor.
Qed.
Lemma tr_hist_ok : history_ok true tr_hist.
Proof. left. unfold tr_hist. repeat (apply Forall_cons; [cbn; try tauto; left; discriminate|]). apply Forall_nil. Qed.
(** The third call failed. *)
Lemma tr_oks : match tr_exec with Ok (oks, w) => oks = [true; true; false; true; true; true; true; true; true] /\
  length (w_ids w) = 3 /\ length (w_trees w) = 2 | _ => False end.
Proof. vm_compute. auto. Qed.
(** After another crash: the keys of the first saved tree. *)
Definition tr_later : list (op * fault) := [(OWrite (B"more"), Some (0, 0)); (OReopen, Some (3, 0))].
Lemma tr_later_ok : history true tr_later.
Proof. ok_ops. Qed.
Lemma tr_loaded :
  match reopened true 256 (snd (PagedSpec.run true 256 (Opened (fst (w_st tr_world))) tr_later)), w_ids tr_world with
  | Opened s2, id :: _ =>
      (t <- t_load (paged_store true 256) (s2, []) (Some id) ;; l <- iter_bytes (st_read (paged_store true 256) (s2, [])) t 400 ;;
       Ok (map (fun e => (length (fst e), length (snd e))) l)) = Ok [(2, 1); (3, 1); (3, 1); (3, 200); (1, 0); (151, 1)]
  | _, _ => False
  end.
Proof. vm_compute. reflexivity. Qed.
