(** Trees on a paged file store (C56).

    [paged_store dbg ps] is the store of PagedStore.v: reads and writes of trees go
    to a paged file with page size [ps]; the state comes with a schedule of I/O
    errors, crashes, reopenings and calls of other users.  [paged_inv]: the store
    was reached by some history of such calls on a new file. *)
From Verif Require Import TreeExamples Base Header Node Combine Iter Api Spec Client Store StoreSpec World
  U64 File PagedFile PagedSpec PagedStore PagedStoreProofs.

(** C56: a paged file store keeps the contract of a blob store through I/O errors, crashes and reopening, so the theorems C25-C34 hold for trees on it. *)
Theorem C56_lawful :
  forall dbg ps, page_size_ok ps -> lawful (paged_store dbg ps) (paged_inv dbg ps).
Proof. exact paged_lawful. Qed.
Print Assumptions C56_lawful.
Example C56_lawful_example : page_size_ok 256 /\ paged_inv true 256 (tr_inner, tr_todo).
Proof. split; [exact tr_page|exact tr_inv]. Qed.

(** C56: any history of trees on a paged file store, whatever I/O errors and crashes happen to it.  The trees have their contents; and after any further calls, errors and crashes the file can be reopened, and every id that a successful reattach returned loads the contents the tree had then. *)
Theorem C56_durable :
  forall dbg ps s h, page_size_ok ps -> paged_inv dbg ps s -> history_ok dbg h ->
  exists oks w, exec dbg (paged_store dbg ps) (start s) h ⇓ Ok (oks, w) /\ length oks = length h /\
    Forall2 (holds (st_read (paged_store dbg ps) (w_st w))) (w_trees w) (m_trees (model no_maps h oks)) /\
    forall cs evs p, history dbg cs -> run dbg ps (Opened (fst (w_st w))) cs = (evs, p) ->
    exists s2, reopened dbg ps p = Opened s2 /\
    Forall2 (fun id m => exists t, t_load (paged_store dbg ps) (s2, []) (Some id) = Ok t /\
                                   holds (st_read (paged_store dbg ps) (s2, [])) t m)
      (w_ids w) (m_saved (model no_maps h oks)).
Proof. exact (fun dbg ps s h Hok => paged_durable dbg ps Hok s h). Qed.
Print Assumptions C56_durable.
Example C56_durable_example : page_size_ok 256 /\ paged_inv true 256 (tr_inner, tr_todo) /\ history_ok true tr_hist /\
  match tr_exec with Ok (oks, w) => oks = [true; true; false; true; true; true; true; true; true] /\
    length (w_ids w) = 3 /\ length (w_trees w) = 2 | _ => False end /\
  history true tr_later /\
  match reopened true 256 (snd (run true 256 (Opened (fst (w_st tr_world))) tr_later)), w_ids tr_world with
  | Opened s2, id :: _ =>
      (t <- t_load (paged_store true 256) (s2, []) (Some id) ;; l <- iter_bytes (st_read (paged_store true 256) (s2, [])) t 400 ;;
       Ok (map (fun e => (length (fst e), length (snd e))) l)) = Ok [(2, 1); (3, 1); (3, 1); (3, 200); (1, 0); (151, 1)]
  | _, _ => False
  end.
Proof.
  split; [exact tr_page|]; split; [exact tr_inv|]; split; [exact tr_hist_ok|]; split; [exact tr_oks|];
  split; [exact tr_later_ok|exact tr_loaded].
Qed.
